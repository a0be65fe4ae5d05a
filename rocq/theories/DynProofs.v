(** Facts about the dynamics modules. *)
From Coq Require Import ZArith List Bool Arith Lia Reals Lra.
From Coquelicot Require Import Coquelicot.
From Verif Require Import Arith Vec LinModel Arr RSum BghAdjProofs IrkModel IrkSpec IrkFwd DynModel DynSpec.
Import ListNotations.
Open Scope R_scope.

(** writes in a loop *)
Lemma oloop_wr n m (g : nat -> nat) (v : nat -> R) (a : vecR) : (forall j, (j < m)%nat -> (g j < n)%nat) ->
  exists a', oloop m (fun j => wr (A := real) n (g j) (v j)) a = Some a' /\
    (forall j, (j < m)%nat -> (forall j', (j < j' < m)%nat -> g j' <> g j) -> a' (g j) = v j) /\ (forall k, (forall j, (j < m)%nat -> g j <> k) -> a' k = a k).
Proof.
  induction m as [|m IH]; intros H.
  - exists a. repeat split; intros; lia || reflexivity.
  - destruct IH as [a' [E [H1 H2]]]; [intros; apply H; lia|]. cbn [oloop]. rewrite E. cbn [obind]. unfold wr. rewrite (proj2 (Nat.ltb_lt _ _) (H m ltac:(lia))).
    eexists. split; [reflexivity|]. split.
    + intros j Hj Hn. destruct (Nat.eqb_spec (g j) (g m)) as [e|e].
      * destruct (Nat.eq_dec j m) as [->|ne]; [reflexivity|]. exfalso. apply (Hn m); [lia|]. symmetry. exact e.
      * apply H1; [|intros; apply Hn; lia]. destruct (Nat.eq_dec j m) as [->|ne]; [contradiction|lia].
    + intros k Hk. destruct (Nat.eqb_spec k (g m)) as [e|e]; [exfalso; apply (Hk m); [lia|symmetry; exact e]|]. apply H2. intros; apply Hk; lia.
Qed.
Lemma oloop_fail {B} n (f : nat -> B -> option B) s j : (j < n)%nat -> (forall s, f j s = None) -> oloop n f s = None.
Proof.
  intros Hj Hf. induction n as [|n IH]; [lia|]. cbn [oloop]. destruct (Nat.eq_dec j n) as [->|ne].
  - destruct (oloop n f s); [cbn [obind]; apply Hf|reflexivity].
  - rewrite IH by lia. reflexivity.
Qed.
Lemma unpack_val n m (v : vecR) o (a : vecR) : (m <= n)%nat -> exists a', unpack (A := real) n m v o a = Some a' /\ forall k, a' k = if (k <? m)%nat then v (o + k)%nat else a k.
Proof.
  intros H. destruct (oloop_wr n m (fun j => j) (fun j => v (o + j)%nat) a) as [a' [E [H1 H2]]]; [intros; lia|]. exists a'. split; [exact E|].
  intros k. destruct (Nat.ltb_spec k m); [apply H1; intros; lia|apply H2; intros; lia].
Qed.
Lemma packv_val n m (a : vecR) o (v : vecR) vi w : packv (A := real) n m a o v vi = Some w -> forall k, w k = if inblk vi m k then a (o + (k - vi))%nat else v k.
Proof. unfold packv. destruct (_ || _); intros E; inversion E. reflexivity. Qed.
Lemma packv_def n m (a : vecR) o (v : vecR) vi : (o + m <= n)%nat -> exists w, packv (A := real) n m a o v vi = Some w.
Proof. intros H. unfold packv. rewrite (proj2 (Nat.leb_le _ _) H). eexists. reflexivity. Qed.
Lemma pack_tran_val len m n (a : vecR) o lda (M : matR) bi bj W : pack_tran (A := real) len m n a o lda M bi bj = Some W -> W = gecp (A := real) n m (fun r c => a (o + c + lda * r)%nat) M bi bj.
Proof. unfold pack_tran. destruct (_ || _); intros E; inversion E. reflexivity. Qed.
Lemma pack_val len m n (a : vecR) o lda (M : matR) bi bj W : pack (A := real) len m n a o lda M bi bj = Some W -> W = gecp (A := real) m n (fun r c => a (o + r + lda * c)%nat) M bi bj.
Proof. unfold pack. destruct (_ || _); intros E; inversion E. reflexivity. Qed.
Lemma room len o lda m n : (0 < n -> 0 < m -> o + lda * (n - 1) + m <= len)%nat -> (m =? 0)%nat || (n =? 0)%nat || (o + lda * (n - 1) + m <=? len)%nat = true.
Proof.
  intros H. destruct (Nat.eqb_spec m 0); [reflexivity|]. destruct (Nat.eqb_spec n 0); [apply orb_true_intro; left; rewrite orb_true_r; reflexivity|].
  rewrite (proj2 (Nat.leb_le _ _)); [apply orb_true_r|]. apply H; lia.
Qed.
Lemma inblk_true o n k : inblk o n k = true <-> (o <= k < o + n)%nat.
Proof. unfold inblk. rewrite andb_true_iff, Nat.leb_le, Nat.ltb_lt. reflexivity. Qed.
Lemma inblk_in o n k : (o <= k < o + n)%nat -> inblk o n k = true.
Proof. apply inblk_true. Qed.
Lemma inblk_out o n k : ~ (o <= k < o + n)%nat -> inblk o n k = false.
Proof. intros H. destruct (inblk o n k) eqn:E; [|reflexivity]. apply inblk_true in E. contradiction. Qed.
Lemma opp_one (x : R) : - (1) * x = - x. Proof. ring. Qed.

Section C.
Variable SM : Type.
Variable ev : sopts -> sim_in real -> sim_out real -> SM -> sim_out real * SM.
Variable sg : vecR -> SM -> SM.
Variable ch : SM -> matR.
Variable d : dims.
Variable y : dyn_in real.
Notation nx := (d_nx d). Notation nu := (d_nu d). Notation nz := (d_nz d). Notation nx1 := (d_nx1 d). Notation nu1 := (d_nu1 d).
Notation nv := (d_nx d + d_nu d)%nat.

Lemma pass_xu_ok (i : sim_in real) : exists i', pass_xu d y i = Some i' /\ point_ok d y i' /\ i_S_forw i' = i_S_forw i /\ i_S_adj i' = i_S_adj i /\ i_id i' = i_id i.
Proof.
  unfold pass_xu. destruct (unpack_val nu nu (y_ux y) 0 (i_u i)) as [u [E1 H1]]; [lia|]. destruct (unpack_val nx nx (y_ux y) nu (i_x i)) as [x [E2 H2]]; [lia|].
  rewrite E1. cbn [obind]. rewrite E2. cbn [obind]. eexists. split; [reflexivity|]. split; [|repeat split]. unfold point_ok. cbn [i_x i_u i_T]. repeat split.
  - intros k Hk. rewrite H2, (proj2 (Nat.ltb_lt _ _) Hk). reflexivity.
  - intros k Hk. rewrite H1, (proj2 (Nat.ltb_lt _ _) Hk). reflexivity.
Qed.
Lemma seed_forw_ok (i : sim_in real) : nx1 = nx -> exists i', seed_forw d i = Some i' /\ fseed_ok d i' /\ (point_ok d y i -> point_ok d y i') /\ i_S_adj i' = i_S_adj i.
Proof.
  intros HN. unfold seed_forw. rewrite HN. destruct (oloop_wr (nx * nv) (nx * nv) (fun j => j) (fun _ => 0) (i_S_forw i)) as [a [E [H1 H2]]]; [intros; lia|].
  change (n0 (a := real)) with 0. rewrite E. cbn [obind]. destruct (oloop_wr (nx * nv) nx (fun j => j * (nx + 1))%nat (fun _ => 1) a) as [b [E' [H1' H2']]]; [intros; nia|].
  change (n1 (a := real)) with 1. rewrite E'. cbn [obind]. eexists. split; [reflexivity|]. split; [|split; [intros H; exact H|reflexivity]].
  split; [reflexivity|]. intros r c Hr Hc. cbn [i_S_forw]. destruct (Nat.eqb_spec r c) as [<-|ne].
  - replace (r + nx * r)%nat with (r * (nx + 1))%nat by lia. apply H1'; [exact Hr|]. intros; nia.
  - rewrite H2'.
    + apply H1; [nia|intros; lia].
    + intros j Hj He. apply ne. assert (c = j) by (destruct (lt_eq_lt_dec c j) as [[L|L]|L]; [exfalso; nia|exact L|exfalso; nia]). subst j. nia.
Qed.
Lemma seed_adj_ok (i : sim_in real) : (nx1 <= nx)%nat -> exists i', seed_adj d y i = Some i' /\ (nx1 = nx -> aseed_ok d y i') /\ (point_ok d y i -> point_ok d y i') /\ (fseed_ok d i -> fseed_ok d i').
Proof.
  intros HN. unfold seed_adj. destruct (oloop_wr nv nv (fun j => j) (fun _ => 0) (i_S_adj i)) as [a [E [H1 H2]]]; [intros; lia|].
  change (n0 (a := real)) with 0. rewrite E. cbn [obind]. destruct (unpack_val nv nx1 (y_pi y) 0 a) as [b [E' H']]; [lia|]. rewrite E'. cbn [obind]. eexists. split; [reflexivity|].
  split; [|split; intros H; exact H]. intros HN' k Hk. cbn [i_S_adj]. rewrite H', HN'. cbn [Nat.add]. destruct (Nat.ltb_spec k nx); [reflexivity|]. apply H1; intros; lia.
Qed.
Definition used_guess (s : dyn_st real SM) : SM := match t_flag s with Some true => sg (y_guess y) (t_sm s) | _ => t_sm s end.
Definition flag_after (s : dyn_st real SM) : option bool := match t_flag s with Some _ => Some false | None => None end.
Lemma guess_ok s : pass_guess sg y (t_flag s) (t_sm s) = (flag_after s, used_guess s).
Proof. unfold pass_guess, flag_after, used_guess. destruct (t_flag s) as [[|]|]; reflexivity. Qed.
Lemma defect_def (o : sim_out real) (f : vecR) : (nx1 <= nx)%nat -> exists g, defect d y o f = Some g /\ forall k, (k < nx1)%nat -> g k = s_xn o k - y_ux1 y (nu1 + k)%nat.
Proof.
  intros HN. unfold defect. destruct (packv_def nx nx1 (s_xn o) 0 f 0) as [w E]; [lia|]. rewrite E. cbn [obind]. eexists. split; [reflexivity|].
  intros k Hk. cbv beta. rewrite (proj2 (Nat.ltb_lt _ _) Hk), (packv_val _ _ _ _ _ _ _ E), inblk_in by lia. rewrite Nat.sub_0_r. cbn [Nat.add]. change (- (1) * y_ux1 y (nu1 + k)%nat + s_xn o k = s_xn o k - y_ux1 y (nu1 + k)%nat). ring.
Qed.
Lemma adj_pack_def (o : sim_out real) (a : vecR) : exists b, adj_pack d o a = Some b /\ (forall k, (k < nu)%nat -> b k = - s_S_adj o (nx + k)%nat) /\ (forall k, (k < nx)%nat -> b (nu + k)%nat = - s_S_adj o k).
Proof.
  unfold adj_pack. destruct (packv_def nv nu (s_S_adj o) nx a 0) as [w E]; [lia|]. rewrite E. cbn [obind]. destruct (packv_def nv nx (s_S_adj o) 0 w nu) as [w' E']; [lia|]. rewrite E'. cbn [obind].
  eexists. split; [reflexivity|]. split; intros k Hk; cbv beta; rewrite (proj2 (Nat.ltb_lt _ _)) by lia; rewrite (packv_val _ _ _ _ _ _ _ E').
  - rewrite inblk_out by lia. rewrite (packv_val _ _ _ _ _ _ _ E), inblk_in by lia. rewrite Nat.sub_0_r. apply opp_one.
  - rewrite inblk_in by lia. replace (0 + (nu + k - nu))%nat with k by lia. apply opp_one.
Qed.
Lemma adj_pi_hi (a : vecR) k : (k < nx1)%nat -> adj_pi d y a (nu + nx + k)%nat = y_pi y k.
Proof. intros Hk. unfold adj_pi, cpv. rewrite inblk_in by lia. f_equal. lia. Qed.
Lemma adj_pi_lo (a : vecR) k : (k < nu + nx)%nat -> adj_pi d y a k = a k.
Proof. intros Hk. unfold adj_pi, cpv. rewrite inblk_out by lia. reflexivity. Qed.
Lemma adj_mult_val (B : matR) (a : vecR) k : (k < nu + nx)%nat -> adj_mult d y B a k = - sum nx1 (fun r => B k r * y_pi y r).
Proof. intros Hk. unfold adj_mult. rewrite (proj2 (Nat.ltb_lt _ _) Hk). unfold mvn. rewrite vsum_sum. apply opp_one. Qed.

(** the blocks of BAbt, dzduxt and the Hessian *)
Lemma tran_two len m (a : vecR) (M W W' : matR) : pack_tran (A := real) len m nu a (m * nx) m M 0 0 = Some W -> pack_tran (A := real) len m nx a 0 m W nu 0 = Some W' ->
  forall r, (r < m)%nat -> (forall k, (k < nu)%nat -> W' k r = a (r + m * (nx + k))%nat) /\ (forall k, (k < nx)%nat -> W' (nu + k)%nat r = a (r + m * k)%nat).
Proof.
  intros E E' r Hr. apply pack_tran_val in E, E'. subst W W'. split; intros k Hk; unfold gecp.
  - rewrite (inblk_out nu nx k), (inblk_in 0 nu k), (inblk_in 0 m r) by lia. cbn [andb]. f_equal. lia.
  - rewrite (inblk_in nu nx), (inblk_in 0 m r) by lia. cbn [andb]. f_equal. lia.
Qed.
Lemma hess_pack_def (o : sim_out real) (h : matR) : exists W, hess_pack d o h = Some W /\
  (forall a b, (a < nu)%nat -> (b < nu)%nat -> W a b = out_H d o (nx + a)%nat (nx + b)%nat) /\
  (forall a b, (a < nx)%nat -> (b < nu)%nat -> W (nu + a)%nat b = out_H d o a (nx + b)%nat) /\
  (forall a b, (a < nx)%nat -> (b < nx)%nat -> W (nu + a)%nat (nu + b)%nat = out_H d o a b) /\
  (forall a b, (a < nu)%nat -> (b < nx)%nat -> W a (nu + b)%nat = h a (nu + b)%nat).
Proof.
  unfold hess_pack, pack. rewrite (room (nv * nv) (nv * nx + nx) nv nu nu), (room (nv * nv) (nv * nx) nv nx nu), (room (nv * nv) 0 nv nx nx) by nia.
  cbn [obind]. eexists. split; [reflexivity|]. unfold gecp, out_H. repeat split; intros a b Ha Hb.
  - rewrite (inblk_out nu nx a), (inblk_in 0 nu a), (inblk_in 0 nu b) by lia. cbn [andb]. f_equal. nia.
  - rewrite (inblk_in nu nx), (inblk_out nu nx b), (inblk_in 0 nu b) by lia. cbn [andb]. f_equal. nia.
  - rewrite !(inblk_in nu nx) by lia. cbn [andb]. f_equal. nia.
  - rewrite (inblk_out nu nx a), (inblk_out 0 nu (nu + b)) by lia. rewrite (andb_false_r (inblk 0 nu a)). reflexivity.
Qed.

Lemma cont_update_ok s : nx1 = nx -> exists i s', cont_update ev sg ch d y s = Some s' /\ point_ok d y i /\ fseed_ok d i /\ aseed_ok d y i /\
  ev (t_opts s) i (t_out s) (used_guess s) = (t_out s', t_sm s') /\ t_flag s' = flag_after s /\ t_opts s' = t_opts s /\
  (forall k, (k < nx)%nat -> t_fun s' k = s_xn (t_out s') k - y_ux1 y (nu1 + k)%nat) /\
  (forall r, (r < nx)%nat -> (forall k, (k < nu)%nat -> t_BAbt s' k r = out_J d (t_out s') r (nx + k)%nat) /\ (forall k, (k < nx)%nat -> t_BAbt s' (nu + k)%nat r = out_J d (t_out s') r k)) /\
  (forall r, (r < nz)%nat -> (forall k, (k < nu)%nat -> t_dzduxt s' k r = out_Z d (t_out s') r (nx + k)%nat) /\ (forall k, (k < nx)%nat -> t_dzduxt s' (nu + k)%nat r = out_Z d (t_out s') r k)) /\
  (forall k, (k < nz)%nat -> t_z s' k = s_zn (t_out s') k) /\
  (if y_adj y then
     (forall k, (k < nx)%nat -> t_adj s' (nu + nx + k)%nat = y_pi y k) /\
     (if so_adj (t_opts s) then (forall k, (k < nu)%nat -> t_adj s' k = - s_S_adj (t_out s') (nx + k)%nat) /\ (forall k, (k < nx)%nat -> t_adj s' (nu + k)%nat = - s_S_adj (t_out s') k)
      else (forall k, (k < nu)%nat -> t_adj s' k = - sum nx (fun r => out_J d (t_out s') r (nx + k)%nat * y_pi y r)) /\ (forall k, (k < nx)%nat -> t_adj s' (nu + k)%nat = - sum nx (fun r => out_J d (t_out s') r k * y_pi y r)))
   else t_adj s' = t_adj s) /\
  exists Q, t_RSQrq s' = cost_part ch d y (t_opts s) (t_sm s') Q /\
    if y_hess y then
      (forall a b, (a < nu)%nat -> (b < nu)%nat -> Q a b = out_H d (t_out s') (nx + a)%nat (nx + b)%nat) /\
      (forall a b, (a < nx)%nat -> (b < nu)%nat -> Q (nu + a)%nat b = out_H d (t_out s') a (nx + b)%nat) /\
      (forall a b, (a < nx)%nat -> (b < nx)%nat -> Q (nu + a)%nat (nu + b)%nat = out_H d (t_out s') a b) /\
      (forall a b, (a < nu)%nat -> (b < nx)%nat -> Q a (nu + b)%nat = t_hess s a (nu + b)%nat)
    else Q = t_RSQrq s.
Proof.
  intros HN. unfold cont_update.
  destruct (pass_xu_ok (t_in s)) as [i1 [E1 [P1 _]]]. rewrite E1. cbn [obind]. rewrite guess_ok.
  destruct (seed_forw_ok i1 HN) as [i2 [E2 [F2 [P2 _]]]]. rewrite E2. cbn [obind].
  destruct (seed_adj_ok i2) as [i3 [E3 [A3 [P3 F3]]]]; [lia|]. rewrite E3. cbn [obind].
  destruct (ev (t_opts s) i3 (t_out s) (used_guess s)) as [o m] eqn:EV.
  destruct (pack_tran (nx * nv) nx1 nu (s_S_forw o) (nx1 * nx) nx1 (t_BAbt s) 0 0) as [B1|] eqn:EB1.
  2:{ exfalso. unfold pack_tran in EB1. rewrite HN, room in EB1 by nia. discriminate. }
  cbn [obind]. destruct (pack_tran (nx * nv) nx1 nx (s_S_forw o) 0 nx1 B1 nu 0) as [B2|] eqn:EB2.
  2:{ exfalso. unfold pack_tran in EB2. rewrite HN, room in EB2 by nia. discriminate. }
  cbn [obind]. rewrite (Nat.mul_comm nx nz). destruct (pack_tran (nz * nv) nz nu (s_S_alg o) (nz * nx) nz (t_dzduxt s) 0 0) as [Z1|] eqn:EZ1.
  2:{ exfalso. unfold pack_tran in EZ1. rewrite room in EZ1 by nia. discriminate. }
  cbn [obind]. destruct (pack_tran (nz * nv) nz nx (s_S_alg o) 0 nz Z1 nu 0) as [Z2|] eqn:EZ2.
  2:{ exfalso. unfold pack_tran in EZ2. rewrite room in EZ2 by nia. discriminate. }
  cbn [obind]. destruct (defect_def o (t_fun s)) as [f [EF HF]]; [lia|]. rewrite EF. cbn [obind].
  destruct (packv_def nz nz (s_zn o) 0 (t_z s) 0) as [z EZ]; [lia|]. rewrite EZ. cbn [obind].
  pose proof (tran_two _ _ _ _ _ _ EB1 EB2) as TB. 
  pose proof (tran_two _ _ _ _ _ _ EZ1 EZ2) as TZ.
  destruct (adj_pack_def o (t_adj s)) as [ap [EAP [AP1 AP2]]]. destruct (hess_pack_def o (t_hess s)) as [hp [EHP [HP1 [HP2 [HP3 HP4]]]]].
  assert (EA : exists a, (if y_adj y then do a <- (if so_adj (t_opts s) then adj_pack d o (t_adj s) else Some (adj_mult d y B2 (t_adj s))); Some (adj_pi d y a) else Some (t_adj s)) = Some a /\
    a = if y_adj y then adj_pi d y (if so_adj (t_opts s) then ap else adj_mult d y B2 (t_adj s)) else t_adj s).
  { eexists. split; [|reflexivity]. destruct (y_adj y); [|reflexivity]. destruct (so_adj (t_opts s)); [rewrite EAP|]; reflexivity. }
  destruct EA as [a [EA ->]]. rewrite EA. cbn [obind].
  assert (EH : (if y_hess y then hess_pack d o (t_hess s) else Some (t_hess s)) = Some (if y_hess y then hp else t_hess s)) by (destruct (y_hess y); [exact EHP|reflexivity]).
  rewrite EH. cbn [obind]. exists i3. eexists. split; [reflexivity|]. cbn [t_out t_sm t_flag t_opts t_fun t_BAbt t_dzduxt t_z t_adj t_RSQrq].
  split; [auto|]. split; [auto|]. split; [auto|]. split; [exact EV|]. split; [reflexivity|]. split; [reflexivity|].
  split; [intros k Hk; apply HF; lia|].
  assert (TB' : forall r, (r < nx)%nat -> (forall k, (k < nu)%nat -> B2 k r = out_J d o r (nx + k)%nat) /\ (forall k, (k < nx)%nat -> B2 (nu + k)%nat r = out_J d o r k)).
  { intros r Hr. destruct (TB r ltac:(lia)) as [T1 T2]. unfold out_J. rewrite HN in T1, T2. split; assumption. }
  split; [exact TB'|]. split; [exact TZ|].
  split. { intros k Hk. rewrite (packv_val _ _ _ _ _ _ _ EZ), inblk_in by lia. f_equal. lia. }
  split.
  { destruct (y_adj y); [|reflexivity]. split; [intros k Hk; apply adj_pi_hi; lia|]. destruct (so_adj (t_opts s)).
    - split; intros k Hk; rewrite adj_pi_lo by lia; auto.
    - split; intros k Hk; rewrite adj_pi_lo, adj_mult_val by lia; rewrite HN; f_equal; apply sum_ext; intros r Hr; destruct (TB' r Hr) as [T1 T2]; [rewrite T1|rewrite T2]; auto. }
  eexists. split; [reflexivity|]. destruct (y_hess y); [|reflexivity]. unfold gecp. repeat split; intros a b Ha Hb; rewrite !inblk_in by lia; cbn [andb]; rewrite !Nat.sub_0_r; auto.
Qed.

Lemma cont_fun_ok s : (nx1 <= nx)%nat -> exists i s', cont_fun ev sg d y s = Some s' /\ point_ok d y i /\ i_S_adj i = i_S_adj (t_in s) /\
  ev (mkSO false false false (so_cost (t_opts s))) i (t_out s) (used_guess s) = (t_out s', t_sm s') /\ t_flag s' = flag_after s /\ t_opts s' = t_opts s /\
  (forall k, (k < nx1)%nat -> t_fun s' k = s_xn (t_out s') k - y_ux1 y (nu1 + k)%nat) /\
  t_adj s' = t_adj s /\ t_z s' = t_z s /\ t_BAbt s' = t_BAbt s /\ t_dzduxt s' = t_dzduxt s /\ t_RSQrq s' = t_RSQrq s.
Proof.
  intros HN. unfold cont_fun. destruct (pass_xu_ok (t_in s)) as [i1 [E1 [P1 [_ [A1 _]]]]]. rewrite E1. cbn [obind]. rewrite guess_ok. unfold with_sens. cbn [so_cost].
  destruct (ev _ i1 (t_out s) (used_guess s)) as [o m] eqn:EV. destruct (defect_def o (t_fun s)) as [f [EF HF]]; [lia|]. rewrite EF. cbn [obind].
  exists i1. eexists. split; [reflexivity|]. cbn [t_out t_sm t_flag t_opts t_fun t_BAbt t_dzduxt t_z t_adj t_RSQrq]. destruct (t_opts s). repeat split; auto; apply P1.
Qed.
Lemma cont_fun_adj_ok s : nx1 = nx -> exists i s', cont_fun_adj ev sg d y s = Some s' /\ point_ok d y i /\ aseed_ok d y i /\
  ev (mkSO false true false (so_cost (t_opts s))) i (t_out s) (used_guess s) = (t_out s', t_sm s') /\ t_flag s' = flag_after s /\ t_opts s' = t_opts s /\
  (forall k, (k < nx)%nat -> t_fun s' k = s_xn (t_out s') k - y_ux1 y (nu1 + k)%nat) /\
  (forall k, (k < nx)%nat -> t_adj s' (nu + nx + k)%nat = y_pi y k) /\ (forall k, (k < nu)%nat -> t_adj s' k = - s_S_adj (t_out s') (nx + k)%nat) /\ (forall k, (k < nx)%nat -> t_adj s' (nu + k)%nat = - s_S_adj (t_out s') k) /\
  t_z s' = t_z s /\ t_BAbt s' = t_BAbt s /\ t_dzduxt s' = t_dzduxt s /\ t_RSQrq s' = t_RSQrq s.
Proof.
  intros HN. unfold cont_fun_adj. destruct (pass_xu_ok (t_in s)) as [i1 [E1 [P1 _]]]. rewrite E1. cbn [obind]. rewrite guess_ok.
  destruct (seed_adj_ok i1) as [i3 [E3 [A3 [P3 _]]]]; [lia|]. rewrite E3. cbn [obind]. unfold with_sens. cbn [so_cost].
  destruct (ev _ i3 (t_out s) (used_guess s)) as [o m] eqn:EV. destruct (defect_def o (t_fun s)) as [f [EF HF]]; [lia|]. rewrite EF. cbn [obind].
  destruct (adj_pack_def o (t_adj s)) as [ap [EAP [AP1 AP2]]]. rewrite EAP. cbn [obind].
  exists i3. eexists. split; [reflexivity|]. cbn [t_out t_sm t_flag t_opts t_fun t_BAbt t_dzduxt t_z t_adj t_RSQrq]. destruct (t_opts s).
  split; [auto|]. split; [auto|]. split; [exact EV|]. split; [reflexivity|]. split; [reflexivity|]. split; [intros; apply HF; lia|].
  split; [intros; apply adj_pi_hi; lia|]. split; [intros k Hk; rewrite adj_pi_lo by lia; auto|]. split; [intros k Hk; rewrite adj_pi_lo by lia; auto|]. repeat split.
Qed.

(** the adjoint vector is the derivative of pi . (x1 - Phi) *)
Lemma adj_derivative (J : matR) (a pi : vecR) (Phi X1 : R -> vecR) (dx du dx1 : vecR) : nx1 = nx ->
  (forall k, (k < nx)%nat -> a (nu + nx + k)%nat = pi k) -> (forall k, (k < nu)%nat -> a k = - sum nx (fun r => J r (nx + k)%nat * pi r)) -> (forall k, (k < nx)%nat -> a (nu + k)%nat = - sum nx (fun r => J r k * pi r)) ->
  (forall r, (r < nx)%nat -> is_derive (fun e => Phi e r) 0 (along d J dx du r)) -> (forall r, (r < nx)%nat -> is_derive (fun e => X1 e r) 0 (dx1 r)) ->
  is_derive (fun e => sum nx (fun r => pi r * (X1 e r - Phi e r))) 0 (dot3 d a du dx dx1).
Proof.
  intros HN H1 H2 H3 HP HX. apply (is_derive_val _ _ (sum nx (fun r => pi r * (dx1 r - along d J dx du r)))).
  - apply is_derive_sum. intros r Hr. apply scal_der. apply (is_derive_minus (fun e => X1 e r) (fun e => Phi e r) 0 _ _ (HX r Hr) (HP r Hr)).
  - unfold dot3, along. rewrite HN. rewrite (sum_ext nx (fun k => a (nu + nx + k)%nat * dx1 k) (fun k => pi k * dx1 k)) by (intros k Hk; rewrite H1 by exact Hk; reflexivity).
    rewrite (sum_ext nu (fun k => a k * du k) (fun k => - sum nx (fun r => pi r * (J r (nx + k)%nat * du k)))).
    2:{ intros k Hk. rewrite H2 by exact Hk. rewrite <- (sum_opp nx). rewrite <- sum_opp. rewrite <- sum_scal_r. apply sum_ext. intros; ring. }
    rewrite (sum_ext nx (fun k => a (nu + k)%nat * dx k) (fun k => - sum nx (fun r => pi r * (J r k * dx k)))).
    2:{ intros k Hk. rewrite H3 by exact Hk. rewrite <- (sum_opp nx). rewrite <- sum_opp. rewrite <- sum_scal_r. apply sum_ext. intros; ring. }
    rewrite !sum_opp. rewrite (sum_swap nu nx), (sum_swap nx nx (fun i j => pi j * (J j i * dx i))).
    rewrite (sum_ext nx (fun j => sum nu (fun i => pi j * (J j (nx + i)%nat * du i))) (fun j => pi j * sum nu (fun i => J j (nx + i)%nat * du i))) by (intros; apply sum_scal).
    rewrite (sum_ext nx (fun j => sum nx (fun i => pi j * (J j i * dx i))) (fun j => pi j * sum nx (fun i => J j i * dx i))) by (intros; apply sum_scal).
    rewrite (sum_ext nx (fun r => pi r * (dx1 r - _)) (fun r => pi r * dx1 r - (pi r * sum nx (fun c => J r c * dx c) + pi r * sum nu (fun c => J r (nx + c)%nat * du c)))) by (intros; ring).
    rewrite sum_minus, sum_plus. ring.
Qed.
Lemma fun_derivative (J : matR) (B : matR) (Phi X1 : R -> vecR) (dx du dx1 : vecR) r : (r < nx)%nat ->
  (forall k, (k < nu)%nat -> B k r = J r (nx + k)%nat) -> (forall k, (k < nx)%nat -> B (nu + k)%nat r = J r k) ->
  is_derive (fun e => Phi e r) 0 (along d J dx du r) -> is_derive (fun e => X1 e r) 0 (dx1 r) ->
  is_derive (fun e => Phi e r - X1 e r) 0 (dot2 d B du dx r - dx1 r).
Proof.
  intros Hr H1 H2 HP HX. refine (is_derive_val _ _ _ _ (is_derive_minus (fun e => Phi e r) (fun e => X1 e r) 0 _ _ HP HX) _).
  unfold along, dot2. rewrite (sum_ext nu (fun k => B k r * du k) (fun k => J r (nx + k)%nat * du k)) by (intros k Hk; rewrite H1 by exact Hk; reflexivity).
  rewrite (sum_ext nx (fun k => B (nu + k)%nat r * dx k) (fun k => J r k * dx k)) by (intros k Hk; rewrite H2 by exact Hk; reflexivity).
  change (minus (sum nx (fun c => J r c * dx c) + sum nu (fun c => J r (nx + c)%nat * du c)) (dx1 r)) with (sum nx (fun c => J r c * dx c) + sum nu (fun c => J r (nx + c)%nat * du c) - dx1 r). ring.
Qed.

(** the Hessian: quadratic form of the lower triangle *)
Lemma low_blocks (Q : matR) du dx : lowquad d Q du dx =
  sum nu (fun a => sum nu (fun b => du a * (if (b <=? a)%nat then Q a b else Q b a) * du b)) + sum nu (fun a => sum nx (fun b => du a * Q (nu + b)%nat a * dx b)) +
  (sum nx (fun a => sum nu (fun b => dx a * Q (nu + a)%nat b * du b)) + sum nx (fun a => sum nx (fun b => dx a * (if (b <=? a)%nat then Q (nu + a)%nat (nu + b)%nat else Q (nu + b)%nat (nu + a)%nat) * dx b))).
Proof.
  unfold lowquad. cbv zeta. rewrite sum_split. rewrite <- !sum_plus. f_equal; apply sum_ext; intros a Ha; rewrite sum_split; f_equal; apply sum_ext; intros b Hb.
  - rewrite !(proj2 (Nat.ltb_lt _ _)) by lia. reflexivity.
  - rewrite (proj2 (Nat.ltb_lt _ _) Ha), (proj2 (Nat.ltb_ge (nu + b) nu)), (proj2 (Nat.leb_gt (nu + b) a)) by lia. replace (nu + b - nu)%nat with b by lia. reflexivity.
  - rewrite (proj2 (Nat.ltb_lt _ _) Hb), (proj2 (Nat.ltb_ge (nu + a) nu)), (proj2 (Nat.leb_le b (nu + a))) by lia. replace (nu + a - nu)%nat with a by lia. reflexivity.
  - rewrite !(proj2 (Nat.ltb_ge _ nu)) by lia. replace (nu + a - nu)%nat with a by lia. replace (nu + b - nu)%nat with b by lia. destruct (Nat.leb_spec b a), (Nat.leb_spec (nu + b) (nu + a)); try lia; reflexivity.
Qed.
Lemma quad_blocks (H : matR) dx du : quad_xu d H dx du =
  sum nx (fun a => sum nx (fun b => dx a * H a b * dx b)) + sum nx (fun a => sum nu (fun b => dx a * H a (nx + b)%nat * du b)) +
  (sum nu (fun a => sum nx (fun b => du a * H (nx + a)%nat b * dx b)) + sum nu (fun a => sum nu (fun b => du a * H (nx + a)%nat (nx + b)%nat * du b))).
Proof.
  unfold quad_xu. cbv zeta. rewrite sum_split. rewrite <- !sum_plus. f_equal; apply sum_ext; intros a Ha; rewrite sum_split; f_equal; apply sum_ext; intros b Hb.
  - rewrite !(proj2 (Nat.ltb_lt _ _)) by lia. reflexivity.
  - rewrite (proj2 (Nat.ltb_lt _ _) Ha), (proj2 (Nat.ltb_ge (nx + b) nx)) by lia. replace (nx + b - nx)%nat with b by lia. reflexivity.
  - rewrite (proj2 (Nat.ltb_lt _ _) Hb), (proj2 (Nat.ltb_ge (nx + a) nx)) by lia. replace (nx + a - nx)%nat with a by lia. reflexivity.
  - rewrite !(proj2 (Nat.ltb_ge _ nx)) by lia. replace (nx + a - nx)%nat with a by lia. replace (nx + b - nx)%nat with b by lia. reflexivity.
Qed.
Lemma lower_hess (Q H : matR) du dx : (forall a b, H a b = H b a) ->
  (forall a b, (a < nu)%nat -> (b < nu)%nat -> Q a b = H (nx + a)%nat (nx + b)%nat) -> (forall a b, (a < nx)%nat -> (b < nu)%nat -> Q (nu + a)%nat b = H a (nx + b)%nat) ->
  (forall a b, (a < nx)%nat -> (b < nx)%nat -> Q (nu + a)%nat (nu + b)%nat = H a b) -> lowquad d Q du dx = quad_xu d H dx du.
Proof.
  intros HS H1 H2 H3. rewrite low_blocks, quad_blocks. rewrite (Rplus_comm (sum nx (fun a => sum nx _) + _)). 
  match goal with |- ?a + ?b + (?c + ?e) = ?f + ?g + (?h + ?k) => assert (E1 : a = g); [|assert (E2 : b = f); [|assert (E3 : c = k); [|assert (E4 : e = h); [|rewrite E1, E2, E3, E4; ring]]]] end.
  - apply sum_ext; intros a Ha; apply sum_ext. intros b Hb. destruct (b <=? a)%nat; rewrite H1 by assumption; [reflexivity|]. rewrite HS. reflexivity.
  - apply sum_ext; intros a Ha; apply sum_ext. intros b Hb. rewrite H2 by assumption. rewrite HS. reflexivity.
  - apply sum_ext; intros a Ha; apply sum_ext. intros b Hb. rewrite H2 by assumption. reflexivity.
  - apply sum_ext; intros a Ha; apply sum_ext. intros b Hb. destruct (b <=? a)%nat; rewrite H3 by assumption; [reflexivity|]. rewrite HS. reflexivity.
Qed.
End C.
