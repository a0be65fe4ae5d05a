(** The dynamics modules: what the theorems say. *)
From Coq Require Import ZArith List Bool Arith Lia Reals Lra.
From Coquelicot Require Import Coquelicot.
From Verif Require Import Arith Vec LinModel Arr RSum BghAdjProofs MeritGradProofs IrkModel IrkSpec IrkFwd IrkTop DynModel DynSpec DynProofs.
Import ListNotations.
Open Scope R_scope.

(** the memory the integrator starts from, and the flag afterwards *)
Definition start_mem {SM} (sg : vecR -> SM -> SM) (y : dyn_in real) (s : dyn_st real SM) : SM := match t_flag s with Some true => sg (y_guess y) (t_sm s) | _ => t_sm s end.

Section Cont.
Context {SM : Type}.
Variable ev : sopts -> sim_in real -> sim_out real -> SM -> sim_out real * SM.
Variable sg : vecR -> SM -> SM.
Variable ch : SM -> matR.
Variable d : dims.
Variable y : dyn_in real.
Notation nx := (d_nx d). Notation nu := (d_nu d). Notation nz := (d_nz d). Notation nx1 := (d_nx1 d). Notation nu1 := (d_nu1 d).

Lemma cont_call_l s : nx1 = nx -> exists i s', cont_update ev sg ch d y s = Some s' /\ point_ok d y i /\ fseed_ok d i /\ aseed_ok d y i /\
  ev (t_opts s) i (t_out s) (start_mem sg y s) = (t_out s', t_sm s') /\ t_flag s' <> Some true /\ t_opts s' = t_opts s /\
  (forall k, (k < nz)%nat -> t_z s' k = s_zn (t_out s') k) /\
  (forall (Zc : R -> vecR) (dx du : vecR) r, (r < nz)%nat -> is_derive (fun e => Zc e r) 0 (along d (out_Z d (t_out s')) dx du r) -> is_derive (fun e => Zc e r) 0 (dot2 d (t_dzduxt s') du dx r)) /\
  (forall (Phi X1 : R -> vecR) (dx du dx1 : vecR), agree nx (Phi 0) (s_xn (t_out s')) -> agree nx (X1 0) (fun k => y_ux1 y (nu1 + k)%nat) ->
     (forall r, (r < nx)%nat -> is_derive (fun e => Phi e r) 0 (along d (out_J d (t_out s')) dx du r)) -> (forall r, (r < nx)%nat -> is_derive (fun e => X1 e r) 0 (dx1 r)) ->
     (forall r, (r < nx)%nat -> t_fun s' r = Phi 0 r - X1 0 r /\ is_derive (fun e => Phi e r - X1 e r) 0 (dot2 d (t_BAbt s') du dx r - dx1 r)) /\
     (y_adj y = true -> (so_adj (t_opts s) = true -> adjoint_ok d (out_J d (t_out s')) i (t_out s')) ->
        is_derive (fun e => sum nx (fun r => y_pi y r * (X1 e r - Phi e r))) 0 (dot3 d (t_adj s') du dx dx1))).
Proof.
  intros HN. destruct (cont_update_ok SM ev sg ch d y s HN) as (i & s' & E & P & F & AS & EV & FL & OP & HF & HB & HZ & Hz & HA & _).
  exists i, s'. split; [exact E|]. split; [exact P|]. split; [exact F|]. split; [exact AS|]. split; [exact EV|].
  split. { rewrite FL. unfold flag_after. destruct (t_flag s); discriminate. }
  split; [exact OP|]. split; [exact Hz|]. split.
  { intros Zc dx du r Hr HD. destruct (HZ r Hr) as [Z1 Z2]. refine (is_derive_val _ _ _ _ HD _). unfold along, dot2. rewrite Rplus_comm. f_equal; apply sum_ext; intros k Hk; [rewrite Z1|rewrite Z2]; auto. }
  intros Phi X1 dx du dx1 HP0 HX0 HP HX. split.
  - intros r Hr. split; [rewrite HF, HP0, HX0 by exact Hr; reflexivity|]. destruct (HB r Hr) as [B1 B2]. apply (fun_derivative d (out_J d (t_out s'))); auto.
  - intros YA AO. rewrite YA in HA. destruct HA as [A1 A2]. apply (adj_derivative d (out_J d (t_out s')) _ _ Phi X1 dx du dx1 HN A1); auto; destruct (so_adj (t_opts s)); try (apply A2).
    + intros k Hk. rewrite (proj1 A2 k Hk). rewrite (AO eq_refl) by lia. f_equal. apply sum_ext. intros r Hr. rewrite (AS r) by lia. rewrite (proj2 (Nat.ltb_lt _ _) Hr). apply Rmult_comm.
    + intros k Hk. rewrite (proj2 A2 k Hk). rewrite (AO eq_refl) by lia. f_equal. apply sum_ext. intros r Hr. rewrite (AS r) by lia. rewrite (proj2 (Nat.ltb_lt _ _) Hr). apply Rmult_comm.
Qed.

Lemma lowquad_add (Q C : matR) (a : R) (du dx : vecR) (R1 : matR) : (forall i j, (i < nu + nx)%nat -> (j < nu + nx)%nat -> R1 i j = Q i j + a * C i j) -> lowquad d R1 du dx = lowquad d Q du dx + a * lowquad d C du dx.
Proof.
  intros H. unfold lowquad. cbv zeta. rewrite <- sum_scal, <- sum_plus. apply sum_ext. intros i Hi. rewrite <- sum_scal, <- sum_plus. apply sum_ext. intros j Hj.
  destruct (j <=? i)%nat; rewrite H by assumption; ring.
Qed.
Lemma cost_quad op m (Q : matR) du dx : lowquad d (cost_part ch d y op m Q) du dx =
  (if so_cost op && negb (y_add_cost y) then 0 else lowquad d Q du dx) + (if so_cost op then y_scaling y * lowquad d (ch m) du dx else 0).
Proof.
  unfold cost_part. destruct (so_cost op); cbn [andb]; [|ring]. destruct (y_add_cost y); cbn [negb].
  - apply lowquad_add. intros i j Hi Hj. unfold gead. rewrite !inblk_in by lia. cbn [andb]. rewrite !Nat.sub_0_r. reflexivity.
  - rewrite (lowquad_add (fun _ _ => 0) (ch m) (y_scaling y)).
    + f_equal. unfold lowquad. cbv zeta. apply sum_zero. intros i _. apply sum_zero. intros j _. destruct (j <=? i)%nat; ring.
    + intros i j Hi Hj. unfold gecp. rewrite !inblk_in by lia. cbn [andb]. rewrite !Nat.sub_0_r. change (y_scaling y * ch m i j = 0 + y_scaling y * ch m i j). ring.
Qed.
Lemma cont_hess_l s s' : nx1 = nx -> cont_update ev sg ch d y s = Some s' -> (y_hess y = true -> forall a b, out_H d (t_out s') a b = out_H d (t_out s') b a) -> forall du dx,
  lowquad d (t_RSQrq s') du dx =
    (if so_cost (t_opts s) && negb (y_add_cost y) then 0 else if y_hess y then quad_xu d (out_H d (t_out s')) dx du else lowquad d (t_RSQrq s) du dx) +
    (if so_cost (t_opts s) then y_scaling y * lowquad d (ch (t_sm s')) du dx else 0).
Proof.
  intros HN E HS du dx. destruct (cont_update_ok SM ev sg ch d y s HN) as (i & s'' & E' & _ & _ & _ & _ & _ & _ & _ & _ & _ & _ & _ & Q & EQ & HQ).
  rewrite E in E'. inversion E'; subst s''. rewrite EQ, cost_quad. f_equal. destruct (so_cost (t_opts s) && negb (y_add_cost y)); [reflexivity|].
  destruct (y_hess y); [|rewrite HQ; reflexivity]. destruct HQ as (Q1 & Q2 & Q3 & _). apply lower_hess; auto.
Qed.

Lemma cont_fun_l s : (nx1 <= nx)%nat -> exists i s', cont_fun ev sg d y s = Some s' /\ point_ok d y i /\
  ev (mkSO false false false (so_cost (t_opts s))) i (t_out s) (start_mem sg y s) = (t_out s', t_sm s') /\ t_flag s' <> Some true /\ t_opts s' = t_opts s /\
  (forall k, (k < nx1)%nat -> t_fun s' k = s_xn (t_out s') k - y_ux1 y (nu1 + k)%nat) /\
  t_adj s' = t_adj s /\ t_z s' = t_z s /\ t_BAbt s' = t_BAbt s /\ t_dzduxt s' = t_dzduxt s /\ t_RSQrq s' = t_RSQrq s.
Proof.
  intros HN. destruct (cont_fun_ok SM ev sg d y s HN) as (i & s' & E & P & _ & EV & FL & R). exists i, s'. split; [exact E|]. split; [exact P|]. split; [exact EV|].
  split; [|exact R]. rewrite FL. unfold flag_after. destruct (t_flag s); discriminate.
Qed.
(** function and adjoint only: the same adjoint as in the full evaluation, whichever way that one takes *)
Lemma cont_fun_adj_l s : nx1 = nx -> exists i s', cont_fun_adj ev sg d y s = Some s' /\ point_ok d y i /\ aseed_ok d y i /\
  ev (mkSO false true false (so_cost (t_opts s))) i (t_out s) (start_mem sg y s) = (t_out s', t_sm s') /\ t_flag s' <> Some true /\ t_opts s' = t_opts s /\
  (forall k, (k < nx)%nat -> t_fun s' k = s_xn (t_out s') k - y_ux1 y (nu1 + k)%nat) /\
  t_z s' = t_z s /\ t_BAbt s' = t_BAbt s /\ t_dzduxt s' = t_dzduxt s /\ t_RSQrq s' = t_RSQrq s /\
  (forall J, adjoint_ok d J i (t_out s') -> forall (Phi X1 : R -> vecR) (dx du dx1 : vecR),
     (forall r, (r < nx)%nat -> is_derive (fun e => Phi e r) 0 (along d J dx du r)) -> (forall r, (r < nx)%nat -> is_derive (fun e => X1 e r) 0 (dx1 r)) ->
     is_derive (fun e => sum nx (fun r => y_pi y r * (X1 e r - Phi e r))) 0 (dot3 d (t_adj s') du dx dx1)).
Proof.
  intros HN. destruct (cont_fun_adj_ok SM ev sg d y s HN) as (i & s' & E & P & AS & EV & FL & OP & HF & A1 & A2 & A3 & R1 & R2 & R3 & R4). exists i, s'. split; [exact E|]. split; [exact P|]. split; [exact AS|]. split; [exact EV|].
  split; [rewrite FL; unfold flag_after; destruct (t_flag s); discriminate|]. split; [exact OP|]. split; [exact HF|]. split; [exact R1|]. split; [exact R2|]. split; [exact R3|]. split; [exact R4|].
  intros J AO Phi X1 dx du dx1 HP HX. apply (adj_derivative d J _ _ Phi X1 dx du dx1 HN A1); auto.
  - intros k Hk. rewrite (A2 k Hk), AO by lia. f_equal. apply sum_ext. intros r Hr. rewrite (AS r) by lia. rewrite (proj2 (Nat.ltb_lt _ _) Hr). apply Rmult_comm.
  - intros k Hk. rewrite (A3 k Hk), AO by lia. f_equal. apply sum_ext. intros r Hr. rewrite (AS r) by lia. rewrite (proj2 (Nat.ltb_lt _ _) Hr). apply Rmult_comm.
Qed.
(** more states at the end of the interval than at its beginning: the seeds do not fit *)
Lemma cont_more_l s : (nx < nx1)%nat -> (0 < nx + nu)%nat -> cont_update ev sg ch d y s = None.
Proof.
  intros HN HV. unfold cont_update. destruct (pass_xu_ok d y (t_in s)) as [i1 [E1 _]]. rewrite E1. cbn [obind]. destruct (pass_guess sg y (t_flag s) (t_sm s)).
  assert (ES : seed_forw d i1 = None).
  { unfold seed_forw. rewrite (oloop_fail _ _ _ (nx * (nx + nu))); [reflexivity|nia|]. intros a. unfold wr. rewrite Nat.ltb_irrefl. reflexivity. }
  rewrite ES. reflexivity.
Qed.
End Cont.

Theorem cont_call_top : forall (SM : Type) (ev : sopts -> sim_in real -> sim_out real -> SM -> sim_out real * SM) sg ch (d : dims) (y : dyn_in real) s, d_nx1 d = d_nx d ->
  exists i s', cont_update ev sg ch d y s = Some s' /\ point_ok d y i /\ fseed_ok d i /\ aseed_ok d y i /\
  ev (t_opts s) i (t_out s) (start_mem sg y s) = (t_out s', t_sm s') /\ t_flag s' <> Some true /\ t_opts s' = t_opts s /\
  (forall k, (k < d_nz d)%nat -> t_z s' k = s_zn (t_out s') k) /\
  (forall (Zc : R -> vecR) (dx du : vecR) r, (r < d_nz d)%nat -> is_derive (fun e => Zc e r) 0 (along d (out_Z d (t_out s')) dx du r) -> is_derive (fun e => Zc e r) 0 (dot2 d (t_dzduxt s') du dx r)) /\
  (forall (Phi X1 : R -> vecR) (dx du dx1 : vecR), agree (d_nx d) (Phi 0) (s_xn (t_out s')) -> agree (d_nx d) (X1 0) (fun k => y_ux1 y (d_nu1 d + k)%nat) ->
     (forall r, (r < d_nx d)%nat -> is_derive (fun e => Phi e r) 0 (along d (out_J d (t_out s')) dx du r)) -> (forall r, (r < d_nx d)%nat -> is_derive (fun e => X1 e r) 0 (dx1 r)) ->
     (forall r, (r < d_nx d)%nat -> t_fun s' r = Phi 0 r - X1 0 r /\ is_derive (fun e => Phi e r - X1 e r) 0 (dot2 d (t_BAbt s') du dx r - dx1 r)) /\
     (y_adj y = true -> (so_adj (t_opts s) = true -> adjoint_ok d (out_J d (t_out s')) i (t_out s')) ->
        is_derive (fun e => sum (d_nx d) (fun r => y_pi y r * (X1 e r - Phi e r))) 0 (dot3 d (t_adj s') du dx dx1))).
Proof. intros. apply cont_call_l. assumption. Qed.

Theorem cont_hess_top : forall (SM : Type) (ev : sopts -> sim_in real -> sim_out real -> SM -> sim_out real * SM) sg ch (d : dims) (y : dyn_in real) s s', d_nx1 d = d_nx d ->
  cont_update ev sg ch d y s = Some s' -> (y_hess y = true -> forall a b, out_H d (t_out s') a b = out_H d (t_out s') b a) -> forall du dx,
  lowquad d (t_RSQrq s') du dx =
    (if so_cost (t_opts s) && negb (y_add_cost y) then 0 else if y_hess y then quad_xu d (out_H d (t_out s')) dx du else lowquad d (t_RSQrq s) du dx) +
    (if so_cost (t_opts s) then y_scaling y * lowquad d (ch (t_sm s')) du dx else 0).
Proof. intros. apply (cont_hess_l ev sg); assumption. Qed.

Theorem cont_fun_top : forall (SM : Type) (ev : sopts -> sim_in real -> sim_out real -> SM -> sim_out real * SM) sg (d : dims) (y : dyn_in real) s, (d_nx1 d <= d_nx d)%nat ->
  exists i s', cont_fun ev sg d y s = Some s' /\ point_ok d y i /\
  ev (mkSO false false false (so_cost (t_opts s))) i (t_out s) (start_mem sg y s) = (t_out s', t_sm s') /\ t_flag s' <> Some true /\ t_opts s' = t_opts s /\
  (forall k, (k < d_nx1 d)%nat -> t_fun s' k = s_xn (t_out s') k - y_ux1 y (d_nu1 d + k)%nat) /\
  t_adj s' = t_adj s /\ t_z s' = t_z s /\ t_BAbt s' = t_BAbt s /\ t_dzduxt s' = t_dzduxt s /\ t_RSQrq s' = t_RSQrq s.
Proof. intros. apply cont_fun_l. assumption. Qed.

Theorem cont_fun_adj_top : forall (SM : Type) (ev : sopts -> sim_in real -> sim_out real -> SM -> sim_out real * SM) sg (d : dims) (y : dyn_in real) s, d_nx1 d = d_nx d ->
  exists i s', cont_fun_adj ev sg d y s = Some s' /\ point_ok d y i /\ aseed_ok d y i /\
  ev (mkSO false true false (so_cost (t_opts s))) i (t_out s) (start_mem sg y s) = (t_out s', t_sm s') /\ t_flag s' <> Some true /\ t_opts s' = t_opts s /\
  (forall k, (k < d_nx d)%nat -> t_fun s' k = s_xn (t_out s') k - y_ux1 y (d_nu1 d + k)%nat) /\
  t_z s' = t_z s /\ t_BAbt s' = t_BAbt s /\ t_dzduxt s' = t_dzduxt s /\ t_RSQrq s' = t_RSQrq s /\
  (forall J, adjoint_ok d J i (t_out s') -> forall (Phi X1 : R -> vecR) (dx du dx1 : vecR),
     (forall r, (r < d_nx d)%nat -> is_derive (fun e => Phi e r) 0 (along d J dx du r)) -> (forall r, (r < d_nx d)%nat -> is_derive (fun e => X1 e r) 0 (dx1 r)) ->
     is_derive (fun e => sum (d_nx d) (fun r => y_pi y r * (X1 e r - Phi e r))) 0 (dot3 d (t_adj s') du dx dx1)).
Proof. intros. apply cont_fun_adj_l. assumption. Qed.

(** the implicit integrator as the solver *)
Lemma flat_div n r c : (r < n)%nat -> ((r + n * c) mod n = r /\ (r + n * c) / n = c)%nat.
Proof. intros H. rewrite (Nat.mul_comm n c). rewrite Nat.mod_add, Nat.div_add by lia. rewrite Nat.mod_small, Nat.div_small by exact H. split; reflexivity. Qed.
Definition join (n : nat) (dx du : vecR) : vecR := fun c => if (c <? n)%nat then dx c else du (c - n)%nat.
Lemma join_x n dx du c : (c < n)%nat -> join n dx du c = dx c.
Proof. intros H. unfold join. rewrite (proj2 (Nat.ltb_lt _ _) H). reflexivity. Qed.
Lemma join_u n dx du c : join n dx du (n + c)%nat = du c.
Proof. unfold join. rewrite (proj2 (Nat.ltb_ge _ _)) by lia. f_equal. lia. Qed.
Theorem cont_irk_top : forall MM p o t0 lu lut F0 sg ch (d : dims) (y : dyn_in real) (s : dyn_st real (irk_mem real)),
  d_nx1 d = d_nx d -> o_nx o = d_nx d -> o_nu o = d_nu d -> (so_forw (t_opts s) || so_hess (t_opts s) = true) ->
  irk_consistent MM (o_nx o) (o_nu o) (o_nz o) (o_np o) -> lu_ok ((o_nx o + o_nz o) * o_ns o) lu -> lu_t_ok ((o_nx o + o_nz o) * o_ns o) lut ->
  exists i s', cont_update (irk_eval (MM p) o t0 lu lut F0) sg ch d y s = Some s' /\ point_ok d y i /\
  let q := irk_options o (t_opts s) in let c := irk_call o t0 i in let m := start_mem sg y s in
  (irk_regular q c lu m F0 (MM p) -> forall U X KK (dk : nat -> vecR) (dx du : vecR) (X1 : R -> vecR) (dx1 : vecR),
     irk_through q c lu m F0 MM p (fun _ => p) U X KK ->
     (forall n k, (n < o_num_steps o)%nat -> (k < (o_nx o + o_nz o) * o_ns o)%nat -> is_derive (fun e => KK n e k) 0 (dk n k)) ->
     (forall r, (r < d_nx d)%nat -> is_derive (fun e => X 0%nat e r) 0 (dx r)) -> (forall k, (k < d_nu d)%nat -> is_derive (fun e => U e k) 0 (du k)) ->
     (forall r, (r < d_nx d)%nat -> is_derive (fun e => X1 e r) 0 (dx1 r)) ->
     (forall r, (r < d_nx d)%nat -> is_derive (fun e => X (o_num_steps o) e r - X1 e r) 0 (dot2 d (t_BAbt s') du dx r - dx1 r)) /\
     (y_adj y = true -> is_derive (fun e => sum (d_nx d) (fun r => y_pi y r * (X1 e r - X (o_num_steps o) e r))) 0 (dot3 d (t_adj s') du dx dx1))).
Proof.
  intros MM p o t0 lu lut F0 sg ch d y s HN HX HU HW HC HL HT.
  destruct (cont_update_ok (irk_mem real) (irk_eval (MM p) o t0 lu lut F0) sg ch d y s HN) as (i & s' & E & P & F & AS & EV & FL & OP & HF & HB & HZ & Hz & HA & _).
  exists i, s'. split; [exact E|]. split; [exact P|]. cbv zeta. intros HR U X KK dk dx du X1 dx1 TH HK D0 DU D1.
  set (q := irk_options o (t_opts s)) in *. set (c := irk_call o t0 i) in *. set (m := start_mem sg y s) in *.
  assert (SE : irk_seed_ok q c).
  { intros _ r cc Hr Hc. cbn [n_S_forw c irk_call]. unfold q, irk_options in Hr, Hc. cbn [o_nx o_nu] in Hr, Hc. rewrite HX. apply F; lia. }
  assert (EJ : forall r cc, (r < d_nx d)%nat -> out_J d (t_out s') r cc = q_S (irk (MM p) q c lu lut m F0) r cc).
  { intros r cc Hr. change (used_guess (irk_mem real) sg y s) with m in EV. unfold irk_eval in EV. rewrite HW in EV. inversion EV as [[EO EM]]. unfold out_J. cbn [s_S_forw]. rewrite HX. destruct (flat_div (d_nx d) r cc Hr) as [-> ->]. reflexivity. }
  assert (DP : forall r, (r < d_nx d)%nat -> is_derive (fun e => X (o_num_steps o) e r) 0 (along d (out_J d (t_out s')) dx du r)).
  { intros r Hr. refine (is_derive_val _ _ _ _ (irk_forward_top MM p q c lu lut m F0 (fun _ => p) U X KK (fun _ => 0) (join (d_nx d) dx du) dk HC HL HR SE TH HK _ _ _ _ _ r _) _).
    - intros r' Hr'. cbn [q irk_options o_nx o_nu] in Hr'. rewrite HX in Hr'. refine (is_derive_val _ _ _ _ (D0 r' Hr') _). change (o_nx q) with (o_nx o). change (o_nu q) with (o_nu o). rewrite HX, HU.
      rewrite (sum_one (d_nx d + d_nu d) r').
      + cbn [n_S_forw c irk_call]. rewrite HX, (proj2 F) by lia. rewrite Nat.eqb_refl, join_x by lia. ring.
      + lia.
      + intros k Hk Hn. cbn [n_S_forw c irk_call]. rewrite HX, (proj2 F) by lia. rewrite (proj2 (Nat.eqb_neq r' k)) by (intros e; apply Hn; symmetry; exact e). ring.
    - intros k Hk. change (o_nu q) with (o_nu o) in Hk. change (o_nx q) with (o_nx o). rewrite HX, join_u. apply DU. lia.
    - intros k Hk. apply is_derive_Reals. apply derivable_pt_lim_const.
    - left. exact HW.
    - right. intros; reflexivity.
    - change (o_nx q) with (o_nx o). lia.
    - change (o_nx q) with (o_nx o). change (o_nu q) with (o_nu o). rewrite HX, HU. rewrite (sum_zero (o_np q) (fun k => _ * 0)) by (intros; ring). rewrite Rplus_0_r. rewrite sum_split. unfold along. f_equal; apply sum_ext; intros k Hk.
      + rewrite EJ, join_x by assumption. reflexivity.
      + rewrite EJ, join_u by assumption. reflexivity. }
  split.
  - intros r Hr. destruct (HB r Hr) as [B1 B2]. apply (fun_derivative d (out_J d (t_out s'))); auto.
  - intros YA. rewrite YA in HA. destruct HA as [A1 A2].
    assert (AO : so_adj (t_opts s) = true -> adjoint_ok d (out_J d (t_out s')) i (t_out s')).
    { intros SA cc Hc. assert (EQ : s_S_adj (t_out s') = q_adj (irk (MM p) q c lu lut m F0)).
      { change (used_guess (irk_mem real) sg y s) with m in EV. unfold irk_eval in EV. rewrite SA in EV. cbn [orb] in EV. inversion EV as [[EO EM]]. reflexivity. }
      rewrite EQ. set (dd := fun k : nat => if (k =? cc)%nat then 1 else 0).
      pose proof (irk_adjoint_forward_top MM p q c lu lut m F0 dd HC HL HT HR SE HW) as AF. change (o_sens_adj q) with (so_adj (t_opts s)) in AF. rewrite SA in AF. specialize (AF eq_refl).
      change (o_nx q) with (o_nx o) in AF. change (o_nu q) with (o_nu o) in AF. rewrite HX, HU in AF.
      assert (pick : forall (g : vecR), sum (d_nx d + d_nu d) (fun k => g k * dd k) = g cc).
      { intros g. rewrite (sum_one _ cc); [unfold dd; rewrite Nat.eqb_refl; ring|exact Hc|]. intros k Hk Hn. unfold dd. rewrite (proj2 (Nat.eqb_neq k cc) Hn). ring. }
      rewrite (sum_ext (d_nx d) (fun r => n_S_adj c r * _) (fun r => i_S_adj i r * out_J d (t_out s') r cc)) in AF.
      2:{ intros r Hr. rewrite pick, EJ by exact Hr. reflexivity. }
      rewrite (sum_zero (d_nu d) (fun k => n_S_adj c (d_nx d + k)%nat * dd (d_nx d + k)%nat)) in AF.
      2:{ intros k Hk. cbn [n_S_adj c irk_call]. rewrite AS by lia. rewrite (proj2 (Nat.ltb_ge _ _)) by lia. ring. }
      rewrite Rplus_0_r in AF. rewrite AF. symmetry.
      rewrite (sum_ext (d_nx d) (fun r => q_adj _ r * _) (fun r => q_adj (irk (MM p) q c lu lut m F0) r * dd r)).
      2:{ intros r Hr. rewrite pick. cbn [n_S_forw c irk_call]. rewrite HX, (proj2 F) by lia. reflexivity. }
      rewrite <- (sum_split (d_nx d) (d_nu d) (fun k => q_adj (irk (MM p) q c lu lut m F0) k * dd k)). apply pick. }
    apply (adj_derivative d (out_J d (t_out s')) _ _ (X (o_num_steps o)) X1 dx du dx1 HN A1); auto; destruct (so_adj (t_opts s)); try (apply A2).
    + intros k Hk. rewrite (proj1 A2 k Hk). rewrite (AO eq_refl) by lia. f_equal. apply sum_ext. intros r Hr. rewrite (AS r) by lia. rewrite (proj2 (Nat.ltb_lt _ _) Hr). apply Rmult_comm.
    + intros k Hk. rewrite (proj2 A2 k Hk). rewrite (AO eq_refl) by lia. f_equal. apply sum_ext. intros r Hr. rewrite (AS r) by lia. rewrite (proj2 (Nat.ltb_lt _ _) Hr). apply Rmult_comm.
Qed.

(** discrete dynamics *)
Lemma adj_general (d : dims) (B : matR) (a pi : vecR) (Phi X1 : R -> vecR) (dx du dx1 : vecR) :
  (forall k, (k < d_nx1 d)%nat -> a (d_nu d + d_nx d + k)%nat = pi k) -> (forall k, (k < d_nu d + d_nx d)%nat -> a k = - sum (d_nx1 d) (fun r => B k r * pi r)) ->
  (forall r, (r < d_nx1 d)%nat -> is_derive (fun e => Phi e r) 0 (dot2 d B du dx r)) -> (forall r, (r < d_nx1 d)%nat -> is_derive (fun e => X1 e r) 0 (dx1 r)) ->
  is_derive (fun e => sum (d_nx1 d) (fun r => pi r * (X1 e r - Phi e r))) 0 (dot3 d a du dx dx1).
Proof.
  intros H1 H2 HP HX. apply (is_derive_val _ _ (sum (d_nx1 d) (fun r => pi r * (dx1 r - dot2 d B du dx r)))).
  - apply is_derive_sum. intros r Hr. apply scal_der. apply (is_derive_minus (fun e => X1 e r) (fun e => Phi e r) 0 _ _ (HX r Hr) (HP r Hr)).
  - unfold dot3, dot2. rewrite (sum_ext (d_nx1 d) (fun k => a (d_nu d + d_nx d + k)%nat * dx1 k) (fun k => pi k * dx1 k)) by (intros k Hk; rewrite H1 by exact Hk; reflexivity).
    rewrite (sum_ext (d_nu d) (fun k => a k * du k) (fun k => - sum (d_nx1 d) (fun r => pi r * (B k r * du k)))).
    2:{ intros k Hk. rewrite H2 by lia. rewrite <- (sum_opp (d_nx1 d)). rewrite <- sum_opp. rewrite <- sum_scal_r. apply sum_ext. intros; ring. }
    rewrite (sum_ext (d_nx d) (fun k => a (d_nu d + k)%nat * dx k) (fun k => - sum (d_nx1 d) (fun r => pi r * (B (d_nu d + k)%nat r * dx k)))).
    2:{ intros k Hk. rewrite H2 by lia. rewrite <- (sum_opp (d_nx1 d)). rewrite <- sum_opp. rewrite <- sum_scal_r. apply sum_ext. intros; ring. }
    rewrite !sum_opp. rewrite (sum_swap (d_nu d)), (sum_swap (d_nx d)).
    rewrite (sum_ext (d_nx1 d) (fun j => sum (d_nu d) (fun i => pi j * (B i j * du i))) (fun j => pi j * sum (d_nu d) (fun i => B i j * du i))) by (intros; apply sum_scal).
    rewrite (sum_ext (d_nx1 d) (fun j => sum (d_nx d) (fun i => pi j * (B (d_nu d + i)%nat j * dx i))) (fun j => pi j * sum (d_nx d) (fun i => B (d_nu d + i)%nat j * dx i))) by (intros; apply sum_scal).
    rewrite (sum_ext (d_nx1 d) (fun r => pi r * (dx1 r - _)) (fun r => pi r * dx1 r - (pi r * sum (d_nu d) (fun k => B k r * du k) + pi r * sum (d_nx d) (fun k => B (d_nu d + k)%nat r * dx k)))) by (intros; ring).
    rewrite sum_minus, sum_plus. ring.
Qed.
Lemma disc_defect_val M d y (f : vecR) k : (k < d_nx1 d)%nat -> disc_defect M d y f k = phi M (disc_x d y) (y_ux y) k - y_ux1 y (d_nu1 d + k)%nat.
Proof.
  intros Hk. unfold disc_defect, cpv. rewrite (proj2 (Nat.ltb_lt _ _) Hk), inblk_in by lia. rewrite Nat.sub_0_r. cbn [Nat.add].
  change (- (1) * y_ux1 y (d_nu1 d + k)%nat + phi M (disc_x d y) (y_ux y) k = phi M (disc_x d y) (y_ux y) k - y_ux1 y (d_nu1 d + k)%nat). ring.
Qed.
Theorem disc_top : forall (M : disc_model real) (d : dims) (y : dyn_in real) (s : disc_st real) (X U X1 : R -> vecR) (dx du dx1 : vecR), disc_consistent M (d_nx d) (d_nu d) (d_nx1 d) ->
  agree (d_nx d) (X 0) (fun k => y_ux y (d_nu d + k)%nat) -> agree (d_nu d) (U 0) (y_ux y) -> agree (d_nx1 d) (X1 0) (fun k => y_ux1 y (d_nu1 d + k)%nat) ->
  (forall k, (k < d_nx d)%nat -> is_derive (fun e => X e k) 0 (dx k)) -> (forall k, (k < d_nu d)%nat -> is_derive (fun e => U e k) 0 (du k)) -> (forall k, (k < d_nx1 d)%nat -> is_derive (fun e => X1 e k) 0 (dx1 k)) ->
  let s' := disc_update M d y s in
  (forall r, (r < d_nx1 d)%nat -> c_fun s' r = phi M (X 0) (U 0) r - X1 0 r /\ is_derive (fun e => phi M (X e) (U e) r - X1 e r) 0 (dot2 d (c_BAbt s') du dx r - dx1 r)) /\
  (y_adj y = true -> is_derive (fun e => sum (d_nx1 d) (fun r => y_pi y r * (X1 e r - phi M (X e) (U e) r))) 0 (dot3 d (c_adj s') du dx dx1)) /\
  agree (d_nx1 d) (c_fun (disc_fun M d y s)) (c_fun s') /\
  (forall s'', disc_fun_adj M d y s = Some s'' -> agree (d_nx1 d) (c_fun s'') (c_fun s') /\ agree (d_nu d + d_nx d + d_nx1 d) (c_adj s'') (c_adj s') /\ c_BAbt s'' = c_BAbt s) /\
  ((d_nx1 d <= d_nu d + d_nx d)%nat -> exists s'', disc_fun_adj M d y s = Some s'').
Proof.
  intros M d y s X U X1 dx du dx1 [HL HD] HX0 HU0 HX1 DX DU D1. cbv zeta.
  assert (LX : agree (d_nx d) (X 0) (disc_x d y)) by (intros k Hk; rewrite HX0 by exact Hk; reflexivity).
  destruct (HL (X 0) (disc_x d y) (U 0) (y_ux y) LX HU0) as [L1 L2].
  assert (DP : forall r, (r < d_nx1 d)%nat -> is_derive (fun e => phi M (X e) (U e) r) 0 (dot2 d (c_BAbt (disc_update M d y s)) du dx r)).
  { intros r Hr. refine (is_derive_val _ _ _ _ (HD X U dx du DX DU r Hr) _). unfold dot2, disc_update. cbn [c_BAbt]. unfold disc_jac, gecp. rewrite (inblk_in 0 (d_nx1 d) r) by lia.
    f_equal; apply sum_ext; intros k Hk; rewrite inblk_in by lia; cbn [andb]; rewrite !Nat.sub_0_r, L2 by lia; reflexivity. }
  split.
  { intros r Hr. split; [unfold disc_update; cbn [c_fun]; rewrite disc_defect_val by exact Hr; rewrite (L1 r Hr), (HX1 r Hr); reflexivity|].
    apply (is_derive_minus (fun e => phi M (X e) (U e) r) (fun e => X1 e r) 0 _ _ (DP r Hr) (D1 r Hr)). }
  split.
  { intros YA. apply (adj_general d (c_BAbt (disc_update M d y s)) _ _ (fun e => phi M (X e) (U e)) X1); auto.
    - intros k Hk. unfold disc_update. cbn [c_adj]. rewrite YA. apply adj_pi_hi. exact Hk.
    - intros k Hk. unfold disc_update. cbn [c_adj c_BAbt]. rewrite YA. rewrite adj_pi_lo, adj_mult_val by exact Hk. reflexivity. }
  split. { intros k Hk. unfold disc_update, disc_fun. cbn [c_fun]. reflexivity. }
  split.
  - intros s'' E. unfold disc_fun_adj in E. destruct (_ || _); [|discriminate]. inversion E; subst s''. unfold disc_update. cbn [c_fun c_adj c_BAbt]. split; [intros k Hk; reflexivity|]. split; [|reflexivity].
    intros k Hk. destruct (y_adj y); [|reflexivity]. destruct (Nat.lt_ge_cases k (d_nu d + d_nx d)) as [L|L].
    + rewrite !adj_pi_lo, !adj_mult_val by exact L. f_equal. apply sum_ext. intros r Hr. unfold disc_jac, gecp. rewrite !inblk_in by lia. reflexivity.
    + replace k with (d_nu d + d_nx d + (k - (d_nu d + d_nx d)))%nat by lia. rewrite !adj_pi_hi by lia. reflexivity.
  - intros HN. unfold disc_fun_adj. rewrite (proj2 (Nat.leb_le _ _) HN). eexists. reflexivity.
Qed.
