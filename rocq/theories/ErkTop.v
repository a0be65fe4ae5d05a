(** The sensitivity theorems for whole runs of the explicit integrator. *)
From Coq Require Import ZArith List Bool Lia Reals Lra Psatz.
From Coquelicot Require Import Coquelicot.
From Verif Require Import Arith Vec LinModel LinProofs RSum Poly CollModel CollTop ErkModel ErkProofs ErkSens ErkAdj ErkHess.
Import ListNotations.
Open Scope R_scope.

(** the input with x, u, p moved by t along (dx, du, dp); work arrays as in [G t], whatever that is *)
Definition moved (inp : erk_in real) (dx du dp : vecR) (G : R -> erk_in real) (t : R) : erk_in real :=
  mkErkIn (fun k => i_x inp k + t * dx k) (fun k => i_u inp k + t * du k) (fun k => i_p inp k + t * dp k) (i_T inp) (i_S_forw inp) (i_S_adj (G t)) (i_stale (G t)) (i_stale_adj (G t)) (i_stale_S (G t)).
Definition unit (q k : nat) : R := if (k =? q)%nat then 1 else 0.
Definition zero (k : nat) : R := 0.
(** dimensions of the options match *)
Definition dims (o : erk_opts real) (nx nu np : nat) : Prop := e_nx o = nx /\ e_nu o = nu /\ e_np o = np.

Lemma line_derive (a d : R) : is_derive (fun t => a + t * d) 0 d.
Proof. auto_derive; [trivial|lra]. Qed.
Lemma line_derive' (a d e : R) : d = e -> is_derive (fun t => a + t * d) 0 e.
Proof. intros ->. apply line_derive. Qed.
Lemma sim_some (M : erk_model real) o inp out : sim_erk M o inp = Some out -> out = mkErkOut (erk_traj M o inp (e_num_steps o)) (if e_sens_forw o then view (e_nx o) (erk_traj M o inp (e_num_steps o)) else i_stale_S inp)
  (view (off_Sp o) (erk_traj M o inp (e_num_steps o))) (if e_sens_adj o || e_sens_hess o then adj_traj M o inp (e_num_steps o) else i_stale_S inp)
  (if e_sens_hess o then hess_out (e_nx o + e_nu o) (view (e_nx o + e_nu o) (adj_traj M o inp (e_num_steps o))) (i_stale_S inp) else i_stale_S inp).
Proof. unfold sim_erk. destruct (erk_hess_oob o); intros E; [discriminate E|]. injection E as <-. reflexivity. Qed.

Section Top.
Variable M : erk_model real.
Variable nx nu np : nat.
Variable Jx Ju Jp : jac.
Hypothesis HM : consistent M nx nu np Jx Ju Jp.
Variable o : erk_opts real.
Hypothesis Hd : dims o nx nu np.
Variable inp : erk_in real.
Variable out : erk_out real.
Hypothesis Run : sim_erk M o inp = Some out.
Variable G : R -> erk_in real.
Variable f fp ad hs : bool.
Let o' := with_sens o f fp ad hs.

Lemma forward_state : forall outt, (forall t, sim_erk M o' (moved inp zero zero zero G t) = Some (outt t)) -> forall i, (i < nx)%nat -> o_xn (outt 0) i = o_xn out i.
Proof.
  intros outt Ht i Hi. destruct Hd as (Ox & Ou & Op). rewrite (sim_some _ _ _ _ Run), (sim_some _ _ _ _ (Ht 0)). cbn [o_xn].
  apply (curve_traj M nx nu np Jx Ju Jp HM o Ox Ou Op inp f fp ad hs (moved inp zero zero zero G) zero zero); try exact Hi; intros; cbn [i_T i_p i_u i_x moved]; try (apply line_derive'; reflexivity); try reflexivity; intros k Hk; cbn; unfold zero; lra.
Qed.
Lemma forward_sens q : e_sens_forw o = true -> (q < nx + nu)%nat ->
  forall outt, (forall t, sim_erk M o' (moved inp (fun k => i_S_forw inp (nx * q + k)%nat) (fun k => unit q (nx + k)) zero G t) = Some (outt t)) ->
  forall i, (i < nx)%nat -> is_derive (fun t => o_xn (outt t) i) 0 (o_S_forw out (nx * q + i)%nat).
Proof.
  intros Fw Hq outt Ht i Hi. destruct Hd as (Ox & Ou & Op). rewrite (sim_some _ _ _ _ Run). cbn [o_S_forw]. rewrite Fw. unfold view. rewrite Ox, Nat.add_assoc.
  apply is_derive_ext with (fun t => erk_traj M o' (moved inp (fun k => i_S_forw inp (nx * q + k)%nat) (fun k => unit q (nx + k)) zero G t) (e_num_steps o) i).
  { intros t. rewrite (sim_some _ _ _ _ (Ht t)). reflexivity. }
  assert (Fwd : e_fwd o = true) by (unfold e_fwd; rewrite Fw; reflexivity).
  apply (traj_tangent M nx nu np Jx Ju Jp HM o Ox Ou Op inp Fwd q ltac:(lia) f fp ad hs); try exact Hi; try (intros; cbn [i_T i_p i_u i_x moved]; reflexivity).
  - intros k Hk. cbn [i_p moved]. unfold zero. rr; change (num real) with R in *; lra.
  - intros k Hk. cbn [i_u moved]. rr; change (num real) with R in *; lra.
  - intros k Hk. cbn [i_x moved]. rr; change (num real) with R in *; lra.
  - intros k Hk. apply line_derive'. unfold zero, dP. destruct (Nat.leb_spec (nx + nu) q); [lia|reflexivity].
  - intros k Hk. apply line_derive'. unfold unit, dU. destruct (Nat.eqb_spec (nx + k) q).
    + destruct (Nat.leb_spec nx q); [|lia]. destruct (Nat.ltb_spec q (nx + nu)); [|lia]. destruct (Nat.eqb_spec k (q - nx)); [reflexivity|lia].
    + destruct (Nat.leb_spec nx q); [|reflexivity]. destruct (Nat.eqb_spec k (q - nx)); [lia|]. rewrite andb_false_r. reflexivity.
  - intros k Hk. apply line_derive'. destruct (Nat.ltb_spec q (nx + nu)); [reflexivity|lia].
Qed.
Lemma forward_sens_p q : e_sens_forw_p o = true -> (q < np)%nat ->
  forall outt, (forall t, sim_erk M o' (moved inp zero zero (unit q) G t) = Some (outt t)) ->
  forall i, (i < nx)%nat -> is_derive (fun t => o_xn (outt t) i) 0 (o_S_p out (nx * q + i)%nat).
Proof.
  intros Fw Hq outt Ht i Hi. destruct Hd as (Ox & Ou & Op). rewrite (sim_some _ _ _ _ Run). cbn [o_S_p]. unfold view.
  assert (Fwd : e_fwd o = true) by (unfold e_fwd; rewrite Fw; apply orb_true_r).
  unfold off_Sp. rewrite (nf_eq nx nu np o Ox Ou Op Fwd) || rewrite (nf_eq nx nu o Ox Ou Fwd). rewrite Ox. replace (nx + nx * (nx + nu) + (nx * q + i))%nat with (nx + nx * (nx + nu + q) + i)%nat by lia.
  apply is_derive_ext with (fun t => erk_traj M o' (moved inp zero zero (unit q) G t) (e_num_steps o) i).
  { intros t. rewrite (sim_some _ _ _ _ (Ht t)). reflexivity. }
  apply (traj_tangent M nx nu np Jx Ju Jp HM o Ox Ou Op inp Fwd (nx + nu + q)%nat ltac:(unfold nfp, e_nfp; rewrite Fw, Op; lia) f fp ad hs); try exact Hi; try (intros; cbn [i_T i_p i_u i_x moved]; reflexivity).
  - intros k Hk. cbn [i_p moved]. rr; change (num real) with R in *; lra.
  - intros k Hk. cbn [i_u moved]. unfold zero. rr; change (num real) with R in *; lra.
  - intros k Hk. cbn [i_x moved]. unfold zero. rr; change (num real) with R in *; lra.
  - intros k Hk. apply line_derive'. unfold unit, dP. destruct (Nat.leb_spec (nx + nu) (nx + nu + q)); [|lia]. cbn [andb]. replace (nx + nu + q - (nx + nu))%nat with q by lia. reflexivity.
  - intros k Hk. apply line_derive'. unfold zero, dU. destruct (Nat.ltb_spec (nx + nu + q) (nx + nu)); [lia|]. rewrite andb_false_r. reflexivity.
  - intros k Hk. apply line_derive'. destruct (Nat.ltb_spec (nx + nu + q) (nx + nu)); [lia|reflexivity].
Qed.
Lemma adjoint_sens dx du : e_sens_adj o = true \/ e_sens_hess o = true ->
  forall outt, (forall t, sim_erk M o' (moved inp dx du zero G t) = Some (outt t)) ->
  is_derive (fun t => sum nx (fun i => i_S_adj inp i * o_xn (outt t) i)) 0 (sum nx (fun k => o_S_adj out k * dx k) + sum nu (fun k => o_S_adj out (nx + k)%nat * du k)).
Proof.
  intros Fa outt Ht. destruct Hd as (Ox & Ou & Op). rewrite (sim_some _ _ _ _ Run). cbn [o_S_adj]. replace (e_sens_adj o || e_sens_hess o)%bool with true by (destruct Fa as [-> | ->]; [reflexivity|symmetry; apply orb_true_r]).
  apply is_derive_ext with (fun t => sum nx (fun i => i_S_adj inp i * erk_traj M o' (moved inp dx du zero G t) (e_num_steps o) i)).
  { intros t. rewrite (sim_some _ _ _ _ (Ht t)). reflexivity. }
  apply (adjoint_derivative M nx nu np Jx Ju Jp HM o Ox Ou Op inp f fp ad hs); try (intros; cbn [i_T i_p i_u i_x moved]; reflexivity).
  - intros k Hk. cbn [i_p moved]. unfold zero. rr; change (num real) with R in *; lra.
  - intros k Hk. cbn [i_u moved]. rr; change (num real) with R in *; lra.
  - intros k Hk. cbn [i_x moved]. rr; change (num real) with R in *; lra.
  - intros k Hk. apply line_derive'. reflexivity.
  - intros k Hk. apply line_derive'. reflexivity.
  - intros k Hk. apply line_derive'. reflexivity.
Qed.
End Top.

(** both sweeps in one run *)
Lemma transposed M nx nu np Jx Ju Jp : consistent M nx nu np Jx Ju Jp -> forall o, dims o nx nu np -> forall inp out, sim_erk M o inp = Some out ->
  e_sens_forw o = true -> e_sens_adj o = true \/ e_sens_hess o = true -> forall q, (q < nx + nu)%nat ->
  sum nx (fun i => i_S_adj inp i * o_S_forw out (nx * q + i)%nat) = sum nx (fun k => o_S_adj out k * i_S_forw inp (nx * q + k)%nat) + (if (nx <=? q)%nat then o_S_adj out q else 0).
Proof.
  intros HM o Hd inp out Run Fw Fa q Hq.
  set (dx := fun k => i_S_forw inp (nx * q + k)%nat). set (du := fun k => unit q (nx + k)).
  assert (Ht : exists outt, forall t, sim_erk M (with_sens o false false false false) (moved inp dx du zero (fun _ => inp) t) = Some (outt t)) by (eexists; intros t; reflexivity).
  destruct Ht as [outt Ht].
  pose proof (adjoint_sens M nx nu np Jx Ju Jp HM o Hd inp out Run _ _ _ _ _ dx du Fa outt Ht) as D1.
  pose proof (derive_sum nx (fun i t => i_S_adj inp i * o_xn (outt t) i) 0 (fun i => i_S_adj inp i * o_S_forw out (nx * q + i)%nat)
    (fun i Hi => derive_scal _ _ _ _ (forward_sens M nx nu np Jx Ju Jp HM o Hd inp out Run _ _ _ _ _ q Fw Hq outt Ht i Hi))) as D2. cbv beta in D2.
  apply is_derive_unique in D1. apply is_derive_unique in D2. rewrite D2 in D1. rewrite D1. f_equal. unfold du. destruct (Nat.leb_spec nx q) as [L|L].
  - rewrite (sum_one nu (q - nx)); [|lia|].
    + replace (nx + (q - nx))%nat with q by lia. unfold unit. rewrite Nat.eqb_refl. lra.
    + intros k _ Ne. unfold unit. destruct (Nat.eqb_spec (nx + k) q); [lia|lra].
  - apply sum_zero. intros k _. unfold unit. destruct (Nat.eqb_spec (nx + k) q); [lia|lra].
Qed.

Lemma hessian M nx nu np Jx Ju Jp H : consistent M nx nu np Jx Ju Jp -> consistent2 M nx nu np Jx Ju H -> forall o, dims o nx nu np -> forall inp out, sim_erk M o inp = Some out ->
  e_sens_hess o = true -> forall G fp ad hs q c, (q < nx + nu)%nat -> (c < nx + nu)%nat ->
  forall outt, (forall t, sim_erk M (with_sens o true fp ad hs) (moved inp (fun k => i_S_forw inp (nx * c + k)%nat) (fun k => unit c (nx + k)) zero G t) = Some (outt t)) ->
  is_derive (fun t => sum nx (fun r => i_S_adj inp r * o_S_forw (outt t) (nx * q + r)%nat)) 0 (o_S_hess out (q + (nx + nu) * c)%nat).
Proof.
  intros HM HM2 o Hd inp out Run Fh G fp ad hs q c Hq Hc outt Ht. pose proof Hd as (Ox & Ou & Op).
  assert (Fwd : e_fwd o = true).
  { destruct (e_fwd o) eqn:E; [reflexivity|]. unfold sim_erk, erk_hess_oob in Run. rewrite Fh, E, Ox, Ou in Run. cbn [andb negb] in Run. destruct (Nat.ltb_spec 0 (nx + nu)); [discriminate Run|lia]. }
  rewrite (sim_some _ _ _ _ Run). cbn [o_S_hess]. rewrite Fh, Ox, Ou.
  set (it := moved inp (fun k => i_S_forw inp (nx * c + k)%nat) (fun k => unit c (nx + k)) zero G) in *. set (o' := with_sens o true fp ad hs) in *.
  assert (Eh : hess_out (nx + nu) (view (nx + nu) (adj_traj M o inp (e_num_steps o))) (i_stale_S inp) (q + (nx + nu) * c)%nat =
     adj_traj M o inp (e_num_steps o) (nx + nu + (if (c <=? q)%nat then pidx (nx + nu) q c else pidx (nx + nu) c q))%nat).
  { destruct (Nat.leb_spec c q) as [L|L].
    - apply (proj1 (hess_out_spec (nx + nu) (view (A := real) (nx + nu) (adj_traj M o inp (e_num_steps o))) (i_stale_S inp) q c ltac:(lia))).
    - apply (proj2 (hess_out_spec (nx + nu) (view (A := real) (nx + nu) (adj_traj M o inp (e_num_steps o))) (i_stale_S inp) c q ltac:(lia))). }
  rewrite Eh. apply is_derive_ext with (fun t => sum nx (fun i => i_S_adj inp i * col nx (erk_traj M o' (it t) (e_num_steps o)) q i)).
  { intros t. rewrite (sim_some _ _ _ _ (Ht t)). cbn [o_S_forw]. change (e_sens_forw o') with true. cbv iota. apply sum_ext. intros i _. f_equal. unfold view, col. change (e_nx o') with (e_nx o). rewrite Ox. f_equal. lia. }
  apply (hess_derivative M nx nu np Jx Ju Jp H HM HM2 o Ox Ou Op Fwd inp q c Hq Hc true fp ad hs); try exact Fh; try (intros; cbn [i_T i_p i_u i_x moved]; reflexivity).
  - intros k Hk. unfold it. cbn [i_p moved]. unfold zero. rr; change (num real) with R in *; lra.
  - intros k Hk. unfold it. cbn [i_u moved]. rr; change (num real) with R in *; lra.
  - intros k Hk. unfold it. cbn [i_x moved]. rr; change (num real) with R in *; lra.
  - intros k Hk. apply line_derive'. reflexivity.
  - intros k Hk. apply line_derive'. reflexivity.
  - intros k Hk. apply line_derive'. reflexivity.
Qed.
Lemma hessian_sym M nx nu : forall o inp out, e_nx o = nx -> e_nu o = nu -> sim_erk M o inp = Some out -> e_sens_hess o = true -> forall i j, (i < nx + nu)%nat -> (j < nx + nu)%nat ->
  o_S_hess out (i + (nx + nu) * j)%nat = o_S_hess (A := real) out (j + (nx + nu) * i)%nat.
Proof.
  intros o inp out Ox Ou Run Fh i j Hi Hj. rewrite (sim_some _ _ _ _ Run). cbn [o_S_hess]. rewrite Fh, Ox, Ou. destruct (Nat.le_ge_cases j i) as [L|L].
  - destruct (hess_out_spec (nx + nu) (view (A := real) (nx + nu) (adj_traj M o inp (e_num_steps o))) (i_stale_S inp) i j ltac:(lia)) as [E1 E2]. rewrite E1, E2. reflexivity.
  - destruct (hess_out_spec (nx + nu) (view (A := real) (nx + nu) (adj_traj M o inp (e_num_steps o))) (i_stale_S inp) j i ltac:(lia)) as [E1 E2]. rewrite E1, E2. reflexivity.
Qed.

(** the simulated state is the Runge-Kutta recursion over num_steps steps of length T / num_steps *)
Lemma runge_kutta M nx nu np Jx Ju Jp : consistent M nx nu np Jx Ju Jp -> forall o, dims o nx nu np -> forall inp out, sim_erk M o inp = Some out ->
  forall (X : nat -> vecR) (k : nat -> nat -> vecR), let h := i_T inp / INR (e_num_steps o) in
  (forall i, (i < nx)%nat -> X 0%nat i = i_x inp i) ->
  (forall n s i, (n < e_num_steps o)%nat -> (s < e_ns o)%nat -> (i < nx)%nat -> k n s i = expl_ode_fun M (i_p inp) (fun l => X n l + h * sum s (fun j => e_A o j s * k n j l)) (i_u inp) i) ->
  (forall n i, (n < e_num_steps o)%nat -> (i < nx)%nat -> X (S n) i = X n i + h * sum (e_ns o) (fun s => e_b o s * k n s i)) ->
  forall i, (i < nx)%nat -> o_xn out i = X (e_num_steps o) i.
Proof.
  intros HM o (Ox & Ou & Op) inp out Run X k h HX0 Hk HX i Hi. rewrite (sim_some _ _ _ _ Run). cbn [o_xn].
  assert (Eh : e_step o inp = h) by (unfold e_step, h; rewrite of_nat_real; reflexivity).
  assert (G : forall n, (n <= e_num_steps o)%nat -> agree nx (erk_traj M o inp n) (X n)).
  { induction n as [|n IH]; intros Hn.
    - intros j Hj. cbn [erk_traj]. rewrite (init_x nx o Ox) by exact Hj. symmetry. apply HX0, Hj.
    - specialize (IH ltac:(lia)).
      assert (GK : forall s, (s < e_ns o)%nat -> forall j, (j < nx)%nat -> erk_K M o inp (erk_traj M o inp n) (i_stale inp n) s j = k n s j).
      { induction s as [s IHs] using lt_wf_ind. intros Hs j Hj. rewrite erk_K_row by exact Hs. rewrite (rhs_x M nx nu np Jx Ju Jp HM o Ox) by exact Hj. rewrite Hk by (assumption || lia).
        apply (c_loc _ _ _ _ _ _ _ HM); try (intros l Hl; reflexivity); [|exact Hj]. intros l Hl. rewrite stage_arg_sum, Eh, <- sum_scal. f_equal; [apply IH, Hl|]. apply sum_ext. intros q Hq. rewrite IHs by (exact Hq || lia). lra. }
      intros j Hj. cbn [erk_traj]. rewrite erk_step_sum, Eh, HX by (assumption || lia). rewrite <- sum_scal. f_equal; [apply IH, Hj|]. apply sum_ext. intros s Hs. rewrite GK by assumption. lra. }
  apply G; [lia|exact Hi].
Qed.
