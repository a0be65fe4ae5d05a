(** The statements about the implicit integrator. *)
From Coq Require Import ZArith List Bool Arith Lia Reals Lra.
From Coquelicot Require Import Coquelicot.
From Verif Require Import Arith Vec LinModel CollModel CollTop RSum BghAdjProofs MeritGradProofs IrkModel IrkSpec IrkProofs IrkSens IrkFwd IrkAdj IrkHess IrkNewton.
Import ListNotations.
Open Scope R_scope.

Lemma step_h (o : irk_opts real) (inp : irk_in real) : step o inp = irk_h o inp.
Proof. unfold step, irk_h. rewrite of_nat_real. reflexivity. Qed.
Lemma regular_of MM p o inp lu m F0 : irk_regular o inp lu m F0 (MM p) -> regular MM p o inp lu m F0 (o_num_steps o).
Proof. intros H n Hn. rewrite tm_INR, step_h. exact (H n Hn). Qed.
Lemma irk_adj (M : irk_model real) o inp lu lut m F0 : o_sens_adj o || o_sens_hess o = true ->
  q_adj (irk M o inp lu lut m F0) = fst (backward M o inp lut (o_num_steps o) (s_rec (forward M o inp lu m F0 (o_num_steps o))) (n_S_adj inp, fun _ _ => 0)) /\
  q_hess (irk M o inp lu lut m F0) = mirror_u (A := real) (snd (backward M o inp lut (o_num_steps o) (s_rec (forward M o inp lu m F0 (o_num_steps o))) (n_S_adj inp, fun _ _ => 0))).
Proof. intros W. unfold irk. rewrite W. change (n0 (a := real)) with 0. destruct (backward _ _ _ _ _ _ _) as [l H]. split; reflexivity. Qed.

Lemma irk_S (M : irk_model real) o inp lu lut m F0 : q_S (irk M o inp lu lut m F0) = s_S (forward M o inp lu m F0 (o_num_steps o)) /\ q_Sp (irk M o inp lu lut m F0) = s_Sp (forward M o inp lu m F0 (o_num_steps o)) /\
  q_x (irk M o inp lu lut m F0) = s_x (forward M o inp lu m F0 (o_num_steps o)).
Proof. unfold irk. destruct (o_sens_adj o || o_sens_hess o); [destruct (backward _ _ _ _ _ _ _)|]; repeat split; reflexivity. Qed.

Theorem irk_forward_top : forall MM p o inp lu lut m F0 P U X KK (dp d : vecR) (dk : nat -> vecR),
  irk_consistent MM (o_nx o) (o_nu o) (o_nz o) (o_np o) -> lu_ok ((o_nx o + o_nz o) * o_ns o) lu -> irk_regular o inp lu m F0 (MM p) -> irk_seed_ok o inp ->
  irk_through o inp lu m F0 MM p P U X KK ->
  (forall n k, (n < o_num_steps o)%nat -> (k < (o_nx o + o_nz o) * o_ns o)%nat -> is_derive (fun e => KK n e k) 0 (dk n k)) ->
  (forall r, (r < o_nx o)%nat -> is_derive (fun e => X 0%nat e r) 0 (sum (o_nx o + o_nu o) (fun c => n_S_forw inp r c * d c))) ->
  (forall c, (c < o_nu o)%nat -> is_derive (fun e => U e c) 0 (d (o_nx o + c)%nat)) -> (forall c, (c < o_np o)%nat -> is_derive (fun e => P e c) 0 (dp c)) ->
  o_sens_forw o || o_sens_hess o = true \/ (forall c, (c < o_nx o + o_nu o)%nat -> d c = 0) -> o_sens_forw_p o = true \/ (forall c, (c < o_np o)%nat -> dp c = 0) ->
  forall r, (r < o_nx o)%nat -> is_derive (fun e => X (o_num_steps o) e r) 0
    (sum (o_nx o + o_nu o) (fun c => q_S (irk (MM p) o inp lu lut m F0) r c * d c) + sum (o_np o) (fun c => q_Sp (irk (MM p) o inp lu lut m F0) r c * dp c)).
Proof.
  intros MM p o inp lu lut m F0 P U X KK dp d dk HC LU HR HI [HX [P0 [U0 [X0 K0]]]] DK DX DU DP W WP r Hr.
  rewrite <- step_h in HX.
  pose proof (forward_derivative MM p o inp lu HC m F0 (o_num_steps o) P U X KK HX P0 U0 X0 K0 (fun r => sum (o_nx o + o_nu o) (fun c => n_S_forw inp r c * d c)) dk (fun c => d (o_nx o + c)%nat) dp DK DX DU DP LU
    (regular_of _ _ _ _ _ _ _ HR) d W WP HI (fun _ _ => eq_refl) (fun _ _ => eq_refl) (o_num_steps o) (Nat.le_refl _)) as [A _].
  refine (is_derive_val _ _ _ _ (curve_derive MM o inp (o_num_steps o) P U X KK HX (fun r => sum (o_nx o + o_nu o) (fun c => n_S_forw inp r c * d c)) dk DK DX (o_num_steps o) (Nat.le_refl _) r Hr) _).
  rewrite (A r Hr). destruct (irk_S (MM p) o inp lu lut m F0) as [-> [-> _]]. reflexivity.
Qed.

Theorem irk_adjoint_top : forall MM p o inp lu lut m F0 U X KK (dx0 du : vecR) (dk : nat -> vecR),
  irk_consistent MM (o_nx o) (o_nu o) (o_nz o) (o_np o) -> lu_t_ok ((o_nx o + o_nz o) * o_ns o) lut -> irk_regular o inp lu m F0 (MM p) ->
  irk_through o inp lu m F0 MM p (fun _ => p) U X KK ->
  (forall n k, (n < o_num_steps o)%nat -> (k < (o_nx o + o_nz o) * o_ns o)%nat -> is_derive (fun e => KK n e k) 0 (dk n k)) ->
  (forall r, (r < o_nx o)%nat -> is_derive (fun e => X 0%nat e r) 0 (dx0 r)) -> (forall c, (c < o_nu o)%nat -> is_derive (fun e => U e c) 0 (du c)) ->
  o_sens_adj o || o_sens_hess o = true ->
  is_derive (fun e => sum (o_nx o) (fun r => n_S_adj inp r * X (o_num_steps o) e r) + sum (o_nu o) (fun c => n_S_adj inp (o_nx o + c)%nat * U e c)) 0
    (sum (o_nx o) (fun r => q_adj (irk (MM p) o inp lu lut m F0) r * dx0 r) + sum (o_nu o) (fun c => q_adj (irk (MM p) o inp lu lut m F0) (o_nx o + c)%nat * du c)).
Proof.
  intros MM p o inp lu lut m F0 U X KK dx0 du dk HC LUT HR [HX [P0 [U0 [X0 K0]]]] DK DX DU W. rewrite <- step_h in HX.
  
  assert (DP : forall c, (c < o_np o)%nat -> is_derive (fun _ : R => p c) 0 ((fun _ => 0) c)) by (intros; apply (is_derive_const (V := R_NormedModule) (p c) 0)).
  pose proof (curve_tangent MM p o inp lu HC m F0 (o_num_steps o) (fun _ => p) U X KK HX P0 U0 X0 K0 dx0 dk du (fun _ => 0) DK DX DU DP) as T.
  pose proof (backward_pair MM p o inp lu lut HC m F0 LUT (o_num_steps o) _ dk du (regular_of MM p _ _ _ _ _ HR) T (o_num_steps o) (Nat.le_refl _) (n_S_adj inp) (fun _ _ => 0)) as B.
  rewrite (proj1 (irk_adj (MM p) o inp lu lut m F0 W)). refine (is_derive_val _ _ _ _ _ (eq_sym B)). unfold pair.
  apply plus_der.
  - apply (is_derive_sum (o_nx o) (fun r e => n_S_adj inp r * X (o_num_steps o) e r)). intros r Hr. apply scal_der.
    apply (curve_derive MM o inp (o_num_steps o) (fun _ => p) U X KK HX dx0 dk DK DX (o_num_steps o) (Nat.le_refl _) r Hr).
  - apply (is_derive_sum (o_nu o) (fun c e => n_S_adj inp (o_nx o + c)%nat * U e c)). intros c Hc. apply scal_der. now apply DU.
Qed.

(** without any curve: adjoint and forward sensitivities fit together *)
Theorem irk_adjoint_forward_top : forall MM p o inp lu lut m F0 (d : vecR),
  irk_consistent MM (o_nx o) (o_nu o) (o_nz o) (o_np o) -> lu_ok ((o_nx o + o_nz o) * o_ns o) lu -> lu_t_ok ((o_nx o + o_nz o) * o_ns o) lut -> irk_regular o inp lu m F0 (MM p) -> irk_seed_ok o inp ->
  o_sens_forw o || o_sens_hess o = true -> o_sens_adj o || o_sens_hess o = true ->
  sum (o_nx o) (fun r => n_S_adj inp r * sum (o_nx o + o_nu o) (fun c => q_S (irk (MM p) o inp lu lut m F0) r c * d c)) + sum (o_nu o) (fun c => n_S_adj inp (o_nx o + c)%nat * d (o_nx o + c)%nat) =
  sum (o_nx o) (fun r => q_adj (irk (MM p) o inp lu lut m F0) r * sum (o_nx o + o_nu o) (fun c => n_S_forw inp r c * d c)) + sum (o_nu o) (fun c => q_adj (irk (MM p) o inp lu lut m F0) (o_nx o + c)%nat * d (o_nx o + c)%nat).
Proof.
  intros MM p o inp lu lut m F0 d HC LU LUT HR HI W WA. 
  pose proof (fwd_tangent MM p o inp lu HC m F0 LU (o_num_steps o) d (fun _ => 0) (regular_of MM p _ _ _ _ _ HR) (or_introl W) (or_intror (fun _ _ => eq_refl)) HI) as T.
  pose proof (backward_pair MM p o inp lu lut HC m F0 LUT (o_num_steps o) _ _ _ (regular_of MM p _ _ _ _ _ HR) T (o_num_steps o) (Nat.le_refl _) (n_S_adj inp) (fun _ _ => 0)) as B.
  rewrite (proj1 (irk_adj (MM p) o inp lu lut m F0 WA)).
  assert (E : forall n r, sens_dx MM p o inp lu m F0 d (fun _ => 0) n r = sum (o_nx o + o_nu o) (fun c => Ss MM p o inp lu m F0 n r c * d c)).
  { intros n r. unfold sens_dx. rewrite (sum_zero (o_np o)) by (intros; ring). ring. }
  unfold pair in B. rewrite (sum_ext (o_nx o) (fun r => n_S_adj inp r * _) (fun r => n_S_adj inp r * sum (o_nx o + o_nu o) (fun c => q_S (irk (MM p) o inp lu lut m F0) r c * d c))) in B.
  - rewrite <- B. f_equal. apply sum_ext. intros r Hr. rewrite E. reflexivity.
  - intros r Hr. rewrite E, (proj1 (irk_S (MM p) o inp lu lut m F0)). reflexivity.
Qed.

Theorem irk_hessian_top : forall MM p o inp lu lut m F0 U X KK (X1 U1 : R -> vecR) (K1 : nat -> R -> vecR) (X2 U2 : vecR) (K2 : nat -> vecR) (d : vecR),
  irk_consistent MM (o_nx o) (o_nu o) (o_nz o) (o_np o) -> irk_hess_ok (MM p) (o_nx o) (o_nu o) (o_nz o) ->
  lu_ok ((o_nx o + o_nz o) * o_ns o) lu -> lu_t_ok ((o_nx o + o_nz o) * o_ns o) lut -> irk_regular o inp lu m F0 (MM p) -> irk_seed_ok o inp -> o_sens_hess o = true ->
  irk_through o inp lu m F0 MM p (fun _ => p) U X KK ->
  twice (o_nx o) (X 0%nat) X1 X2 -> twice (o_nu o) U U1 U2 -> (forall n, (n < o_num_steps o)%nat -> twice ((o_nx o + o_nz o) * o_ns o) (KK n) (K1 n) (K2 n)) ->
  (forall r, (r < o_nx o)%nat -> X1 0 r = sum (o_nx o + o_nu o) (fun c => n_S_forw inp r c * d c)) -> (forall c, (c < o_nu o)%nat -> U1 0 c = d (o_nx o + c)%nat) ->
  exists phi : R -> R,
    locally 0 (fun e => is_derive (fun e => sum (o_nx o) (fun r => n_S_adj inp r * X (o_num_steps o) e r) + sum (o_nu o) (fun c => n_S_adj inp (o_nx o + c)%nat * U e c)) e (phi e)) /\
    is_derive phi 0
      (sum (o_nx o) (fun r => q_adj (irk (MM p) o inp lu lut m F0) r * X2 r) + sum (o_nu o) (fun c => q_adj (irk (MM p) o inp lu lut m F0) (o_nx o + c)%nat * U2 c) +
       sum (o_nx o + o_nu o) (fun r => sum (o_nx o + o_nu o) (fun c => d r * q_hess (irk (MM p) o inp lu lut m F0) r c * d c))).
Proof.
  intros MM p o inp lu lut m F0 U X KK X1 U1 K1 X2 U2 K2 d HC HH LU LUT HR HI WH [HX [P0 [U0 [X0 K0]]]] TX TU TK D0 DU. rewrite <- step_h in HX.
   assert (W : o_sens_adj o || o_sens_hess o = true) by (rewrite WH; apply orb_true_r).
  pose proof (backward_quad MM p o inp lu lut HC HH m F0 LU LUT WH (o_num_steps o) U X KK HX U0 X0 K0 X1 U1 K1 X2 U2 K2 TX TU TK (regular_of MM p _ _ _ _ _ HR) d HI D0 DU (o_num_steps o) (Nat.le_refl _) (n_S_adj inp) (fun _ _ => 0)) as B.
  destruct (twice_X MM p o inp (o_num_steps o) U X KK HX X1 K1 X2 K2 TX TK (o_num_steps o) (Nat.le_refl _)) as [A1 A2]. destruct TU as [B1 B2].
  exists (fun e => sum (o_nx o) (fun r => n_S_adj inp r * xd o inp X1 K1 (o_num_steps o) e r) + sum (o_nu o) (fun c => n_S_adj inp (o_nx o + c)%nat * U1 e c)). split.
  - generalize (filter_and _ _ (loc_all _ _ A1) (loc_all _ _ B1)). apply filter_imp. intros e [E1 E2]. apply plus_der.
    + apply (is_derive_sum (o_nx o) (fun r e => n_S_adj inp r * X (o_num_steps o) e r)). intros r Hr. apply scal_der, E1, Hr.
    + apply (is_derive_sum (o_nu o) (fun c e => n_S_adj inp (o_nx o + c)%nat * U e c)). intros c Hc. apply scal_der, E2, Hc.
  - destruct (irk_adj (MM p) o inp lu lut m F0 W) as [-> ->].
    apply (is_derive_val _ _ (pair o (n_S_adj inp) (xdd o inp X2 K2 (o_num_steps o)) U2)).
    + unfold pair. apply plus_der.
      * apply (is_derive_sum (o_nx o) (fun r e => n_S_adj inp r * xd o inp X1 K1 (o_num_steps o) e r)). intros r Hr. apply scal_der, A2, Hr.
      * apply (is_derive_sum (o_nu o) (fun c e => n_S_adj inp (o_nx o + c)%nat * U1 e c)). intros c Hc. apply scal_der, B2, Hc.
    + assert (Q0 : quad (o_nx o + o_nu o) (fun _ _ => 0) d = 0) by (apply sum_zero; intros r _; apply sum_zero; intros c _; unfold mirror_u; destruct (c <? r)%nat; ring).
      rewrite Q0, Rplus_0_r in B. rewrite <- B. reflexivity.
Qed.

Theorem irk_hess_symmetric_top : forall (M : irk_model real) o inp lu lut m F0 r c, q_hess (irk M o inp lu lut m F0) r c = q_hess (irk M o inp lu lut m F0) c r.
Proof.
  intros. unfold irk. destruct (o_sens_adj o || o_sens_hess o); [destruct (backward _ _ _ _ _ _ _) as [l H]|]; cbn [q_hess]; unfold mirror_u; destruct (Nat.ltb_spec c r), (Nat.ltb_spec r c); try lia; try reflexivity; replace r with c by lia; reflexivity.
Qed.

(** models affine in x, xdot, z: the steps are exact, with a single Newton iteration, fresh or reused Jacobian *)
Theorem irk_affine_top : forall M o inp lu m F0, irk_affine M (o_nx o) (o_nz o) -> lu_ok ((o_nx o + o_nz o) * o_ns o) lu -> (0 < o_newton_iter o)%nat ->
  rk_regular o (irk_h o inp) M 0 (fun _ => 0) (n_u inp) (fun _ => 0) ->
  forall n, rk_eqs o (irk_h o inp) M (n_t0 inp + INR n * irk_h o inp) (s_x (forward M o inp lu m F0 n)) (n_u inp) (s_K (forward M o inp lu m F0 (S n))) (s_x (forward M o inp lu m F0 (S n))).
Proof.
  intros M o inp lu m F0 [Cx [Ck [Cz [f0 [Ex [Ek [Ez Ef]]]]]]] LU HN HR n.
  assert (NS : nonsing ((o_nx o + o_nz o) * o_ns o) (dG_dK M o inp 0 (fun _ => 0) (fun _ => 0))).
  { intros y Hy. apply HR. intros i q Hi Hq. rewrite <- step_h. specialize (Hy (i * (o_nx o + o_nz o) + q)%nat ltac:(pose proof (blk_lt i (o_ns o) q (o_nx o + o_nz o) Hi Hq); nia)).
    rewrite dG_dK_row in Hy by assumption. refine (eq_trans _ Hy). unfold lin, rk_lin, rk_arg, at_stage. rewrite Ex, Ek, Ez.
    rewrite !(sum_zero (o_nu o) (fun c => _ * 0)) by (intros; ring). reflexivity. }
  split.
  - intros i q Hi Hq. pose proof (proj2 (fwd_affine M o inp lu LU Cx Ck Cz f0 Ex Ek Ez Ef NS m F0 HN n) (i * (o_nx o + o_nz o) + q)%nat ltac:(pose proof (blk_lt i (o_ns o) q (o_nx o + o_nz o) Hi Hq); nia)) as Z.
    rewrite residual_val in Z by assumption. refine (eq_trans _ Z). unfold rk_arg, at_stage. rewrite !Ef by exact Hq. rewrite <- step_h. apply (f_equal2 Rplus); [apply (f_equal2 Rplus); [apply (f_equal2 Rplus)|reflexivity]|reflexivity].
    + unfold stage_t. rewrite of_nat_real. reflexivity.
    + apply sum_ext. intros c Hc. rewrite stage_x_val by exact Hc. reflexivity.
  - rewrite <- step_h. exact (xs_S (fun _ => M) (fun _ => 0) o inp lu m F0 n).
Qed.

(** in general: what Newton's iteration leaves unchanged are the solutions of the stage equations *)
Theorem irk_newton_fixed_top : forall M o inp lu ss (x K : vecR) F, lu_ok ((o_nx o + o_nz o) * o_ns o) lu -> nonsing ((o_nx o + o_nz o) * o_ns o) F ->
  nonsing ((o_nx o + o_nz o) * o_ns o) (dG_dK M o inp ss x K) ->
  ((forall i q, (i < o_ns o)%nat -> (q < o_nx o + o_nz o)%nat -> at_stage o inp (m_f M) ss x K i q = 0) ->
     forall n it, fst (newton M o inp lu n it ss x K F) = K) /\
  (forall it, agree ((o_nx o + o_nz o) * o_ns o) (fst (newton M o inp lu 1 it ss x K F)) K ->
     forall i q, (i < o_ns o)%nat -> (q < o_nx o + o_nz o)%nat -> at_stage o inp (m_f M) ss x K i q = 0).
Proof.
  intros M o inp lu ss x K F LU HF HG. split.
  - intros HZ n it. apply newton_keeps; try assumption. intros k Hk. replace ((o_nx o + o_nz o) * o_ns o)%nat with (o_ns o * (o_nx o + o_nz o))%nat in Hk by lia.
    destruct (blk_of k _ _ Hk) as [i [q [Hi [Hq ->]]]]. rewrite residual_val by assumption. now apply HZ.
  - intros it HA i q Hi Hq. rewrite <- residual_val by assumption. apply (newton_found M o inp lu LU it ss x K F HF HG); [|pose proof (blk_lt i (o_ns o) q (o_nx o + o_nz o) Hi Hq); nia].
    intros k Hk. rewrite <- (HA k Hk). cbn [newton]. destruct (_ && _); reflexivity.
Qed.
