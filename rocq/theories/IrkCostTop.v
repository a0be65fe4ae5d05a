(** The statements about cost propagation. *)
From Coq Require Import ZArith List Bool Arith Lia Reals Lra.
From Coquelicot Require Import Coquelicot.
From Verif Require Import Arith Vec LinModel CollModel CollTop RSum BghAdjProofs MeritGradProofs IrkModel IrkSpec IrkProofs IrkSens IrkFwd IrkTop IrkCostModel IrkCostSpec IrkCostProofs.
Import ListNotations.
Open Scope R_scope.

Theorem cost_defined_top : forall M o inp lu m F0 ny cs potrf stale c, (exists k, cost_run M o inp lu m F0 ny cs potrf stale c = Some k) <-> o_nz o = 0%nat.
Proof.
  intros. unfold cost_run, irk_cost. destruct (Nat.ltb_spec 0 (o_nz o)); split; intros H0; try lia.
  - destruct H0; discriminate.
  - eexists. reflexivity.
Qed.
Theorem nls_value_top : forall M o inp lu m F0 ny cs potrf stale F yref W w k, jac_ok (y_fun F) (y_jac F) (o_nx o) (o_nu o) ny -> weight_ok ny W w -> w_is_diag w = true ->
  cost_run M o inp lu m F0 ny cs potrf stale (Nls F yref w) = Some k -> k_fun k = cs * quad_at M o inp lu m F0 (nls_cost ny F yref W).
Proof. intros M o inp lu m F0 ny cs potrf stale F yref W w k HJ HW D E. unfold quad_at. rewrite <- step_h. exact (nls_fun_diag (fun _ => M) (fun _ => 0) o inp lu m F0 ny cs potrf stale F yref W w k HJ HW D E). Qed.
Theorem conl_value_top : forall M o inp lu m F0 ny cs potrf stale F y psi k, conl_ok F y psi (o_nx o) (o_nu o) ny ->
  cost_run M o inp lu m F0 ny cs potrf stale (Conl F) = Some k -> k_fun k = cs * quad_at M o inp lu m F0 (l_val F).
Proof. intros M o inp lu m F0 ny cs potrf stale F y psi k HO E. unfold quad_at. rewrite <- step_h. exact (conl_fun_val (fun _ => M) (fun _ => 0) o inp lu m F0 ny cs potrf stale F y psi k HO E). Qed.

Theorem nls_gradient_top : forall MM p o inp lu m F0 d U X KK ny cs potrf stale F yref W w k, moves MM p o inp lu m F0 d U X KK -> o_sens_forw o || o_sens_hess o = true ->
  jac_ok (y_fun F) (y_jac F) (o_nx o) (o_nu o) ny -> weight_ok ny W w -> w_is_diag w = true -> cost_run (MM p) o inp lu m F0 ny cs potrf stale (Nls F yref w) = Some k ->
  is_derive (fun e => cs * quad_along o inp (nls_cost ny F yref W) U X KK e) 0 (sum (o_nx o + o_nu o) (fun c => k_grad k c * dir (o_nx o) (o_nu o) d c)).
Proof.
  intros MM p o inp lu m F0 d U X KK ny cs potrf stale F yref W w k [HC LU HR HI [HX [_ [U0 [X0 K0]]]] [dk DK] DX DU] WS HJ HW D E. unfold quad_along. rewrite <- step_h in *.
  exact (nls_diag_derive MM p o inp lu m F0 ny cs potrf stale WS d HC LU (regular_of _ _ _ _ _ _ _ HR) HI U X KK HX U0 X0 K0 dk DK DX DU F yref W w k HJ HW D E).
Qed.
Theorem conl_gradient_top : forall MM p o inp lu m F0 d U X KK ny cs potrf stale F y psi k, moves MM p o inp lu m F0 d U X KK -> o_sens_forw o || o_sens_hess o = true ->
  conl_ok F y psi (o_nx o) (o_nu o) ny -> cost_run (MM p) o inp lu m F0 ny cs potrf stale (Conl F) = Some k ->
  is_derive (fun e => cs * quad_along o inp (l_val F) U X KK e) 0 (sum (o_nx o + o_nu o) (fun c => k_grad k c * dir (o_nx o) (o_nu o) d c)).
Proof.
  intros MM p o inp lu m F0 d U X KK ny cs potrf stale F y psi k [HC LU HR HI [HX [_ [U0 [X0 K0]]]] [dk DK] DX DU] WS HO E. unfold quad_along. rewrite <- step_h in *.
  exact (conl_derive MM p o inp lu m F0 ny cs potrf stale WS d HC LU (regular_of _ _ _ _ _ _ _ HR) HI U X KK HX U0 X0 K0 dk DK DX DU F y psi k HO E).
Qed.
Theorem nls_gauss_newton_top : forall MM p o inp lu m F0 d U X KK ny cs potrf stale F yref W w k DY, moves MM p o inp lu m F0 d U X KK -> o_sens_forw o || o_sens_hess o = true ->
  jac_ok (y_fun F) (y_jac F) (o_nx o) (o_nu o) ny -> weight_ok ny W w -> cost_run (MM p) o inp lu m F0 ny cs potrf stale (Nls F yref w) = Some k ->
  residual_moves o inp ny (y_fun F) U X KK DY ->
  quadf (o_nx o + o_nu o) (of_lower (k_hess k)) (dir (o_nx o) (o_nu o) d) = sum (o_num_steps o) (fun n => sum (o_ns o) (fun i => o_b o i / INR (o_num_steps o) * quadf ny W (DY n i))) /\
  (forall a c, (a < o_nx o + o_nu o)%nat -> (c < o_nx o + o_nu o)%nat -> k_hess k a c = k_hess k c a).
Proof.
  intros MM p o inp lu m F0 d U X KK ny cs potrf stale F yref W w k DY [HC LU HR HI [HX [_ [U0 [X0 K0]]]] [dk DK] DX DU] WS HJ HW E HY. unfold residual_moves in HY. rewrite <- step_h in *. split.
  - rewrite (nls_hess MM p o inp lu m F0 ny cs potrf stale WS d F yref W w k HW E). apply sum_sum_ext. intros n i Hn Hi. f_equal. apply quadf_ext; [reflexivity|]. intros q Hq.
    rewrite <- (is_derive_unique _ _ _ (HY n i q Hn Hi Hq)). symmetry. apply is_derive_unique.
    exact (stage_y_derive MM p o inp lu m F0 ny WS d HC LU (regular_of _ _ _ _ _ _ _ HR) HI U X KK HX U0 X0 K0 dk DK DX DU (y_fun F) (y_jac F) n i q HJ Hn Hi Hq).
  - intros a c Ha Hc. exact (nls_hess_sym MM p o inp lu m F0 ny cs potrf stale WS F yref w k a c E Ha Hc).
Qed.
Theorem conl_gauss_newton_top : forall MM p o inp lu m F0 d U X KK ny cs potrf stale F y psi k DY, moves MM p o inp lu m F0 d U X KK -> o_sens_forw o || o_sens_hess o = true ->
  conl_ok F y psi (o_nx o) (o_nu o) ny -> (forall x u t x' u', agree (o_nx o) x x' -> agree (o_nu o) u u' -> l_diag F x u t = l_diag F x' u' t /\ agree2 ny ny (l_hess F x u t) (l_hess F x' u' t)) ->
  (forall x u t, l_diag F x u t = false -> potrf_ok ny potrf (l_hess F x u t)) -> cost_run (MM p) o inp lu m F0 ny cs potrf stale (Conl F) = Some k ->
  residual_moves o inp ny y U X KK DY ->
  quadf (o_nx o + o_nu o) (of_lower (k_hess k)) (dir (o_nx o) (o_nu o) d) = sum (o_num_steps o) (fun n => sum (o_ns o) (fun i => o_b o i / INR (o_num_steps o) *
    quadf ny (l_hess F (rk_stage o (irk_h o inp) (X n 0) (KK n 0) i) (U 0) (at_t o (irk_h o inp) (n_t0 inp) n i)) (DY n i))).
Proof.
  intros MM p o inp lu m F0 d U X KK ny cs potrf stale F y psi k DY [HC LU HR HI [HX [_ [U0 [X0 K0]]]] [dk DK] DX DU] WS HO HL HP E HY. unfold residual_moves in HY. rewrite <- step_h in *.
  rewrite (conl_hess MM p o inp lu m F0 ny cs potrf stale WS d F y psi k HO (fun n i _ _ => HP _ _ _) E). apply sum_sum_ext. intros n i Hn Hi. f_equal. apply quadf_ext.
  - assert (ES : agree (o_nx o) (rk_stage o (step o inp) (X n 0) (KK n 0) i) (stage_x o inp (xs MM p o inp lu m F0 n) (Ks MM p o inp lu m F0 n) i)).
    { intros r Hr. rewrite (stage_agree_at MM p o inp lu m F0 n i r Hr). apply stage_ext; [exact Hi| |now apply K0|exact Hr].
      intros c Hc. apply (curve_start MM p o inp lu m F0 _ (fun _ => p) U X KK HX X0 K0 n ltac:(lia) c Hc). }
    intros a b Ha Hb. symmetry. exact (proj2 (HL _ _ (at_t o (step o inp) (n_t0 inp) n i) _ _ ES U0) a b Ha Hb).
  - intros q Hq. rewrite <- (is_derive_unique _ _ _ (HY n i q Hn Hi Hq)). symmetry. apply is_derive_unique.
    exact (stage_y_derive MM p o inp lu m F0 ny WS d HC LU (regular_of _ _ _ _ _ _ _ HR) HI U X KK HX U0 X0 K0 dk DK DX DU y (l_jac F) n i q (ck_jac _ _ _ _ _ _ HO) Hn Hi Hq).
Qed.

(** without reused Jacobians the state, the stages and the cost do not depend on which sensitivities are computed along with them *)
Section Flags.
Variable M : irk_model real. Variable o : irk_opts real. Variable inp : irk_in real. Variable lu : nat -> matR -> vecR -> vecR.
Hypothesis NR : o_jac_reuse o = false.
Variable f fp a hs : bool.
Notation o' := (with_flags o f fp a hs).
Lemma newton_F n : forall it ss (x K : vecR) F F', fst (newton M o inp lu n it ss x K F) = fst (newton M o inp lu n it ss x K F').
Proof. induction n as [|n IH]; intros; [reflexivity|]. cbn [newton]. rewrite NR. cbn [andb orb negb]. destruct (_ && _); [reflexivity|apply IH]. Qed.
Lemma newton_flags n it ss (x K : vecR) F : newton M o' inp lu n it ss x K F = newton M o inp lu n it ss x K F.
Proof. reflexivity. Qed.
Variable m : irk_mem real. Variable F0 : matR.
Lemma fwd_flags n : s_x (forward M o' inp lu m F0 n) = s_x (forward M o inp lu m F0 n) /\ s_K (forward M o' inp lu m F0 n) = s_K (forward M o inp lu m F0 n) /\
  forall k, (k < n)%nat -> r_x (s_rec (forward M o' inp lu m F0 n) k) = r_x (s_rec (forward M o inp lu m F0 n) k) /\ r_K (s_rec (forward M o' inp lu m F0 n) k) = r_K (s_rec (forward M o inp lu m F0 n) k).
Proof.
  induction n as [|n [IX [IK IR]]]; [split; [reflexivity|split; [reflexivity|intros; lia]]|].
  rewrite (fwd_S (fun _ => M) (fun _ => 0) o' inp lu m F0 n), (fwd_S (fun _ => M) (fun _ => 0) o inp lu m F0 n). unfold irk_step. rewrite newton_flags.
  pose proof (newton_F (o_newton_iter o) 0 n (s_x (forward M o inp lu m F0 n)) (s_K (forward M o inp lu m F0 n)) (s_F (forward M o' inp lu m F0 n)) (s_F (forward M o inp lu m F0 n))) as E.
  rewrite IX, IK. change (o_newton_iter o') with (o_newton_iter o). revert E. destruct (newton M o inp lu _ _ _ _ _ (s_F (forward M o' inp lu m F0 n))) as [K F]. destruct (newton M o inp lu _ _ _ _ _ (s_F (forward M o inp lu m F0 n))) as [K' F'].
  cbn [fst]. intros <-. cbn [s_x s_K s_rec]. split; [reflexivity|split; [reflexivity|]]. intros k Hk. destruct (Nat.eqb_spec k n) as [->|NE]; [split; reflexivity|]. apply IR. lia.
Qed.
End Flags.
Theorem flags_top : forall M o inp lu lut lut' m F0 ny cs potrf stale stale' c f fp a hs, o_jac_reuse o = false ->
  q_x (irk M (with_flags o f fp a hs) inp lu lut m F0) = q_x (irk M o inp lu lut' m F0) /\
  option_map k_fun (cost_run M (with_flags o f fp a hs) inp lu m F0 ny cs potrf stale c) = option_map k_fun (cost_run M o inp lu m F0 ny cs potrf stale' c).
Proof.
  intros M o inp lu lut lut' m F0 ny cs potrf stale stale' c f fp a hs NR. split.
  - destruct (irk_S M (with_flags o f fp a hs) inp lu lut m F0) as [_ [_ ->]]. destruct (irk_S M o inp lu lut' m F0) as [_ [_ ->]]. apply (fwd_flags M o inp lu NR f fp a hs m F0).
  - unfold cost_run, irk_cost. cbn [o_nz with_flags]. destruct (0 <? o_nz o)%nat; [reflexivity|]. cbn [option_map k_fun]. do 2 f_equal.
    change (o_num_steps (with_flags o f fp a hs)) with (o_num_steps o). change (o_ns (with_flags o f fp a hs)) with (o_ns o).
    assert (G : forall n i (o1 : irk_opts real) st k, k_fun (cost_stage o1 inp ny cs potrf sqrt c st n (s_rec (forward M o1 inp lu m F0 (o_num_steps o)) n) i k) = k_fun k +
       match c with Nls F yref w => ncst 5 (-1) * o_b o1 i / of_nat (o_num_steps o1) * vsum ny (fun q => w_res ny w (nls_res o1 inp F yref n (s_rec (forward M o1 inp lu m F0 (o_num_steps o)) n) i) q * w_res ny w (nls_res o1 inp F yref n (s_rec (forward M o1 inp lu m F0 (o_num_steps o)) n) i) q)
       | Conl F => o_b o1 i / of_nat (o_num_steps o1) * at_x o1 inp (l_val F) n (s_rec (forward M o1 inp lu m F0 (o_num_steps o)) n) i end).
    { intros n i o1 st k. unfold cost_stage. destruct c; destruct (with_sens o1 || o_sens_forw_p o1); reflexivity. }
    rewrite (loop_proj (k_fun (A := real)) (o_num_steps o) _ (fun n => sum (o_ns o) _)) by (intros n k _; apply (loop_proj (k_fun (A := real)) (o_ns o)); intros i k' _; apply G).
    rewrite (loop_proj (k_fun (A := real)) (o_num_steps o) _ (fun n => sum (o_ns o) _)) by (intros n k _; apply (loop_proj (k_fun (A := real)) (o_ns o)); intros i k' _; apply G).
    f_equal. apply sum_sum_ext. intros n i Hn Hi. destruct (proj2 (proj2 (fwd_flags M o inp lu NR f fp a hs m F0 (o_num_steps o))) n Hn) as [EX EK].
    destruct c; unfold nls_res, at_x; rewrite EX, EK; reflexivity.
Qed.
