(** C86: the cost propagated by the implicit integrator. *)
From Coq Require Import ZArith List Bool Reals.
From Coquelicot Require Import Coquelicot.
From Verif Require Import Arith Vec RSum IrkModel IrkSpec IrkCases IrkCostModel IrkCostSpec IrkCostProofs IrkCostTop IrkCostCases.
Open Scope R_scope.

Theorem C86_defined : forall M o inp lu m F0 ny cs potrf stale c, (exists k, cost_run M o inp lu m F0 ny cs potrf stale c = Some k) <-> o_nz o = 0%nat.
Proof. exact cost_defined_top. Qed.
Print Assumptions C86_defined.

Theorem C86_nls_value : forall M o inp lu m F0 ny cs potrf stale F yref W w k, jac_ok (y_fun F) (y_jac F) (o_nx o) (o_nu o) ny -> weight_ok ny W w -> w_is_diag w = true ->
  cost_run M o inp lu m F0 ny cs potrf stale (Nls F yref w) = Some k -> k_fun k = cs * quad_at M o inp lu m F0 (nls_cost ny F yref W).
Proof. exact nls_value_top. Qed.
Print Assumptions C86_nls_value.

Theorem C86_conl_value : forall M o inp lu m F0 ny cs potrf stale F y psi k, conl_ok F y psi (o_nx o) (o_nu o) ny ->
  cost_run M o inp lu m F0 ny cs potrf stale (Conl F) = Some k -> k_fun k = cs * quad_at M o inp lu m F0 (l_val F).
Proof. exact conl_value_top. Qed.
Print Assumptions C86_conl_value.

Theorem C86_nls_gradient : forall MM p o inp lu m F0 d U X KK ny cs potrf stale F yref W w k, moves MM p o inp lu m F0 d U X KK -> o_sens_forw o || o_sens_hess o = true ->
  jac_ok (y_fun F) (y_jac F) (o_nx o) (o_nu o) ny -> weight_ok ny W w -> w_is_diag w = true -> cost_run (MM p) o inp lu m F0 ny cs potrf stale (Nls F yref w) = Some k ->
  is_derive (fun e => cs * quad_along o inp (nls_cost ny F yref W) U X KK e) 0 (sum (o_nx o + o_nu o) (fun c => k_grad k c * dir (o_nx o) (o_nu o) d c)).
Proof. exact nls_gradient_top. Qed.
Print Assumptions C86_nls_gradient.

Theorem C86_conl_gradient : forall MM p o inp lu m F0 d U X KK ny cs potrf stale F y psi k, moves MM p o inp lu m F0 d U X KK -> o_sens_forw o || o_sens_hess o = true ->
  conl_ok F y psi (o_nx o) (o_nu o) ny -> cost_run (MM p) o inp lu m F0 ny cs potrf stale (Conl F) = Some k ->
  is_derive (fun e => cs * quad_along o inp (l_val F) U X KK e) 0 (sum (o_nx o + o_nu o) (fun c => k_grad k c * dir (o_nx o) (o_nu o) d c)).
Proof. exact conl_gradient_top. Qed.
Print Assumptions C86_conl_gradient.

Theorem C86_nls_gauss_newton : forall MM p o inp lu m F0 d U X KK ny cs potrf stale F yref W w k DY, moves MM p o inp lu m F0 d U X KK -> o_sens_forw o || o_sens_hess o = true ->
  jac_ok (y_fun F) (y_jac F) (o_nx o) (o_nu o) ny -> weight_ok ny W w -> cost_run (MM p) o inp lu m F0 ny cs potrf stale (Nls F yref w) = Some k ->
  residual_moves o inp ny (y_fun F) U X KK DY ->
  quadf (o_nx o + o_nu o) (of_lower (k_hess k)) (dir (o_nx o) (o_nu o) d) = sum (o_num_steps o) (fun n => sum (o_ns o) (fun i => o_b o i / INR (o_num_steps o) * quadf ny W (DY n i))) /\
  (forall a c, (a < o_nx o + o_nu o)%nat -> (c < o_nx o + o_nu o)%nat -> k_hess k a c = k_hess k c a).
Proof. exact nls_gauss_newton_top. Qed.
Print Assumptions C86_nls_gauss_newton.

Theorem C86_conl_gauss_newton : forall MM p o inp lu m F0 d U X KK ny cs potrf stale F y psi k DY, moves MM p o inp lu m F0 d U X KK -> o_sens_forw o || o_sens_hess o = true ->
  conl_ok F y psi (o_nx o) (o_nu o) ny -> (forall x u t x' u', agree (o_nx o) x x' -> agree (o_nu o) u u' -> l_diag F x u t = l_diag F x' u' t /\ agree2 ny ny (l_hess F x u t) (l_hess F x' u' t)) ->
  (forall x u t, l_diag F x u t = false -> potrf_ok ny potrf (l_hess F x u t)) -> cost_run (MM p) o inp lu m F0 ny cs potrf stale (Conl F) = Some k ->
  residual_moves o inp ny y U X KK DY ->
  quadf (o_nx o + o_nu o) (of_lower (k_hess k)) (dir (o_nx o) (o_nu o) d) = sum (o_num_steps o) (fun n => sum (o_ns o) (fun i => o_b o i / INR (o_num_steps o) *
    quadf ny (l_hess F (rk_stage o (irk_h o inp) (X n 0) (KK n 0) i) (U 0) (at_t o (irk_h o inp) (n_t0 inp) n i)) (DY n i))).
Proof. exact conl_gauss_newton_top. Qed.
Print Assumptions C86_conl_gauss_newton.

Theorem C86_flags : forall M o inp lu lut lut' m F0 ny cs potrf stale stale' c f fp a hs, o_jac_reuse o = false ->
  q_x (irk M (with_flags o f fp a hs) inp lu lut m F0) = q_x (irk M o inp lu lut' m F0) /\
  option_map k_fun (cost_run M (with_flags o f fp a hs) inp lu m F0 ny cs potrf stale c) = option_map k_fun (cost_run M o inp lu m F0 ny cs potrf stale' c).
Proof. exact flags_top. Qed.
Print Assumptions C86_flags.

Theorem C86_weight_refuted : exists MM p o inp lu m F0 d U X KK ny cs potrf stale F yref W w k, moves MM p o inp lu m F0 d U X KK /\ o_sens_forw o || o_sens_hess o = true /\
  jac_ok (y_fun F) (y_jac F) (o_nx o) (o_nu o) ny /\ weight_ok ny W w /\ cost_run (MM p) o inp lu m F0 ny cs potrf stale (Nls F yref w) = Some k /\
  k_fun k <> cs * quad_at (MM p) o inp lu m F0 (nls_cost ny F yref W) /\
  ~ is_derive (fun e => cs * quad_along o inp (nls_cost ny F yref W) U X KK e) 0 (sum (o_nx o + o_nu o) (fun c => k_grad k c * dir (o_nx o) (o_nu o) d c)).
Proof. exact nls_weight_refuted. Qed.
Print Assumptions C86_weight_refuted.

Theorem C86_param_only_refuted : exists MM p o inp lu m F0 ny cs potrf F yref W w st st' k k', jac_ok (y_fun F) (y_jac F) (o_nx o) (o_nu o) ny /\ weight_ok ny W w /\ w_is_diag w = true /\ o_sens_forw_p o = true /\
  irk_consistent MM (o_nx o) (o_nu o) (o_nz o) (o_np o) /\ irk_regular o inp lu m F0 (MM p) /\ lu_ok ((o_nx o + o_nz o) * o_ns o) lu /\
  cost_run (MM p) o inp lu m F0 ny cs potrf st (Nls F yref w) = Some k /\ cost_run (MM p) o inp lu m F0 ny cs potrf st' (Nls F yref w) = Some k' /\ k_grad k 0%nat <> k_grad k' 0%nat.
Proof. exact param_only_refuted. Qed.
Print Assumptions C86_param_only_refuted.

(** the midpoint rule on xdot = u: least squares with a diagonal weight, and the same cost as a convex-over-nonlinear one *)
Example C86_case : forall st, exists k, krun true false st 1 1 (Nls kF (fun _ => 0) kw) = Some k /\ k_fun k = 25 / 4 /\ k_grad k 0%nat = 19 / 2 /\ k_grad k 1%nat = 3 /\
  k_hess k 0%nat 0%nat = 17 / 4 /\ k_hess k 1%nat 0%nat = 1 / 2 /\ k_hess k 0%nat 1%nat = 1 / 2 /\ k_hess k 1%nat 1%nat = 1.
Proof. exact k_vals. Qed.
Example C86_case_conl : forall st, exists k, krun true false st 1 1 (Conl kC) = Some k /\ k_fun k = 25 / 4 /\ k_grad k 0%nat = 19 / 2 /\ k_grad k 1%nat = 3 /\
  k_hess k 0%nat 0%nat = 17 / 4 /\ k_hess k 1%nat 0%nat = 1 / 2 /\ k_hess k 0%nat 1%nat = 0 /\ k_hess k 1%nat 1%nat = 1.
Proof. exact kC_vals. Qed.
(** the hypotheses hold for it, in every direction *)
Example C86_case_hyps : (forall d, moves kM (fun _ => 0) (ko true false) (kin 1 1) exlu km kF0 d (kU 1 d) (kX 1 1 d) (fun _ => kU 1 d)) /\ jac_ok (y_fun kF) (y_jac kF) 1 1 2 /\ weight_ok 2 kW kw /\ conl_ok kC (y_fun kF) kpsi 1 1 2.
Proof. exact (conj (k_moves true false 1 1) (conj kF_ok (conj kW_ok kC_ok))). Qed.
