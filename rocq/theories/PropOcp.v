(** Property theorems: QP objective value, second order correction, Levenberg-Marquardt parameter, parameter gradient. *)
From Coq Require Import ZArith List Bool Lia Reals Lra.
From Verif Require Import Arith Vec RSum OcpModel OcpProofs OcpTop.
Import ListNotations.
Open Scope R_scope.

(** C45: the value used by the globalization is the QP objective when no slack moves ... *)
Theorem C45_no_slack_step : forall d qp ux H, sym_of d qp H -> (forall i k, (i <= oN d)%nat -> (k < 2 * ons d i)%nat -> slack d ux i k = 0) ->
  qp_objective_value d qp ux = qp_objective d qp ux H.
Proof. exact qp_objective_no_slack. Qed.
Print Assumptions C45_no_slack_step.
(** ... and otherwise too large by the squared slack step *)
Theorem C45_actual : forall d qp ux H, sym_of d qp H ->
  qp_objective_value d qp ux = qp_objective d qp ux H + sum (S (oN d)) (fun i => sum (2 * ons d i) (fun k => slack d ux i k * slack d ux i k)).
Proof. exact qp_objective_code. Qed.
Print Assumptions C45_actual.
Theorem C45_refuted : exists d qp ux H, sym_of d qp H /\ qp_objective_value d qp ux <> qp_objective d qp ux H.
Proof. exact objective_refuted. Qed.
Print Assumptions C45_refuted.
Theorem C45_gradient : forall d (qp : nat -> qp_stage real) ux,
  gradient_directional_derivative d qp ux = sum (S (oN d)) (fun i => sum (onx d i + onu d i + 2 * ons d i) (fun k => q_rqz (qp i) k * ux i k)).
Proof. exact directional_derivative. Qed.
Print Assumptions C45_gradient.
Example C45_case : qp_objective_value d1 (qp1 0) (fun _ k => if (k <? 1)%nat then 3 else 0) = 24.
Proof. exact objective_case. Qed.

(** C50: hard general constraints of the corrected QP are the linearisation about the trial point *)
Theorem C50_hard_constraints : forall d qp ux con v i j, (j < ong d i)%nat -> (q_idxs_rev (qp i) (onb d i + j) < 0)%Z ->
  (soc_d d qp ux con i (onb d i + j)%nat <= Cv d qp v i j <-> con i (onb d i + j)%nat - sum (onx d i + onu d i) (fun r => q_DCt (qp i) r j * (v i r - ux i r)) <= 0) /\
  (soc_d d qp ux con i (2 * onb d i + ong d i + j)%nat <= - Cv d qp v i j <-> con i (2 * onb d i + ong d i + j)%nat + sum (onx d i + onu d i) (fun r => q_DCt (qp i) r j * (v i r - ux i r)) <= 0).
Proof. exact soc_hard. Qed.
Print Assumptions C50_hard_constraints.
Theorem C50_hard_bounds : forall d (qp : nat -> qp_stage real) ux con i j, (j < onb d i)%nat -> (q_idxs_rev (qp i) j < 0)%Z -> soc_d d qp ux con i j = q_d (qp i) j.
Proof. exact soc_hard_bound. Qed.
Print Assumptions C50_hard_bounds.
(** finding: the dynamics of the corrected QP have the function value with the wrong sign *)
Theorem C50_dynamics_actual : forall d qp ux dyn v i c, qp_dynamics d qp (soc_b d qp ux dyn i) v i c <-> lin_dynamics d qp ux dyn v i c = 2 * dyn i c.
Proof. exact soc_dynamics_actual. Qed.
Print Assumptions C50_dynamics_actual.
Theorem C50_dynamics_refuted : exists d qp ux dyn v i c, qp_dynamics d qp (soc_b d qp ux dyn i) v i c /\ lin_dynamics d qp ux dyn v i c <> 0.
Proof. exact soc_dynamics_refuted. Qed.
Print Assumptions C50_dynamics_refuted.
(** finding: slack steps enter with the wrong sign, and softened bounds are shifted although they are linear *)
Theorem C50_lower_actual : forall d qp ux con v i j, (j < ong d i)%nat ->
  (soc_d d qp ux con i (onb d i + j)%nat <= Cv d qp v i j + s_lower d qp v i (onb d i + j) <->
   con i (onb d i + j)%nat - sum (onx d i + onu d i) (fun r => q_DCt (qp i) r j * (v i r - ux i r)) - (s_lower d qp v i (onb d i + j) - s_lower d qp ux i (onb d i + j)) <= 2 * s_lower d qp ux i (onb d i + j)).
Proof. exact soc_lower_actual. Qed.
Print Assumptions C50_lower_actual.
Theorem C50_upper_actual : forall d qp ux con v i j, (j < ong d i)%nat ->
  (soc_d d qp ux con i (2 * onb d i + ong d i + j)%nat <= - Cv d qp v i j + s_upper d qp v i (onb d i + j) <->
   con i (2 * onb d i + ong d i + j)%nat + sum (onx d i + onu d i) (fun r => q_DCt (qp i) r j * (v i r - ux i r)) - (s_upper d qp v i (onb d i + j) - s_upper d qp ux i (onb d i + j)) <= 2 * s_upper d qp ux i (onb d i + j)).
Proof. exact soc_upper_actual. Qed.
Print Assumptions C50_upper_actual.
Theorem C50_soft_refuted : exists d qp ux con v i j, (j < ong d i)%nat /\ soc_d d qp ux con i (onb d i + j)%nat <= Cv d qp v i j + s_lower d qp v i (onb d i + j) /\
  0 < con i (onb d i + j)%nat - sum (onx d i + onu d i) (fun r => q_DCt (qp i) r j * (v i r - ux i r)) - (s_lower d qp v i (onb d i + j) - s_lower d qp ux i (onb d i + j)).
Proof. exact soc_soft_refuted. Qed.
Print Assumptions C50_soft_refuted.
Theorem C50_soft_bound_refuted : exists d (qp : nat -> qp_stage real) ux con i j, (j < onb d i)%nat /\ soc_d d qp ux con i j <> q_d (qp i) j.
Proof. exact soc_soft_bound_refuted. Qed.
Print Assumptions C50_soft_bound_refuted.
Example C50_case : soc_b d1 (qp1 (-1)) p1 zero2 0%nat 0%nat = -1 /\ soc_d d1 (qp1 (-1)) p1 one2 0%nat 0%nat = 3 /\ soc_d d1 (qp1 (-1)) p1 one2 0%nat 1%nat = -1.
Proof. exact soc_case. Qed.

(** C52: the parameter stays between its minimum and 1 for every sequence of step lengths; it grows after a shortened step *)
Theorem C52_range : forall o, 0 <= lm_mu_min o -> lm_mu_min o <= lm_mu0 o <= 1 -> 1 <= lm_lam o -> forall steps m,
  lm_mu_min o <= lm_mu (lm_run o steps m) <= 1 /\ lm_mu_min o <= lm_mu_bar (lm_run o steps m) <= 1.
Proof. exact lm_run_ok. Qed.
Print Assumptions C52_range.
Theorem C52_shortened_step : forall o, 0 <= lm_mu_min o -> 1 <= lm_lam o -> forall m a, lm_ok o m -> a <> 1 ->
  lm_mu m <= lm_mu (lm_update o false a m) /\ (lm_mu m < 1 -> 1 < lm_lam o -> 0 < lm_mu m -> lm_mu m < lm_mu (lm_update o false a m)).
Proof. exact lm_bad_step. Qed.
Print Assumptions C52_shortened_step.
Theorem C52_two_full_steps : forall o m, let m1 := lm_update o false (1 : R) m in lm_mu (lm_update o false (1 : R) m1) = Rmax (lm_mu_min o) (lm_mu m / lm_lam o).
Proof. exact lm_two_good. Qed.
Print Assumptions C52_two_full_steps.
(** finding: a single full step can raise the parameter *)
Theorem C52_full_step_refuted : exists o m, 0 < lm_mu_min o <= lm_mu0 o /\ lm_mu0 o <= 1 /\ 1 < lm_lam o /\ (exists steps m0, m = lm_run o steps m0) /\ lm_mu m < lm_mu (lm_update o false (1 : R) m).
Proof. exact lm_good_refuted. Qed.
Print Assumptions C52_full_step_refuted.
Theorem C52_term : forall hess (lm sc : R) n (H : nat -> nat -> R) r c, lm_add hess lm sc n H r c = H r c + (if (hess && Rltb 0 lm && (r =? c)%nat && (r <? n)%nat)%bool then sc * lm else 0).
Proof. exact lm_add_val. Qed.
Print Assumptions C52_term.
(** finding: no regularisation at all while the cost value is not positive *)
Theorem C52_negative_cost : forall (o : lm_opts real) iter0 (alpha cost lm0 : R) m hess sc n (H : nat -> nat -> R), lm_adaptive o = true -> 0 <= lm_obj_scalar o -> 0 <= lm_mu (lm_update o iter0 alpha m) -> cost <= 0 ->
  let lm := fst (lm_parameter o iter0 alpha cost lm0 m) in lm_add hess lm sc n H = H.
Proof. exact lm_negative_cost. Qed.
Print Assumptions C52_negative_cost.
Example C52_case : let m := lm_run lm5 [1 / 2; 1] (mkLmMem (A := real) 0%R 0%R) in lm_mu m = 1 / 5000 /\ lm_mu (lm_update lm5 false (1 : R) m) = 1 / 1000.
Proof. exact lm_grows. Qed.
Example C52_case_term : lm_add true (1 / 2)%R (4 : R) 2 (fun _ _ => 1) 1%nat 1%nat = 3 /\ lm_add true (1 / 2)%R (4 : R) 2 (fun _ _ => 1) 2%nat 2%nat = 1.
Proof. exact lm_case. Qed.

(** C56: every contribution is included except that of the terminal constraints *)
Theorem C56_actual : forall d (dynp costp conp : nat -> nat -> R) k,
  lagr_grad_p d dynp costp conp k = sum (oN d) (fun i => dynp i k) + sum (S (oN d)) (fun i => costp i k) + sum (S (oN d)) (fun i => conp i k) - conp (oN d) k.
Proof. exact lagr_grad_terminal. Qed.
Print Assumptions C56_actual.
Theorem C56_refuted : exists d dynp costp conp k, lagr_grad_p d dynp costp conp k <> sum (oN d) (fun i => dynp i k) + sum (S (oN d)) (fun i => costp i k) + sum (S (oN d)) (fun i => conp i k).
Proof. exact lagr_grad_refuted. Qed.
Print Assumptions C56_refuted.
