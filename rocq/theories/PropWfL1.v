(** Property theorems C93: the l1 infeasibility of the feasibility QP and the predicted reduction. *)
From Coq Require Import ZArith List Bool Reals.
From Verif Require Import FP Arith LinModel RSum WfL1Model WfL1Proofs WfL1Cases.
Import ListNotations.
Open Scope R_scope.

(** C93.  Over the reals the explicit evaluation is the sum of the violations of the active one-sided constraints, with the
    slacks of the user and without the added ones. *)
Theorem C93_violation : forall N (st : nat -> stage real),
  manually N st = sum (N + 1) (fun i => sum (nc (st i)) (viol_lo (st i)) + sum (nc (st i)) (viol_up (st i))).
Proof. exact manual_is_violation. Qed.
Print Assumptions C93_violation.
(** zero means that the direction satisfies the nominal constraints *)
Theorem C93_zero : forall N (st : nat -> stage real), manually N st = 0 -> forall i, (i <= N)%nat -> forall j, (j < nc (st i))%nat ->
  let s := st i in
  (s_mask s j = true -> s_d s j <= cval s j + (if user s j then slack_lo s (Z.to_nat (s_rev s j)) else 0)) /\
  (s_mask s (nc s + j)%nat = true -> cval s j - (if user s j then slack_up s (Z.to_nat (s_rev s j)) else 0) <= - s_d s (nc s + j)%nat).
Proof. exact zero_means_feasible. Qed.
Print Assumptions C93_zero.
(** at a point that satisfies the relaxed constraints, the sum of the added slacks is never below it *)
Theorem C93_le_slacks : forall N (st : nat -> stage real), (forall i, (i <= N)%nat -> relaxed_ok (st i) /\ one_each (st i)) ->
  0 <= manually N st <= from_slacks N st.
Proof. exact manual_le_slacks. Qed.
Print Assumptions C93_le_slacks.
(** if the added slacks are moreover no larger than needed, the option use_QP_l1_inf_from_slacks has no influence *)
Theorem C93_equal : forall N (st : nat -> stage real), (forall i, (i <= N)%nat -> relaxed_ok (st i) /\ one_each (st i) /\ minimal (st i)) ->
  forall u u', qp_l1 u N st = qp_l1 u' N st.
Proof. exact both_equal. Qed.
Print Assumptions C93_equal.
(** the predicted reduction is not negative: phi is the quadratic part of the objective at the solution st of the feasibility
    QP, st0 the zero step with slacks equal to the violations, which is no better than the solution *)
Theorem C93_descent : forall N (st st0 : nat -> stage real) (phi l1 tol_ineq tol_eq : R) (u nominal : bool),
  (forall i, (i <= N)%nat -> relaxed_ok (st i) /\ one_each (st i)) ->
  (forall i, (i <= N)%nat -> relaxed_ok (st0 i) /\ one_each (st0 i) /\ minimal (st0 i)) ->
  0 <= phi -> phi + from_slacks N st <= from_slacks N st0 -> manually N st0 <= l1 ->
  0 <= pred_l1 (A := real) nominal l1 tol_ineq tol_eq (qp_l1 u N st) /\ qp_l1 u N st <= manually N st0 - phi.
Proof. exact descent. Qed.
Print Assumptions C93_descent.
(** close to feasibility no reduction is asked for, and a nominal QP promises full feasibility *)
Theorem C93_pred : forall l1 tol_ineq tol_eq q : R,
  (l1 < tol_ineq -> l1 < tol_eq -> pred_l1 (A := real) false l1 tol_ineq tol_eq q = 0) /\
  (tol_ineq <= l1 \/ tol_eq <= l1 -> pred_l1 (A := real) false l1 tol_ineq tol_eq q = (l1 - q)%R) /\
  pred_l1 (A := real) true l1 tol_ineq tol_eq q = l1.
Proof. exact pred_cases. Qed.
Print Assumptions C93_pred.
(** slacks larger than needed (an inexact QP solution) count as infeasibility and can make the predicted reduction negative *)
Theorem C93_slacks_refuted : exists st : stage real, relaxed_ok st /\ one_each st /\ manually 0 (fun _ => st) = 0 /\ from_slacks 0 (fun _ => st) = 1 /\
  pred_l1 (A := real) false (1 / 2)%R (1 / 1000000)%R (1 / 1000000)%R (qp_l1 true 0 (fun _ => st)) < 0.
Proof. exact slacks_too_large. Qed.
Print Assumptions C93_slacks_refuted.

(** a stage with one slack of the user and one added slack: the bound x <= 1 is violated by 1 at x = 2 *)
Example C93_case : forall u, qp_l1 u 0 (fun _ => mixed) = 1.
Proof. exact mixed_value. Qed.
Print Assumptions C93_case.
Example C93_case_ok : relaxed_ok mixed /\ one_each mixed /\ minimal mixed.
Proof. exact mixed_ok. Qed.
Print Assumptions C93_case_ok.
