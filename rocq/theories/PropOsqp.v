(** C71, C72: the OSQP interface. *)
From Coq Require Import ZArith List Bool Reals.
From Verif Require Import Arith QpsModel CscModel CscSpec RSum QpsSpec OsqpModel OsqpSpec OsqpRun OsqpCsc OsqpCases.
Import ListNotations.
Open Scope R_scope.

(** After any number of calls the matrices are well formed, stay inside the memory computed by ocp_qp_osqp_memory_calculate_size,
    and as many values as row numbers have been written. *)
Theorem C71_structure : forall d q, wf_soft d q -> forall m0 qs, first_run m0 = true -> (forall q', In q' qs -> same_maps d q q') ->
  let m := calls d (qs ++ [q]) m0 in
  csc_ok (num_constr d) (num_vars d) (nnzmax_A d) (A_p m) (A_i m) (length (concat (con_cols_vals d q))) /\
  csc_ok (num_vars d) (num_vars d) (nnzmax_P d) (P_p m) (P_i m) (length (concat (hess_vals d q))) /\ upper_triangular (num_vars d) (P_p m) (P_i m) /\
  length (gradient d q) = num_vars d.
Proof. exact csc_final. Qed.
Print Assumptions C71_structure.

Example C71_example : wf_soft dO qO /\ let m := calls dO [qO] om0 in
  num_vars dO = 5%nat /\ num_constr dO = 6%nat /\ A_p m = [0; 3; 4; 6; 8; 10]%nat /\ A_i m = [0; 1; 2; 0; 1; 4; 2; 5; 0; 3]%nat /\ A_x m = [1; 1; 1; 1; 1; 1; -1; 1; -1; 1] /\
  P_p m = [0; 1; 3; 4; 5; 6]%nat /\ P_i m = [0; 0; 1; 2; 3; 4]%nat.
Proof. exact (conj O_soft O_structure). Qed.

(** One slack for three constraints: twenty entries are written into arrays allocated for sixteen. *)
Theorem C71_shared_slack_refuted : exists d (q : rqp), (forall k i, (k <= qN d)%nat -> (0 <= q_rev q k i < Z.of_nat (qns d k))%Z) /\
  (nnzmax_A d < length (concat (con_cols_rows d q)))%nat /\ (nnzmax_A d < length (concat (con_cols_vals d q)))%nat.
Proof. exact S_refuted. Qed.
Print Assumptions C71_shared_slack_refuted.

(** Every KKT point of the assembled QP is returned as a KKT point of the OCP QP ... *)
Theorem C72_sound : forall d q, wf_bounds d q -> wf_soft d q -> unmasked d q -> forall m0 qs, first_run m0 = true -> (forall q', In q' qs -> same_maps d q q') ->
  forall z y out, mem_kkt d (calls d (qs ++ [q]) m0) z y -> kkt d q (fill_in_qp_out d q z y out).
Proof. exact run_forward. Qed.
Print Assumptions C72_sound.

(** ... and every KKT point of the OCP QP comes from one of the assembled QP. *)
Theorem C72_complete : forall d q, wf_bounds d q -> wf_soft d q -> unmasked d q -> forall m0 qs, first_run m0 = true -> (forall q', In q' qs -> same_maps d q q') ->
  forall s, kkt d q s -> exists z y, mem_kkt d (calls d (qs ++ [q]) m0) z y /\
    forall out k t, (k <= qN d)%nat -> (t < nv d k + 2 * qns d k)%nat -> s_ux (fill_in_qp_out d q z y out) k t = s_ux s k t.
Proof. exact run_backward. Qed.
Print Assumptions C72_complete.

Example C72_example : wf_bounds dO qO /\ wf_soft dO qO /\ unmasked dO qO /\ kkt dO qO sO /\
  exists z y, mem_kkt dO (calls dO [qO] om0) z y /\ z 0%nat = 2 /\ z 4%nat = 3.
Proof. exact (conj O_bounds (conj O_soft (conj O_unmasked (conj O_kkt O_solved)))). Qed.

(** Masks are not read: the QP that is solved has every inequality, whatever the mask says. *)
Theorem C72_masks : forall d q qs m0 z y out, wf_bounds d q -> wf_soft d q -> first_run m0 = true -> (forall q', In q' qs -> same_maps d q q') ->
  mem_kkt d (calls d (qs ++ [q]) m0) z y -> kkt d (all_rows q) (fill_in_qp_out d q z y out).
Proof. exact run_masks. Qed.
Print Assumptions C72_masks.

(** A one-sided bound: the masked side, whose value is zero, is imposed.  The QP is solved at 1, OSQP is asked for a point below 0. *)
Theorem C72_mask_refuted : exists d q m0 s, wf_bounds d q /\ wf_soft d q /\ masks01 d q /\ first_run m0 = true /\ kkt d q s /\ s_ux s 0%nat 0%nat = 1 /\
  (exists z y, mem_kkt d (calls d [q] m0) z y /\ forall out, ~ kkt d q (fill_in_qp_out d q z y out)) /\
  (forall z y, mem_kkt d (calls d [q] m0) z y -> z 0%nat <= 0).
Proof. exact M_refuted. Qed.
Print Assumptions C72_mask_refuted.

(** The sparsity structure is written once: when the bounded variable changes, the bound stays on the old one. *)
Theorem C72_stale_structure_refuted : exists d q1 q2 m0 z y, wf_bounds d q1 /\ wf_bounds d q2 /\ wf_soft d q1 /\ wf_soft d q2 /\ unmasked d q2 /\ first_run m0 = true /\
  mem_kkt d (calls d [q1; q2] m0) z y /\ forall out, ~ feasible d q2 (s_ux (fill_in_qp_out d q2 z y out)).
Proof. exact I_refuted. Qed.
Print Assumptions C72_stale_structure_refuted.

(** A slack that softens no constraint: the upper bound of its row is never written, and an old negative value makes the QP infeasible. *)
Theorem C72_unused_slack_refuted : exists d q s, wf_bounds d q /\ unmasked d q /\ kkt d q s /\
  forall m, first_run m = true -> ub m 3%nat = Fin (A := real) (-1) -> forall z y, ~ mem_kkt d (update_memory d q m) z y.
Proof. exact U_refuted. Qed.
Print Assumptions C72_unused_slack_refuted.

(** Two bounds on one variable: the row of the second one is empty, and a feasible QP becomes infeasible. *)
Theorem C72_double_bound_refuted : exists d q m0 s, wf_soft d q /\ unmasked d q /\ first_run m0 = true /\ kkt d q s /\ forall z y, ~ mem_kkt d (calls d [q] m0) z y.
Proof. exact T_refuted. Qed.
Print Assumptions C72_double_bound_refuted.
