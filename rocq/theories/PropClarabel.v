(** C73, C74: the Clarabel interface. *)
From Coq Require Import ZArith List Bool Reals.
From Verif Require Import Arr Arith QpsModel CscModel CscSpec RSum QpsSpec OsqpModel OsqpSpec OsqpCases ClarabelModel ClarabelSpec ClarabelTop ClarabelCsc ClarabelCases.
Import ListNotations.
Open Scope R_scope.

(** When the sign loop of update_bounds stays inside b, a point solves the QP in the memory exactly when what is returned solves the
    OCP QP with every inequality present ... *)
Theorem C73_exact : forall d q qs m0, (forall q', In q' qs -> same_maps d q q') -> wf_bounds d q -> wf_rev d q -> roomy d ->
  exists m, c_calls d (qs ++ [q]) (true, m0) = Done (false, m) /\ forall x y out, c_mem_kkt d m x y <-> kkt d (all_rows q) (c_fill d x y out).
Proof. exact clarabel_iff. Qed.
Print Assumptions C73_exact.

(** ... and every KKT point of that QP is returned for some point of the QP in the memory. *)
Theorem C73_onto : forall d q qs m0, (forall q', In q' qs -> same_maps d q q') -> wf_bounds d q -> wf_rev d q -> roomy d ->
  exists m, c_calls d (qs ++ [q]) (true, m0) = Done (false, m) /\
  forall s, kkt d (all_rows q) s -> exists x y, c_mem_kkt d m x y /\ forall out,
    (forall k t, (k <= qN d)%nat -> (t < nv d k + 2 * qns d k)%nat -> s_ux (c_fill d x y out) k t = s_ux s k t) /\
    (forall k i, (k < qN d)%nat -> (i < qnx d (S k))%nat -> s_pi (c_fill d x y out) k i = s_pi s k i) /\
    (forall k j, (k <= qN d)%nat -> (j < nall d k)%nat -> s_lam (c_fill d x y out) k j = s_lam s k j).
Proof. exact clarabel_onto. Qed.
Print Assumptions C73_onto.

Example C73_example : wf_bounds dO qO /\ wf_rev dO qO /\ roomy dO /\ kkt dO (all_rows qO) sO /\
  exists m, c_calls dO [qO] (true, cm0) = Done (false, m) /\ exists x y, c_mem_kkt dO m x y /\ x 0%nat = 2 /\ x 4%nat = 3 /\ y 4%nat = 2.
Proof. exact (conj O_bounds (conj cO_rev (conj cO_roomy (conj cO_kkt cO_solved)))). Qed.

(** For all dimensions: the right-hand side and the values of A are as intended; entry i of P has its sign flipped once for every
    stage whose sign loop reaches it. *)
Theorem C73_values : forall d q qs m0, (forall q', In q' qs -> same_maps d q q') ->
  exists m, c_calls d (qs ++ [q]) (true, m0) = Done (false, m) /\
  (forall i, (i < c_nnzmax_P d)%nat -> P_nzval d m i = Nat.iter (flips d i) Ropp (nth i (concat (hess_vals d q)) 0)) /\
  (forall i, (i < length (concat (c_vals d q)))%nat -> A_nzval d m i = nth i (concat (c_vals d q)) 0) /\
  (forall k i, (k < qN d)%nat -> (i < qnx d (S k))%nat -> arena m (off_dyn d k + i)%nat = - q_b q k i) /\
  (forall k j, (k <= qN d)%nat -> (j < 2 * nrow d k)%nat -> arena m (c_base d k + j)%nat = - q_d q k j) /\
  (forall k e, (k <= qN d)%nat -> (e < 2 * qns d k)%nat -> arena m (c_slk d + off_slk d k + e)%nat = - q_d q k (2 * nrow d k + e)%nat).
Proof. exact clarabel_values. Qed.
Print Assumptions C73_values.

(** Without inequality constraints the loop leaves b and flips the sign of the first Hessian entry: the OCP QP is solved at u = 2,
    the only KKT point of the QP handed to Clarabel is u = 6. *)
Theorem C73_hessian_sign_refuted : exists d q m0 m s, wf_bounds d q /\ wf_rev d q /\ unmasked d q /\ c_calls d [q] (true, m0) = Done (false, m) /\ kkt d q s /\ s_ux s 0%nat 0%nat = 2 /\
  (exists x y, c_mem_kkt d m x y) /\ forall x y out, c_mem_kkt d m x y -> s_ux (c_fill d x y out) 0%nat 0%nat = 6 /\ ~ kkt d q (c_fill d x y out).
Proof. exact F_refuted. Qed.
Print Assumptions C73_hessian_sign_refuted.

(** Masks are not read: a one-sided bound gets its masked side, whose value is zero, as a second bound. *)
Theorem C73_mask_refuted : exists d q m0 m s, wf_bounds d q /\ wf_rev d q /\ masks01 d q /\ roomy d /\ c_calls d [q] (true, m0) = Done (false, m) /\ kkt d q s /\ s_ux s 0%nat 0%nat = 1 /\
  (exists x y, c_mem_kkt d m x y) /\ forall x y, c_mem_kkt d m x y -> x 0%nat <= 0.
Proof. exact cM_refuted. Qed.
Print Assumptions C73_mask_refuted.

(** The sparsity structure is written once: when the bounded variable changes, the bound stays on the old one. *)
Theorem C73_stale_structure_refuted : exists d q1 q2 m0 m x y, wf_bounds d q1 /\ wf_bounds d q2 /\ wf_rev d q2 /\ unmasked d q2 /\ roomy d /\ c_calls d [q1; q2] (true, m0) = Done (false, m) /\
  c_mem_kkt d m x y /\ forall out, ~ feasible d q2 (s_ux (c_fill d x y out)).
Proof. exact cI_refuted. Qed.
Print Assumptions C73_stale_structure_refuted.

(** The matrices stay inside the memory computed by ocp_qp_clarabel_memory_calculate_size, with valid and distinct row numbers, for all
    index maps including shared slacks; P is upper triangular with sorted rows and fills its array. *)
Theorem C74_structure : forall d q qs m0, (forall q', In q' qs -> same_maps d q q') ->
  exists m, c_calls d (qs ++ [q]) (true, m0) = Done (false, m) /\
  csc_set (c_constr d) (num_vars d) (c_nnzmax_A d) (c_Ap m) (c_Ai m) (length (concat (c_vals d q))) /\
  csc_ok (num_vars d) (num_vars d) (c_nnzmax_P d) (c_Pp m) (c_Pi m) (c_nnzmax_P d) /\ upper_triangular (num_vars d) (c_Pp m) (c_Pi m).
Proof. exact clarabel_csc. Qed.
Print Assumptions C74_structure.

Example C74_example : exists m, c_calls dO [qO] (true, cm0) = Done (false, m) /\ c_constr dO = 7%nat /\ con_start dO = 1%nat /\
  c_Ap m = [0; 3; 4; 6; 8; 11]%nat /\ c_Ai m = [0; 1; 2; 0; 1; 5; 2; 6; 0; 3; 4]%nat /\
  map (A_nzval dO m) (seq 0 11) = [1; -(1); 1; 1; -(1); -(1); -(1); -(1); -(1); -(1); 1].
Proof. exact cO_structure. Qed.

(** The row numbers of A are not sorted when a variable has a bound and the stage a general constraint. *)
Theorem C74_sorted_refuted : exists d (q : rqp) m0 m, wf_bounds d q /\ wf_rev d q /\ c_calls d [q] (true, m0) = Done (false, m) /\ c_Ap m = [0; 4]%nat /\ c_Ai m = [0; 2; 1; 3]%nat.
Proof. exact cG_refuted. Qed.
Print Assumptions C74_sorted_refuted.

(** first_run is an option.  Two memories with one options object, as in SQP_WITH_FEASIBLE_QP: the first call on one makes the first
    call on the other update a solver that does not exist. *)
Theorem C74_shared_options_refuted : forall d (q : rqp) m0 d' (q' : rqp) m1, c_built m1 = false ->
  exists f m, clarabel d q true m0 = Done (f, m) /\ clarabel d' q' f m1 = UB.
Proof. exact shared_options. Qed.
Print Assumptions C74_shared_options_refuted.
