(** C77, C78: the DAQP interface. *)
From Coq Require Import ZArith List Bool Reals.
From Verif Require Import Arr Arith RSum DenseModel QpoModel DaqpModel DenseSpec DaqpSpec DenseProofs DaqpTop QpoCases DaqpCases DaqpBad DaqpBad2 DaqpBad3 DaqpEnd.
Import ListNotations.
Open Scope R_scope.

(** A call on a QP the interface handles, with no hot start on old matrices, sets up a least distance problem each of whose KKT points is
    turned into a KKT point of the dense QP. *)
Theorem C77_kkt : forall inf tol potrf trsm trsv_n trsv_t d check activate warm (q : rdqp) (m0 : rdmem), 0 < tol -> daqp_able tol potrf trsm trsv_n trsv_t d q ->
  (0 <= check)%Z -> (0 <= activate)%Z -> warm <> 2%Z \/ m_init m0 = false ->
  exists m, daqp_update (A := real) inf tol sqrt potrf trsm trsv_n check activate warm d q m0 = inr m /\
    forall u ws out, ws_ok (mrows d) ws -> (forall j, (drows d <= j < mrows d)%nat -> In j (map fst ws)) ->
    ldp_kkt (dnv d) (mrows d) m u (ws_lam ws) -> inf_free inf d q (ldp_to_qp (A := real) trsv_t m u) -> dkkt d q 1 (daqp_out (A := real) trsv_t d q m u ws out).
Proof. exact C77_one. Qed.
Print Assumptions C77_kkt.

(** The same after any sequence of calls in which each hot start finds the matrices of the call before. *)
Theorem C77_sequence : forall inf tol potrf trsm trsv_n trsv_t d c a w (q : rdqp) l m0, 0 < tol -> hot_ok d None ((c, a, w, q) :: l) ->
  (forall e, In e ((c, a, w, q) :: l) -> daqp_able tol potrf trsm trsv_n trsv_t d (snd e)) -> m_init m0 = false ->
  exists m, calls inf tol potrf trsm trsv_n d ((c, a, w, q) :: l) m0 = Some m /\
    forall u ws out, ws_ok (mrows d) ws -> (forall j, (drows d <= j < mrows d)%nat -> In j (map fst ws)) ->
    ldp_kkt (dnv d) (mrows d) m u (ws_lam ws) -> inf_free inf d (last (map snd l) q) (ldp_to_qp (A := real) trsv_t m u) ->
    dkkt d (last (map snd l) q) 1 (daqp_out (A := real) trsv_t d (last (map snd l) q) m u ws out).
Proof. exact C77_seq. Qed.
Print Assumptions C77_sequence.

Example C77_example : daqp_able (/ 100000000000) potrf_d trsm_d trsv_d trsv_d dP qP /\
  exists m, upd_d 0 0 0 dP qP m0 = inr m /\ ws_ok (mrows dP) wsP /\ (forall j, (drows dP <= j < mrows dP)%nat -> In j (map fst wsP)) /\
    ldp_kkt (dnv dP) (mrows dP) m uP (ws_lam wsP) /\ inf_free 1000 dP qP (ldp_to_qp (A := real) trsv_d m uP) /\
    let s := outP m in ds_v s 0%nat = -1 /\ ds_v s 1%nat = 1 /\ ds_v s 2%nat = 1 /\ ds_v s 3%nat = 0 /\ ds_pi s 0%nat = 1 /\ ds_lam s 0%nat = 2 /\ ds_lam s 4%nat = 0 /\ ds_lam s 5%nat = 1.
Proof. exact P_all. Qed.

Example C77_sequence_example : hot_ok dP None [(0%Z, 0%Z, 0%Z, qP); (0%Z, 0%Z, 2%Z, qP); (0%Z, 0%Z, 1%Z, qP)] /\ forall e, In e [(0%Z, 0%Z, 0%Z, qP); (0%Z, 0%Z, 2%Z, qP); (0%Z, 0%Z, 1%Z, qP)] -> daqp_able (/ 100000000000) potrf_d trsm_d trsv_d trsv_d dP (snd e).
Proof. exact P_seq. Qed.

(** The conditions are needed.  A row with small coefficients is dropped: -10 x + x^2/2 with 1e-6 x <= 5e-6 gives x = 10 and status 0. *)
Theorem C77_small_row_refuted : lin_ok dS qS /\ one_row_each dS qS /\ soft_able dS qS /\
  exists m s, run_d 0 (fun _ => 0) [] dS qS m0 s0 = (0%Z, s, Some m) /\ ldp_kkt 1 1 m (fun _ => 0) (ws_lam []) /\ ds_v s 0%nat = 10 /\ dineq dS qS (ds_v s) 1 = -5/1000000 /\ forall sg, ~ dkkt dS qS sg s.
Proof. exact S_end. Qed.
Print Assumptions C77_small_row_refuted.

(** The same for an equality, whose multiplier keeps its old value 9. *)
Theorem C77_small_equality_refuted : lin_ok dE qE /\ one_row_each dE qE /\ soft_able dE qE /\
  exists m s, run_d 0 (fun _ => 0) [] dE qE m0 s0 = (0%Z, s, Some m) /\ ldp_kkt 1 1 m (fun _ => 0) (ws_lam []) /\ ds_v s 0%nat = 10 /\ ds_pi s 0%nat = 9 /\ forall sg, ~ dkkt dE qE sg s.
Proof. exact E_end. Qed.
Print Assumptions C77_small_equality_refuted.

(** Quadratic slack penalties below 1e-8 are replaced by 1e-8, so a QP with linear penalties only is changed. *)
Theorem C77_clip_refuted : lin_ok dZ qZ /\ one_row_each dZ qZ /\ big_rows (/ 100000000000) dZ qZ (potrf_d (dq_H qZ)) /\ (forall m, (m < dall dZ)%nat -> dq_mask qZ m = 1) /\
  exists m s, run_d 0 uZ wsZ dZ qZ m0 s0 = (0%Z, s, Some m) /\ ldp_kkt 1 1 m uZ (ws_lam wsZ) /\ ds_lam s 0%nat = / 100000001 /\ forall sg, ~ dkkt dZ qZ sg s.
Proof. exact Z_end. Qed.
Print Assumptions C77_clip_refuted.

(** Negative linear penalties give negative multipliers. *)
Theorem C77_negative_penalty_refuted : lin_ok dZ qN /\ one_row_each dZ qN /\ big_rows (/ 100000000000) dZ qN (potrf_d (dq_H qN)) /\ (forall m, (m < dall dZ)%nat -> dq_mask qN m = 1) /\
  exists m s, run_d 0 (fun _ => 0) [] dZ qN m0 s0 = (0%Z, s, Some m) /\ ldp_kkt 1 1 m (fun _ => 0) (ws_lam []) /\ ds_lam s 2%nat = -1 /\ forall sg, ~ dkkt dZ qN sg s.
Proof. exact N_end. Qed.
Print Assumptions C77_negative_penalty_refuted.

(** Masked bounds of slacks are enforced. *)
Theorem C77_slack_mask_refuted : lin_ok dZ qM /\ one_row_each dZ qM /\ big_rows (/ 100000000000) dZ qM (potrf_d (dq_H qM)) /\
  exists m s, run_d 0 (fun _ => 0) [] dZ qM m0 s0 = (0%Z, s, Some m) /\ ldp_kkt 1 1 m (fun _ => 0) (ws_lam []) /\ ds_lam s 2%nat = 1 /\ forall sg, ~ dkkt dZ qM sg s.
Proof. exact M_end. Qed.
Print Assumptions C77_slack_mask_refuted.

(** A softened row that is zero is dropped; the multipliers of its slacks are not complementary. *)
Theorem C77_soft_zero_row_refuted : lin_ok dO qO /\ one_row_each dO qO /\ soft_able dO qO /\
  exists m s, run_d 0 (fun _ => 0) [] dO qO m0 s0 = (0%Z, s, Some m) /\ ldp_kkt 1 1 m (fun _ => 0) (ws_lam []) /\ ds_v s 1%nat = 1 /\ ds_lam s 2%nat = 2 /\ forall sg, ~ dkkt dO qO sg s.
Proof. exact O_end. Qed.
Print Assumptions C77_soft_zero_row_refuted.

(** Of two rows softened by one slack only the last is soft. *)
Theorem C77_shared_slack_refuted : lin_ok dT qT /\ soft_able dT qT /\ (forall m, (m < dall dT)%nat -> dq_mask qT m = 1) /\
  exists m s, run_d 0 (fun _ => 5) [(O, -5)] dT qT m0 s0 = (0%Z, s, Some m) /\ ldp_kkt 1 2 m (fun _ => 5) (ws_lam [(O, -5)]) /\ ds_v s 0%nat = 0 /\ forall sg, ~ dkkt dT qT sg s.
Proof. exact T_end. Qed.
Print Assumptions C77_shared_slack_refuted.

(** A hot start with another Hessian solves the QP with the old one. *)
Theorem C77_hot_refuted : exists m1 m2 s1 s, run_d 0 (fun _ => 0) [] dH (qH 1 (-4)) m0 s0 = (0%Z, s1, Some m1) /\ run_d 2 (fun _ => 0) [] dH (qH 4 (-8)) m1 s1 = (0%Z, s, Some m2) /\
  ldp_kkt 1 1 m2 (fun _ => 0) (ws_lam []) /\ ds_v s 0%nat = 8 /\ forall sg, ~ dkkt dH (qH 4 (-8)) sg s.
Proof. exact H_bad. Qed.
Print Assumptions C77_hot_refuted.

(** Success is reported exactly if the interface set up the problem and DAQP reported an optimal or soft optimal point; the solution is then
    DAQP's. *)
Theorem C78_status : forall (A : arith) inf tol sq p t1 t2 t3 c a w ldp d (q : dqp A) m out st s om, daqp_run inf tol sq p t1 t2 t3 c a w ldp d q m out = (st, s, om) ->
  (st = 0%Z <-> exists m', daqp_update inf tol sq p t1 t2 c a w d q m = inr m' /\ om = Some m' /\ (fst (fst (ldp m')) = D_OPTIMAL \/ fst (fst (ldp m')) = D_SOFT_OPTIMAL) /\
    s = daqp_out t3 d q m' (snd (fst (ldp m'))) (snd (ldp m')) out).
Proof. exact @C78_st. Qed.
Print Assumptions C78_status.

(** When the problem cannot be set up, the output keeps its old values and the return value is a negative number, never ACADOS_INFEASIBLE. *)
Theorem C78_early : forall (A : arith) inf tol sq p t1 t2 t3 c a w ldp d (q : dqp A) m out st s, daqp_run inf tol sq p t1 t2 t3 c a w ldp d q m out = (st, s, None) -> s = out /\ (st < 0)%Z.
Proof. exact @C78_ea. Qed.
Print Assumptions C78_early.
(** This happens for a feasible QP: x^2/2 - 10 x with 1 <= 1e-6 x <= 2, solved by 1e6. *)
Theorem C78_feasible_refuted : lin_ok dS qI /\ one_row_each dS qI /\ soft_able dS qI /\ (forall u ws out, run_d 0 u ws dS qI m0 out = ((-1)%Z, out, None)) /\ forall sg, dkkt dS qI sg solI.
Proof. exact I_end. Qed.
Print Assumptions C78_feasible_refuted.
