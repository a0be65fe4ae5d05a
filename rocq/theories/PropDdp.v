(** Property theorems: the DDP driver. *)
From Coq Require Import ZArith List Bool.
From Verif Require Import FP SqpModel SqpCases DdpModel DdpProofs DdpTop.
Import ListNotations.
Open Scope Z_scope.

(** C17: success means the reported residuals met the tolerances; they belong to the returned iterate unless the
    iteration limit was reached and the residual evaluation there is switched off *)
Theorem C17_success : forall iterate world (Or : ddp_oracles iterate world) o s0 s, 0 <= d_max_iter o -> ddp_call Or o s0 = Some s -> dm_status s = ACADOS_SUCCESS ->
  flt (r_eq (dm_res s)) (d_tol_eq o) = true /\
  (flt (r_stat (dm_res s)) (d_tol_stat o) = true \/ (d_adaptive_lm o = true /\ flt (d_cost Or (dm_wd s)) (d_tol_zero_res o) = true)) /\
  (d_eval_at_max_iter o = true \/ dm_iter s < d_max_iter o \/ (d_adaptive_lm o = false /\ 0 < d_max_iter o) ->
   exists older, dm_trace s = DRes (dm_out s) (dm_res s) :: older).
Proof. exact ddp_success. Qed.
Print Assumptions C17_success.
(** finding: with iteration limit zero, success from residuals of an earlier call *)
Theorem C17_stale_zero_refuted : exists (Or : ddp_oracles Z Z) opts s0 s, 0 <= d_max_iter opts /\ ddp_allocated opts s0 /\ ddp_call Or opts s0 = Some s /\ dm_status s = ACADOS_SUCCESS /\
  dresiduals (dm_trace s) = [] /\ forall w, flt (r_stat (d_res Or (dm_out s) w)) (d_tol_stat opts) = false.
Proof. exact ddp_stale_zero. Qed.
Print Assumptions C17_stale_zero_refuted.
(** finding: at the iteration limit, success with the residuals of the previous iterate *)
Theorem C17_stale_last_refuted : exists (Or : ddp_oracles Z Z) opts s0 s, 0 < d_max_iter opts /\ ddp_allocated opts s0 /\ dm_trace s0 = [] /\ ddp_call Or opts s0 = Some s /\ dm_status s = ACADOS_SUCCESS /\
  (forall r, ~ In (DRes (dm_out s) r) (dm_trace s)) /\ forall w, feqb (r_stat (d_res Or (dm_out s) w)) (r_stat (dm_res s)) = false.
Proof. exact ddp_stale_last. Qed.
Print Assumptions C17_stale_last_refuted.
(** finding: a negative cost counts as a zero residual *)
Theorem C17_negative_cost_refuted : exists (Or : ddp_oracles Z Z) opts s0 s, ddp_call Or opts s0 = Some s /\ ddp_allocated opts s0 /\ d_tol_zero_res opts = f0 /\
  dm_status s = ACADOS_SUCCESS /\ (exists older, dm_trace s = DRes (dm_out s) (dm_res s) :: older) /\ flt (r_stat (dm_res s)) (z2f 50) = false.
Proof. exact ddp_negative_cost. Qed.
Print Assumptions C17_negative_cost_refuted.
Theorem C17_bounded : forall iterate world (Or : ddp_oracles iterate world) o s0 s, 0 <= d_max_iter o -> ddp_call Or o s0 = Some s ->
  exists new, dm_trace s = new ++ dm_trace s0 /\ dqps new <= d_max_iter o /\ 0 <= dm_iter s <= d_max_iter o /\
  (dm_iter s = dqps new \/ dm_iter s + 1 = dqps new /\ dm_status s = ACADOS_QP_FAILURE) /\
  In (dm_status s) [ACADOS_SUCCESS; ACADOS_NAN_DETECTED; ACADOS_MINSTEP; ACADOS_MAXITER; ACADOS_QP_FAILURE].
Proof. exact ddp_bounded. Qed.
Print Assumptions C17_bounded.
(** a negative limit returns the status of the previous call *)
Theorem C17_negative_limit : forall iterate world (Or : ddp_oracles iterate world) o s0, d_max_iter o < 0 ->
  exists s, ddp_call Or o s0 = Some s /\ dm_status s = dm_status s0 /\ dm_trace s = dm_trace s0.
Proof. exact ddp_negative_limit. Qed.
Print Assumptions C17_negative_limit.
Example C17_case : dsummary (ddp_call (dtoy pos f0 100) (dopts 10 true false false) (dtoy_mem 102 10 7 f0)) = Some (0, 3, 0, 3).
Proof. exact ddp_case. Qed.
Example C17_qp_failure_case : dsummary (ddp_call (dtoy pos f0 2) (dopts 10 true false false) (dtoy_mem 4 10 7 f0)) = Some (4, 3, 2, 3).
Proof. exact ddp_qp_case. Qed.

(** C09: NaN residuals of the DDP solver *)
Theorem C09_ddp_nan : forall iterate world (Or : ddp_oracles iterate world) o s0 s, 0 <= d_max_iter o -> ddp_call Or o s0 = Some s ->
  isnan (r_stat (dm_res s)) || isnan (r_eq (dm_res s)) || isnan (r_ineq (dm_res s)) = true -> dm_status s = ACADOS_NAN_DETECTED.
Proof. exact ddp_nan. Qed.
Print Assumptions C09_ddp_nan.
(** finding: a NaN complementarity residual is not looked at *)
Theorem C09_ddp_comp_refuted : exists (Or : ddp_oracles Z Z) opts s0 s, 0 <= d_max_iter opts /\ ddp_allocated opts s0 /\ ddp_call Or opts s0 = Some s /\ isnan (r_comp (dm_res s)) = true /\ dm_status s = ACADOS_SUCCESS.
Proof. exact ddp_comp_nan. Qed.
Print Assumptions C09_ddp_comp_refuted.

(** C61: the forward simulation is the first step, taken exactly when the guess violates the dynamics *)
Theorem C61_simulation : forall iterate world (Or : ddp_oracles iterate world) o s0 s, 0 <= d_max_iter o -> ddp_call Or o s0 = Some s ->
  exists new, dm_trace s = new ++ dm_trace s0 /\
  (dsteps new = [] \/ exists r n, hd_error (dresiduals new) = Some r /\ dsteps new = fgt (r_eq r) (d_tol_eq o) :: repeat false n).
Proof. exact ddp_simulation. Qed.
Print Assumptions C61_simulation.
Example C61_case : dsteps (match ddp_call (dtoy pos f0 100) (dopts 10 true false false) (dtoy_mem 102 10 7 f0) with Some s => dm_trace s | None => [] end) = [true; false; false].
Proof. exact ddp_sim_case. Qed.

(** C62: statistics and iterate stores of the DDP solver stay inside the allocation, without QP residual logging ... *)
Theorem C62_no_oob : forall iterate world (Or : ddp_oracles iterate world) o s0, d_ext_qp_res o = false -> ddp_allocated o s0 -> exists s, ddp_call Or o s0 = Some s.
Proof. exact ddp_no_oob. Qed.
Print Assumptions C62_no_oob.
(** ... finding: with it a pointer that is never assigned is dereferenced *)
Theorem C62_ext_res_refuted : exists (Or : ddp_oracles Z Z) opts s0, 0 <= d_max_iter opts /\ ddp_allocated opts s0 /\ ddp_call Or opts s0 = None.
Proof. exact ddp_ext_res. Qed.
Print Assumptions C62_ext_res_refuted.
