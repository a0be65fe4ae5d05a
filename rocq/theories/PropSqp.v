(** Properties C06-C09, C12-C14 of the SQP driver (acados/ocp_nlp/ocp_nlp_sqp.c). *)
From Coq Require Import ZArith List Bool Lia.
From Verif Require Import FP FPProofs SqpModel SqpSpec SqpFinal SqpTop SqpCases SqpRefuted SqpEval SqpIter.
Import ListNotations.
Open Scope Z_scope.

(** C06: with the iteration limit used at creation, no log write is out of bounds ([None]). *)
Theorem C06_no_out_of_bounds : forall iterate world (Or : oracles iterate world) opts s0,
  0 <= max_iter opts -> logs_allocated opts s0 -> exists s, sqp_call Or opts s0 = Some s.
Proof. exact run_some. Qed.
Print Assumptions C06_no_out_of_bounds.

(** C06: contents of the returned statistics matrix.  Row k holds the k-th residuals evaluated in
    the call, row k+1 the k-th QP status, QP iteration count and step length. *)
Theorem C06_report : forall iterate world (Or : oracles iterate world) opts s0 s,
  0 <= max_iter opts -> sqp_call Or opts s0 = Some s ->
  logs_allocated opts s0 -> exists new, trace s = new ++ trace s0 /\
  stat_rows s = iter s + 1 /\
  iter s <= Z.of_nat (length (residuals new)) /\ iter s <= Z.of_nat (length (qp_results new)) /\
  (forall k r, nth_error (residuals new) k = Some r -> Z.of_nat k <= iter s ->
     report s (Z.of_nat k) 0 = Some (r_stat r) /\ report s (Z.of_nat k) 1 = Some (r_eq r) /\
     report s (Z.of_nat k) 2 = Some (r_ineq r) /\ report s (Z.of_nat k) 3 = Some (r_comp r)) /\
  (forall k st qi, nth_error (qp_results new) k = Some (st, qi) -> Z.of_nat k < iter s ->
     report s (Z.of_nat k + 1) 4 = Some (z2f st) /\ report s (Z.of_nat k + 1) 5 = Some (z2f qi)) /\
  (forall k a, nth_error (step_lengths new) k = Some a -> Z.of_nat k < iter s ->
     report s (Z.of_nat k + 1) 6 = Some a) /\
  (status s <> ACADOS_QP_FAILURE ->
     report s (iter s) 0 = Some (r_stat (nlp_res s)) /\ report s (iter s) 1 = Some (r_eq (nlp_res s)) /\
     report s (iter s) 2 = Some (r_ineq (nlp_res s)) /\ report s (iter s) 3 = Some (r_comp (nlp_res s))).
Proof. exact sqp_report. Qed.
Print Assumptions C06_report.

(** C06: slot k of the iterate log is the iterate of the k-th evaluation of the call. *)
Theorem C06_iterate_log : forall iterate world (Or : oracles iterate world) opts s0 s,
  0 <= max_iter opts -> sqp_call Or opts s0 = Some s -> logs_allocated opts s0 ->
  store_iterates opts = true -> exists new, trace s = new ++ trace s0 /\
  iter s <= Z.of_nat (length (points new)) <= iter s + 1 /\
  forall k x, nth_error (points new) k = Some x -> nth_error (iterates s) k = Some x.
Proof. exact sqp_iterate_log. Qed.
Print Assumptions C06_iterate_log.

Example C06_iterate_log_case :
  match sqp_call (toy 1 100 100) (toy_opts 10 true 0 LAST) (toy_mem 3 [] 10 f0) with
  | Some s => Some (firstn 5 (iterates s)) | None => None end = Some [3; 2; 1; 99; 99].
Proof. vm_compute. reflexivity. Qed.

(** C06: the residual columns of the rows beyond the last iteration, and of the last row when the
    QP solver failed, hold exactly what they held before the call. *)
Theorem C06_untouched_rows : forall iterate world (Or : oracles iterate world) opts s0 s,
  0 <= max_iter opts -> sqp_call Or opts s0 = Some s -> logs_allocated opts s0 ->
  exists new, trace s = new ++ trace s0 /\
  forall ii jj, 0 <= jj < 4 -> 0 <= ii ->
    iter s < ii \/ (ii = iter s /\ Z.of_nat (length (points new)) = iter s /\ status s = ACADOS_QP_FAILURE) ->
    nth_error (stat s) (Z.to_nat (jj + ii * stat_n s)) = nth_error (stat s0) (Z.to_nat (jj + ii * stat_n s0)).
Proof. exact sqp_untouched. Qed.
Print Assumptions C06_untouched_rows.

(** C06 is false for the last row after a QP failure: the reported residuals are left-over data. *)
Theorem C06_stale_row_refuted : exists (Or : oracles Z (list Z)) opts s0 s v,
  0 <= max_iter opts /\ logs_allocated opts s0 /\ trace s0 = [] /\ sqp_call Or opts s0 = Some s /\
  status s = ACADOS_QP_FAILURE /\ 1 < stat_rows s /\ report s 1 0 = Some v /\
  forall r, In r (residuals (trace s)) -> feqb (r_stat r) v = false.
Proof. exact sqp_stale_row. Qed.
Print Assumptions C06_stale_row_refuted.

(** C06 is false when the iteration limit is raised after creation (no check in opts_set). *)
Theorem C06_raised_limit_refuted : exists (Or : oracles Z (list Z)) created opts s0,
  logs_allocated created s0 /\ max_iter created < max_iter opts /\ sqp_call Or opts s0 = None.
Proof. exact sqp_raised_limit. Qed.
Print Assumptions C06_raised_limit_refuted.

Example C06_case : summary (sqp_call (toy 1 100 100) (toy_opts 10 true 0 LAST) (toy_mem 3 [] 10 f0)) = Some (4, 3, 1, 3).
Proof. vm_compute. reflexivity. Qed.

(** C07: success means the four residuals of the returned iterate, evaluated as the last thing
    before (clock readings aside), are below their tolerances. *)
Theorem C07_success : forall iterate world (Or : oracles iterate world) opts s0 s,
  0 <= max_iter opts -> sqp_call Or opts s0 = Some s -> status s = ACADOS_SUCCESS ->
  flt (r_stat (nlp_res s)) (tol_stat opts) = true /\ flt (r_eq (nlp_res s)) (tol_eq opts) = true /\
  flt (r_ineq (nlp_res s)) (tol_ineq opts) = true /\ flt (r_comp (nlp_res s)) (tol_comp opts) = true /\
  exists newer older, trace s = newer ++ EvRes (nlp_out s) (nlp_res s) :: older ++ trace s0 /\
     forallb is_clock newer = true.
Proof. exact sqp_success. Qed.
Print Assumptions C07_success.

(** C07: the residuals meeting the tolerances were computed from the problem functions linearised at
    the returned iterate. *)
Theorem C07_success_point : forall iterate world (Or : oracles iterate world) opts s0 s,
  0 <= max_iter opts -> sqp_call Or opts s0 = Some s -> status s = ACADOS_SUCCESS -> trace s0 = [] ->
  exists w, let r := o_res Or (nlp_out s) (o_linearize Or (nlp_out s) w) in
    nlp_res s = r /\ flt (r_stat r) (tol_stat opts) = true /\ flt (r_eq r) (tol_eq opts) = true /\
    flt (r_ineq r) (tol_ineq opts) = true /\ flt (r_comp r) (tol_comp opts) = true.
Proof. exact sqp_success_point. Qed.
Print Assumptions C07_success_point.

(** C07 needs max_iter >= 0: a negative limit is accepted and gives success at any iterate. *)
Theorem C07_negative_limit_refuted : exists (Or : oracles Z (list Z)) opts s0 s,
  sqp_call Or opts s0 = Some s /\ status s = ACADOS_SUCCESS /\ residuals (trace s) = [] /\
  flt (r_stat (o_res Or (nlp_out s) (wd s))) (tol_stat opts) = false.
Proof. exact sqp_negative_limit. Qed.
Print Assumptions C07_negative_limit_refuted.

Example C07_case : summary (sqp_call (toy 100 100 100) (toy_opts 10 false 0 LAST) (toy_mem 3 [] 10 f0)) = Some (0, 3, 0, 3).
Proof. vm_compute. reflexivity. Qed.

(** C08: bounded number of QPs, documented status. *)
Theorem C08_bounded : forall iterate world (Or : oracles iterate world) opts s0 s,
  0 <= max_iter opts -> sqp_call Or opts s0 = Some s -> exists new, trace s = new ++ trace s0 /\
  qp_count new <= max_iter opts /\ 0 <= iter s <= max_iter opts /\
  (iter s = qp_count new \/ iter s + 1 = qp_count new) /\
  (In (status s) [ACADOS_SUCCESS; ACADOS_NAN_DETECTED; ACADOS_MAXITER; ACADOS_MINSTEP;
                  ACADOS_QP_FAILURE; ACADOS_UNBOUNDED; ACADOS_TIMEOUT] \/
   exists x a older, new = EvGlob x (nlp_out s) (status s) a :: older /\ status s <> ACADOS_SUCCESS) /\
  (status s = ACADOS_MAXITER -> qp_count new = max_iter opts \/
     exists x a older, new = EvGlob x (nlp_out s) ACADOS_MAXITER a :: older) /\
  (status s = ACADOS_QP_FAILURE -> (exists st qi older, new = EvQP (nlp_out s) st qi :: older /\ qp_ok st = false) \/
     exists x a older, new = EvGlob x (nlp_out s) ACADOS_QP_FAILURE a :: older).
Proof. exact sqp_bounds. Qed.
Print Assumptions C08_bounded.

Example C08_case : summary (sqp_call (toy 100 100 100) (toy_opts 2 false 0 LAST) (toy_mem 3 [] 2 f0)) = Some (2, 2, 1, 2).
Proof. vm_compute. reflexivity. Qed.

(** C09 (SQP): a NaN among the reported residuals gives the NaN status. *)
Theorem C09_sqp_nan : forall iterate world (Or : oracles iterate world) opts s0 s,
  0 <= max_iter opts -> sqp_call Or opts s0 = Some s ->
  any_nan (nlp_res s) = true -> status s = ACADOS_NAN_DETECTED.
Proof. exact sqp_nan. Qed.
Print Assumptions C09_sqp_nan.

(** C09: no NaN passes a tolerance test. *)
Theorem C09_nan_compare : forall x tol, isnan x = true -> flt x tol = false /\ fle x tol = false.
Proof. exact nan_never_below. Qed.
Print Assumptions C09_nan_compare.

Example C09_case : summary (sqp_call (toy 100 1 100) (toy_opts 10 false 0 LAST) (toy_mem 3 [] 10 f0)) = Some (1, 2, 1, 2).
Proof. vm_compute. reflexivity. Qed.

(** C12: no QP is started once elapsed time plus estimate has reached the limit; the timeout status
    is returned only in that situation (or relayed from the globalization). *)
Theorem C12_timeout : forall iterate world (Or : oracles iterate world) opts s0 s,
  0 <= max_iter opts -> sqp_call Or opts s0 = Some s -> exists new, trace s = new ++ trace s0 /\
  (forall a x st qi b, new = a ++ EvQP x st qi :: b -> fgt (timeout_max_time opts) f0 = true ->
     exists t r, clocks b = t :: r /\
       fle (timeout_max_time opts)
           (fadd t (estimate_of (timeout_heuristic opts) (call_estimate opts (estimate s0)) (durations (t :: r)))) = false) /\
  (status s = ACADOS_TIMEOUT ->
     (fgt (timeout_max_time opts) f0 = true /\
      exists t r, clocks new = t :: r /\
       fle (timeout_max_time opts)
           (fadd t (estimate_of (timeout_heuristic opts) (call_estimate opts (estimate s0)) (durations (t :: r)))) = true)
     \/ exists x a older, new = EvGlob x (nlp_out s) ACADOS_TIMEOUT a :: older).
Proof. exact sqp_timeout. Qed.
Print Assumptions C12_timeout.

Example C12_case : summary (sqp_call (toy 100 100 100) (toy_opts 10 false 18 LAST) (toy_mem 5 [0;10;20;30] 10 f0)) = Some (7, 1, 4, 1).
Proof. vm_compute. reflexivity. Qed.

(** C13: the estimate after a call, per heuristic. *)
Theorem C13_last : forall iterate world (Or : oracles iterate world) opts s0 s,
  0 <= max_iter opts -> sqp_call Or opts s0 = Some s -> fgt (timeout_max_time opts) f0 = true ->
  timeout_heuristic opts = LAST -> exists new, trace s = new ++ trace s0 /\
  estimate s = hd f0 (durations (clocks new)).
Proof. exact sqp_last. Qed.
Print Assumptions C13_last.

Theorem C13_zero : forall iterate world (Or : oracles iterate world) opts s0 s,
  0 <= max_iter opts -> sqp_call Or opts s0 = Some s -> fgt (timeout_max_time opts) f0 = true ->
  timeout_heuristic opts = ZERO -> estimate s = f0.
Proof. exact sqp_zero. Qed.
Print Assumptions C13_zero.

Theorem C13_max_call : forall iterate world (Or : oracles iterate world) opts s0 s,
  0 <= max_iter opts -> sqp_call Or opts s0 = Some s -> fgt (timeout_max_time opts) f0 = true ->
  timeout_heuristic opts = MAX_CALL -> exists new, trace s = new ++ trace s0 /\
  is_max (estimate s) (durations (clocks new) ++ [f0]).
Proof. exact sqp_max_call. Qed.
Print Assumptions C13_max_call.

(** over any number of calls *)
Theorem C13_max_overall : forall iterate world (Or : oracles iterate world) opts s0 ds s,
  0 <= max_iter opts -> fgt (timeout_max_time opts) f0 = true -> timeout_heuristic opts = MAX_OVERALL ->
  isnan (estimate s0) = false ->
  history Or opts s0 ds s -> is_max (estimate s) (ds ++ [estimate s0]).
Proof. exact sqp_max_overall. Qed.
Print Assumptions C13_max_overall.

(** The AVERAGE heuristic starts from zero instead of the first duration (the branch for the first
    iteration is unreachable), so one measured duration of 10 gives the estimate 5. *)
Theorem C13_average_refuted : exists (Or : oracles Z (list Z)) opts s0 s d,
  0 <= max_iter opts /\ sqp_call Or opts s0 = Some s /\ timeout_heuristic opts = AVERAGE /\
  durations (clocks (trace s)) = [d] /\ feqb d (z2f 10) = true /\ feqb (estimate s) (z2f 5) = true.
Proof. exact sqp_average. Qed.
Print Assumptions C13_average_refuted.

Example C13_case : match sqp_call (toy 100 100 100) (toy_opts 10 false 100 MAX_CALL) (toy_mem 3 [0;10;12;15;40] 10 f0) with
  Some s => feqb (estimate s) (z2f 10) | None => false end = true.
Proof. vm_compute. reflexivity. Qed.

(** C14, driver part: after a QP failure the returned iterate is the one at which the residuals of
    the failing iteration were evaluated and its QP was formed (second case: failure relayed from
    the globalization). *)
Theorem C14_qp_failure : forall iterate world (Or : oracles iterate world) opts s0 s,
  0 <= max_iter opts -> sqp_call Or opts s0 = Some s -> status s = ACADOS_QP_FAILURE ->
  (exists st qi ck older, trace s = EvQP (nlp_out s) st qi :: ck ++ EvRes (nlp_out s) (nlp_res s) :: older /\
     (st <> ACADOS_SUCCESS /\ st <> ACADOS_MAXITER) /\ forallb is_clock ck = true) \/
  (exists x a older, trace s = EvGlob x (nlp_out s) ACADOS_QP_FAILURE a :: older).
Proof. exact sqp_qp_failure_st. Qed.
Print Assumptions C14_qp_failure.

Example C14_case : summary (sqp_call (toy 2 100 100) (toy_opts 10 false 0 LAST) (toy_mem 3 [] 10 f0)) = Some (4, 2, 2, 2).
Proof. vm_compute. reflexivity. Qed.
