(** The SQP driver ocp_nlp_sqp (acados/ocp_nlp/ocp_nlp_sqp.c:476-806) as a state machine.

    The iterate and everything hidden behind submodule calls (linearisation data, QP, solver
    memories) are abstract types; submodule calls are arbitrary functions (record [oracles]).
    Not modelled: printing, warm-start option calls, OpenMP thread-count bookkeeping (no effect on
    the control flow), sub-timers other than time_tot. *)
From Coq Require Import ZArith List Bool.
From Verif Require Import FP.
Import ListNotations.
Open Scope Z_scope.

(** acados/utils/types.h:91-105 return values *)
Definition ACADOS_SUCCESS : Z := 0.
Definition ACADOS_NAN_DETECTED : Z := 1.
Definition ACADOS_MAXITER : Z := 2.
Definition ACADOS_MINSTEP : Z := 3.
Definition ACADOS_QP_FAILURE : Z := 4.
Definition ACADOS_READY : Z := 5.
Definition ACADOS_UNBOUNDED : Z := 6.
Definition ACADOS_TIMEOUT : Z := 7.

(** ocp_nlp_sqp.h / types.h timeout heuristics *)
Inductive heuristic := MAX_CALL | MAX_OVERALL | LAST | AVERAGE | ZERO.

(** C array store: [None] is an out-of-bounds access (undefined behaviour). *)
Definition put {A} (l : list A) (i : Z) (v : A) : option (list A) :=
  if (0 <=? i) && (i <? Z.of_nat (length l))
  then Some (firstn (Z.to_nat i) l ++ v :: skipn (S (Z.to_nat i)) l) else None.

Definition bind {A B} (x : option A) (f : A -> option B) : option B :=
  match x with Some a => f a | None => None end.
Notation "'let*' x ':=' e 'in' f" := (bind e (fun x => f)) (at level 200, x pattern, right associativity).

(** nlp_res->inf_norm_res_{stat,eq,ineq,comp} *)
Record res4 := mkRes { r_stat : double; r_eq : double; r_ineq : double; r_comp : double }.

(** ocp_nlp_opts / ocp_nlp_sqp_opts, the fields that steer the loop *)
Record sqp_opts := mkSqpOpts {
  max_iter : Z; eval_residual_at_max_iter : bool;
  tol_stat : double; tol_eq : double; tol_ineq : double; tol_comp : double;
  tol_min_step_norm : double; tol_unbounded : double;
  timeout_max_time : double; timeout_heuristic : heuristic;
  store_iterates : bool; log_primal_step_norm : bool; log_dual_step_norm : bool;
  with_anderson : bool; ext_qp_res : bool; print_level : Z }.

(** Ghost trace: what happened, newest first. *)
Inductive event (iterate : Type) :=
| EvRes (x : iterate) (r : res4)                  (* residuals r evaluated at iterate x *)
| EvClock (t : double)                            (* elapsed time read by the timeout logic *)
| EvQP (x : iterate) (status : Z) (qp_iter : Z)   (* QP at x solved with this result *)
| EvGlob (x x' : iterate) (status : Z) (alpha : double).           (* globalization: from x to x', status, step length *)
Arguments EvRes {iterate}. Arguments EvClock {iterate}. Arguments EvQP {iterate}. Arguments EvGlob {iterate}.

Section SQP.
Variables iterate world : Type.

Record oracles := mkOracles {
  o_init      : iterate -> world -> world;             (* ocp_nlp_initialize_submodules *)
  o_linearize : iterate -> world -> world;             (* approximate_qp_matrices, _vectors_sqp, cost value, LM term *)
  o_res       : iterate -> world -> res4;              (* ocp_nlp_res_compute *)
  o_glob_init : world -> world;                        (* globalization->initialize_memory *)
  o_prepare   : world -> world;                        (* QP scaling and regularisation *)
  o_clock     : world -> world * double;               (* acados_toc(&timer0) *)
  o_cost      : world -> double;                       (* nlp_mem->cost_value *)
  o_qp        : iterate -> world -> world * Z * Z;     (* ocp_nlp_solve_qp_and_correct_dual: status, iterations *)
  o_qp_res    : world -> double * double * double * double;  (* ocp_qp_res_compute_nrm_inf *)
  o_step_norm : world -> double;                       (* ocp_qp_out_compute_primal_nrm_inf *)
  o_dual_norm : iterate -> world -> double;            (* ocp_nlp_compute_delta_dual_norm_inf *)
  o_glob      : iterate -> world -> double -> world * iterate * Z * double
                                                       (* globalization->find_acceptable_iterate: iterate, status, alpha *)
}.

(** ocp_nlp_sqp_memory and the parts of ocp_nlp_memory used by the driver, plus nlp_out. *)
Record mem := mkMem {
  nlp_out : iterate; wd : world;
  iter : Z; status : Z; nlp_res : res4;
  alpha : double; step_norm : double;
  time_tot : double; estimate : double; prev_time_tot : double;
  stat_m : Z; stat_n : Z; stat : list double;
  iterates : list iterate;            (* allocated slots, max_iter+1 at creation or none *)
  psn : list double; dsn : list double;
  trace : list (event iterate) }.

(** field updates *)
Definition set_out s v := mkMem v (wd s) (iter s) (status s) (nlp_res s) (alpha s) (step_norm s) (time_tot s) (estimate s) (prev_time_tot s) (stat_m s) (stat_n s) (stat s) (iterates s) (psn s) (dsn s) (trace s).
Definition set_wd s v := mkMem (nlp_out s) v (iter s) (status s) (nlp_res s) (alpha s) (step_norm s) (time_tot s) (estimate s) (prev_time_tot s) (stat_m s) (stat_n s) (stat s) (iterates s) (psn s) (dsn s) (trace s).
Definition set_iter s v := mkMem (nlp_out s) (wd s) v (status s) (nlp_res s) (alpha s) (step_norm s) (time_tot s) (estimate s) (prev_time_tot s) (stat_m s) (stat_n s) (stat s) (iterates s) (psn s) (dsn s) (trace s).
Definition set_status s v := mkMem (nlp_out s) (wd s) (iter s) v (nlp_res s) (alpha s) (step_norm s) (time_tot s) (estimate s) (prev_time_tot s) (stat_m s) (stat_n s) (stat s) (iterates s) (psn s) (dsn s) (trace s).
Definition set_res s v := mkMem (nlp_out s) (wd s) (iter s) (status s) v (alpha s) (step_norm s) (time_tot s) (estimate s) (prev_time_tot s) (stat_m s) (stat_n s) (stat s) (iterates s) (psn s) (dsn s) (trace s).
Definition set_alpha s v := mkMem (nlp_out s) (wd s) (iter s) (status s) (nlp_res s) v (step_norm s) (time_tot s) (estimate s) (prev_time_tot s) (stat_m s) (stat_n s) (stat s) (iterates s) (psn s) (dsn s) (trace s).
Definition set_step_norm s v := mkMem (nlp_out s) (wd s) (iter s) (status s) (nlp_res s) (alpha s) v (time_tot s) (estimate s) (prev_time_tot s) (stat_m s) (stat_n s) (stat s) (iterates s) (psn s) (dsn s) (trace s).
Definition set_times s tt e p := mkMem (nlp_out s) (wd s) (iter s) (status s) (nlp_res s) (alpha s) (step_norm s) tt e p (stat_m s) (stat_n s) (stat s) (iterates s) (psn s) (dsn s) (trace s).
Definition set_stat s v := mkMem (nlp_out s) (wd s) (iter s) (status s) (nlp_res s) (alpha s) (step_norm s) (time_tot s) (estimate s) (prev_time_tot s) (stat_m s) (stat_n s) v (iterates s) (psn s) (dsn s) (trace s).
Definition set_iterates s v := mkMem (nlp_out s) (wd s) (iter s) (status s) (nlp_res s) (alpha s) (step_norm s) (time_tot s) (estimate s) (prev_time_tot s) (stat_m s) (stat_n s) (stat s) v (psn s) (dsn s) (trace s).
Definition set_psn s v := mkMem (nlp_out s) (wd s) (iter s) (status s) (nlp_res s) (alpha s) (step_norm s) (time_tot s) (estimate s) (prev_time_tot s) (stat_m s) (stat_n s) (stat s) (iterates s) v (dsn s) (trace s).
Definition set_dsn s v := mkMem (nlp_out s) (wd s) (iter s) (status s) (nlp_res s) (alpha s) (step_norm s) (time_tot s) (estimate s) (prev_time_tot s) (stat_m s) (stat_n s) (stat s) (iterates s) (psn s) v (trace s).
Definition log s e := mkMem (nlp_out s) (wd s) (iter s) (status s) (nlp_res s) (alpha s) (step_norm s) (time_tot s) (estimate s) (prev_time_tot s) (stat_m s) (stat_n s) (stat s) (iterates s) (psn s) (dsn s) (e :: trace s).

Variable Or : oracles.
Variable opts : sqp_opts.

(** ocp_nlp_sqp.c:345-443 check_termination: [Some status] when the loop must stop. *)
Definition check_termination (n_iter : Z) (s : mem) : option Z :=
  let r := nlp_res s in
  if isnan (r_stat r) || isnan (r_eq r) || isnan (r_ineq r) || isnan (r_comp r)
  then Some ACADOS_NAN_DETECTED
  else if negb (eval_residual_at_max_iter opts) && (max_iter opts <=? n_iter)
  then Some ACADOS_MAXITER
  else if flt (r_stat r) (tol_stat opts) && flt (r_eq r) (tol_eq opts)
          && flt (r_ineq r) (tol_ineq opts) && flt (r_comp r) (tol_comp opts)
  then Some ACADOS_SUCCESS
  else if fgt (tol_min_step_norm opts) f0 && (0 <? n_iter) && flt (step_norm s) (tol_min_step_norm opts)
  then Some ACADOS_MINSTEP
  else if fle (o_cost Or (wd s)) (tol_unbounded opts)
  then Some ACADOS_UNBOUNDED
  else if max_iter opts <=? n_iter
  then Some ACADOS_MAXITER
  else if fgt (timeout_max_time opts) f0
          && fle (timeout_max_time opts) (fadd (time_tot s) (estimate s))
  then Some ACADOS_TIMEOUT
  else None.

(** Lines 546-575: linearise, evaluate residuals. *)
Definition evaluate (s : mem) : option mem :=
  if negb (iter s =? max_iter opts) || eval_residual_at_max_iter opts then
    let* s := (if store_iterates opts
               then let* l := put (iterates s) (iter s) (nlp_out s) in Some (set_iterates s l)
               else Some s) in
    let s := set_wd s (o_linearize Or (nlp_out s) (wd s)) in
    let r := o_res Or (nlp_out s) (wd s) in
    Some (log (set_res s r) (EvRes (nlp_out s) r))
  else Some s.

(** Lines 577-590: globalization memory at the first iteration, residual statistics. *)
Definition save_res_stats (s : mem) : option mem :=
  let s := if iter s =? 0 then set_wd s (o_glob_init Or (wd s)) else s in
  if iter s <? stat_m s then
    let b := stat_n s * iter s in
    let* l := put (stat s) (b + 0) (r_stat (nlp_res s)) in
    let* l := put l (b + 1) (r_eq (nlp_res s)) in
    let* l := put l (b + 2) (r_ineq (nlp_res s)) in
    let* l := put l (b + 3) (r_comp (nlp_res s)) in
    Some (set_stat s l)
  else Some s.

(** Lines 592-644: scaling, regularisation, timeout estimate. *)
Definition new_estimate (it : Z) (old dt : double) : double :=
  match timeout_heuristic opts with
  | LAST => dt
  | MAX_CALL | MAX_OVERALL => if fgt dt old then dt else old
  | AVERAGE => if it =? 0 then dt else fadd (fmul fhalf dt) (fmul fhalf old)
  | ZERO => old
  end.
Definition update_timeout (s : mem) : mem :=
  let s := set_wd s (o_prepare Or (wd s)) in
  if fgt (timeout_max_time opts) f0 then
    let '(w, t) := o_clock Or (wd s) in
    let e := if 0 <? iter s
             then new_estimate (iter s) (estimate s) (fsub t (prev_time_tot s)) else estimate s in
    log (set_times (set_wd s w) t e t) (EvClock t)
  else s.

(** Lines 684-760: QP solve, statistics, QP failure exit ([inl] = return). *)
Definition qp_ok (st : Z) : bool := (st =? ACADOS_SUCCESS) || (st =? ACADOS_MAXITER).
Definition final_clock (s : mem) : mem :=
  let '(w, t) := o_clock Or (wd s) in set_times (set_wd s w) t (estimate s) (prev_time_tot s).
Definition z2f (z : Z) : double := fz2 z 0.   (* int stored into a double *)
Definition solve_qp (s : mem) : option (mem + mem) :=
  let '(w, st, qi) := o_qp Or (nlp_out s) (wd s) in
  let s := log (set_wd s w) (EvQP (nlp_out s) st qi) in
  let b := stat_n s * (iter s + 1) in
  let* s := (if iter s + 1 <? stat_m s then
               let* l := put (stat s) (b + 4) (z2f st) in
               let* l := put l (b + 5) (z2f qi) in
               Some (set_stat s l)
             else Some s) in
  let* s := (if ext_qp_res opts && (iter s + 1 <? stat_m s) then
               let '(a0, a1, a2, a3) := o_qp_res Or (wd s) in
               let* l := put (stat s) (b + 7) a0 in
               let* l := put l (b + 8) a1 in
               let* l := put l (b + 9) a2 in
               let* l := put l (b + 10) a3 in
               Some (set_stat s l)
             else Some s) in
  if qp_ok st then Some (inr s)
  else Some (inl (final_clock (set_status (set_iter s (iter s + 1)) ACADOS_QP_FAILURE))).

(** Lines 762-783: step norms. *)
Definition step_norms (s : mem) : option mem :=
  let* s := (if fgt (tol_min_step_norm opts) f0 || log_primal_step_norm opts || (0 <? print_level opts)
             then let s := set_step_norm s (o_step_norm Or (wd s)) in
                  if log_primal_step_norm opts
                  then let* l := put (psn s) (iter s) (step_norm s) in Some (set_psn s l)
                  else Some s
             else Some s) in
  if log_dual_step_norm opts && negb (with_anderson opts)
  then let* l := put (dsn s) (iter s) (o_dual_norm Or (nlp_out s) (wd s)) in Some (set_dsn s l)
  else Some s.

(** Lines 785-815: globalization ([inl] = return, [inr] = next iteration). *)
Definition globalize (s : mem) : option (mem + mem) :=
  let '(w, x, st, a) := o_glob Or (nlp_out s) (wd s) (alpha s) in
  let s := log (set_alpha (set_out (set_wd s w) x) a) (EvGlob (nlp_out s) x st a) in
  if st =? ACADOS_SUCCESS then
    if iter s + 1 <? stat_m s then
      let* l := put (stat s) (stat_n s * (iter s + 1) + 6) (alpha s) in
      Some (inr (set_iter (set_stat s l) (iter s + 1)))
    else Some (inr (set_iter s (iter s + 1)))
  else Some (inl (final_clock (set_status s st))).

(** One pass through the loop body, lines 542-816. *)
Definition body (s : mem) : option (mem + mem) :=
  let* s := evaluate s in
  let* s := save_res_stats s in
  let s := update_timeout s in
  match check_termination (iter s) s with
  | Some st => Some (inl (final_clock (set_status s st)))
  | None =>
      let* r := solve_qp s in
      match r with
      | inl s => Some (inl s)
      | inr s => let* s := step_norms s in globalize s
      end
  end.

(** for (; iter <= max_iter; iter++); fuel = number of values of iter still allowed. *)
Fixpoint loop (fuel : nat) (s : mem) : option mem :=
  match fuel with
  | O => Some s                        (* loop condition false: falls out of the loop, line 818 *)
  | S n => let* r := body s in
           match r with inl s => Some s | inr s => loop n s end
  end.

(** Lines 500-540: initialisation of a call. *)
Definition start (s : mem) : mem :=
  let e := match timeout_heuristic opts with MAX_OVERALL => estimate s | _ => f0 end in
  let s := set_times s f0 e f0 in                       (* ocp_nlp_timings_reset; timeout memory *)
  let s := set_status (set_step_norm (set_alpha s f0) f0) ACADOS_SUCCESS in
  set_iter (set_wd s (o_init Or (nlp_out s) (wd s))) 0.

(** The whole call ocp_nlp_sqp; the return value is [status] of the result. *)
Definition sqp_call (s : mem) : option mem :=
  loop (Z.to_nat (max_iter opts + 1)) (start s).

(** ocp_nlp_sqp_memory_assign (:240-283) and ocp_nlp_memory_assign: the log sizes at creation. *)
Definition logs_allocated (s : mem) : Prop :=
  stat_m s = max_iter opts + 1 /\
  stat_n s = (if ext_qp_res opts then 11 else 7) /\
  Z.of_nat (length (stat s)) = stat_m s * stat_n s /\
  (store_iterates opts = true -> Z.of_nat (length (iterates s)) = max_iter opts + 1) /\
  (log_primal_step_norm opts = true -> Z.of_nat (length (psn s)) = max_iter opts) /\
  (log_dual_step_norm opts = true -> Z.of_nat (length (dsn s)) = max_iter opts).

(** ocp_nlp_sqp_get "statistics" (:957-968): the matrix written to the user's buffer, entry
    (row ii, column jj+1) from stat[jj + ii*stat_n]; column 0 is the row index. *)
Definition stat_rows (s : mem) : Z := if stat_m s <? iter s + 1 then stat_m s else iter s + 1.
Definition report (s : mem) (ii jj : Z) : option double :=
  if (0 <=? ii) && (ii <? stat_rows s) && (0 <=? jj) && (jj <? stat_n s)
  then nth_error (stat s) (Z.to_nat (jj + ii * stat_n s)) else None.
End SQP.
Arguments nlp_out {iterate world}. Arguments wd {iterate world}. Arguments iter {iterate world}.
Arguments status {iterate world}. Arguments nlp_res {iterate world}. Arguments alpha {iterate world}.
Arguments step_norm {iterate world}. Arguments time_tot {iterate world}. Arguments estimate {iterate world}.
Arguments prev_time_tot {iterate world}. Arguments stat_m {iterate world}. Arguments stat_n {iterate world}.
Arguments stat {iterate world}. Arguments iterates {iterate world}. Arguments psn {iterate world}.
Arguments dsn {iterate world}. Arguments trace {iterate world}.
Arguments stat_rows {iterate world}. Arguments report {iterate world}. Arguments logs_allocated {iterate world}.
Arguments sqp_call {iterate world}. Arguments check_termination {iterate world}.
Arguments evaluate {iterate world}. Arguments save_res_stats {iterate world}. Arguments update_timeout {iterate world}.
Arguments solve_qp {iterate world}. Arguments step_norms {iterate world}. Arguments globalize {iterate world}.
Arguments body {iterate world}. Arguments loop {iterate world}. Arguments start {iterate world}.
Arguments final_clock {iterate world}.
Arguments o_init {iterate world}. Arguments o_linearize {iterate world}. Arguments o_res {iterate world}.
Arguments o_glob_init {iterate world}. Arguments o_prepare {iterate world}. Arguments o_clock {iterate world}.
Arguments o_cost {iterate world}. Arguments o_qp {iterate world}. Arguments o_qp_res {iterate world}.
Arguments o_step_norm {iterate world}. Arguments o_dual_norm {iterate world}. Arguments o_glob {iterate world}.
