(** The DDP driver: acados/ocp_nlp/ocp_nlp_ddp.c:436-508 check_termination, :548-822 ocp_nlp_ddp.

    Same conventions as SqpModel.v: iterate and submodule state are abstract, submodule calls are arbitrary functions.
    Not modelled: printing, warm-start option calls, OpenMP thread counts, the timers. *)
From Coq Require Import ZArith List Bool.
From Verif Require Import FP SqpModel.
Import ListNotations.
Open Scope Z_scope.

(** the fields of ocp_nlp_opts / ocp_nlp_ddp_opts that steer the loop; tol_zero_res is read at :467 and written nowhere *)
Record ddp_opts := mkDdpOpts {
  d_max_iter : Z; d_eval_at_max_iter : bool; d_tol_stat : double; d_tol_eq : double; d_tol_zero_res : double;
  d_adaptive_lm : bool; d_store_iterates : bool; d_ext_qp_res : bool }.

Inductive dev (iterate : Type) :=
| DRes (x : iterate) (r : res4)                               (* residuals evaluated at x *)
| DQP (x : iterate) (status qp_iter : Z)
| DSim (x x' : iterate)                                       (* forward simulation from an infeasible guess *)
| DGlob (x x' : iterate) (status : Z) (alpha : double).
Arguments DRes {iterate}. Arguments DQP {iterate}. Arguments DSim {iterate}. Arguments DGlob {iterate}.

Section D.
Variables iterate world : Type.
Record ddp_oracles := mkDdpOracles {
  d_init : iterate -> world -> world;                (* ocp_nlp_initialize_submodules *)
  d_linearize : iterate -> Z -> double -> world -> world;   (* approximate_qp_matrices, cost, LM term (iter, alpha), vectors *)
  d_res : iterate -> world -> res4;                  (* ocp_nlp_res_compute *)
  d_cost : world -> double;                          (* nlp_mem->cost_value *)
  d_lm : world -> double;                            (* nlp_opts->levenberg_marquardt *)
  d_regularize : world -> world;
  d_qp : iterate -> world -> world * Z * Z;          (* solve_qp_and_correct_dual: status, iterations *)
  d_qp_cost : world -> world;                        (* :773-776 *)
  d_step_norm : world -> double;                     (* ocp_qp_out_compute_primal_nrm_inf *)
  d_trial : iterate -> world -> world * iterate;     (* compute_trial_iterate with alpha = 1, copied to nlp_out *)
  d_glob : iterate -> world -> double -> world * iterate * Z * double }.

Record dmem := mkDmem {
  dm_out : iterate; dm_wd : world; dm_status : Z; dm_iter : Z; dm_res : res4; dm_alpha : double; dm_step_norm : double;
  dm_infeasible : bool;                              (* local infeasible_initial_guess *)
  dm_reg : double;                                   (* local reg_param_memory *)
  dm_stat_m : Z; dm_stat_n : Z; dm_stat : list double; dm_iterates : list iterate;
  dm_trace : list (dev iterate) }.
Variable Or : ddp_oracles.
Variable o : ddp_opts.

(** :436-508 *)
Definition ddp_check (it : Z) (r : res4) (cost step : double) : option Z :=
  if isnan (r_stat r) || isnan (r_eq r) || isnan (r_ineq r) then Some ACADOS_NAN_DETECTED
  else if flt (r_eq r) (d_tol_eq o) && flt (r_stat r) (d_tol_stat o) then Some ACADOS_SUCCESS
  else if flt (r_eq r) (d_tol_eq o) && (d_adaptive_lm o && flt cost (d_tol_zero_res o)) then Some ACADOS_SUCCESS
  else if (0 <? it) && flt step (d_tol_eq o) then Some ACADOS_MINSTEP
  else if d_max_iter o <=? it then Some ACADOS_MAXITER
  else None.

(** :609-642 store the iterate, evaluate *)
Definition ddp_evaluate (it : Z) (s : dmem) : option dmem :=
  let* l := (if d_store_iterates o then put (dm_iterates s) it (dm_out s) else Some (dm_iterates s)) in
  if negb (it =? d_max_iter o) || d_eval_at_max_iter o then
    let w := d_linearize Or (dm_out s) it (dm_alpha s) (dm_wd s) in
    let r := d_res Or (dm_out s) w in
    Some (mkDmem (dm_out s) w (dm_status s) (dm_iter s) r (dm_alpha s) (dm_step_norm s) (dm_infeasible s) (dm_reg s)
            (dm_stat_m s) (dm_stat_n s) (dm_stat s) l (DRes (dm_out s) r :: dm_trace s))
  else Some (mkDmem (dm_out s) (dm_wd s) (dm_status s) (dm_iter s) (dm_res s) (dm_alpha s) (dm_step_norm s) (dm_infeasible s) (dm_reg s)
            (dm_stat_m s) (dm_stat_n s) (dm_stat s) l (dm_trace s)).

(** :644-684 statistics, feasibility of the guess, regularisation *)
Definition ddp_stats (it : Z) (s : dmem) : option dmem :=
  let* st := (if (it <? dm_stat_m s) && (0 <=? it) then
                let b := dm_stat_n s * it in
                let* l := put (dm_stat s) (b + 0) (r_stat (dm_res s)) in
                let* l := put l (b + 1) (r_eq (dm_res s)) in
                let* l := put l (b + 2) (d_cost Or (dm_wd s)) in
                put l (b + 3) (dm_reg s)
              else Some (dm_stat s)) in
  let inf := dm_infeasible s && fgt (r_eq (dm_res s)) (d_tol_eq o) in
  Some (mkDmem (dm_out s) (d_regularize Or (dm_wd s)) (dm_status s) (dm_iter s) (dm_res s) (dm_alpha s) (dm_step_norm s) inf (d_lm Or (dm_wd s))
          (dm_stat_m s) (dm_stat_n s) st (dm_iterates s) (dm_trace s)).

Definition ddp_return (s : dmem) (status iter : Z) : dmem :=
  mkDmem (dm_out s) (dm_wd s) status iter (dm_res s) (dm_alpha s) (dm_step_norm s) (dm_infeasible s) (dm_reg s) (dm_stat_m s) (dm_stat_n s) (dm_stat s) (dm_iterates s) (dm_trace s).

(** :698-780 QP, statistics, QP failure; with ext_qp_res the code passes work->qp_res, which is never assigned
    (the workspace is zeroed), to ocp_qp_res_compute_nrm_inf: a null pointer is dereferenced *)
Definition ddp_qp (it : Z) (s : dmem) : option (dmem + dmem) :=
  let '(w, st, qi) := d_qp Or (dm_out s) (dm_wd s) in
  let b := dm_stat_n s * (it + 1) in
  let* l := (if it + 1 <? dm_stat_m s then
               let* l := put (dm_stat s) (b + 4) (z2f st) in
               put l (b + 5) (z2f qi)
             else Some (dm_stat s)) in
  let* _ := (if d_ext_qp_res o && (it + 1 <? dm_stat_m s) then None else Some tt) in
  let s := mkDmem (dm_out s) w (dm_status s) (dm_iter s) (dm_res s) (dm_alpha s) (dm_step_norm s) (dm_infeasible s) (dm_reg s)
             (dm_stat_m s) (dm_stat_n s) l (dm_iterates s) (DQP (dm_out s) st qi :: dm_trace s) in
  if (st =? ACADOS_SUCCESS) || (st =? ACADOS_MAXITER)
  then let w := d_qp_cost Or (dm_wd s) in
       Some (inr (mkDmem (dm_out s) w (dm_status s) (dm_iter s) (dm_res s) (dm_alpha s) (d_step_norm Or w) (dm_infeasible s) (dm_reg s)
                    (dm_stat_m s) (dm_stat_n s) (dm_stat s) (dm_iterates s) (dm_trace s)))
  else Some (inl (ddp_return s ACADOS_QP_FAILURE (it + 1))).

(** :784-815 *)
Definition ddp_globalize (it : Z) (s : dmem) : dmem + dmem :=
  if dm_infeasible s then
    let '(w, x) := d_trial Or (dm_out s) (dm_wd s) in
    inr (mkDmem x w (dm_status s) (dm_iter s) (dm_res s) f1 (dm_step_norm s) false (dm_reg s) (dm_stat_m s) (dm_stat_n s) (dm_stat s) (dm_iterates s)
           (DSim (dm_out s) x :: dm_trace s))
  else
    let '(w, x, st, a) := d_glob Or (dm_out s) (dm_wd s) (dm_alpha s) in
    let s := mkDmem x w (dm_status s) (dm_iter s) (dm_res s) a (dm_step_norm s) (dm_infeasible s) (dm_reg s) (dm_stat_m s) (dm_stat_n s) (dm_stat s) (dm_iterates s)
               (DGlob (dm_out s) x st a :: dm_trace s) in
    if st =? ACADOS_SUCCESS then inr s else inl (ddp_return s ACADOS_QP_FAILURE it).

Definition ddp_body (it : Z) (s : dmem) : option (dmem + dmem) :=
  let* s := ddp_evaluate it s in
  let* s := ddp_stats it s in
  match ddp_check it (dm_res s) (d_cost Or (dm_wd s)) (dm_step_norm s) with
  | Some st => Some (inl (ddp_return s st it))
  | None => let* r := ddp_qp it s in
            match r with inl s => Some (inl s) | inr s => Some (ddp_globalize it s) end
  end.
(** for (; ddp_iter <= max_iter; ddp_iter++); fuel = number of values left *)
Fixpoint ddp_loop (fuel : nat) (it : Z) (s : dmem) : option dmem :=
  match fuel with
  | O => Some s
  | S n => let* r := ddp_body it s in match r with inl s => Some s | inr s => ddp_loop n (it + 1) s end
  end.
(** :575-607 *)
Definition ddp_start (s : dmem) : dmem :=
  mkDmem (dm_out s) (d_init Or (dm_out s) (dm_wd s)) (dm_status s) (dm_iter s) (dm_res s) f0 f0 true f0 (dm_stat_m s) (dm_stat_n s) (dm_stat s) (dm_iterates s) (dm_trace s).
Definition ddp_call (s : dmem) : option dmem := ddp_loop (Z.to_nat (d_max_iter o + 1)) 0 (ddp_start s).

(** ocp_nlp_ddp_memory_assign (:255-283): log sizes at creation *)
Definition ddp_allocated (s : dmem) : Prop :=
  dm_stat_m s = d_max_iter o + 1 /\ dm_stat_n s = (if d_ext_qp_res o then 11 else 7) /\
  Z.of_nat (length (dm_stat s)) = dm_stat_m s * dm_stat_n s /\
  (d_store_iterates o = true -> Z.of_nat (length (dm_iterates s)) = d_max_iter o + 1).
End D.
Arguments mkDdpOracles {iterate world}. Arguments d_init {iterate world}. Arguments d_linearize {iterate world}. Arguments d_res {iterate world}. Arguments d_cost {iterate world}. Arguments d_lm {iterate world}.
Arguments d_regularize {iterate world}. Arguments d_qp {iterate world}. Arguments d_qp_cost {iterate world}. Arguments d_step_norm {iterate world}. Arguments d_trial {iterate world}. Arguments d_glob {iterate world}.
Arguments mkDmem {iterate world}. Arguments dm_out {iterate world}. Arguments dm_wd {iterate world}. Arguments dm_status {iterate world}. Arguments dm_iter {iterate world}. Arguments dm_res {iterate world}.
Arguments dm_alpha {iterate world}. Arguments dm_step_norm {iterate world}. Arguments dm_infeasible {iterate world}. Arguments dm_reg {iterate world}. Arguments dm_stat_m {iterate world}. Arguments dm_stat_n {iterate world}.
Arguments dm_stat {iterate world}. Arguments dm_iterates {iterate world}. Arguments dm_trace {iterate world}.
Arguments ddp_evaluate {iterate world}. Arguments ddp_stats {iterate world}. Arguments ddp_return {iterate world}. Arguments ddp_qp {iterate world}. Arguments ddp_globalize {iterate world}. Arguments ddp_body {iterate world}.
Arguments ddp_loop {iterate world}. Arguments ddp_start {iterate world}. Arguments ddp_call {iterate world}. Arguments ddp_allocated {iterate world}.
