(** The driver ocp_nlp_sqp_wfqp (acados/ocp_nlp/ocp_nlp_sqp_with_feasible_qp.c:1552-1818) as a state machine.

    The parts that are line by line those of the SQP driver are taken from SqpModel: evaluation of the residuals
    (:1633-1656), residual statistics (:1658-1672), timeout estimate (:1683-1722), termination test (:524-613).
    [o_prepare] of the oracles may be the identity: scaling comes after the termination test here and is part of the
    search direction oracles.  Not modelled: printing, warm start options, OpenMP bookkeeping, sub-timers, the
    predicted reductions handed to the globalization. *)
From Coq Require Import ZArith List Bool.
From Verif Require Import FP SqpModel WfqpModel.
Import ListNotations.
Open Scope Z_scope.

Section W.
Variables iterate world : Type.
Notation mem := (mem iterate world).
Record woracles := mkWOracles {
  wo : oracles iterate world;                          (* o_qp is the nominal QP *)
  wo_fqp : iterate -> world -> world * Z * Z;          (* feasibility QP: status, iterations *)
  wo_bqp : iterate -> world -> world * Z * Z;          (* nominal QP with relaxed bounds: status, iterations *)
  wo_zero : world -> bool;                             (* :1516 slacks zero to tolerance *)
  wo_pi : iterate -> double; wo_lam : iterate -> double }.   (* multiplier norms *)
Record wopts := mkWopts { wb_opts : sqp_opts; w_mode : sd_mode; w_allow : bool; w_max : Z; w_log_pi : bool; w_log_lam : bool }.
(** ocp_nlp_sqp_wfqp_memory; [w_log]: what each search direction computation saw and did, newest first (ghost) *)
Record wmem := mkWmem { w_b : mem; w_sd : sd_mem; w_log : list (sd_mem * sd_input * sd_type) }.
Variable Or : woracles.
Variable o : wopts.
Notation B := (wb_opts o).

(** :1099-1112, no guard on the row *)
Definition log_norms (s : mem) : option mem :=
  let* s := (if w_log_pi o then let* l := put (stat s) (stat_n s * iter s + 11) (wo_pi Or (nlp_out s)) in Some (set_stat _ _ s l) else Some s) in
  if w_log_lam o then let* l := put (stat s) (stat_n s * iter s + 12) (wo_lam Or (nlp_out s)) in Some (set_stat _ _ s l) else Some s.
(** :1072-1097 *)
Definition log_qp_stats (col st qi : Z) (s : mem) : option mem :=
  if iter s <? stat_m s then
    let* l := put (stat s) (stat_n s * iter s + col) (z2f st) in
    let* l := put l (stat_n s * iter s + col + 1) (z2f qi) in
    Some (set_stat _ _ s l)
  else Some s.
(** prepare_and_solve_QP, :944-1070: any status but success becomes QP_FAILURE, also in nlp_mem->status *)
Definition solve (qp : iterate -> world -> world * Z * Z) (col : Z) (s : mem) : option (mem * bool) :=
  let '(w, st, qi) := qp (nlp_out s) (wd s) in
  let s := log _ _ (set_wd _ _ s w) (EvQP (nlp_out s) st qi) in
  let ok := st =? ACADOS_SUCCESS in
  let s := if ok then s else set_status _ _ s ACADOS_QP_FAILURE in
  let* s := log_qp_stats col (if ok then st else ACADOS_QP_FAILURE) qi s in
  Some (s, ok).
(** :1167-1237 *)
Definition byrd (s : mem) : option (mem * bool) :=
  let* (s, ok) := solve (wo_fqp Or) 6 s in
  if ok then solve (wo_bqp Or) 8 s else Some (s, false).
(** calculate_search_direction, :1451-1548: memory, success *)
Definition direction (s : wmem) : option (wmem * bool) :=
  let sd := w_sd s in
  let finish (b : mem) (n_ok b_ok : bool) :=
    let i := mkSdInput n_ok b_ok (wo_zero Or (wd b)) in
    let '(sd', ok, t) := search_direction (w_allow o) (w_max o) i sd in Some (mkWmem b sd' ((sd, i, t) :: w_log s), ok) in
  match sd_md sd with
  | NOMINAL_QP => let* (b, ok) := solve (o_qp (wo Or)) 4 (w_b s) in
                  if ok then finish b true true else let* (b, ok) := byrd b in finish b false ok
  | BYRD_OMOJOKUN => let* (b, ok) := byrd (w_b s) in finish b true ok
  | FEASIBILITY_QP => finish (w_b s) true false
  end.
(** :1738-1750 *)
Definition w_step_norms (s : mem) : option mem :=
  let* s := (if fgt (tol_min_step_norm B) f0 || log_primal_step_norm B
             then let s := set_step_norm _ _ s (o_step_norm (wo Or) (wd s)) in
                  if log_primal_step_norm B then let* l := put (psn s) (iter s) (step_norm s) in Some (set_psn _ _ s l) else Some s
             else Some s) in
  if log_dual_step_norm B && negb (with_anderson B)
  then let* l := put (dsn s) (iter s) (o_dual_norm (wo Or) (nlp_out s) (wd s)) in Some (set_dsn _ _ s l) else Some s.
(** :1752-1806; the store of alpha has no guard *)
Definition w_globalize (s : mem) : option (mem + mem) :=
  let '(w, x, st, a) := o_glob (wo Or) (nlp_out s) (wd s) (alpha s) in
  let s := log _ _ (set_alpha _ _ (set_out _ _ (set_wd _ _ s w) x) a) (EvGlob (nlp_out s) x st a) in
  if st =? ACADOS_SUCCESS then
    let* l := put (stat s) (stat_n s * (iter s + 1) + 10) (alpha s) in
    Some (inr (set_iter _ _ (set_stat _ _ s l) (iter s + 1)))
  else Some (inl (final_clock (wo Or) (set_status _ _ s st))).
(** one pass through the loop body, :1628-1807 *)
Definition w_body (s : wmem) : option (wmem + wmem) :=
  let wrap b := mkWmem b (w_sd s) (w_log s) in
  let* b := evaluate (wo Or) B (w_b s) in
  let* b := save_res_stats (wo Or) b in
  let* b := log_norms b in
  let b := update_timeout (wo Or) B b in
  match check_termination (wo Or) B (iter b) b with
  | Some st => Some (inl (wrap (final_clock (wo Or) (set_status _ _ b st))))
  | None =>
      let* (s, ok) := direction (wrap b) in
      if ok then
        let* b := w_step_norms (w_b s) in
        let* r := w_globalize b in
        match r with inl b => Some (inl (mkWmem b (w_sd s) (w_log s))) | inr b => Some (inr (mkWmem b (w_sd s) (w_log s))) end
      else Some (inl s)                        (* :1728-1736 returns nlp_mem->status as it is *)
  end.
Fixpoint w_loop (fuel : nat) (s : wmem) : option wmem :=
  match fuel with
  | O => Some s
  | S n => let* r := w_body s in match r with inl s => Some s | inr s => w_loop n s end
  end.
(** :1576-1618 *)
Definition w_start (s : wmem) : wmem :=
  let b := w_b s in
  let e := match timeout_heuristic B with MAX_OVERALL => estimate b | _ => f0 end in
  let b := set_times _ _ b f0 e f0 in
  let b := set_status _ _ (set_step_norm _ _ (set_alpha _ _ b f0) f0) ACADOS_READY in
  mkWmem (set_iter _ _ (set_wd _ _ b (o_init (wo Or) (nlp_out b) (wd b))) 0) (sd_start (w_mode o)) [].
Definition wfqp_call (s : wmem) : option wmem := w_loop (Z.to_nat (max_iter B + 1)) (w_start s).
(** memory_assign :388-395 and ocp_nlp_memory_assign *)
Definition w_allocated (s : wmem) : Prop :=
  stat_m (w_b s) = max_iter B + 1 /\ stat_n (w_b s) = 13 /\ Z.of_nat (length (stat (w_b s))) = stat_m (w_b s) * stat_n (w_b s) /\
  (store_iterates B = true -> Z.of_nat (length (iterates (w_b s))) = max_iter B + 1) /\
  (log_primal_step_norm B = true -> Z.of_nat (length (psn (w_b s))) = max_iter B) /\
  (log_dual_step_norm B = true -> Z.of_nat (length (dsn (w_b s))) = max_iter B).
End W.
Arguments wo {iterate world}. Arguments wo_fqp {iterate world}. Arguments wo_bqp {iterate world}. Arguments wo_zero {iterate world}.
Arguments wo_pi {iterate world}. Arguments wo_lam {iterate world}. Arguments w_b {iterate world}. Arguments w_sd {iterate world}. Arguments w_log {iterate world}.
Arguments log_norms {iterate world}. Arguments log_qp_stats {iterate world}. Arguments solve {iterate world}. Arguments byrd {iterate world}. Arguments direction {iterate world}.
Arguments w_step_norms {iterate world}. Arguments w_globalize {iterate world}. Arguments w_body {iterate world}. Arguments w_loop {iterate world}. Arguments w_start {iterate world}.
Arguments wfqp_call {iterate world}. Arguments w_allocated {iterate world}. Arguments mkWmem {iterate world}. Arguments mkWOracles {iterate world}.
