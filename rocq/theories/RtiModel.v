(** The real-time-iteration solver ocp_nlp_sqp_rti (acados/ocp_nlp/ocp_nlp_sqp_rti.c).

    Submodule calls are arbitrary functions on an abstract world (QP data, module memories) and the
    iterate.  Not modelled: timers, printing, OpenMP thread counts. *)
From Coq Require Import ZArith List Bool.
From Verif Require Import FP SqpModel.
Import ListNotations.
Open Scope Z_scope.

(** outcome of a C call: normal return, exit(1), or undefined behaviour (out-of-bounds write) *)
Inductive outcome (A : Type) := Ok (a : A) | Exit | UB.
Arguments Ok {A}. Arguments Exit {A}. Arguments UB {A}.
Definition obind {A B} (x : outcome A) (f : A -> outcome B) : outcome B :=
  match x with Ok a => f a | Exit => Exit | UB => UB end.
Notation "'do' x ':=' e 'in' f" := (obind e (fun x => f)) (at level 200, x pattern, right associativity).
Definition of_opt {A} (x : option A) : outcome A := match x with Some a => Ok a | None => UB end.

(** ocp_nlp_sqp_rti.h: rti_phase_t, as_rti_level_t *)
Inductive phase := PREPARATION_AND_FEEDBACK | PREPARATION | FEEDBACK.
(** user actions: a solver call in some phase, or a reset of the QP solver memory *)
Inductive act := Call (ph : phase) | ResetQp.
Inductive level := LEVEL_A | LEVEL_B | LEVEL_C | LEVEL_D | STANDARD_RTI.
Definition level_eqb (a b : level) : bool :=
  match a, b with LEVEL_A, LEVEL_A | LEVEL_B, LEVEL_B | LEVEL_C, LEVEL_C | LEVEL_D, LEVEL_D
  | STANDARD_RTI, STANDARD_RTI => true | _, _ => false end.

Record rti_opts := mkRtiOpts {
  as_level : level; as_rti_iter : Z; log_res : bool; log_only_available : bool; rti_ext_qp_res : bool;
  no_advance : bool }.

Section RTI.
Variables iterate world : Type.

Record rti_oracles := mkRtiOracles {
  r_init       : iterate -> world -> world;          (* ocp_nlp_initialize_submodules *)
  r_matrices   : iterate -> world -> world;          (* approximate_qp_matrices, levenberg_marquardt *)
  r_vectors    : iterate -> world -> world;          (* approximate_qp_vectors_sqp *)
  r_res        : iterate -> world -> res4;           (* ocp_nlp_res_compute *)
  r_full       : iterate -> world -> world;          (* prepare_full_residual_computation *)
  r_reg        : world -> world;                     (* regularize *)
  r_reg_lhs    : world -> world;                     (* regularize_lhs *)
  r_reg_rhs    : world -> world;                     (* regularize_rhs *)
  r_condense   : world -> world;                     (* qp_solver->condense_lhs *)
  r_warm       : bool -> iterate -> world -> world;  (* first-call warm start handling *)
  r_unwarm     : bool -> world -> world;             (* restore warm start option *)
  r_qp         : bool -> iterate -> world -> world * Z * Z;  (* solve_qp_and_correct_dual(precondensed) *)
  r_qp_res     : world -> double * double * double * double;
  r_glob       : iterate -> world -> world * iterate * Z;    (* find_acceptable_iterate *)
  r_sane       : world -> bool;                      (* as_rti_sanity_checks does not exit *)
  r_advance    : iterate -> world -> world;          (* as_rti_advance_problem *)
  r_zero_order : iterate -> world -> world;          (* ocp_nlp_zero_order_qp_update *)
  r_level_c    : iterate -> world -> world;          (* ocp_nlp_level_c_update *)
  r_level_c_full : iterate -> world -> world;        (* level_c_prepare_residual_computation *)
  r_correct    : world -> world                      (* regularize->correct_dual_sol *)
}.

(** ghost events: QP solved with this status; globalization ended with this status (newest first) *)
Inductive rti_event := RQp (st : Z) | RGlob (st : Z).

Record rmem := mkRmem {
  m_out : iterate; m_tmp : iterate;        (* nlp_out, work->tmp_nlp_out *)
  m_wd : world; m_iter : Z; m_status : Z; m_first : bool;
  m_stat_m : Z; m_stat_n : Z; m_stat : list double; m_tr : list rti_event }.
Definition s_wd s v := mkRmem (m_out s) (m_tmp s) v (m_iter s) (m_status s) (m_first s) (m_stat_m s) (m_stat_n s) (m_stat s) (m_tr s).
Definition s_out s v := mkRmem v (m_tmp s) (m_wd s) (m_iter s) (m_status s) (m_first s) (m_stat_m s) (m_stat_n s) (m_stat s) (m_tr s).
Definition s_tmp s v := mkRmem (m_out s) v (m_wd s) (m_iter s) (m_status s) (m_first s) (m_stat_m s) (m_stat_n s) (m_stat s) (m_tr s).
Definition s_iter s v := mkRmem (m_out s) (m_tmp s) (m_wd s) v (m_status s) (m_first s) (m_stat_m s) (m_stat_n s) (m_stat s) (m_tr s).
Definition s_status s v := mkRmem (m_out s) (m_tmp s) (m_wd s) (m_iter s) v (m_first s) (m_stat_m s) (m_stat_n s) (m_stat s) (m_tr s).
Definition s_first s v := mkRmem (m_out s) (m_tmp s) (m_wd s) (m_iter s) (m_status s) v (m_stat_m s) (m_stat_n s) (m_stat s) (m_tr s).
Definition s_stat s v := mkRmem (m_out s) (m_tmp s) (m_wd s) (m_iter s) (m_status s) (m_first s) (m_stat_m s) (m_stat_n s) v (m_tr s).
Definition s_ev s e := mkRmem (m_out s) (m_tmp s) (m_wd s) (m_iter s) (m_status s) (m_first s) (m_stat_m s) (m_stat_n s) (m_stat s) (e :: m_tr s).

Variable Or : rti_oracles.
Variable opts : rti_opts.

(** stat[stat_n*iter + c] = v *)
Definition put_stat (s : rmem) (row c : Z) (v : double) : outcome rmem :=
  do l := of_opt (put (m_stat s) (m_stat_n s * row + c) v) in Ok (s_stat s l).

(** :374-391 rti_store_residuals_in_stats *)
Definition store_res (s : rmem) : outcome rmem :=
  if m_iter s <? m_stat_m s then
    let r := r_res Or (m_out s) (m_wd s) in
    let off := 2 + (if rti_ext_qp_res opts then 4 else 0) in
    do s := put_stat s (m_iter s) (0 + off) (r_stat r) in
    do s := put_stat s (m_iter s) (1 + off) (r_eq r) in
    do s := put_stat s (m_iter s) (2 + off) (r_ineq r) in
    put_stat s (m_iter s) (3 + off) (r_comp r)
  else Ok s.

(** :463-518 ocp_nlp_sqp_rti_preparation_step ([ph]: value of opts->rti_phase) *)
Definition preparation_step (ph : phase) (s : rmem) : outcome rmem :=
  let s := s_iter s 0 in
  let s := s_wd s (r_init Or (m_out s) (m_wd s)) in
  let s := s_wd s (r_matrices Or (m_out s) (m_wd s)) in
  Ok (match ph with
      | PREPARATION => s_wd s (r_condense Or (r_reg_lhs Or (m_wd s)))
      | _ => s
      end).

(** QP solve and its unguarded statistics write (:604-622, and the AS-RTI copies) *)
Definition qp_and_stat (pre : bool) (s : rmem) : outcome (rmem * Z) :=
  let '(w, st, qi) := r_qp Or pre (m_out s) (m_wd s) in
  let s := s_ev (s_wd s w) (RQp st) in
  do s := put_stat s (m_iter s) 0 (z2f st) in
  do s := put_stat s (m_iter s) 1 (z2f qi) in
  Ok (s, st).

(** find_acceptable_iterate *)
Definition glob_step (s : rmem) : rmem * Z :=
  let '(w, x, st) := r_glob Or (m_out s) (m_wd s) in
  (s_ev (s_out (s_wd s w) x) (RGlob st), st).

(** :521-660 ocp_nlp_sqp_rti_feedback_step *)
Definition feedback_step (ph : phase) (s : rmem) : outcome rmem :=
  let s := s_wd s (r_vectors Or (m_out s) (m_wd s)) in
  do s := (if log_res opts then store_res s else Ok s) in
  let s := s_iter s (m_iter s + 1) in
  let s := match ph with
           | FEEDBACK => s_wd s (r_reg_rhs Or (m_wd s))
           | PREPARATION_AND_FEEDBACK => s_wd s (r_reg Or (m_wd s))
           | PREPARATION => s
           end in
  let s := s_wd s (r_warm Or (m_first s) (m_out s) (m_wd s)) in
  let pre := match ph with PREPARATION_AND_FEEDBACK => false | _ => true end in
  let '(w, st, qi) := r_qp Or pre (m_out s) (m_wd s) in
  let s := s_ev (s_wd s w) (RQp st) in
  let s := s_wd s (r_unwarm Or (m_first s) (m_wd s)) in
  do s := (if rti_ext_qp_res opts then
             let '(a0, a1, a2, a3) := r_qp_res Or (m_wd s) in
             do s := put_stat s 1 2 a0 in do s := put_stat s 1 3 a1 in
             do s := put_stat s 1 4 a2 in put_stat s 1 5 a3
           else Ok s) in
  do s := put_stat s (m_iter s) 0 (z2f st) in
  do s := put_stat s (m_iter s) 1 (z2f qi) in
  if qp_ok st then
    let '(s, _) := glob_step s in               (* status of the globalization is only printed *)
    let s := s_first (s_status s ACADOS_SUCCESS) false in
    if log_res opts && negb (log_only_available opts)
    then store_res (s_wd s (r_full Or (m_out s) (m_wd s)))
    else Ok s
  else Ok (s_status s ACADOS_QP_FAILURE).

(** one inner iteration of LEVEL_B (:904-967), LEVEL_C (:973-1037), LEVEL_D (:1044-1097);
    [inl] = return from the preparation, [inr] = next inner iteration *)
Definition inner (s : rmem) : outcome (rmem + rmem) :=
  let full := log_res opts && negb (log_only_available opts) in
  do s := (match as_level opts with
           | LEVEL_B =>
               let s := s_wd s (r_zero_order Or (m_out s) (m_wd s)) in
               do s := (if full then store_res (s_wd s (r_full Or (m_out s) (m_wd s))) else Ok s) in
               Ok (s_wd s (r_reg_rhs Or (m_wd s)))
           | LEVEL_C =>
               let s := s_wd s (r_level_c Or (m_out s) (m_wd s)) in
               do s := (if full then store_res (s_wd s (r_level_c_full Or (m_out s) (m_wd s))) else Ok s) in
               Ok (s_wd s (r_reg_rhs Or (m_wd s)))
           | _ =>
               let s := s_wd s (r_matrices Or (m_out s) (m_wd s)) in
               let s := s_wd s (r_vectors Or (m_out s) (m_wd s)) in
               do s := (if log_res opts then store_res s else Ok s) in
               Ok (s_wd s (r_reg Or (m_wd s)))
           end) in
  do (s, st) := qp_and_stat (match as_level opts with LEVEL_D => false | _ => true end) s in
  let s := match as_level opts with LEVEL_B => s_wd s (r_correct Or (m_wd s)) | _ => s end in
  if qp_ok st then
    let '(s, gst) := glob_step s in
    if gst =? ACADOS_SUCCESS then Ok (inr (s_iter s (m_iter s + 1))) else Ok (inl s)
  else Ok (inl (s_status s ACADOS_QP_FAILURE)).

Fixpoint inner_loop (fuel : nat) (s : rmem) : outcome (rmem + rmem) :=
  match fuel with
  | O => Ok (inr s)
  | S n => do r := inner s in match r with inl s => Ok (inl s) | inr s => inner_loop n s end
  end.

(** :842-896 the AS-RTI-A solve on the stored iterate *)
Definition level_a (s : rmem) : outcome (rmem + rmem) :=
  let s := s_out s (m_tmp s) in
  let s := if log_res opts && negb (log_only_available opts)
           then s_wd s (r_full Or (m_out s) (m_wd s)) else s in
  let s := s_wd s (r_vectors Or (m_out s) (m_wd s)) in
  do s := (if log_res opts then store_res s else Ok s) in
  let s := s_iter s (m_iter s + 1) in
  let s := s_wd s (r_reg_rhs Or (m_wd s)) in
  do (s, st) := qp_and_stat true s in
  let '(s, gst) := glob_step s in               (* QP status not inspected at this level *)
  if gst =? ACADOS_SUCCESS then Ok (inr s) else Ok (inl s).

(** :790-1131 ocp_nlp_sqp_rti_preparation_advanced_step *)
Definition preparation_advanced_step (s : rmem) : outcome rmem :=
  let s := s_iter s 0 in
  let s := s_wd s (r_init Or (m_out s) (m_wd s)) in
  do s := (if m_first s then (if r_sane Or (m_wd s) then Ok s else Exit)
           else Ok (s_wd s (r_advance Or (m_out s) (m_wd s)))) in
  do r := (match as_level opts with
           | LEVEL_A => if m_first s then Ok (inr s) else level_a s
           | LEVEL_B | LEVEL_C => if m_first s then Ok (inr s)
                                  else inner_loop (Z.to_nat (as_rti_iter opts - m_iter s)) s
           | LEVEL_D => inner_loop (Z.to_nat (as_rti_iter opts - m_iter s)) s
           | STANDARD_RTI => Ok (inr s)
           end) in
  match r with
  | inl s => Ok s
  | inr s =>
      let s := s_wd s (r_matrices Or (m_out s) (m_wd s)) in
      let s := s_wd s (r_condense Or (r_reg_lhs Or (m_wd s))) in
      Ok (match as_level opts with LEVEL_A => s_tmp s (m_out s) | _ => s end)
  end.

(** :1146-1199 ocp_nlp_sqp_rti; the return value is [m_status] *)
Definition rti_call (ph : phase) (s : rmem) : outcome rmem :=
  match ph with
  | FEEDBACK => feedback_step FEEDBACK s
  | PREPARATION =>
      if level_eqb (as_level opts) STANDARD_RTI then preparation_step PREPARATION s
      else preparation_advanced_step s
  | PREPARATION_AND_FEEDBACK =>
      if level_eqb (as_level opts) STANDARD_RTI
      then do s := preparation_step PREPARATION_AND_FEEDBACK s in feedback_step PREPARATION_AND_FEEDBACK s
      else Exit
  end.

(** :1220-1238 ocp_nlp_sqp_rti_memory_reset_qp_solver (first-call flag) *)
Definition rti_reset (s : rmem) : rmem := s_first s true.

(** a history of user actions *)
Fixpoint rti_calls (l : list act) (s : rmem) : outcome rmem :=
  match l with
  | [] => Ok s
  | Call ph :: r => do s := rti_call ph s in rti_calls r s
  | ResetQp :: r => rti_calls r (rti_reset s)
  end.

(** memory as created by ocp_nlp_sqp_rti_memory_assign (:262-308); iter is 0 from calloc *)
Definition rti_stat_n : Z := 2 + (if log_res opts then 4 else 0) + (if rti_ext_qp_res opts then 4 else 0).
Definition rti_created (s : rmem) : Prop :=
  m_stat_m s = 2 + as_rti_iter opts /\ m_stat_n s = rti_stat_n /\
  Z.of_nat (length (m_stat s)) = m_stat_m s * m_stat_n s /\ m_iter s = 0 /\ m_first s = true /\
  m_status s = ACADOS_READY.
End RTI.
Arguments m_out {iterate world}. Arguments m_tmp {iterate world}. Arguments m_wd {iterate world}.
Arguments m_iter {iterate world}. Arguments m_status {iterate world}. Arguments m_first {iterate world}.
Arguments m_stat_m {iterate world}. Arguments m_stat_n {iterate world}. Arguments m_stat {iterate world}.
Arguments m_tr {iterate world}. Arguments rti_call {iterate world}. Arguments rti_calls {iterate world}.
Arguments rti_created {iterate world}. Arguments feedback_step {iterate world}.
Arguments preparation_step {iterate world}. Arguments preparation_advanced_step {iterate world}.
Arguments store_res {iterate world}. Arguments qp_and_stat {iterate world}. Arguments glob_step {iterate world}.
Arguments inner {iterate world}. Arguments inner_loop {iterate world}. Arguments level_a {iterate world}.
Arguments put_stat {iterate world}. Arguments rti_reset {iterate world}.
Arguments r_init {iterate world}. Arguments r_matrices {iterate world}. Arguments r_vectors {iterate world}.
Arguments r_res {iterate world}. Arguments r_full {iterate world}. Arguments r_reg {iterate world}.
Arguments r_reg_lhs {iterate world}. Arguments r_reg_rhs {iterate world}. Arguments r_condense {iterate world}.
Arguments r_warm {iterate world}. Arguments r_unwarm {iterate world}. Arguments r_qp {iterate world}.
Arguments r_qp_res {iterate world}. Arguments r_glob {iterate world}. Arguments r_sane {iterate world}.
