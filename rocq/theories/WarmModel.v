(** Warm starts of the QP and the condensing solver:
    ocp_qp_common.c:874-925 ocp_qp_compute_t, ocp_nlp_common.c:3353-3376 ocp_nlp_initialize_qp_from_nlp,
    ocp_qp_xcond_solver.c:277-315, :528-734, the QP step of ocp_nlp_sqp.c:658-691 and ocp_nlp_sqp_rti.c:574-609,
    and ocp_nlp_common.c:3912-3983 ocp_nlp_common_setup_qp_matrices_and_factorize.

    The QP solver, condensing and expansion are parameters.  Timings, info and print statements are left out; the QP approximation of the NLP is an argument. *)
From Coq Require Import ZArith List Bool.
From Verif Require Import Arith Vec LinModel QpsModel.
Import ListNotations.

Section T.
Variable A : arith.
Notation T := (num A).
Notation vec := (nat -> T).
Local Open Scope num_scope.

(** ** ocp_qp_compute_t, ocp_qp_common.c:874-925 *)
(** entries [off, off + n) of a vector replaced *)
Definition seg (off n : nat) (f v : vec) : vec := fun k => if (off <=? k)%nat && (k <? off + n)%nat then f (k - off)%nat else v k.
Definition t_stage (d : qdims) (q : qp A) (ux : vec) (i : nat) (t : vec) : vec :=
  let nb := qnb d i in let ng := qng d i in let ns := qns d i in let nv := (qnu d i + qnx d i)%nat in
  let dv := q_d q i in
  (* bounds *)
  let t := seg (nb + ng) nb (fun k => 1 * ux (q_idxb q i k)) t in
  let t := let x := t in seg 0 nb (fun k => 1 * x (nb + ng + k)%nat + (- (1)) * dv k) t in
  let t := let x := t in seg (nb + ng) nb (fun k => (- (1)) * x (nb + ng + k)%nat + (- (1)) * dv (nb + ng + k)%nat) t in
  (* general constraints *)
  let t := seg nb ng (fun j => (- (1)) * dv (nb + j)%nat + 1 * mvt nv (q_DC q i) ux j) t in
  let t := seg (2 * nb + ng) ng (fun j => (- (1)) * dv (2 * nb + ng + j)%nat + (- (1)) * mvt nv (q_DC q i) ux j) t in
  (* slacks *)
  let t := loop (nb + ng) (fun j t =>
      let idx := q_rev q i j in
      if negb (idx =? -1)%Z then
        let t := vset t j (t j + ux (nv + Z.to_nat idx)%nat) in
        vset t (nb + ng + j)%nat (t (nb + ng + j)%nat + ux (nv + ns + Z.to_nat idx)%nat)
      else t) t in
  seg (2 * nb + 2 * ng) (2 * ns) (fun k => ux (nv + k)%nat + (- (1)) * dv (2 * nb + 2 * ng + k)%nat) t.
Definition compute_t (d : qdims) (q : qp A) (ux : nat -> vec) (t : nat -> vec) : nat -> vec :=
  fun i => if (i <=? qN d)%nat then t_stage d q (ux i) i (t i) else t i.

(** ** ocp_nlp_initialize_qp_from_nlp, ocp_nlp_common.c:3353-3376; [nv] and [ni] of the NLP are nx + nu + 2 ns and nb + ng + ns *)
Record pt := mkPt { p_s : qsol A; p_t : nat -> vec }.     (* d_ocp_qp_sol with its t *)
Definition initialize_qp_from_nlp (d : qdims) (q : qp A) (pi lam : nat -> vec) (out : pt) : pt :=
  let s := p_s out in
  let s' := mkSol
    (fun i => if (i <=? qN d)%nat then seg 0 (qnx d i + qnu d i + 2 * qns d i) (fun _ => 0) (s_ux s i) else s_ux s i)
    (fun i => if (i <? qN d)%nat then cp (qnx d (S i)) (pi i) (s_pi s i) else s_pi s i)
    (fun i => if (i <=? qN d)%nat then cp (2 * (qnb d i + qng d i + qns d i)) (lam i) (s_lam s i) else s_lam s i) in
  mkPt s' (compute_t d q (s_ux s') (p_t out)).
(** the point the QP solver reads and writes, given qp_out and what scaled_qp_out owns: ocp_nlp_qpscaling.c:418-475 *)
Definition seen_out (o : qopts A) (out s : pt) : pt :=
  if o_con o then mkPt (p_s s) (p_t out)
  else if o_obj o then mkPt (mkSol (s_ux (p_s out)) (s_pi (p_s s)) (s_lam (p_s s))) (p_t out)
  else out.
End T.
Arguments seen_out {A}. Arguments t_stage {A}. Arguments compute_t {A}. Arguments initialize_qp_from_nlp {A}. Arguments seg {A}.
Arguments p_s {A}. Arguments p_t {A}. Arguments mkPt {A}.

(** ** the condensing solver *)
Section X.
(** OCP QPs, points, condensed QPs and points, memory of the QP solver, NLP iterates *)
Variables Q P XQ XP M W : Type.
(** options of the QP solver that are changed behind the user's back *)
Record sopts := mkSo { warm_start : Z; iter_max : Z; fact_exit : Z; t0_min : Z; lam0_min : Z }.
Variable cond : Q -> XQ.                         (* xcond->condensing *)
Variables clhs crhs : Q -> XQ -> XQ.             (* xcond->condense_lhs, condense_rhs: overwrite matrices, vectors *)
Variable csol : Q -> P -> XP.                    (* xcond->condense_qp_out *)
Variable solve : sopts -> XQ -> XP -> M -> XP * M.  (* qp_solver->evaluate *)
Variable sens : XQ -> Q -> M -> XP.              (* condense_rhs_seed and qp_solver->eval_forw_sens *)
Variable expand : Q -> XP -> P -> P.             (* xcond->expansion, expand_sol_seed *)

(** one call of the QP solver: options, QP, starting point, result *)
Record call := mkCall { c_opts : sopts; c_qp : XQ; c_start : XP; c_result : XP }.
(** ocp_qp_xcond_solver_opts and _memory, and the calls made so far, last one first *)
Record xs := mkXs { x_flag : bool; x_opts : sopts; x_in : XQ; x_out : XP; x_mem : M; x_log : list call }.

Definition run (s : xs) (xin : XQ) (xout : XP) (flag : bool) : xs :=
  let r := solve (x_opts s) xin xout (x_mem s) in
  mkXs flag (x_opts s) xin (fst r) (snd r) (mkCall (x_opts s) xin xout (fst r) :: x_log s).
(** ocp_qp_xcond_solve, ocp_qp_xcond_solver.c:528-585 *)
Definition xcond_solve (q : Q) (out : P) (s : xs) : xs * P :=
  let xin := cond q in
  let xout := if x_flag s then csol q out else x_out s in
  let s' := run s xin xout (if x_flag s then false else x_flag s) in
  (s', expand q (x_out s') out).
(** ocp_qp_xcond_condense_lhs, :589-620 *)
Definition condense_lhs (q : Q) (s : xs) : xs := mkXs (x_flag s) (x_opts s) (clhs q (x_in s)) (x_out s) (x_mem s) (x_log s).
(** ocp_qp_xcond_condense_rhs_and_solve, :623-671 *)
Definition rhs_and_solve (q : Q) (out : P) (s : xs) : xs * P :=
  let s' := run s (crhs q (x_in s)) (x_out s) (x_flag s) in
  (s', expand q (x_out s') out).
(** ocp_qp_xcond_solver_eval_forw_sens and _adj_sens, :675-728 *)
Definition eval_sens (q : Q) (out : P) (s : xs) : xs * P :=
  let xout := sens (x_in s) q (x_mem s) in
  (mkXs (x_flag s) (x_opts s) (x_in s) xout (x_mem s) (x_log s), expand q xout out).

(** opts_set of "initialize_next_xcond_qp_from_qp_out", :298-302: the callers pass the address of an int (ocp_nlp_sqp.c:670,
    ocp_nlp_sqp_rti.c:586, ocp_nlp_common.c:3943), of which the first byte is read *)
Definition first_byte (big_endian : bool) (v : Z) : Z := if big_endian then (v / 2 ^ 24) mod 2 ^ 8 else v mod 2 ^ 8.
Definition set_flag (big_endian : bool) (v : Z) (s : xs) : xs :=
  mkXs (negb (first_byte big_endian v =? 0)%Z) (x_opts s) (x_in s) (x_out s) (x_mem s) (x_log s).
Definition set_opts (o : sopts) (s : xs) : xs := mkXs (x_flag s) o (x_in s) (x_out s) (x_mem s) (x_log s).
Definition set_warm (w : Z) (s : xs) : xs :=
  let o := x_opts s in set_opts (mkSo w (iter_max o) (fact_exit o) (t0_min o) (lam0_min o)) s.

(** ** the QP step of the NLP solvers *)
(** ocp_nlp_opts: warm_start_first_qp, warm_start_first_qp_from_nlp, qp_warm_start, qp_iter_max, solution_sens_qp_t_lam_min *)
Record nopts := mkNo { w_first : bool; w_nlp : bool; qp_warm : Z; qp_iter_max : Z; sens_min : Z }.
(** the QP solver and the solution objects: qp_out, and the one the QP solver reads and writes (scaled_qp_out) *)
Record st := mkSt { st_x : xs; st_out : P; st_sout : P }.
Variable be : bool.
(** qp_in as the QP solver sees it (scaled_qp_in), scaled_qp_out after writing qp_out *)
Variable seen : P -> P -> P.                     (* scaled_qp_out as seen through shared pointers, given qp_out *)
Variable back : P -> P -> P.                     (* qp_out after the solve: shared memory, correct_dual_sol, rescale_solution *)
Variable init : W -> Q -> P -> P.                (* ocp_nlp_initialize_qp_from_nlp at an iterate *)

(** ocp_nlp_sqp.c:658-673 (and ocp_nlp_ddp.c:693-708, ocp_nlp_sqp_rti.c:574-590): first QP of a call *)
Definition prepare_first (o : nopts) (first : bool) (w : W) (q : Q) (s : st) : st :=
  if first then
    if negb (w_first o) then mkSt (set_warm 0 (st_x s)) (st_out s) (st_sout s)
    else if w_nlp o then
      let x := set_flag be 1 (st_x s) in
      let out := init w q (st_out s) in
      mkSt x out (seen out (st_sout s))
    else s
  else s.
(** ocp_nlp_solve_qp_and_correct_dual, ocp_nlp_common.c:4381-4525: [sq] is scaled_qp_in *)
Definition solve_qp (precondensed : bool) (sq : Q) (s : st) : st :=
  let r := if precondensed then rhs_and_solve sq (st_sout s) (st_x s) else xcond_solve sq (st_sout s) (st_x s) in
  mkSt (fst r) (back (snd r) (st_out s)) (snd r).
(** ocp_nlp_sqp.c:658-691 and ocp_nlp_sqp_rti.c:574-609: prepare, solve, restore the warm start *)
Definition qp_step (o : nopts) (first precondensed : bool) (w : W) (q sq : Q) (s : st) : st :=
  let s1 := solve_qp precondensed sq (prepare_first o first w q s) in
  if first then mkSt (set_warm (qp_warm o) (st_x s1)) (st_out s1) (st_sout s1) else s1.

(** ocp_nlp_common_setup_qp_matrices_and_factorize, ocp_nlp_common.c:3912-3983: [q] is the QP approximation at the iterate, written to
    qp_in; [sq] is what scaled_qp_in holds after that (the function does not scale the QP) *)
Definition factorize (o : nopts) (w : W) (q sq : Q) (s : st) : st :=
  let out := init w q (st_out s) in
  let x := set_flag be 1 (st_x s) in
  let b := x_opts x in                            (* t0_min and lam0_min are read back, :3961-3962 *)
  let x := set_opts (mkSo 3 0 1 (sens_min o) (sens_min o)) x in
  let s1 := solve_qp false sq (mkSt x out (seen out (st_sout s))) in
  let a := x_opts (st_x s1) in
  mkSt (set_opts (mkSo (qp_warm o) (qp_iter_max o) (fact_exit a) (t0_min b) (lam0_min b)) (st_x s1)) (st_out s1) (st_sout s1).
End X.

Arguments mkCall {XQ XP}. Arguments c_opts {XQ XP}. Arguments c_qp {XQ XP}. Arguments c_start {XQ XP}. Arguments c_result {XQ XP}.
Arguments mkXs {XQ XP M}. Arguments x_flag {XQ XP M}. Arguments x_opts {XQ XP M}. Arguments x_in {XQ XP M}. Arguments x_out {XQ XP M}.
Arguments x_mem {XQ XP M}. Arguments x_log {XQ XP M}. Arguments mkSt {P XQ XP M}. Arguments st_x {P XQ XP M}. Arguments st_out {P XQ XP M}.
Arguments st_sout {P XQ XP M}. Arguments set_flag {XQ XP M}. Arguments set_opts {XQ XP M}. Arguments set_warm {XQ XP M}.
Arguments xcond_solve {Q P XQ XP M}. Arguments condense_lhs {Q XQ XP M}. Arguments rhs_and_solve {Q P XQ XP M}. Arguments eval_sens {Q P XQ XP M}.
Arguments prepare_first {Q P XQ XP M W}. Arguments solve_qp {Q P XQ XP M}. Arguments qp_step {Q P XQ XP M W}.
Arguments factorize {Q P XQ XP M W}. Arguments run {XQ XP M}.
