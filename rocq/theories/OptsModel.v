(** The exact-Hessian options and the assembly of the stage Hessians:
    ocp_nlp_opts_set (acados/ocp_nlp/ocp_nlp_common.c:1485-1545, 1577-1581), ocp_nlp_opts_set_at_stage (:1690-1726),
    ocp_nlp_approximate_qp_matrices (:3016-3054), ocp_nlp_precompute_common (:3552-3560),
    ocp_nlp_add_levenberg_marquardt_term (:2982-2996), and for the solver with the feasibility QP
    set_pointers_for_hessian_evaluation and setup_hessian_matrices_for_qps (ocp_nlp_sqp_with_feasible_qp.c:855-942).
    Simplified: the values the modules compute are inputs ([contrib]); only the lower triangle of RSQrq is meant, which is what the QP solvers read;
    constraints with nh = 0 contribute nothing. *)
From Coq Require Import ZArith List Bool.
From Verif Require Import Arr Arith.
Import ListNotations.
Open Scope Z_scope.

Definition ebind {S T} (o : outcome S) (f : S -> outcome T) : outcome T := match o with Done x => f x | Exit => Exit | UB => UB end.
Notation "'let+' x := e 'in' f" := (ebind e (fun x => f)) (at level 200, x pattern, right associativity).

Inductive ckind := LS | NLS | CONL | EXT.
Inductive kkind := BGH | BGP.
Inductive dkind := CONT | DISC.
(** the modules of a stage: which ones, does the stage have algebraic variables, is nh > 0 *)
Record kinds := mkK { ck : ckind; kk : kkind; dk : dkind; nzpos : bool; has_h : bool }.
(** the options of the modules of a stage:
    cost: gauss_newton_hess, compute_hess (LS), add_hess_contribution, integrator_cost; dynamics: compute_hess, cost_computation; constraints: compute_hess *)
Record flags := mkF { c_gn : Z; c_comp : Z; c_add : Z; c_integ : Z; d_hess : Z; d_cost : Z; k_hess : Z }.
(** the defaults, ocp_nlp_cost_ls.c:495-496, _nls.c:433-434, _conl.c:367-368, _external.c:394, _dynamics_cont.c:269, _disc.c:205-206, _constraints_bgh.c:811, _bgp.c:797 *)
Definition defaults : flags := mkF 1 1 0 0 0 0 0.
Definition put_gn v f := mkF v (c_comp f) (c_add f) (c_integ f) (d_hess f) (d_cost f) (k_hess f).
Definition put_comp v f := mkF (c_gn f) v (c_add f) (c_integ f) (d_hess f) (d_cost f) (k_hess f).
Definition put_add v f := mkF (c_gn f) (c_comp f) v (c_integ f) (d_hess f) (d_cost f) (k_hess f).
Definition put_integ v f := mkF (c_gn f) (c_comp f) (c_add f) v (d_hess f) (d_cost f) (k_hess f).
Definition put_dhess v f := mkF (c_gn f) (c_comp f) (c_add f) (c_integ f) v (d_cost f) (k_hess f).
Definition put_dcost v f := mkF (c_gn f) (c_comp f) (c_add f) (c_integ f) (d_hess f) v (k_hess f).
Definition put_khess v f := mkF (c_gn f) (c_comp f) (c_add f) (c_integ f) (d_hess f) (d_cost f) v.

(** opts_set of the cost modules, field by field *)
(** "exact_hess": ls.c:517, nls.c:461-471, external.c:418; the convex-over-nonlinear module does not know the field (:376-418) *)
Definition cost_exact (k : kinds) (v : Z) (f : flags) : outcome flags :=
  match ck k with LS | EXT => Done f | NLS => Done (put_gn (if v =? 0 then 1 else 0) f) | CONL => Exit end.
(** "add_hess_contribution" *)
Definition cost_add (k : kinds) (v : Z) (f : flags) : outcome flags := Done (put_add v f).
(** "compute_hess": known to ls.c:521 only *)
Definition cost_comp (k : kinds) (v : Z) (f : flags) : outcome flags := match ck k with LS => Done (put_comp v f) | _ => Exit end.
(** "integrator_cost": nls.c:478, conl.c:391 *)
Definition cost_integ (k : kinds) (v : Z) (f : flags) : outcome flags := match ck k with NLS | CONL => Done (put_integ v f) | _ => Exit end.
(** "compute_hess" of the dynamics: cont.c:316-328, disc.c:233 *)
Definition dyn_hess (k : kinds) (v : Z) (f : flags) : outcome flags := Done (put_dhess v f).
(** "cost_computation" of the dynamics: forwarded to the integrator, unknown to disc.c:223-254 *)
Definition dyn_cost (k : kinds) (v : Z) (f : flags) : outcome flags := match dk k with CONT => Done (put_dcost v f) | DISC => Exit end.
(** "compute_hess" of the constraints: bgh.c:841, bgp.c *)
Definition constr_hess (k : kinds) (v : Z) (f : flags) : outcome flags := Done (put_khess v f).

(** the calls: ocp_nlp_opts_set with exact_hess, exact_hess_cost, exact_hess_dyn, exact_hess_constr, fixed_hess; ocp_nlp_opts_set_at_stage *)
Inductive field := CostExact | CostAdd | CostComp | CostInteg | DynHess | DynCost | ConstrHess.
Inductive call := Exact (v : Z) | ExactCost (v : Z) | ExactDyn (v : Z) | ExactConstr (v : Z) | Fixed (v : Z) | At (i : nat) (fl : field) (v : Z).

Section S.
Variable N : nat.
Variable K : nat -> kinds.
Definition put_stage (i : nat) (x : flags) (o : nat -> flags) : nat -> flags := fun j => if (j =? i)%nat then x else o j.
Definition at_stage (fn : kinds -> Z -> flags -> outcome flags) (i : nat) (v : Z) (o : nat -> flags) : outcome (nat -> flags) :=
  let+ x := fn (K i) v (o i) in Done (put_stage i x o).
(** for (int i = 0; i < n; i++) *)
Fixpoint stages {S} (n : nat) (f : nat -> S -> outcome S) (s : S) : outcome S :=
  match n with O => Done s | Datatypes.S n => let+ s := stages n f s in f n s end.

Record opts := mkO { fl : nat -> flags; fixed : Z }.
Definition put_fl (o : opts) (f : nat -> flags) := mkO f (fixed o).

(** :1485-1545 *)
Definition opts_set (c : call) (o : opts) : outcome opts :=
  let upd f := let+ x := f (fl o) in Done (put_fl o x) in
  match c with
  | Exact v => upd (fun f =>
      let add := if v =? 0 then 0 else 1 in
      let+ f := stages (N + 1) (fun i => at_stage cost_exact i v) f in
      let+ f := stages N (fun i f => let+ f := at_stage dyn_hess i v f in at_stage cost_add i add f) f in
      stages (N + 1) (fun i => at_stage constr_hess i v) f)
  | ExactCost v => upd (stages (N + 1) (fun i => at_stage cost_exact i v))
  | ExactDyn v => upd (stages N (fun i f => let+ f := at_stage dyn_hess i v f in if v =? 0 then at_stage cost_add i 0 f else Done f))
  | ExactConstr v => upd (stages (N + 1) (fun i => at_stage constr_hess i v))
  | Fixed v => Done (mkO (fl o) v)
  (** :1690-1726; the index is not checked *)
  | At i fd v =>
      match fd with
      | DynHess => if (i <? N)%nat then upd (at_stage dyn_hess i v) else UB
      | DynCost => if (i <? N)%nat then upd (at_stage dyn_cost i v) else UB
      | CostExact => if (i <=? N)%nat then upd (at_stage cost_exact i v) else UB
      | CostAdd => if (i <=? N)%nat then upd (at_stage cost_add i v) else UB
      | CostComp => if (i <=? N)%nat then upd (at_stage cost_comp i v) else UB
      | CostInteg => if (i <=? N)%nat then upd (at_stage cost_integ i v) else UB
      | ConstrHess => if (i <=? N)%nat then upd (at_stage constr_hess i v) else UB
      end
  end.
Definition created : opts := mkO (fun _ => defaults) 0.

Variable A : arith.
Notation T := (num A).
Definition mat := nat -> nat -> T.
(** what the modules of a stage compute in one evaluation: Hessian of the dynamics times multipliers, of the cost (Gauss-Newton, and the rest of the exact one), of the integrated cost, of the constraints times multipliers; the diagonal of the Levenberg-Marquardt term *)
Record contrib := mkC { kD : nat -> mat; kG : nat -> mat; kE : nat -> mat; kI : nat -> mat; kK : nat -> mat; kL : nat -> T }.
Definition plus (Q P : mat) : mat := fun r c => nadd (Q r c) (P r c).
(** a module adds to RSQrq or overwrites it *)
Definition combine (add : Z) (Q P : mat) : mat := if add =? 0 then P else plus Q P.
Definition dyn_write (x : contrib) (i : nat) (f : flags) (Q : mat) : mat := if d_hess f =? 0 then Q else kD x i.
(** cont.c:883-913, disc.c:700-722; only the continuous module integrates the cost *)
Definition dyn_update (x : contrib) (i : nat) (f : flags) (Q : mat) : mat :=
  let Q := dyn_write x i f Q in
  match dk (K i) with CONT => if 0 <? d_cost f then combine (c_add f) Q (kI x i) else Q | DISC => Q end.
(** ls.c:932-970, nls.c:860-1000, conl.c:720-850, external.c:770-825 *)
Definition cost_update (x : contrib) (i : nat) (f : flags) (Q : mat) : outcome mat :=
  match ck (K i) with
  | LS => Done (if c_comp f =? 0 then Q else combine (c_add f) Q (kG x i))
  | CONL => Done (if c_integ f =? 0 then combine (c_add f) Q (kG x i) else Q)
  | EXT => Done (combine (c_add f) Q (kG x i))
  | NLS => if c_integ f =? 0 then
             if c_gn f =? 0 then if nzpos (K i) then Exit else Done (plus (combine (c_add f) Q (kG x i)) (kE x i))
             else Done (combine (c_add f) Q (kG x i))
           else Done Q
  end.
(** bgh.c:1338-1394, bgp.c:1349 *)
Definition constr_update (x : contrib) (i : nat) (f : flags) (Q : mat) : outcome mat :=
  if k_hess f =? 0 then Done Q else match kk (K i) with BGH => Done (if has_h (K i) then plus Q (kK x i) else Q) | BGP => Exit end.
Definition put_mat (i : nat) (Q : mat) (q : nat -> mat) : nat -> mat := fun j => if (j =? i)%nat then Q else q j.

(** ocp_nlp_approximate_qp_matrices, the part that writes the Hessians *)
Definition approximate (x : contrib) (f : nat -> flags) (q : nat -> mat) : outcome (nat -> mat) :=
  stages (N + 1) (fun i q =>
    let Q := if (i <? N)%nat then dyn_update x i (f i) (q i) else q i in
    let+ Q := cost_update x i (f i) Q in
    let+ Q := constr_update x i (f i) Q in
    Done (put_mat i Q q)) q.

(** options, mem->compute_hess, the Hessians *)
Record st := mkS { op : opts; mcomp : Z; rsq : nat -> mat }.
(** memory_assign: compute_hess = 1 (:2122); the Hessians hold [q0] *)
Definition start (q0 : nat -> mat) : st := mkS created 1 q0.
(** precompute: with fixed_hess the Hessian is evaluated once and switched off, :3553-3560 *)
Definition precompute (x : contrib) (s : st) : outcome st :=
  if fixed (op s) =? 0 then Done s
  else
    let+ q := approximate x (fl (op s)) (rsq s) in
    let+ f := stages (N + 1) (fun i => at_stage cost_comp i 0) (fl (op s)) in
    Done (mkS (put_fl (op s) f) 0 q).
(** the Levenberg-Marquardt term on the diagonals of mem->qp_in->RSQrq, :2983-2995 *)
Definition lm (x : contrib) (q : nat -> mat) : nat -> mat := fun i r c =>
  if (i <=? N)%nat && (r =? c)%nat && nltb n0 (kL x i) then nadd (q i r c) (kL x i) else q i r c.
(** one iteration of ocp_nlp_sqp: matrices, then the Levenberg-Marquardt term *)
Definition iterate (x : contrib) (s : st) : outcome st :=
  let+ q := approximate x (fl (op s)) (rsq s) in
  Done (mkS (op s) (mcomp s) (if mcomp s =? 0 then q else lm x q)).

Inductive event := Set_ (c : call) | Pre (x : contrib) | Iter (x : contrib).
Definition step (e : event) (s : st) : outcome st :=
  match e with
  | Set_ c => let+ o := opts_set c (op s) in Done (mkS o (mcomp s) (rsq s))
  | Pre x => precompute x s
  | Iter x => iterate x s
  end.
Fixpoint run (es : list event) (s : st) : outcome st := match es with [] => Done s | e :: es => let+ s := step e s in run es s end.

(** ** the solver with the feasibility QP *)
(** RSQ_cost, RSQ_constr, the Hessians of the nominal and of the relaxed QP *)
Record wst := mkW { wop : opts; w_cost : nat -> mat; w_constr : nat -> mat; w_nom : nat -> mat; w_rel : nat -> mat }.
Definition mzero : mat := fun _ _ => n0.
(** set_pointers_for_hessian_evaluation (:855-905), approximate_qp_matrices, setup_hessian_matrices_for_qps (:909-942); feas_hess: use_constraint_hessian_in_feas_qp.
    The dynamics and the constraints write into RSQ_constr, the cost into RSQ_cost. *)
Definition w_iterate (feas_hess : bool) (x : contrib) (s : wst) : outcome wst :=
  let f0 := fl (wop s) in
  let qk := fun i => if (i =? N)%nat then mzero else if (i <? N)%nat && (d_hess (f0 i) =? 0) then mzero else w_constr s i in
  let+ f := stages (N + 1) (fun i => at_stage cost_add i 0) f0 in
  let+ qq := stages (N + 1) (fun i (qq : (nat -> mat) * (nat -> mat)) =>
    let '(qc, qk) := qq in
    let Q := if (i <? N)%nat then dyn_update x i (f i) (qk i) else qk i in
    let+ C := cost_update x i (f i) (qc i) in
    let+ Q := constr_update x i (f i) Q in
    Done (put_mat i C qc, put_mat i Q qk)) (w_cost s, qk) in
  let '(qc, qk) := qq in
  Done (mkW (put_fl (wop s) f) qc qk
    (lm x (fun i => if (i <=? N)%nat then plus (qk i) (qc i) else w_nom s i))
    (fun i => if feas_hess && (i <=? N)%nat then qk i else w_rel s i)).
(** prepare_and_solve_QP (:984-996) for the feasibility QP: with the constraint Hessian in it "LM for feasibility QP" is called with qp_in = relaxed_qp_in,
    but ocp_nlp_add_levenberg_marquardt_term writes to mem->qp_in, the nominal QP *)
Definition w_feasibility (feas_hess : bool) (x : contrib) (s : wst) : wst :=
  if feas_hess then mkW (wop s) (w_cost s) (w_constr s) (lm x (w_nom s)) (w_rel s) else s.
Inductive wevent := WSet (c : call) | WIter (x : contrib) | WFeas (x : contrib).
Definition w_step (feas_hess : bool) (e : wevent) (s : wst) : outcome wst :=
  match e with
  | WSet c => let+ o := opts_set c (wop s) in Done (mkW o (w_cost s) (w_constr s) (w_nom s) (w_rel s))
  | WIter x => w_iterate feas_hess x s
  | WFeas x => Done (w_feasibility feas_hess x s)
  end.
Fixpoint w_run (feas_hess : bool) (es : list wevent) (s : wst) : outcome wst :=
  match es with [] => Done s | e :: es => let+ s := w_step feas_hess e s in w_run feas_hess es s end.
(** the memory comes from calloc *)
Definition w_start : wst := mkW created (fun _ => mzero) (fun _ => mzero) (fun _ => mzero) (fun _ => mzero).
End S.
Arguments mkC {A}. Arguments kD {A}. Arguments kG {A}. Arguments kE {A}. Arguments kI {A}. Arguments kK {A}. Arguments kL {A}.
Arguments mkS {A}. Arguments op {A}. Arguments mcomp {A}. Arguments rsq {A}. Arguments Set_ {A}. Arguments Pre {A}. Arguments Iter {A}.
Arguments mkW {A}. Arguments wop {A}. Arguments w_cost {A}. Arguments w_constr {A}. Arguments w_nom {A}. Arguments w_rel {A}. Arguments WSet {A}. Arguments WIter {A}. Arguments WFeas {A}.
