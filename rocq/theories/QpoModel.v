(** The qpOASES interface, acados/dense_qp/dense_qp_qpoases.c:421-803: the QP handed to the solver, the multipliers read back,
    and the status.

    d_dense_qp_get_all_rowmaj (HPIPM) unpacks the fields of a dense QP; it is not part of /repo and is modelled as the same
    unpacking that dense_qp_daqp.c:478-513 spells out.  The solver itself is an input: its primal and dual solution and its
    return code.  QPOASES_INFTY is a parameter. *)
From Coq Require Import ZArith List Bool.
From Verif Require Import Arith Vec LinModel DenseModel Arr.
Open Scope nat_scope.

Section Q.
Variable A : arith.
Notation T := (num A).
Notation vec := (nat -> T).
Notation mat := (nat -> nat -> T).

(** arguments of QProblem_init: 1/2 x'Hx + g'x, lb <= x <= ub, lg <= C x <= ug *)
Record box := mkBox { bx_nv : nat; bx_ng : nat; bx_H : mat; bx_g : vec; bx_C : mat; bx_lb : vec; bx_ub : vec; bx_lg : vec; bx_ug : vec }.

(** d_dense_qp_get_all_rowmaj; the index list of the softened constraints *)
Definition get_lb (q : dqp A) (i : nat) : T := dq_d q i.
Definition get_ub (nb ng : nat) (q : dqp A) (i : nat) : T := nopp (dq_d q (nb + ng + i)).
Definition get_lg (nb : nat) (q : dqp A) (j : nat) : T := dq_d q (nb + j).
Definition get_ug (nb ng : nat) (q : dqp A) (j : nat) : T := nopp (dq_d q (2 * nb + ng + j)).
Definition get_idxs (d : ddims) (q : dqp A) (idxs : nat -> nat) : nat -> nat :=
  loop (dnb d + dng d) (fun ii s => if hard q ii then s else iset s (Z.to_nat (dq_rev q ii)) ii) idxs.
(** blasfeo_dtrtr_l(nv, Hv, Hv), :480 *)
Definition full_H (nv : nat) (H : mat) : mat := fun r c => if (r <? nv) && (c <? nv) && (r <? c) then H c r else H r c.
(** :497-529 *)
Definition scatter (n : nat) (idx : nat -> nat) (b : nat -> T) (x : vec) : vec := loop n (fun ii x => vset x (idx ii) (b ii)) x.

Section I.
Variable infty : T.   (* QPOASES_INFTY *)
(** the QP for the solver, :478-529; [o] is the old content of the stacked QP *)
Definition qpo_in (d : ddims) (q o : dqp A) : box :=
  let q := mkDq (full_H (dnv d) (dq_H q)) (dq_g q) (dq_Z q) (dq_A q) (dq_b q) (dq_C q) (dq_d q) (dq_m q) (dq_mask q) (dq_idxb q) (dq_rev q) in
  let nb := dnb d in let ng := dng d in
  if 0 <? dns d then
    let s := stack_slacks d q o in
    let nv2 := stk_nv d in let nb2 := stk_nb d q in let ng2 := stk_ng d q in
    mkBox nv2 ng2 (dq_H s) (dq_g s) (fun j r => dq_C s r j)
      (scatter nb2 (dq_idxb s) (get_lb s) (fun _ => nopp infty)) (scatter nb2 (dq_idxb s) (get_ub nb2 ng2 s) (fun _ => infty))
      (get_lg nb2 s) (get_ug nb2 ng2 s)
  else
    mkBox (dnv d) ng (dq_H q) (dq_g q) (fun j r => dq_C q r j)
      (scatter nb (dq_idxb q) (get_lb q) (fun _ => nopp infty)) (scatter nb (dq_idxb q) (get_ub nb ng q) (fun _ => infty))
      (get_lg nb q) (get_ug nb ng q).
End I.

(** multipliers: bounds and general constraints, :712-728 *)
Definition split_dual (nl nu : nat) (y : T) (lam : vec) : vec := if nleb n0 y then vset lam nl y else vset lam nu (nopp y).
Definition lam_hard (d : ddims) (q : dqp A) (y lam : vec) : vec :=
  let nb := dnb d in let ng := dng d in
  let lam := loop nb (fun ii lam => split_dual ii (nb + ng + ii) (y (dq_idxb q ii)) lam) lam in
  loop ng (fun ii lam => split_dual (nb + ii) (2 * nb + ng + ii) (y (stk_nv d + ii)) lam) lam.
(** softened constraints and slack bounds, :730-768 *)
Definition lam_soft_step (d : ddims) (idxs : nat -> nat) (y : vec) (ii : nat) (s : vec * nat) : vec * nat :=
  let nv := dnv d in let nb := dnb d in let ng := dng d in let ns := dns d in let nv2 := stk_nv d in
  let '(lam, k) := s in
  let js := idxs ii in
  let '(lam, k, off_l, off_u) :=
    if js <? nb then
      let yk := y (nv2 + ng + k) in
      if nleb yk n0 then (vset lam (nb + ng + js) (nopp yk), S k, n0, nopp yk) else (vset lam js yk, S k, yk, n0)
    else (lam, k, lam (nb + js - nb), lam (2 * nb + ng + js - nb)) in
  let lam := if nleb n0 (y (nv + ii)) then vset lam (2 * nb + 2 * ng + ii) (nsub (y (nv + ii)) off_u) else lam in
  let lam := if nleb n0 (y (nv + ns + ii)) then vset lam (2 * nb + 2 * ng + ns + ii) (nsub (y (nv + ns + ii)) off_l) else lam in
  (lam, k).
Definition qpo_lam (d : ddims) (q : dqp A) (idxs : nat -> nat) (y lam : vec) : vec :=
  let n := 2 * dnb d + 2 * dng d + 2 * dns d in
  let lam := lam_hard d q y (wr 0 n (fun _ => n0) lam) in
  fst (loop (dns d) (lam_soft_step d idxs y) (lam, 0)).
(** :708-778; [ct] is the option compute_t *)
Definition qpo_out (d : ddims) (q : dqp A) (idxs0 : nat -> nat) (ct : bool) (x y : vec) (out : dsol A) : dsol A :=
  let v := wr 0 (stk_nv d) x (ds_v out) in
  let lam := qpo_lam d q (get_idxs d q idxs0) y (ds_lam out) in
  let n := 2 * (dnb d + dng d + dns d) in
  mkDs v (ds_pi out) (wr 0 n (fun k => nmul (dq_mask q k) (lam k)) lam) (if ct then compute_t d q v (ds_t out) else ds_t out).
End Q.
Arguments mkBox {A}. Arguments bx_nv {A}. Arguments bx_ng {A}. Arguments bx_H {A}. Arguments bx_g {A}. Arguments bx_C {A}. Arguments bx_lb {A}. Arguments bx_ub {A}. Arguments bx_lg {A}. Arguments bx_ug {A}.
Arguments get_lb {A}. Arguments get_ub {A}. Arguments get_lg {A}. Arguments get_ug {A}. Arguments get_idxs {A}. Arguments full_H {A}. Arguments scatter {A}. Arguments qpo_in {A}.
Arguments split_dual {A}. Arguments lam_hard {A}. Arguments lam_soft_step {A}. Arguments qpo_lam {A}. Arguments qpo_out {A}.

(** Which entry point of qpOASES is called and what becomes of its return code, :546-693 and :791-799. *)
Record qpo_opts := mkQo { qo_hot : bool; qo_chol : bool; qo_acado : bool; qo_warm : bool }.
Inductive qcall := Init | InitW (dual chol : bool) | Hotstart.
(** return codes of qpOASES that the interface distinguishes *)
Inductive qret := SUCCESSFUL_RETURN | RET_MAX_NWSR_REACHED | RET_INIT_FAILED_INFEASIBILITY | RET_INIT_FAILED_UNBOUNDEDNESS | RET_OTHER (code : Z).
(** :793-799 with the status codes of acados/utils/types.h *)
Definition qpo_status (r : qret) : Z :=
  match r with SUCCESSFUL_RETURN => 0 | RET_MAX_NWSR_REACHED => 2 | RET_INIT_FAILED_INFEASIBILITY => 9 | RET_INIT_FAILED_UNBOUNDEDNESS => 6 | RET_OTHER _ => -1 end%Z.
(** A call: the arguments are whether the problem has general or soft constraints ([gen]), the flag first_it, and the solver's answer to
    each kind of call.  memory->QP is only assigned when [gen] holds (:361-370), so passing it to QProblem_setOptions
    otherwise reads an indeterminate pointer.  The result is the status, the new flag, and the call that was made. *)
Definition qpo_run (o : qpo_opts) (gen first : bool) (solver : qcall -> qret) : outcome (Z * bool * qcall) :=
  if qo_hot o then
    if gen then
      let c := if first then Init else Hotstart in Done (qpo_status (solver c), false, c)
    else if first then
      if qo_acado o then UB else Done (qpo_status SUCCESSFUL_RETURN, false, Init)
    else Done (qpo_status SUCCESSFUL_RETURN, false, Hotstart)
  else
    let c := if qo_chol o then InitW false true else if qo_warm o then InitW true false else Init in
    Done (qpo_status (solver c), first, c).
(** dense_qp_qpoases_opts_set, :146-171: warm_start *)
Definition qpo_set_warm (v : Z) (o : qpo_opts) : outcome qpo_opts :=
  if (v =? 0)%Z then Done (mkQo false (qo_chol o) (qo_acado o) false)
  else if (v =? 1)%Z then Done (mkQo false (qo_chol o) (qo_acado o) true)
  else if (v =? 2)%Z then Done (mkQo true (qo_chol o) (qo_acado o) true) else Exit.
(** :112-126 *)
Definition qpo_default : qpo_opts := mkQo false false true true.
(** The QP that a call solves.  QProblem_hotstart takes the new vectors but no matrices (:568-570, :600): the solver keeps the Hessian and the
    constraint matrix of the last initialisation. *)
Definition qpo_solved {A} (c : qcall) (stored now : box A) : box A :=
  match c with
  | Hotstart => mkBox (bx_nv now) (bx_ng now) (bx_H stored) (bx_g now) (bx_C stored) (bx_lb now) (bx_ub now) (bx_lg now) (bx_ug now)
  | _ => now
  end.
(** consecutive calls with general or soft constraints; the state is the flag first_it and the QP of the last call *)
Definition qpo_step {A} (o : qpo_opts) (st : bool * box A) (now : box A) : bool * box A :=
  match qpo_run o true (fst st) (fun _ => SUCCESSFUL_RETURN) with Done (_, f, c) => (f, qpo_solved c (snd st) now) | _ => st end.
Definition qpo_calls {A} (o : qpo_opts) (l : list (box A)) (st : bool * box A) : bool * box A := fold_left (qpo_step o) l st.
