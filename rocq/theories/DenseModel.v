(** Dense QPs of acados/dense_qp/dense_qp_common.c: the slacks t of the constraints (:344-384) and the QP without slacks that
    the qpOASES interface solves instead (:435-635).

    A dense QP is a record of functions of the indices.  The dimensions are those of the original QP; the stacked QP has
    the dimensions [stk_nv], [stk_nb], [stk_ng].  The field misc and the sizes used for allocation are left out. *)
From Coq Require Import ZArith List Bool.
From Verif Require Import Arith Vec LinModel.
Open Scope nat_scope.

(** d_dense_qp_dim *)
Record ddims := mkDd { dnv : nat; dne : nat; dnb : nat; dng : nat; dns : nat }.

Section D.
Variable A : arith.
Notation T := (num A).
Notation vec := (nat -> T).
Notation mat := (nat -> nat -> T).

(** d_dense_qp: g = (g, zl, zu), d = (lb, lg, -ub, -ug, lls, lus); A is ne x nv, C is nv x ng (the transpose) *)
Record dqp := mkDq { dq_H : mat; dq_g : vec; dq_Z : vec; dq_A : mat; dq_b : vec; dq_C : mat; dq_d : vec; dq_m : vec; dq_mask : vec;
  dq_idxb : nat -> nat; dq_rev : nat -> Z }.
(** d_dense_qp_sol *)
Record dsol := mkDs { ds_v : vec; ds_pi : vec; ds_lam : vec; ds_t : vec }.

(** [n] consecutive entries from [off] on, and [n] x [m] leading blocks *)
Definition wr (off n : nat) (f : nat -> T) (x : vec) : vec := fun k => if (off <=? k) && (k <? off + n) then f (k - off) else x k.
Definition mset (M : mat) (i j : nat) (a : T) : mat := fun r c => if (r =? i) && (c =? j) then a else M r c.
Definition mwr (n m : nat) (F M : mat) : mat := fun r c => if (r <? n) && (c <? m) then F r c else M r c.
Definition iset (v : nat -> nat) (i a : nat) : nat -> nat := fun j => if j =? i then a else v j.
Definition hard (q : dqp) (js : nat) : bool := (dq_rev q js =? -1)%Z.

(** dense_qp_compute_t, dense_qp_common.c:344-384 *)
Definition compute_t (d : ddims) (q : dqp) (v t : vec) : vec :=
  let nv := dnv d in let nb := dnb d in let ng := dng d in let ns := dns d in
  let t := wr (nb + ng) nb (fun i => v (dq_idxb q i)) t in
  let t := wr 0 nb (fun i => nsub (t (nb + ng + i)) (dq_d q i)) t in
  let t := wr (nb + ng) nb (fun i => nsub (nopp (t (nb + ng + i))) (dq_d q (nb + ng + i))) t in
  let t := wr nb ng (fun j => nsub (mvt nv (dq_C q) v j) (dq_d q (nb + j))) t in
  let t := wr (2 * nb + ng) ng (fun j => nsub (nopp (mvt nv (dq_C q) v j)) (dq_d q (2 * nb + ng + j))) t in
  let t := loop (nb + ng) (fun ii t => if hard q ii then t else
    let idx := Z.to_nat (dq_rev q ii) in
    let t := vset t ii (nadd (t ii) (v (nv + idx))) in
    vset t (nb + ng + ii) (nadd (t (nb + ng + ii)) (v (nv + ns + idx)))) t in
  let t := wr (2 * nb + 2 * ng) (2 * ns) (fun k => v (nv + k)) t in
  wr (2 * nb + 2 * ng) (2 * ns) (fun k => nsub (t (2 * nb + 2 * ng + k)) (dq_d q (2 * nb + 2 * ng + k))) t.

(** dense_qp_stack_slacks_recover_nsb_nsg_from_idxs_rev, :446-466 *)
Definition nsb_of (d : ddims) (q : dqp) : nat := loop (dnb d) (fun ii n => if (-1 <? dq_rev q ii)%Z then S n else n) 0.
(** dense_qp_stack_slacks_dims_from_idxs_rev, :469-479 *)
Definition stk_nv (d : ddims) : nat := dnv d + 2 * dns d.
Definition stk_nb (d : ddims) (q : dqp) : nat := dnb d - nsb_of d q + 2 * dns d.
Definition stk_ng (d : ddims) (q : dqp) : nat := if 0 <? dns d then dng d + nsb_of d q else dng d.

(** dense_qp_stack_slacks, :482-635.  [o] is the old content of the stacked QP.  The loop over the constraint rows, :540-590 *)
Record sst := mkSst { st_C : mat; st_d : vec; st_m : vec; st_idxb : nat -> nat; st_col : nat }.
Definition stack_row (d : ddims) (q : dqp) (nb2 ng2 : nat) (js : nat) (s : sst) : sst :=
  let nv := dnv d in let nb := dnb d in let ng := dng d in let ns := dns d in let nsb := nsb_of d q in
  if hard q js then s else
  let ii := Z.to_nat (dq_rev q js) in
  let s := if js <? nb then
      let col := st_col s in
      mkSst (mset (mset (mset (st_C s) (dq_idxb q js) col n1) (nv + ii) col n1) (nv + ns + ii) col (nopp n1))
        (vset (vset (st_d s) (nb2 + col) (dq_d q js)) (2 * nb2 + ng2 + col) (nopp (dq_d q (nb + ng + js))))
        (vset (st_m s) js (nopp n1)) (st_idxb s) (S col)
    else mkSst (mset (mset (st_C s) (nv + ii) (js - nb) n1) (nv + ns + ii) (js - nb) (nopp n1)) (st_d s) (st_m s) (st_idxb s) (st_col s) in
  mkSst (st_C s) (st_d s) (st_m s) (iset (iset (st_idxb s) (nb - nsb + ii) (ii + nv)) (nb - nsb + ns + ii) (ii + nv + ns)) (st_col s).
(** the bounds that are not softened, :592-604 *)
Definition stack_hard (d : ddims) (q : dqp) (nb2 ng2 : nat) (m : vec) (ii : nat) (s : vec * (nat -> nat) * nat) : vec * (nat -> nat) * nat :=
  let '(dd, idx, k) := s in
  if nltb n0 (m ii) then
    (vset (vset dd k (dq_d q ii)) (nb2 + ng2 + k) (nopp (dq_d q (dnb d + dng d + ii))), iset idx k ii, S k)
  else s.
Definition stack_C (d : ddims) (q o : dqp) : mat :=
  mwr (dnv d) (dng d) (dq_C q) (mwr (stk_nv d) (stk_ng d q) (fun _ _ => n0) (dq_C o)).
Definition stack_rows (d : ddims) (q o : dqp) : sst :=
  loop (dnb d + dng d) (stack_row d q (stk_nb d q) (stk_ng d q))
    (mkSst (stack_C d q o) (dq_d o) (wr 0 (dnb d) (fun _ => n1) (dq_m o)) (dq_idxb o) (dng d)).
Definition stack_bounds (d : ddims) (q o : dqp) : vec * (nat -> nat) * nat :=
  let s := stack_rows d q o in
  loop (dnb d) (stack_hard d q (stk_nb d q) (stk_ng d q) (st_m s)) (st_d s, st_idxb s, 0).
Definition stack_slacks (d : ddims) (q o : dqp) : dqp :=
  let nv := dnv d in let ne := dne d in let nb := dnb d in let ng := dng d in let ns := dns d in
  let nv2 := stk_nv d in let nb2 := stk_nb d q in let ng2 := stk_ng d q in
  let H := mwr nv nv (dq_H q) (mwr nv2 nv2 (fun _ _ => n0) (dq_H o)) in
  let H := fun r c => if (r =? c) && (nv <=? r) && (r <? nv + 2 * ns) then dq_Z q (r - nv) else H r c in
  let g := wr 0 (nv + 2 * ns) (dq_g q) (dq_g o) in
  let Am := mwr ne nv2 (fun _ _ => n0) (dq_A o) in
  let Am := if 0 <? ne then mwr ne nv (dq_A q) Am else Am in
  let b := if 0 <? ne then wr 0 ne (dq_b q) (dq_b o) else dq_b o in
  if 0 <? ns then
    let s := stack_rows d q o in
    let '(dd, idx, k) := stack_bounds d q o in
    let dd := wr k (2 * ns) (fun i => dq_d q (2 * nb + 2 * ng + i)) dd in
    let dd := wr (nb2 + ng2 + k) (2 * ns) (fun _ => ncst 1 6) dd in
    let dd := wr nb2 ng (fun j => dq_d q (nb + j)) dd in
    let dd := wr (2 * nb2 + ng2) ng (fun j => nopp (dq_d q (2 * nb + ng + j))) dd in
    let dd := wr (nb2 + ng2) (nb2 + ng2) (fun i => nopp (dd (nb2 + ng2 + i))) dd in
    mkDq H g (dq_Z o) Am b (st_C s) dd (wr 0 (2 * nb2 + 2 * ng2) (fun _ => n0) (st_m s)) (dq_mask o) idx (dq_rev o)
  else
    mkDq H g (dq_Z o) Am b (stack_C d q o) (wr 0 (2 * nb + 2 * ng) (dq_d q) (dq_d o)) (wr 0 (2 * nb + 2 * ng) (dq_m q) (dq_m o)) (dq_mask o)
      (fun i => if i <? nb then dq_idxb q i else dq_idxb o i) (dq_rev o).
(** the assertions of :500-502 and :606 *)
Definition stack_asserts (d : ddims) (q o : dqp) : bool :=
  (stk_nv d =? dnv d + 2 * dns d) && (stk_nb d q =? dnb d - nsb_of d q + 2 * dns d) && (stk_ng d q =? dng d + nsb_of d q) &&
  (if 0 <? dns d then snd (stack_bounds d q o) =? dnb d - nsb_of d q else true).
(** the assertion of dense_qp_unstack_slacks on the number of general constraints of the stacked QP, :661 *)
Definition unstack_assert (d : ddims) (q : dqp) : bool := stk_ng d q =? 2 * dng d + 2 * nsb_of d q.
End D.
Arguments mkDq {A}. Arguments dq_H {A}. Arguments dq_g {A}. Arguments dq_Z {A}. Arguments dq_A {A}. Arguments dq_b {A}. Arguments dq_C {A}.
Arguments dq_d {A}. Arguments dq_m {A}. Arguments dq_mask {A}. Arguments dq_idxb {A}. Arguments dq_rev {A}.
Arguments mkDs {A}. Arguments ds_v {A}. Arguments ds_pi {A}. Arguments ds_lam {A}. Arguments ds_t {A}.
Arguments wr {A}. Arguments mset {A}. Arguments mwr {A}. Arguments hard {A}. Arguments compute_t {A}. Arguments nsb_of {A}. Arguments stk_nb {A}. Arguments stk_ng {A}.
Arguments mkSst {A}. Arguments st_C {A}. Arguments st_d {A}. Arguments st_m {A}. Arguments st_idxb {A}. Arguments st_col {A}.
Arguments stack_row {A}. Arguments stack_hard {A}. Arguments stack_C {A}. Arguments stack_rows {A}. Arguments stack_bounds {A}. Arguments stack_slacks {A}.
Arguments stack_asserts {A}. Arguments unstack_assert {A}.
