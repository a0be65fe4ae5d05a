(** What it means to solve a dense QP, over the reals: constraint rows, KKT conditions; and what a solver for
    box- and row-constrained QPs such as qpOASES is trusted to return. *)
From Coq Require Import ZArith Bool Reals.
From Verif Require Import Arith DenseModel QpoModel RSum.
Open Scope R_scope.

Notation rdqp := (dqp real).
Notation rdsol := (dsol real).

Section K.
Variable d : ddims.
Definition drows : nat := (dnb d + dng d)%nat.          (* softenable rows per side *)
Definition dall : nat := (2 * (dnb d + dng d + dns d))%nat.
Section P.
Variable q : rdqp.
(** the Hessian is stored in the lower triangle *)
Definition dsym (r c : nat) : R := if (c <=? r)%nat then dq_H q r c else dq_H q c r.
Definition dcoef (k r : nat) : R := if (k <? dnb d)%nat then (if (dq_idxb q k =? r)%nat then 1 else 0) else dq_C q r (k - dnb d)%nat.
Definition dlin (v : vecR) (k : nat) : R := sum (dnv d) (fun r => dcoef k r * v r).
Definition dslack (v : vecR) (k : nat) (up : bool) : R :=
  if (0 <=? dq_rev q k)%Z then v (dnv d + (if up then dns d else 0) + Z.to_nat (dq_rev q k))%nat else 0.
(** lower rows, upper rows, slack bounds; satisfied when nonnegative *)
Definition dineq (v : vecR) (m : nat) : R :=
  if (m <? drows)%nat then dlin v m + dslack v m false - dq_d q m
  else if (m <? 2 * drows)%nat then - dlin v (m - drows) + dslack v (m - drows) true - dq_d q m
  else v (dnv d + (m - 2 * drows))%nat - dq_d q m.
(** gradient of the Lagrangian; [sg] is the sign with which the equality multipliers enter *)
Definition dstat (sg : R) (s : rdsol) (r : nat) : R :=
  sum (dnv d) (fun c => dsym r c * ds_v s c) + dq_g q r + sg * sum (dne d) (fun j => dq_A q j r * ds_pi s j)
  - sum drows (fun k => dcoef k r * (ds_lam s k - ds_lam s (drows + k)%nat)).
Definition dstat_slack (s : rdsol) (k : nat) (up : bool) : R :=
  let e := ((if up then dns d else 0) + k)%nat in
  dq_Z q e * ds_v s (dnv d + e)%nat + dq_g q (dnv d + e)%nat
  - sum drows (fun l => if (dq_rev q l =? Z.of_nat k)%Z then ds_lam s ((if up then drows else 0) + l)%nat else 0)
  - ds_lam s (2 * drows + e)%nat.
(** masked inequalities are absent from the problem *)
Record dkkt (sg : R) (s : rdsol) : Prop := mkDk {
  dk_stat : forall r, (r < dnv d)%nat -> dstat sg s r = 0;
  dk_slack : forall k up, (k < dns d)%nat -> dstat_slack s k up = 0;
  dk_eq : forall j, (j < dne d)%nat -> sum (dnv d) (fun r => dq_A q j r * ds_v s r) = dq_b q j;
  dk_in : forall m, (m < dall)%nat -> dq_mask q m <> 0 -> 0 <= dineq (ds_v s) m /\ 0 <= ds_lam s m /\ ds_lam s m * dineq (ds_v s) m = 0;
  dk_mask : forall m, (m < dall)%nat -> dq_mask q m = 0 -> ds_lam s m = 0 }.

(** every bound acts on its own variable *)
Definition own_bounds : Prop := forall i, (i < dnb d)%nat -> (dq_idxb q i < dnv d)%nat /\ forall j, (j < dnb d)%nat -> dq_idxb q i = dq_idxb q j -> i = j.
(** every slack softens exactly one row *)
Definition one_row_each : Prop :=
  (forall k, (k < drows)%nat -> dq_rev q k = (-1)%Z \/ (0 <= dq_rev q k < Z.of_nat (dns d))%Z) /\
  (forall k l, (k < drows)%nat -> (l < drows)%nat -> (0 <= dq_rev q k)%Z -> dq_rev q k = dq_rev q l -> k = l) /\
  (forall i, (i < dns d)%nat -> exists k, (k < drows)%nat /\ dq_rev q k = Z.of_nat i).
End P.
End K.

(** Trusted of the solver: a KKT point (x, y) in qpOASES' convention, y >= 0 at lower and y <= 0 at upper bounds *)
Record box_kkt (B : box real) (x y : vecR) : Prop := mkBk {
  bk_stat : forall r, (r < bx_nv B)%nat ->
    sum (bx_nv B) (fun c => bx_H B r c * x c) + bx_g B r - y r - sum (bx_ng B) (fun j => bx_C B j r * y (bx_nv B + j)%nat) = 0;
  bk_box : forall r, (r < bx_nv B)%nat -> bx_lb B r <= x r <= bx_ub B r /\ (0 < y r -> x r = bx_lb B r) /\ (y r < 0 -> x r = bx_ub B r);
  bk_row : forall j, (j < bx_ng B)%nat -> let a := sum (bx_nv B) (fun r => bx_C B j r * x r) in
    bx_lg B j <= a <= bx_ug B j /\ (0 < y (bx_nv B + j)%nat -> a = bx_lg B j) /\ (y (bx_nv B + j)%nat < 0 -> a = bx_ug B j) }.

(** the conditions under which stacking the slacks is faithful *)
Record stackable (d : ddims) (q : rdqp) : Prop := mkStk {
  sk_order : forall i j, (i < j < dnb d)%nat -> (0 <= dq_rev q i)%Z -> (0 <= dq_rev q j)%Z -> (dq_rev q i < dq_rev q j)%Z;
  sk_idxb : (0 < dns d)%nat -> forall i, (i < dnb d)%nat -> dq_rev q i = (-1)%Z -> dq_idxb q i = i;
  sk_zero : forall e, (e < 2 * dns d)%nat -> dq_d q (2 * drows d + e)%nat = 0;
  sk_pen : forall e, (e < 2 * dns d)%nat -> 0 <= dq_Z q e /\ 0 <= dq_g q (dnv d + e)%nat }.
