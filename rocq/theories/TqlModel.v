(** The implicit QL iteration on the tridiagonal matrix: tql2, utils/math.c:986-1094, with hypot2, :834-837.
    [sqrt_] is the C library's sqrt, [eps] is pow(2.0, -52.0).  The arrays are those of [tst].
    Not in the code: the flag [ok], which records that every inner loop ended by its convergence test
    and that no rotation divided by zero. *)
From Coq Require Import ZArith List Bool.
From Verif Require Import Arith Vec LinModel TredModel.

Section T.
Variable A : arith.
Notation T := (num A).
Local Open Scope num_scope.
Variable sqrt_ : T -> T.
Variable eps : T.
Variable dim : nat.

(** :834-837 *)
Definition hypot2 (x y : T) : T := sqrt_ (x * x + y * y).
(** fmax of math.h: a NaN operand is ignored *)
Definition fmaxc (a b : T) : T := if nisnan a then b else if nisnan b then a else nmax a b.

(** the variables of the loop :1054-1082 *)
Record rot := mkR { r_st : tst A; r_c : T; r_c2 : T; r_c3 : T; r_s : T; r_s2 : T; r_p : T; r_ok : bool }.
(** :1076-1081 *)
Definition rot_cols (i : nat) (s c : T) (t : tst A) : tst A :=
  loop dim (fun k t => let h := tV t k (i + 1)%nat in
    let t := setV k (i + 1)%nat (s * tV t k i + c * h) t in setV k i (c * tV t k i - s * h) t) t.
(** :1062-1081 *)
Definition rotate (i : nat) (w : rot) : rot :=
  let t := r_st w in let c := r_c w in let s := r_s w in let p := r_p w in
  let g := c * te t i in
  let h := c * p in
  let r := hypot2 p (te t i) in
  let t := sete (i + 1)%nat (s * r) t in
  let s' := te t i / r in
  let c' := p / r in
  let p' := c' * td t i - s' * g in
  let t := setd (i + 1)%nat (h + s' * (c' * g + s' * td t i)) t in
  mkR (rot_cols i s' c' t) c' c (r_c2 w) s' s p' (r_ok w && negb (is_zero r)).
(** :1034-1048: the shift; returns the state, dl1 and h *)
Definition shift (l : nat) (t : tst A) : tst A * T * T :=
  let g := td t l in
  let p := (td t (l + 1)%nat - g) / (ncst 2 0 * te t l) in
  let r := hypot2 p 1 in
  let r := if p <? 0 then - r else r in
  let t := setd l (te t l / (p + r)) t in
  let t := setd (l + 1)%nat (te t l * (p + r)) t in
  let h := g - td t l in
  (loop (dim - (l + 2)) (fun q t => setd (l + 2 + q)%nat (td t (l + 2 + q)%nat - h) t) t, td t (l + 1)%nat, h).
(** :1031-1085 one pass of the do loop; returns the state, f, and the flag *)
Definition ql_sweep (l m : nat) (t : tst A) (f : T) : tst A * T * bool :=
  let '(t, dl1, h) := shift l t in
  let f := f + h in
  let el1 := te t (l + 1)%nat in
  let w := loop (m - l) (fun q w => rotate (m - 1 - q) w) (mkR t 1 1 1 0 0 (td t m) true) in
  let t := r_st w in
  let p := - r_s w * r_s2 w * r_c3 w * el1 * te t l / dl1 in
  let t := sete l (r_s w * p) t in
  (setd l (r_c w * p) t, f, r_ok w).
(** the do loop :1029-1089 after [S fuel] passes at most; the flag also says that the test has been met *)
Fixpoint ql_loop (fuel l m : nat) (tst1 : T) (t : tst A) (f : T) : tst A * T * bool :=
  let '(t, f, ok) := ql_sweep l m t f in
  if eps * tst1 <? nabs (te t l) then
    match fuel with
    | O => (t, f, false)
    | S k => let '(t, f, ok') := ql_loop k l m tst1 t f in (t, f, ok && ok')
    end
  else (t, f, ok).
(** :1013-1021 *)
Fixpoint find_m (fuel : nat) (tst1 : T) (e : nat -> T) (m : nat) : nat :=
  match fuel with O => m | S k => if nabs (e m) <=? eps * tst1 then m else find_m k tst1 e (m + 1) end.
Record ql := mkQ { q_st : tst A; q_f : T; q_tst1 : T; q_ok : bool }.
(** :1008-1093 *)
Definition ql_step (l : nat) (q : ql) : ql :=
  let t := q_st q in
  let tst1 := fmaxc (q_tst1 q) (nabs (td t l) + nabs (te t l)) in
  let m := find_m (dim - 1 - l) tst1 (te t) l in
  let '(t, f, ok) := if (l <? m)%nat then ql_loop 19 l m tst1 t (q_f q) else (t, q_f q, true) in
  let t := setd l (td t l + f) t in
  mkQ (sete l 0 t) f tst1 (q_ok q && ok).
(** :999-1003; with dim = 0 the write :1003 goes to e[-1]: second component *)
Definition ql_init (t : tst A) : tst A * bool :=
  let t := loop (dim - 1) (fun i t => sete i (te t (i + 1)%nat) t) t in
  if (0 <? dim)%nat then (sete (dim - 1)%nat 0 t, false) else (t, true).
Definition tql2 (t : tst A) : ql * bool :=
  let '(t, oob) := ql_init t in (loop dim (fun l q => ql_step l q) (mkQ t 0 0 true), oob).
(** acados_eigen_decomposition, :1098-1110 *)
Definition eigen (M : nat -> nat -> T) (d e : nat -> T) : ql * bool := tql2 (tred2 sqrt_ dim (mkT M d e)).
End T.
Arguments hypot2 {A}. Arguments fmaxc {A}. Arguments mkR {A}. Arguments r_st {A}. Arguments r_c {A}. Arguments r_c2 {A}. Arguments r_c3 {A}. Arguments r_s {A}. Arguments r_s2 {A}. Arguments r_p {A}. Arguments r_ok {A}.
Arguments rot_cols {A}. Arguments rotate {A}. Arguments shift {A}. Arguments ql_sweep {A}. Arguments ql_loop {A}. Arguments find_m {A}. Arguments mkQ {A}. Arguments q_st {A}. Arguments q_f {A}. Arguments q_tst1 {A}. Arguments q_ok {A}.
Arguments ql_step {A}. Arguments ql_init {A}. Arguments tql2 {A}. Arguments eigen {A}.
