(** Householder reduction to tridiagonal form: tred2, utils/math.c:842-982, and its call from
    acados_eigen_decomposition, math.c:1098-1111.  V[i*dim+j] is [V i j].  [sqrt_] is the C library's sqrt,
    [tql2] (math.c:987-1094) is left abstract: it gets the three arrays as lists. *)
From Coq Require Import ZArith List Bool.
From Verif Require Import Arith Vec LinModel.

Section T.
Variable A : arith.
Notation T := (num A).
Notation vec := (nat -> T).
Notation mat := (nat -> nat -> T).
Local Open Scope num_scope.
Variable sqrt_ : T -> T.

Record tst := mkT { tV : mat; td : vec; te : vec }.
Definition put2 (M : mat) (a b : nat) (v : T) : mat := fun i j => if (i =? a)%nat && (j =? b)%nat then v else M i j.
Definition setV (a b : nat) (v : T) (s : tst) : tst := mkT (put2 (tV s) a b v) (td s) (te s).
Definition setd (j : nat) (v : T) (s : tst) : tst := mkT (tV s) (vset (td s) j v) (te s).
Definition sete (j : nat) (v : T) (s : tst) : tst := mkT (tV s) (td s) (vset (te s) j v).
(** the C test x == 0.0 *)
Definition is_zero (x : T) : bool := (x <=? 0) && (0 <=? x).

(** :851-854 *)
Definition tred_init (dim : nat) (s : tst) : tst := loop dim (fun j s => setd j (tV s (dim - 1)%nat j) s) s.
(** :862-867 *)
Definition scale_of (i : nat) (s : tst) : T := loop i (fun k a => a + nabs (td s k)) 0.
(** :868-877 *)
Definition no_reflection (i : nat) (s : tst) : tst :=
  loop i (fun j s => setV j i 0 (setV i j 0 (setd j (tV s (i - 1)%nat j) s))) (sete i (td s (i - 1)%nat) s).
(** :882-886 *)
Definition scale_d (i : nat) (scale : T) (s : tst) : tst * T :=
  loop i (fun k '(s, h) => let s := setd k (td s k / scale) s in (s, h + td s k * td s k)) (s, 0).
(** :903-914 one column of the similarity transformation *)
Definition apply_col (i j : nat) (s : tst) : tst :=
  let f := td s j in
  let s := setV j i f s in
  let g := te s j + tV s j j * f in
  let '(s, g) := loop (i - 1 - j) (fun q '(s, g) => let k := (j + 1 + q)%nat in
     let g := g + tV s k j * td s k in (sete k (te s k + tV s k j * f) s, g)) (s, g) in
  sete j g s.
(** :915-920 *)
Definition div_e (i : nat) (h : T) (s : tst) : tst * T :=
  loop i (fun j '(s, f) => let s := sete j (te s j / h) s in (s, f + te s j * td s j)) (s, 0).
(** :926-935 *)
Definition update_col (i j : nat) (s : tst) : tst :=
  let f := td s j in let g := te s j in
  let s := loop (i - j) (fun q s => let k := (j + q)%nat in setV k j (tV s k j - (f * te s k + g * td s k)) s) s in
  setV i j 0 (setd j (tV s (i - 1)%nat j) s).
(** :880-937; returns h *)
Definition reflection (i : nat) (scale : T) (s : tst) : tst * T :=
  let '(s, h) := scale_d i scale s in
  let f := td s (i - 1)%nat in
  let g := sqrt_ h in
  let g := if 0 <? f then - g else g in
  let s := sete i (scale * g) s in
  let h := h - f * g in
  let s := setd (i - 1)%nat (f - g) s in
  let s := loop i (fun j s => sete j 0 s) s in
  let s := loop i (fun j s => apply_col i j s) s in
  let '(s, f) := div_e i h s in
  let hh := f / (h + h) in
  let s := loop i (fun j s => sete j (te s j - hh * td s j) s) s in
  (loop i (fun j s => update_col i j s) s, h).
(** :858-940 *)
Definition reduce (i : nat) (s : tst) : tst :=
  let scale := scale_of i s in
  if is_zero scale then setd i 0 (no_reflection i s) else let '(s, h) := reflection i scale s in setd i h s.
(** :943-971 *)
Definition accumulate (dim i : nat) (s : tst) : tst :=
  let s := setV (dim - 1)%nat i (tV s i i) s in
  let s := setV i i 1 s in
  let h := td s (i + 1)%nat in
  let s := if is_zero h then s else
    let s := loop (i + 1) (fun k s => setd k (tV s k (i + 1)%nat / h) s) s in
    loop (i + 1) (fun j s => let g := loop (i + 1) (fun k g => g + tV s k (i + 1)%nat * tV s k j) 0 in
      loop (i + 1) (fun k s => setV k j (tV s k j - g * td s k) s) s) s in
  loop (i + 1) (fun k s => setV k (i + 1)%nat 0 s) s.
(** :972-981 *)
Definition tred_end (dim : nat) (s : tst) : tst :=
  let s := loop dim (fun j s => setV (dim - 1)%nat j 0 (setd j (tV s (dim - 1)%nat j) s)) s in
  if (0 <? dim)%nat then sete 0 0 (setV (dim - 1)%nat (dim - 1)%nat 1 s) else s.
Definition tred2 (dim : nat) (s : tst) : tst :=
  let s := loop (dim - 1) (fun t s => reduce (dim - 1 - t) s) (tred_init dim s) in
  tred_end dim (loop (dim - 1) (fun i s => accumulate dim i s) s).

(** :1098-1111; [d] and [e] are the workspaces as they were *)
Variable tql2 : nat -> list T -> list T -> list T -> list T * list T.
Definition arr1 (dim : nat) (v : vec) : list T := map v (seq 0 dim).
Definition arr2 (dim : nat) (M : mat) : list T := flat_map (fun i => map (M i) (seq 0 dim)) (seq 0 dim).
Definition eigen_decomposition (dim : nat) (M : mat) (d e : vec) : list T * list T :=
  let s := tred2 dim (mkT M d e) in tql2 dim (arr2 dim (tV s)) (arr1 dim (td s)) (arr1 dim (te s)).
End T.
Arguments mkT {A}. Arguments tV {A}. Arguments td {A}. Arguments te {A}. Arguments put2 {A}. Arguments setV {A}. Arguments setd {A}. Arguments sete {A}. Arguments is_zero {A}.
Arguments tred_init {A}. Arguments scale_of {A}. Arguments no_reflection {A}. Arguments scale_d {A}. Arguments apply_col {A}. Arguments div_e {A}. Arguments update_col {A}.
Arguments reflection {A}. Arguments reduce {A}. Arguments accumulate {A}. Arguments tred_end {A}. Arguments tred2 {A}. Arguments arr1 {A}. Arguments arr2 {A}. Arguments eigen_decomposition {A}.
