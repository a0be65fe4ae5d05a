(** Dense linear algebra of acados/utils/math.c over any number type.
    A column-major array with leading dimension [lda >= rows] is the function [i j |-> A[i + lda*j]];
    all callers in math.c use lda = rows, so distinct (i,j) are distinct entries. *)
From Coq Require Import ZArith List Bool.
From Verif Require Import Arith Vec.
Import ListNotations.

(** for (j = 0; j < n; j++) s = f j s *)
Fixpoint loop {S} (n : nat) (f : nat -> S -> S) (s : S) : S := match n with O => s | S k => f k (loop k f s) end.

Section L.
Variable A : arith.
Notation T := (num A).
Notation mat := (nat -> nat -> T).
Local Open Scope num_scope.

(** math.c:64-80 dgemm_nn_3l *)
Definition dgemm (k : nat) (X Y : mat) : mat := fun i j => vsum k (fun l => X i l * Y l j).
(** :135-142 daxpy_3l and :144-151 dscal_3l on whole matrices *)
Definition daxpy (a : T) (X Y : mat) : mat := fun i j => Y i j + a * X i j.
Definition dscal (a : T) (X : mat) : mat := fun i j => X i j * a.

(** C: x != 0 (true for NaN) *)
Definition nonzero (x : T) : bool := negb ((x <=? 0) && (0 <=? x)).
(** C: x > 0 ? x : -x *)
Definition cabs (x : T) : T := if 0 <? x then x else - x.
(** :168-188 idamax_3l *)
Definition idamax (n : nat) (x : nat -> T) : nat :=
  if (n <=? 1)%nat then 0%nat
  else snd (loop (n - 1) (fun k (s : T * nat) => let d := cabs (x (S k)) in if fst s <? d then (d, S k) else s) (cabs (x 0%nat), 0%nat)).

(** :190-204 dswap_3l on rows [i] and [p], and one step of :285-336 dlaswp_3l: columns c0 <= c < c1 *)
Definition swap_rows (c0 c1 i p : nat) (X : mat) : mat := fun r c =>
  if (c0 <=? c)%nat && (c <? c1)%nat then (if (r =? i)%nat then X p c else if (r =? p)%nat then X i c else X r c) else X r c.
Definition if_swap (c0 c1 i p : nat) (X : mat) : mat := if (p =? i)%nat then X else swap_rows c0 c1 i p X.

(** :230-283 dgetf2_3l with m = n.  The scaling of the column below the pivot (:256-270) divides
    directly for tiny pivots and multiplies by the inverse otherwise; dger_3l (:206-228) updates the
    trailing block with alpha = -1. *)
Record lu := mkLu { lu_A : mat; lu_piv : nat -> nat; lu_info : Z }.
Definition scale_col (n j : nat) (X : mat) : mat :=
  if (j + 1 <? n)%nat then
    let d := X j j in
    if ncst 222 (-18) <=? cabs d then fun r c => if (c =? j)%nat && (j <? r)%nat && (r <? n)%nat then X r c * (1 / d) else X r c
    else fun r c => if (c =? j)%nat && (j <? r)%nat && (r <? n)%nat then X r c / d else X r c
  else X.
Definition trail (n j : nat) (X : mat) : mat := fun r c =>
  if (j <? r)%nat && (r <? n)%nat && (j <? c)%nat && (c <? n)%nat then X r c + X r j * ((- (1)) * X j c) else X r c.
Definition lu_step (n j : nat) (s : lu) : lu :=
  let X := lu_A s in
  let jp := (j + idamax (n - j) (fun i => X (j + i)%nat j))%nat in
  let piv := fun k => if (k =? j)%nat then jp else lu_piv s k in
  if nonzero (X jp j) then mkLu (trail n j (scale_col n j (if_swap 0 n j jp X))) piv (lu_info s)
  else mkLu (trail n j X) piv (if (lu_info s =? 0)%Z then Z.of_nat (j + 1) else lu_info s).
Definition dgetf2 (n : nat) (s : lu) : lu := loop n (lu_step n) s.

(** :285-336 dlaswp_3l, blocks of 32 columns and a remainder *)
Definition laswp_block (c0 c1 n : nat) (piv : nat -> nat) (X : mat) : mat := loop n (fun i X => if_swap c0 c1 i (piv i) X) X.
Definition dlaswp (nrhs n : nat) (piv : nat -> nat) (X : mat) : mat :=
  let n32 := (nrhs / 32 * 32)%nat in
  let X := loop (nrhs / 32) (fun b X => laswp_block (b * 32) (b * 32 + 32) n piv X) X in
  if (n32 =? nrhs)%nat then X else laswp_block n32 nrhs n piv X.

(** :339-357 dtrsm_llnu_3l, all columns at once (columns are independent) *)
Definition dtrsm_llnu (m : nat) (L X : mat) : mat :=
  loop m (fun k X r c => if (k <? r)%nat && (r <? m)%nat then X r c - X k c * L r k else X r c) X.
(** :360-379 dtrsm_lunn_3l; the loop runs k = m-1, ..., 0 *)
Definition dtrsm_lunn (m : nat) (U X : mat) : mat :=
  loop m (fun t X => let k := (m - 1 - t)%nat in
    let X1 := fun r c => if (r =? k)%nat then X r c / U k k else X r c in
    fun r c => if (r <? k)%nat then X1 r c - X1 k c * U r k else X1 r c) X.
(** :381-397 dgetrs_3l *)
Definition dgetrs (n nrhs : nat) (LU : mat) (piv : nat -> nat) (B : mat) : mat :=
  dtrsm_lunn n LU (dtrsm_llnu n LU (dlaswp nrhs n piv B)).
(** :399-411 dgesv_3l: the solution in B, and info *)
Definition dgesv (n nrhs : nat) (X B : mat) (piv : nat -> nat) : mat * Z :=
  let s := dgetf2 n (mkLu X piv 0) in
  (if (lu_info s =? 0)%Z then dgetrs n nrhs (lu_A s) (lu_piv s) B else B, lu_info s).

(** :1172-1186 neville_algorithm: Q[0..n], nodes x[0..n] *)
Definition neville_inner (xx : T) (n i : nat) (x : nat -> T) (Q : nat -> T) : nat -> T :=
  loop i (fun j Q => vset Q j (((xx - x j) * Q (j + 1)%nat - (xx - x (j + n - i + 1)%nat) * Q j) / (x (j + n - i + 1)%nat - x j))) Q.
Definition neville (xx : T) (n : nat) (x Q : nat -> T) : T :=
  loop n (fun t Q => neville_inner xx n (n - t) x Q) Q 0%nat.

(** :1113-1133; fmax is [cmax]: C's fmax returns the other argument when one is NaN *)
Definition cmax (a b : T) : T := if nisnan a then b else if nisnan b then a else if a <? b then b else a.
Definition gersh_radius (n : nat) (M : mat) (i : nat) : T := vsum n (fun j => if (j =? i)%nat then 0 else nabs (M i j)).
Definition gersh_max (n : nat) (M : mat) : T :=
  loop n (fun i m => cmax m (cmax (nabs (M i i - gersh_radius n M i)) (nabs (M i i + gersh_radius n M i)))) 0.
(** :1135-1157 *)
Definition gersh_min (n : nat) (M : mat) : T := loop n (fun i m => nmin m (M i i - gersh_radius n M i)) (ncst 1 10).
End L.

Arguments dgemm {A}. Arguments daxpy {A}. Arguments dscal {A}. Arguments nonzero {A}. Arguments cabs {A}. Arguments idamax {A}.
Arguments swap_rows {A}. Arguments if_swap {A}. Arguments mkLu {A}. Arguments lu_A {A}. Arguments lu_piv {A}. Arguments lu_info {A}.
Arguments scale_col {A}. Arguments trail {A}. Arguments lu_step {A}. Arguments dgetf2 {A}. Arguments laswp_block {A}. Arguments dlaswp {A}.
Arguments dtrsm_llnu {A}. Arguments dtrsm_lunn {A}. Arguments dgetrs {A}. Arguments dgesv {A}. Arguments neville_inner {A}. Arguments neville {A}.
Arguments cmax {A}. Arguments gersh_radius {A}. Arguments gersh_max {A}. Arguments gersh_min {A}.
