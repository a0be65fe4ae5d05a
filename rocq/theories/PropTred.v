(** Property theorems C89: the Householder reduction of the eigendecomposition. *)
From Coq Require Import ZArith List Bool Reals.
From Flocq Require Import IEEE754.BinarySingleNaN.
From Verif Require Import FP Arith Vec LinModel RSum TredModel TredProofs TredFinal TredCases.
Import ListNotations.
Open Scope R_scope.

(** C89.  In any arithmetic: entries above the diagonal (row-major) and the workspaces do not influence the result. *)
Theorem C89_upper_ignored : forall A sqrt_ dim (tql2 : nat -> list (num A) -> list (num A) -> list (num A) -> list (num A) * list (num A)) (M M' : nat -> nat -> num A) d d' e e',
  (forall i j, (i < dim)%nat -> (j <= i)%nat -> M i j = M' i j) -> eigen_decomposition sqrt_ tql2 dim M d e = eigen_decomposition sqrt_ tql2 dim M' d' e'.
Proof. exact decomposition_lower. Qed.
Print Assumptions C89_upper_ignored.
(** Over the reals: V'V = I and V' S V is the tridiagonal matrix of d and e, S the symmetric matrix with the given lower triangle. *)
Theorem C89_tridiagonal : forall n (M : nat -> nat -> R) (d e : nat -> R) (S : nat -> nat -> R),
  (forall a b, (a < n)%nat -> (b <= a)%nat -> M a b = S a b) -> (forall a b, (a < n)%nat -> (b < n)%nat -> S a b = S b a) ->
  let w := tred2 (A := real) sqrt n (mkT M d e) in
  (forall i j, (i < n)%nat -> (j < n)%nat -> sum n (fun a => tV w a i * tV w a j) = if (i =? j)%nat then 1 else 0) /\
  (forall i j, (i < n)%nat -> (j < n)%nat -> sum n (fun a => sum n (fun b => tV w a i * S a b * tV w b j)) =
     if (i =? j)%nat then td w i else if (i =? j + 1)%nat then te w i else if (j =? i + 1)%nat then te w j else 0).
Proof. exact tred2_similar. Qed.
Print Assumptions C89_tridiagonal.

(** the 9 above the diagonal is ignored, the entry below it is not (binary64) *)
Example C89_case_lower : show (eigen_decomposition (A := dbl) fsqrt keep 2 (rows [[2; 9]; [1; 2]]%Z) zv zv) = show ([dz (-1); f0; f0; f1], [dz 2; dz 2; f0; dz (-1)]).
Proof. exact ex_lower. Qed.
Example C89_case_differ : show (eigen_decomposition (A := dbl) fsqrt keep 2 (rows [[2; 1]; [0; 2]]%Z) zv zv) = show ([f1; f0; f0; f1], [dz 2; dz 2; f0; f0]).
Proof. exact ex_differ. Qed.
Example C89_case_three : snd (show (eigen_decomposition (A := dbl) fsqrt keep 3 (rows [[2; 9; 9]; [0; 5; 9]; [3; 4; 1]]%Z) zv zv)) = map B2SF [fz2 6935543426150564 (-51); fz2 8827055269646173 (-51); f1; f0; fz2 (-6485183463413515) (-52); fz2 (-5629499534213119) (-50)].
Proof. exact ex_three. Qed.
