(** Property theorems C90: the QL iteration of the eigendecomposition. *)
From Coq Require Import ZArith List Bool Reals.
From Flocq Require Import IEEE754.BinarySingleNaN.
From Verif Require Import FP Arith Vec LinModel RSum TredModel TredCases TqlModel TqlTop TqlCases.
Import ListNotations.
Open Scope R_scope.

(** C90.  Over the reals, for the symmetric S with the given lower triangle: if every inner loop met its convergence
    test within the 20 sweeps and no rotation divided by zero, then V'V = I, and V' S V differs from diag(d) by a
    matrix of norm at most 2 n eps tst1. *)
Theorem C90_eigen : forall n eps (M : nat -> nat -> R) (d e : nat -> R) (S : nat -> nat -> R), 0 <= eps ->
  (forall a b, (a < n)%nat -> (b <= a)%nat -> M a b = S a b) -> (forall a b, (a < n)%nat -> (b < n)%nat -> S a b = S b a) ->
  let q := fst (eigen (A := real) sqrt eps n M d e) in let V := tV (q_st q) in q_ok q = true ->
  (forall i j, (i < n)%nat -> (j < n)%nat -> sum n (fun a => V a i * V a j) = if (i =? j)%nat then 1 else 0) /\
  (forall x : nat -> R, let y := fun a => sum n (fun j => V a j * x j) in
     Rabs (sum n (fun a => sum n (fun b => y a * S a b * y b)) - sum n (fun a => td (q_st q) a * (x a * x a))) <= 2 * INR n * eps * q_tst1 q * sum n (fun a => x a * x a)).
Proof. exact eigen_spec. Qed.
Print Assumptions C90_eigen.
(** two by two matrices always converge, in one sweep *)
Theorem C90_two : forall eps (M : nat -> nat -> R) d e, 0 <= eps -> q_ok (fst (eigen (A := real) sqrt eps 2 M d e)) = true.
Proof. exact two_ok. Qed.
Print Assumptions C90_two.

(** In binary64 finite symmetric matrices can give eigenvalues that are not finite: hypot2 underflows, 0/0 follows. *)
Theorem C90_tiny_refuted : exists x : double, is_finite x = true /\ forall i, (i < 2)%nat -> is_finite (td (q_st (fst (eig 2 (offdiag x)))) i) = false.
Proof. exact tiny_bad. Qed.
Print Assumptions C90_tiny_refuted.
(** ... and, where hypot2 overflows, the eigenvalues x and 0 for [0 x; x 0], with V = 0. *)
Theorem C90_large_refuted : exists x : double, is_finite x = true /\ vals 2 (offdiag x) = map B2SF [x; f0] /\
  forall i j, (i < 2)%nat -> (j < 2)%nat -> Beqb (tV (q_st (fst (eig 2 (offdiag x)))) i j) f0 = true.
Proof. exact large_bad. Qed.
Print Assumptions C90_large_refuted.
(** dimension 0 writes e[-1] *)
Theorem C90_zero_refuted : snd (eig 0 (rows [])) = true.
Proof. exact zero_oob. Qed.
Print Assumptions C90_zero_refuted.

(** eigenvalues 3 and 1 + 2^-52 for [2 1; 1 2]; the 9 above the diagonal is not read *)
Example C90_case_two : vals 2 (rows [[2; 9]; [1; 2]]%Z) = map B2SF [dz 3; fz2 (2 ^ 52 + 1) (-52)] /\ q_ok (fst (eig 2 (rows [[2; 9]; [1; 2]]%Z))) = true.
Proof. exact ex_two. Qed.
Example C90_case_diag : vals 2 (rows [[4; 0]; [0; -3]]%Z) = map B2SF [dz 4; dz (-3)] /\ vecs 2 (rows [[4; 0]; [0; -3]]%Z) = map B2SF [f1; f0; f0; f1].
Proof. exact ex_diag. Qed.
Example C90_case_three : q_ok (fst (eig 3 (rows [[2; 0; 3]; [0; 5; 4]; [3; 4; 1]]%Z))) = true.
Proof. exact TqlCases.ex_three. Qed.
