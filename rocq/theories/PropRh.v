(** Property theorems C94: Schur complement in the regularisation of the reduced Hessian. *)
From Coq Require Import ZArith List Bool Reals.
From Flocq Require Import IEEE754.BinarySingleNaN.
From Verif Require Import FP Arith LinModel RSum RhModel RhProofs RhCases RhTwo.
Import ListNotations.

(** C94.  Over the reals, without exchanges and with pivots of magnitude at least min_pivot, the trailing block is the Schur
    complement of the stage matrix, definite or not: for every x there is an input part such that the whole form at (u, x), against
    any z, is the form of the trailing block at x.  (z supported on the inputs: u is stationary; z = (u, x): the value.) *)
Theorem C94_schur : forall minp nu n (M : nat -> nat -> R), (0 < minp)%R -> (nu <= n)%nat -> pivots_ok minp nu n M -> forall x, exists w,
  (forall k, (nu <= k)%nat -> w k = x k) /\ forall z, form n 0 M w z = form n nu (true_schur (A := real) false minp nu n M) x z.
Proof. exact schur_complement. Qed.
Print Assumptions C94_schur.
(** matrices that meet the hypothesis exist for all dimensions and all signs of the pivots *)
Theorem C94_diagonal : forall (minp : R) nu n (d : nat -> R), (nu <= n)%nat -> (0 < minp)%R -> (forall j, (j < nu)%nat -> (minp <= Rabs (d j))%R) ->
  pivots_ok minp nu n (fun a b => if (a =? b)%nat then d a else 0%R).
Proof. exact diagonal_ok. Qed.
Print Assumptions C94_diagonal.
(** one elimination step *)
Theorem C94_step : forall n j (M : nat -> nat -> R) v z, (j < n)%nat -> M j j <> 0%R ->
  form n j M v z = (M j j * lin n j M v * lin n j M z + form n (j + 1) (eliminate (A := real) n j (1 / M j j)%R M) v z)%R.
Proof. exact form_step. Qed.
Print Assumptions C94_step.
(** With two inputs the exchange is right, and pivoting gives a Schur complement too; [chosen] is the matrix with its inputs in the order taken. *)
Theorem C94_two_inputs : forall minp n (M : nat -> nat -> R), (0 < minp)%R -> (2 <= n)%nat -> pivots_ok minp 2 n (chosen n M) -> forall x, exists w,
  (forall k, (2 <= k)%nat -> w k = x k) /\ forall z, form n 0 M w z = form n 2 (true_schur (A := real) true minp 2 n M) x z.
Proof. exact pivoting_two. Qed.
Print Assumptions C94_two_inputs.
Example C94_two_case : snd (find_pivot (A := real) 2 0 four_one) = 1%nat /\ pivots_ok (1 / 2)%R 2 3 (chosen 3 four_one).
Proof. exact (conj four_one_pivot four_one_ok). Qed.
Print Assumptions C94_two_case.
(** With the default option pivoting = 1 and three inputs it is false, binary64, no rounding. *)
Theorem C94_pivoting_refuted : exists M : nat -> nat -> double,
  B2SF (true_schur (A := dbl) false (dcst 1 (-12)) 3 4 M 3%nat 3%nat) = B2SF (fz2 (-1) 0) /\
  B2SF (true_schur (A := dbl) true (dcst 1 (-12)) 3 4 M 3%nat 3%nat) = B2SF (fz2 (-4) 0).
Proof. exact pivoting_wrong. Qed.
Print Assumptions C94_pivoting_refuted.
(** the exchange moves the column below, not the diagonal element *)
Theorem C94_exchange_refuted : exists M : nat -> nat -> double, snd (find_pivot (A := dbl) 3 1 M) = 2%nat /\
  B2SF (permute (A := dbl) 4 1 2 M 1%nat 1%nat) <> B2SF (M 2%nat 2%nat) /\ B2SF (permute (A := dbl) 4 1 2 M 3%nat 1%nat) = B2SF (M 3%nat 2%nat).
Proof. exact exchange_wrong. Qed.
Print Assumptions C94_exchange_refuted.
(** and the pivot chosen is the smallest *)
Theorem C94_smallest_refuted : exists M : nat -> nat -> double, snd (find_pivot (A := dbl) 2 0 M) = 1%nat /\ flt (fabs (M 1%nat 1%nat)) (fabs (M 0%nat 0%nat)) = true.
Proof. exact smallest. Qed.
Print Assumptions C94_smallest_refuted.
(** in general: every exchange makes the pivot strictly smaller in magnitude, and a pivot that is not positive is never exchanged *)
Theorem C94_shrinks : forall nu j (M : nat -> nat -> R), let s := find_pivot (A := real) nu j M in
  fst s = M (snd s) (snd s) /\ (snd s = j \/ (j < snd s < nu)%nat /\ (0 < M j j)%R /\ (Rabs (M (snd s) (snd s)) < Rabs (M j j))%R).
Proof. exact shrinks. Qed.
Print Assumptions C94_shrinks.
(** a pivot below min_pivot is replaced by one of the opposite sign, for every such pivot ... *)
Theorem C94_opposite : forall minp p : R, (0 < minp)%R -> (- minp < p < minp)%R -> p <> 0%R -> (bounded_pivot (A := real) minp p * p < 0)%R.
Proof. exact opposite. Qed.
Print Assumptions C94_opposite.
(** ... so the Schur complement has the wrong sign *)
Theorem C94_sign_refuted : exists (minp : R) (M : nat -> nat -> R), (0 < minp)%R /\ M 0%nat 0%nat <> 0%R /\ M 1%nat 1%nat = 0%R /\
  (true_schur (A := real) false minp 1 2 M 1%nat 1%nat < 0 < - (M 1%nat 0%nat * M 1%nat 0%nat / M 0%nat 0%nat))%R.
Proof. exact wrong_sign. Qed.
Print Assumptions C94_sign_refuted.

(** case: R = [2 2; 2 4], S = (2, 4) *)
Example C94_case : B2SF (true_schur (A := dbl) false (dcst 1 (-12)) 2 3 two_inputs 2%nat 2%nat) = B2SF (fz2 (-4) 0).
Proof. exact two_inputs_schur. Qed.
Print Assumptions C94_case.
