(** Projection with the library's eigendecomposition in binary64. *)
From Coq Require Import ZArith List Bool Lia.
From Flocq Require Import IEEE754.BinarySingleNaN.
From Verif Require Import FP Arith Vec LinModel RegModel TredModel TredCases TqlModel TqlCases.
Import ListNotations.
Definition eigd (n : nat) (M : nat -> nat -> double) : (nat -> nat -> double) * (nat -> double) := let q := fst (eig n M) in (tV (q_st q), td (q_st q)).
Definition projected (n : nat) (M : nat -> nat -> double) : nat -> nat -> double := reg_stage (A := dbl) eigd (RProject (dcst 1 (-4))) n M.
Lemma tiny_nan : exists x : double, is_finite x = true /\ forall i j, (i < 2)%nat -> (j < 2)%nat -> is_nan (projected 2 (offdiag x) i j) = true.
Proof. exists (dcst 1 (-300)). split; [vm_compute; reflexivity|]. intros [|[|i]] [|[|j]] Hi Hj; try lia; vm_compute; reflexivity. Qed.
Lemma large_zero : exists x : double, is_finite x = true /\ forall i j, (i < 2)%nat -> (j < 2)%nat -> Beqb (projected 2 (offdiag x) i j) f0 = true.
Proof. exists (fz2 1 600). split; [vm_compute; reflexivity|]. intros [|[|i]] [|[|j]] Hi Hj; try lia; vm_compute; reflexivity. Qed.
Lemma ex_proj : map B2SF (arr2 2 (projected 2 (rows [[4; 9]; [0; -3]]%Z))) = map B2SF [dz 4; f0; f0; dcst 1 (-4)].
Proof. vm_compute. reflexivity. Qed.
