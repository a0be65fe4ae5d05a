(** tred2 on matrices with different upper triangles (binary64). *)
From Coq Require Import ZArith List Bool.
From Flocq Require Import IEEE754.BinarySingleNaN.
From Verif Require Import FP Arith Vec LinModel TredModel.
Import ListNotations.
(** C's sqrt *)
Definition fsqrt (x : double) : double := Bsqrt mode_NE x.
Definition dz (z : Z) : double := fz2 z 0.
Definition rows (l : list (list Z)) : nat -> nat -> double := fun i j => dz (nth j (nth i l []) 0%Z).
Definition keep (n : nat) (V d e : list double) : list double * list double := (V, d ++ e).
Definition zv : nat -> double := fun _ => f0.
Definition show (p : list double * list double) := (map B2SF (fst p), map B2SF (snd p)).
Lemma ex_lower : show (eigen_decomposition (A := dbl) fsqrt keep 2 (rows [[2; 9]; [1; 2]]%Z) zv zv) = show ([dz (-1); f0; f0; f1], [dz 2; dz 2; f0; dz (-1)]).
Proof. vm_compute. reflexivity. Qed.
Lemma ex_differ : show (eigen_decomposition (A := dbl) fsqrt keep 2 (rows [[2; 1]; [0; 2]]%Z) zv zv) = show ([f1; f0; f0; f1], [dz 2; dz 2; f0; f0]).
Proof. vm_compute. reflexivity. Qed.
Lemma ex_three : snd (show (eigen_decomposition (A := dbl) fsqrt keep 3 (rows [[2; 9; 9]; [0; 5; 9]; [3; 4; 1]]%Z) zv zv)) = map B2SF [fz2 6935543426150564 (-51); fz2 8827055269646173 (-51); f1; f0; fz2 (-6485183463413515) (-52); fz2 (-5629499534213119) (-50)].
Proof. vm_compute. reflexivity. Qed.
