(** IEEE binary64 values (type [double] of C) with round-to-nearest-even, via Flocq.
    NaN payloads are not distinguished. *)
From Coq Require Import ZArith Bool Lia Reals.
From Flocq Require Import IEEE754.BinarySingleNaN.
Open Scope Z_scope.

Lemma prec_gt_0_53 : FLX.Prec_gt_0 53. Proof. reflexivity. Qed.
Lemma prec_lt_emax_53 : Prec_lt_emax 53 1024. Proof. reflexivity. Qed.
#[global] Existing Instance prec_gt_0_53.
#[global] Existing Instance prec_lt_emax_53.

Notation double := (binary_float 53 1024).

(** C comparison operators on double: false as soon as one operand is NaN. *)
Definition flt (x y : double) : bool := Bltb x y.         (* x < y  *)
Definition fle (x y : double) : bool := Bleb x y.         (* x <= y *)
Definition fgt (x y : double) : bool := Bltb y x.         (* x > y  *)
Definition fge (x y : double) : bool := Bleb y x.         (* x >= y *)
Definition isnan (x : double) : bool := is_nan x.
Definition isinf (x : double) : bool := match x with B754_infinity _ => true | _ => false end.

Definition fadd (x y : double) : double := Bplus mode_NE x y.
Definition fsub (x y : double) : double := Bminus mode_NE x y.
Definition fmul (x y : double) : double := Bmult mode_NE x y.
Definition fdiv (x y : double) : double := Bdiv mode_NE x y.
Definition fabs (x : double) : double := Babs x.
Definition fopp (x : double) : double := Bopp x.

(** the double nearest to m * 2^e *)
Definition fz2 (m e : Z) : double := binary_normalize 53 1024 _ _ mode_NE m e false.
Definition f0 : double := B754_zero false.
Definition f1 : double := fz2 1 0.
Definition fhalf : double := fz2 1 (-1).
Definition fnan : double := B754_nan.
Definition finf : double := B754_infinity false.

(** acados/utils/math.h MIN / MAX macros: ((a) < (b) ? (a) : (b)), ((a) > (b) ? (a) : (b)). *)
Definition fMIN (a b : double) : double := if flt a b then a else b.
Definition fMAX (a b : double) : double := if fgt a b then a else b.
