(** Number types for the numerical routines.  Each routine is written once over an [arith] record;
    [dbl] is C double arithmetic (IEEE binary64), [real] idealises it to exact real arithmetic. *)
From Coq Require Import ZArith Bool Reals Lra Lia.
From Verif Require Import FP.

Record arith := mkArith {
  num : Type;
  n0 : num; n1 : num;
  nadd : num -> num -> num; nsub : num -> num -> num; nmul : num -> num -> num; ndiv : num -> num -> num;
  nopp : num -> num; nabs : num -> num;
  nltb : num -> num -> bool; nleb : num -> num -> bool;   (* a < b, a <= b *)
  nisnan : num -> bool;
  nisinf : num -> bool;
  ncst : Z -> Z -> num    (* decimal literal m * 10^e *)
}.
Arguments n0 {_}. Arguments n1 {_}. Arguments nadd {_}. Arguments nsub {_}. Arguments nmul {_}. Arguments ndiv {_}.
Arguments nopp {_}. Arguments nabs {_}. Arguments nltb {_}. Arguments nleb {_}. Arguments nisnan {_}. Arguments nisinf {_}. Arguments ncst {_}.

Declare Scope num_scope.
Delimit Scope num_scope with num.
Bind Scope num_scope with num.
Notation "x + y" := (nadd x y) : num_scope.
Notation "x - y" := (nsub x y) : num_scope.
Notation "x * y" := (nmul x y) : num_scope.
Notation "x / y" := (ndiv x y) : num_scope.
Notation "- x" := (nopp x) : num_scope.
Notation "x <? y" := (nltb x y) : num_scope.
Notation "x <=? y" := (nleb x y) : num_scope.
Notation "0" := n0 : num_scope.
Notation "1" := n1 : num_scope.

(** acados/utils/math.h:50-51 MIN, MAX *)
Definition nmin {A : arith} (a b : num A) : num A := if nltb a b then a else b.
Definition nmax {A : arith} (a b : num A) : num A := if nltb b a then a else b.

(** C double.  A literal m*10^e with e < 0 is the correctly rounded quotient of two integers that
    are exact doubles for |m| < 2^53, e >= -22. *)
Definition dcst (m e : Z) : double :=
  if (0 <=? e)%Z then fz2 (m * 10 ^ e) 0 else fdiv (fz2 m 0) (fz2 (10 ^ (- e)) 0).
Canonical Structure dbl : arith := mkArith double f0 f1 fadd fsub fmul fdiv fopp fabs flt fle isnan isinf dcst.

(** exact reals *)
Definition Rltb (a b : R) : bool := if Rlt_dec a b then true else false.
Definition Rleb (a b : R) : bool := if Rle_dec a b then true else false.
Definition rcst (m e : Z) : R :=
  if (0 <=? e)%Z then IZR (m * 10 ^ e) else (IZR m / IZR (10 ^ (- e)))%R.
Canonical Structure real : arith :=
  mkArith R 0%R 1%R Rplus Rminus Rmult Rdiv Ropp Rabs Rltb Rleb (fun _ => false) (fun _ => false) rcst.

Lemma Rltb_spec a b : reflect (a < b)%R (Rltb a b).
Proof. unfold Rltb. destruct (Rlt_dec a b); constructor; assumption. Qed.
Lemma Rleb_spec a b : reflect (a <= b)%R (Rleb a b).
Proof. unfold Rleb. destruct (Rle_dec a b); constructor; assumption. Qed.
Lemma nmax_real (a b : R) : nmax (A := real) a b = Rmax a b.
Proof. unfold nmax; cbn. destruct (Rltb_spec b a); [rewrite Rmax_left|rewrite Rmax_right]; lra. Qed.
Lemma nmin_real (a b : R) : nmin (A := real) a b = Rmin a b.
Proof. unfold nmin; cbn. destruct (Rltb_spec a b); [rewrite Rmin_left|rewrite Rmin_right]; lra. Qed.
