(** What padeapprox computes, in exact arithmetic. *)
From Coq Require Import ZArith List Bool Lia Reals Lra.
From Verif Require Import Arith Vec LinModel LinProofs LinSolve PadeModel RSum.
Import ListNotations.
Open Scope R_scope.

(** the (m, m) Pade coefficients of exp, scaled to leading coefficient 1: (2m - k)! / ((m - k)! k!) *)
Fixpoint zfact (n : nat) : Z := match n with O => 1 | S k => Z.of_nat n * zfact k end%Z.
Definition coef (m k : nat) : R := IZR (zfact (2 * m - k)) / (IZR (zfact (m - k)) * IZR (zfact k)).
(** powers and polynomials of an n x n matrix *)
Definition idm : matR := fun i j => if (i =? j)%nat then 1 else 0.
Fixpoint mpow (n : nat) (X : matR) (k : nat) : matR := match k with O => idm | S k => mm n X (mpow n X k) end.
Definition pade_num (m n : nat) (X : matR) : matR := fun i j => sum (S m) (fun k => coef m k * mpow n X k i j).
Definition pade_den (m n : nat) (X : matR) : matR := fun i j => sum (S m) (fun k => (-1) ^ k * coef m k * mpow n X k i j).

Lemma zfact_pos n : (0 < zfact n)%Z.
Proof. induction n as [|n IH]; [reflexivity|]. change (zfact (S n)) with (Z.of_nat (S n) * zfact n)%Z. lia. Qed.
Lemma coef_eq m k v : zfact (2 * m - k) = (v * (zfact (m - k) * zfact k))%Z -> coef m k = IZR v.
Proof.
  intros H. unfold coef. rewrite H, !mult_IZR. field. split; apply not_0_IZR; pose proof (zfact_pos (m - k)); pose proof (zfact_pos k); lia.
Qed.
Definition meq (n : nat) (X Y : matR) : Prop := forall i j, (i < n)%nat -> (j < n)%nat -> X i j = Y i j.
Lemma mm_assoc n X Y Z i j : mm n (mm n X Y) Z i j = mm n X (mm n Y Z) i j.
Proof.
  unfold mm. rewrite (sum_ext n _ (fun k => sum n (fun l => X i l * Y l k * Z k j))) by (intros; symmetry; apply sum_scal_r).
  rewrite sum_swap. apply sum_ext. intros l Hl. rewrite <- sum_scal. apply sum_ext. intros; lra.
Qed.
Lemma mm_id_l n X : meq n (mm n idm X) X.
Proof.
  intros i j Hi Hj. unfold mm, idm. rewrite (sum_one n i); [rewrite Nat.eqb_refl; lra|exact Hi|]. intros k Hk N. destruct (Nat.eqb_spec i k); [congruence|lra].
Qed.
Lemma mm_id_r n X : meq n (mm n X idm) X.
Proof.
  intros i j Hi Hj. unfold mm, idm. rewrite (sum_one n j); [rewrite Nat.eqb_refl; lra|exact Hj|]. intros k Hk N. destruct (Nat.eqb_spec k j); [congruence|lra].
Qed.
Lemma mm_ext n X X' Y Y' : meq n X X' -> meq n Y Y' -> meq n (mm n X Y) (mm n X' Y').
Proof. intros H K i j Hi Hj. unfold mm. apply sum_ext. intros k Hk. rewrite H, K by assumption. reflexivity. Qed.
Lemma meq_trans n X Y Z : meq n X Y -> meq n Y Z -> meq n X Z.
Proof. intros H K i j Hi Hj. rewrite H, K by assumption. reflexivity. Qed.
Lemma mpow_add n X a b : meq n (mm n (mpow n X a) (mpow n X b)) (mpow n X (a + b)).
Proof.
  induction a as [|a IH]; [apply mm_id_l|]. cbn. intros i j Hi Hj. rewrite mm_assoc. apply (mm_ext n X X); [intros ? ? _ _; reflexivity|exact IH|exact Hi|exact Hj].
Qed.
Lemma mpow_1 n X : meq n (mpow n X 1) X.
Proof. apply mm_id_r. Qed.
Lemma dgemm_mm n (X Y : matR) : forall i j, dgemm (A := real) n X Y i j = mm n X Y i j.
Proof. intros. unfold dgemm, mm. apply vsum_sum. Qed.
Lemma dgemm_pow n (X P Q : matR) a b : meq n P (mpow n X a) -> meq n Q (mpow n X b) -> meq n (dgemm (A := real) n P Q) (mpow n X (a + b)).
Proof. intros HP HQ i j Hi Hj. rewrite dgemm_mm, (mm_ext n P _ Q _ HP HQ) by assumption. apply mpow_add; assumption. Qed.
(** linear combinations of powers *)
Definition comb (n : nat) (X : matR) (l : list (R * nat)) : matR := fun i j => fold_right (fun p a => fst p * mpow n X (snd p) i j + a) 0 l.
Definition shift (d : nat) (l : list (R * nat)) := map (fun p => (fst p, d + snd p)%nat) l.
Lemma comb_axpy n X c k P Q l : meq n P (mpow n X k) -> meq n Q (comb n X l) -> meq n (daxpy (A := real) c P Q) (comb n X ((c, k) :: l)).
Proof. intros HP HQ i j Hi Hj. unfold daxpy. cbn. rewrite HP, HQ by assumption. unfold comb. lra. Qed.
Lemma comb_pow n X k P : meq n P (mpow n X k) -> meq n P (comb n X [(1, k)]).
Proof. intros HP i j Hi Hj. rewrite HP by assumption. cbn. lra. Qed.
Lemma comb_scal n X c k P : meq n P (mpow n X k) -> meq n (dscal (A := real) c P) (comb n X [(c, k)]).
Proof. intros HP i j Hi Hj. unfold dscal. cbn. rewrite HP by assumption. lra. Qed.
Lemma comb_zero n X (Y : matR) : meq n (dscal (A := real) 0 Y) (comb n X []).
Proof. intros i j Hi Hj. unfold dscal. cbn. lra. Qed.
Lemma comb_cons n X c k l i j : comb n X ((c, k) :: l) i j = c * mpow n X k i j + comb n X l i j.
Proof. reflexivity. Qed.
Lemma mm_comb n X a l : meq n (mm n (mpow n X a) (comb n X l)) (comb n X (shift a l)).
Proof.
  intros i j Hi Hj. induction l as [|[c k] l IH].
  - unfold mm. apply sum_zero. intros; unfold comb; cbn; lra.
  - change (shift a ((c, k) :: l)) with ((c, (a + k)%nat) :: shift a l). rewrite comb_cons, <- IH, <- (mpow_add n X a k) by assumption. unfold mm.
    rewrite <- sum_scal, <- sum_plus. apply sum_ext. intros h Hh. rewrite comb_cons. lra.
Qed.
Lemma comb_mul n X a P Q l : meq n P (mpow n X a) -> meq n Q (comb n X l) -> meq n (dgemm (A := real) n P Q) (comb n X (shift a l)).
Proof. intros HP HQ i j Hi Hj. rewrite dgemm_mm, (mm_ext n _ _ _ _ HP HQ) by assumption. apply mm_comb; assumption. Qed.
Lemma id_pow n X : meq n (ident (A := real)) (mpow n X 0).
Proof. intros i j _ _. reflexivity. Qed.
Lemma x_pow n X : meq n X (mpow n X 1).
Proof. intros i j Hi Hj. symmetry. apply mm_id_r; assumption. Qed.

Definition good (m n : nat) (X U V : matR) : Prop :=
  meq n (fun i j => V i j + U i j) (pade_num m n X) /\ meq n (fun i j => V i j - U i j) (pade_den m n X).
(** from two coefficient lists to the Pade sums *)
Lemma good_lists m n X U V (lu lv : list (R * nat)) : meq n U (comb n X lu) -> meq n V (comb n X lv) ->
  (forall f : nat -> R, fold_right (fun p a => fst p * f (snd p) + a) 0 lv + fold_right (fun p a => fst p * f (snd p) + a) 0 lu = sum (S m) (fun k => coef m k * f k)) ->
  (forall f : nat -> R, fold_right (fun p a => fst p * f (snd p) + a) 0 lv - fold_right (fun p a => fst p * f (snd p) + a) 0 lu = sum (S m) (fun k => (-1) ^ k * coef m k * f k)) ->
  good m n X U V.
Proof.
  intros HU HV E1 E2. split; intros i j Hi Hj; rewrite HU, HV by assumption; unfold comb.
  - apply (E1 (fun k => mpow n X k i j)).
  - apply (E2 (fun k => mpow n X k i j)).
Qed.
Ltac coefs := intros f; cbn [sum fold_right fst snd shift map Nat.add];
  repeat match goal with |- context[coef ?m ?k] => rewrite (coef_eq m k (nth k (pade_table m) 0%Z)) by (vm_compute; reflexivity) end;
  unfold pc; cbn [ncst real nth pade_table]; unfold rcst; cbn [Z.leb Z.compare Z.pow Z.pow_pos];
  rewrite ?Z.mul_1_r; cbn [pow]; ring.
Ltac pw := eassumption || apply id_pow || apply x_pow.
Section D.
Variables (n : nat) (X : matR).
Let X2 := dgemm (A := real) n X X.
Let X4 := dgemm (A := real) n X2 X2.
Let X6 := dgemm (A := real) n X4 X2.
Let X8 := dgemm (A := real) n X6 X2.
Lemma p2 : meq n X2 (mpow n X 2). Proof. apply (dgemm_pow n X X X 1 1); apply x_pow. Qed.
Lemma p4 : meq n X4 (mpow n X 4). Proof. apply (dgemm_pow n X X2 X2 2 2); apply p2. Qed.
Lemma p6 : meq n X6 (mpow n X 6). Proof. apply (dgemm_pow n X X4 X2 4 2); [apply p4|apply p2]. Qed.
Lemma p8 : meq n X8 (mpow n X 8). Proof. apply (dgemm_pow n X X6 X2 6 2); [apply p6|apply p2]. Qed.
Ltac ch := repeat first [apply comb_axpy | apply comb_zero | apply comb_scal | apply comb_mul | apply p2 | apply p4 | apply p6 | apply p8 | apply id_pow | apply x_pow | apply comb_pow].

Lemma good3 garb : good 3 n X (fst (uv3 (A := real) n garb X)) (snd (uv3 (A := real) n garb X)).
Proof. eapply good_lists; [cbn [fst snd uv3]; ch|cbn [fst snd uv3]; ch|coefs|coefs]. Qed.
Lemma good5 : good 5 n X (fst (uv5 (A := real) n X)) (snd (uv5 (A := real) n X)).
Proof. eapply good_lists; [cbn [fst snd uv5]; ch|cbn [fst snd uv5]; ch|coefs|coefs]. Qed.
Lemma good7 : good 7 n X (fst (uv7 (A := real) n X)) (snd (uv7 (A := real) n X)).
Proof. eapply good_lists; [cbn [fst snd uv7]; ch|cbn [fst snd uv7]; ch|coefs|coefs]. Qed.
Lemma good9 : good 9 n X (fst (uv9 (A := real) n X)) (snd (uv9 (A := real) n X)).
Proof. eapply good_lists; [cbn [fst snd uv9]; ch|cbn [fst snd uv9]; ch|coefs|coefs]. Qed.
End D.
