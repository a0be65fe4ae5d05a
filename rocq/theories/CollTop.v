(** Collocation tableaux: the simplifying assumptions B(s) and C(s). *)
From Coq Require Import ZArith List Bool Lia Reals Lra Psatz.
From Coquelicot Require Import Coquelicot.
From Verif Require Import Arith Vec LinModel LinProofs LinSolve PadeModel RSum PadeProofs PadeTop Poly CollModel CollProofs.
Import ListNotations.
Open Scope R_scope.

Lemma npow_real (x : R) k : npow (A := real) x k = x ^ k.
Proof. induction k as [|k IH]; [reflexivity|]. cbn [npow pow]. rewrite <- IH. reflexivity. Qed.
Lemma of_nat_real k : of_nat (A := real) k = INR k.
Proof. unfold of_nat. change (rcst (Z.of_nat k) 0 = INR k). unfold rcst. change (0 <=? 0)%Z with true. cbv iota. rewrite Z.pow_0_r, Z.mul_1_r, <- INR_IZR_INZ. reflexivity. Qed.

(** zero polynomial, zero coefficients *)
Lemma poly_shift n a x : poly (S n) a x = a 0%nat + x * poly n (fun k => a (S k)) x.
Proof.
  unfold poly. change (S (S n)) with (1 + S n)%nat. rewrite sum_split. replace (sum 1 (fun k => a k * x ^ k)) with (a 0%nat) by (cbn; lra).
  f_equal. rewrite <- sum_scal. apply sum_ext. intros k _. cbn [pow Nat.add]. ring.
Qed.
Lemma poly_zero : forall n a, (forall x, poly n a x = 0) -> forall k, (k <= n)%nat -> a k = 0.
Proof.
  induction n as [|n IH]; intros a Z k Hk.
  - replace k with 0%nat by lia. specialize (Z 0). unfold poly in Z. cbn in Z. lra.
  - assert (A0 : a 0%nat = 0) by (specialize (Z 0); rewrite poly_shift in Z; lra).
    destruct k as [|k]; [exact A0|]. apply (IH (fun k => a (S k))); [|lia].
    apply (poly_roots n _ (fun i => INR (S i))).
    + exists (fun k => a (S k)). reflexivity.
    + intros i j Hij. apply not_INR. lia.
    + intros i Hi. specialize (Z (INR (S i))). rewrite poly_shift, A0, Rplus_0_l in Z. apply Rmult_integral in Z.
      destruct Z as [Z|Z]; [|exact Z]. exfalso. revert Z. apply not_0_INR. lia.
Qed.
Definition distinct (n : nat) (c : vecR) := forall i j, (i < j < n)%nat -> c i <> c j.
Lemma vandermonde n (c : vecR) : distinct n c -> ~ singular n (fun i j => c i ^ j).
Proof.
  intros D (v & (k & Hk & Nk) & K). apply Nk. destruct n as [|n]; [lia|]. apply (poly_zero n v); [|lia].
  apply (poly_roots n _ c); [exists v; reflexivity|intros i j Hij; apply D; lia|]. intros i Hi. unfold poly. rewrite <- (K i ltac:(lia)).
  unfold mv. apply sum_ext. intros j _. lra.
Qed.
(** a right inverse of a nonsingular matrix is a left inverse *)
Lemma right_left n (V X : matR) : ~ singular n V -> meq n (mm n V X) idm -> meq n (mm n X V) idm.
Proof.
  intros NS H r m Hr Hm. destruct (Req_dec (mm n X V r m) (idm r m)) as [E|N]; [exact E|]. exfalso. apply NS.
  exists (fun k => mm n X V k m - idm k m). split; [exists r; split; [exact Hr|lra]|]. intros i Hi. unfold mv.
  rewrite (sum_ext n _ (fun k => V i k * mm n X V k m - V i k * idm k m)) by (intros; lra). rewrite sum_minus.
  change (mm n V (mm n X V) i m - mm n V idm i m = 0). rewrite (mm_id_r n V i m Hi Hm). rewrite <- (mm_assoc n V X V i m).
  unfold mm at 1. rewrite (sum_ext n _ (fun k => idm i k * V k m)) by (intros k Hk; rewrite H by assumption; reflexivity).
  change (mm n idm V i m - V i m = 0). rewrite (mm_id_l n V i m Hi Hm). lra.
Qed.
Lemma bt_inverse n (c : vecR) : distinct n c -> forall j m, (j < n)%nat -> (m < n)%nat -> sum n (fun i => bt_rhs (A := real) n c j i * c i ^ m) = if (j =? m)%nat then 1 else 0.
Proof.
  intros D j m Hj Hm. set (V := fun i j : nat => c i ^ j).
  assert (NS : ~ singular n V) by apply vandermonde, D.
  assert (NS' : ~ singular n (fun i j => npow (A := real) (c i) j)).
  { intros S. apply NS. apply (singular_ext n _ V) in S; [exact S|]. intros a b _ _. apply npow_real. }
  pose proof (lus_solves n (fun i j => npow (A := real) (c i) j) (unit_mat (A := real)) NS') as H.
  assert (H1 : meq n (mm n V (bt_rhs (A := real) n c)) idm).
  { intros a b Ha Hb. transitivity (unit_mat (A := real) a b); [|reflexivity]. rewrite <- (H a b Ha Hb).
    unfold mm. apply sum_ext. intros k _. unfold V. rewrite <- (npow_real (c a) k). reflexivity. }
  pose proof (right_left n V _ NS H1 j m Hj Hm) as L. exact L.
Qed.
Lemma bt_A_real n c i k : bt_A (A := real) n c i k = sum n (fun j => c k ^ (j + 1) / INR (j + 1) * bt_rhs (A := real) n c j i).
Proof. unfold bt_A. rewrite vsum_sum. apply sum_ext. intros j _. rewrite <- (of_nat_real (j + 1)), <- (npow_real (c k) (j + 1)). reflexivity. Qed.
Lemma bt_b_real n c i : bt_b (A := real) n c i = sum n (fun j => 1 / INR (j + 1) * bt_rhs (A := real) n c j i).
Proof. unfold bt_b. rewrite vsum_sum. apply sum_ext. intros j _. rewrite <- (of_nat_real (j + 1)). reflexivity. Qed.
Lemma weights_moment n c w (g : vecR) : distinct n c -> (forall i, (i < n)%nat -> w i = sum n (fun j => g j * bt_rhs (A := real) n c j i)) ->
  forall m, (m < n)%nat -> sum n (fun i => w i * c i ^ m) = g m.
Proof.
  intros D W m Hm. rewrite (sum_ext n _ (fun i => sum n (fun j => g j * (bt_rhs (A := real) n c j i * c i ^ m)))).
  2:{ intros i Hi. rewrite W by exact Hi. rewrite <- sum_scal_r. apply sum_ext. intros j _. rlra. }
  rewrite sum_swap. rewrite (sum_ext n _ (fun j => g j * (if (j =? m)%nat then 1 else 0))).
  2:{ intros j Hj. rewrite sum_scal, bt_inverse by assumption. reflexivity. }
  rewrite (sum_one n m); [rewrite Nat.eqb_refl; lra|exact Hm|]. intros k Hk N. destruct (Nat.eqb_spec k m); [contradiction|lra].
Qed.
Lemma moment_B n c : distinct n c -> forall m, (m < n)%nat -> sum n (fun i => bt_b (A := real) n c i * c i ^ m) = 1 / INR (m + 1).
Proof. intros D m Hm. apply (weights_moment n c (bt_b (A := real) n c) (fun j => 1 / INR (j + 1)) D); [intros i _; apply bt_b_real|exact Hm]. Qed.
Lemma moment_C n c k : distinct n c -> forall m, (m < n)%nat -> sum n (fun i => bt_A (A := real) n c i k * c i ^ m) = c k ^ (m + 1) / INR (m + 1).
Proof. intros D m Hm. apply (weights_moment n c (fun i => bt_A (A := real) n c i k) (fun j => c k ^ (j + 1) / INR (j + 1)) D); [intros i _; apply bt_A_real|exact Hm]. Qed.
(** integrals of polynomials *)
Lemma int_pow m x : is_RInt (fun t => t ^ m) 0 x (x ^ (m + 1) / INR (m + 1)).
Proof.
  replace (x ^ (m + 1) / INR (m + 1)) with (minus (x ^ (m + 1) / INR (m + 1)) (0 ^ (m + 1) / INR (m + 1)) : R).
  2:{ rewrite (pow_ne_zero (m + 1)) by lia. unfold minus, plus, opp. cbn. unfold Rdiv. rewrite Rmult_0_l. lra. }
  apply (is_RInt_derive (fun t => t ^ (m + 1) / INR (m + 1))).
  - intros t _. auto_derive; [exact I|]. rewrite Nat.add_1_r. cbn [Nat.pred]. field. apply not_0_INR. lia.
  - intros t _. apply (ex_derive_continuous (fun t => t ^ m)). auto_derive. exact I.
Qed.
Lemma int_poly n a x : is_RInt (poly n a) 0 x (sum (S n) (fun m => a m * (x ^ (m + 1) / INR (m + 1)))).
Proof.
  induction n as [|n IH].
  - apply is_RInt_ext with (fun t => scal (a 0%nat) (t ^ 0)); [intros t _; unfold poly; cbn; unfold scal; cbn; unfold mult; cbn; lra|].
    replace (sum 1 (fun m => a m * (x ^ (m + 1) / INR (m + 1)))) with (scal (a 0%nat) (x ^ (0 + 1) / INR (0 + 1))) by (cbn; unfold scal; cbn; unfold mult; cbn; lra).
    apply (is_RInt_scal (V := R_NormedModule)), int_pow.
  - apply is_RInt_ext with (fun t => plus (poly n a t) (scal (a (S n)) (t ^ S n))); [intros t _; reflexivity|].
    change (is_RInt (fun t => plus (poly n a t) (scal (a (S n)) (t ^ S n))) 0 x (plus (sum (S n) (fun m => a m * (x ^ (m + 1) / INR (m + 1)))) (scal (a (S n)) (x ^ (S n + 1) / INR (S n + 1))))).
    apply (is_RInt_plus (V := R_NormedModule)); [exact IH|]. apply (is_RInt_scal (V := R_NormedModule)), int_pow.
Qed.
Lemma weights_poly n (c w : vecR) x : (forall m, (m < S n)%nat -> sum (S n) (fun i => w i * c i ^ m) = x ^ (m + 1) / INR (m + 1)) ->
  forall a, is_RInt (poly n a) 0 x (sum (S n) (fun i => w i * poly n a (c i))).
Proof.
  intros H a. replace (sum (S n) (fun i => w i * poly n a (c i))) with (sum (S n) (fun m => a m * (x ^ (m + 1) / INR (m + 1)))); [apply int_poly|].
  rewrite (sum_ext (S n) (fun i => w i * poly n a (c i)) (fun i => sum (S n) (fun m => a m * (w i * c i ^ m)))).
  2:{ intros i _. unfold poly. rewrite <- sum_scal. apply sum_ext. intros; lra. }
  rewrite sum_swap. apply sum_ext. intros m Hm. rewrite sum_scal, H by exact Hm. reflexivity.
Qed.
Lemma coll_B n c : distinct (S n) c -> forall a, is_RInt (poly n a) 0 1 (sum (S n) (fun i => bt_b (A := real) (S n) c i * poly n a (c i))).
Proof. intros D. apply weights_poly. intros m Hm. rewrite moment_B, pow1 by assumption. reflexivity. Qed.
Lemma coll_C n c k : distinct (S n) c -> forall a, is_RInt (poly n a) 0 (c k) (sum (S n) (fun i => bt_A (A := real) (S n) c i k * poly n a (c i))).
Proof. intros D. apply weights_poly. intros m Hm. apply moment_C; assumption. Qed.
(** C(s) and B(s) pin the tableau down *)
Lemma weights_unique n (c w w' : vecR) : distinct (S n) c -> (forall a, sum (S n) (fun i => w i * poly n a (c i)) = sum (S n) (fun i => w' i * poly n a (c i))) -> forall i, (i <= n)%nat -> w i = w' i.
Proof.
  intros D H i Hi. set (X := bt_rhs (A := real) (S n) c).
  (* the i-th Lagrange polynomial has the coefficients X _ i *)
  assert (Lag : forall k, (k <= n)%nat -> poly n (fun j => X j i) (c k) = if (k =? i)%nat then 1 else 0).
  { intros k Hk. set (V := fun i j : nat => c i ^ j). assert (NS : ~ singular (S n) V) by apply vandermonde, D.
    assert (NS' : ~ singular (S n) (fun i j => npow (A := real) (c i) j)).
    { intros S. apply NS. apply (singular_ext (Datatypes.S n) _ V) in S; [exact S|]. intros a b _ _. apply npow_real. }
    pose proof (lus_solves (S n) (fun i j => npow (A := real) (c i) j) (unit_mat (A := real)) NS' k i ltac:(lia) ltac:(lia)) as L.
    transitivity (unit_mat (A := real) k i); [|reflexivity]. rewrite <- L. unfold mm, poly. apply sum_ext. intros j _. rewrite <- (npow_real (c k) j). apply Rmult_comm. }
  assert (Pk : forall w : vecR, sum (S n) (fun k => w k * poly n (fun j => X j i) (c k)) = w i).
  { intros u. rewrite (sum_one (S n) i); [rewrite Lag, Nat.eqb_refl by lia; lra|lia|]. intros k Hk N. rewrite Lag by lia. destruct (Nat.eqb_spec k i); [contradiction|lra]. }
  rewrite <- (Pk w), <- (Pk w'). apply H.
Qed.
