(** Finite sums of real numbers, used to state properties about the reals. *)
From Coq Require Import List Bool Lia Reals Lra.
From Verif Require Import Arith Vec.
Open Scope R_scope.

Fixpoint sum (n : nat) (f : nat -> R) : R := match n with O => 0 | S m => sum m f + f m end.
(** the model's accumulation loop is this sum *)
Lemma vsum_sum (n : nat) (f : nat -> R) : vsum (A := real) n f = sum n f.
Proof. induction n as [|n IH]; [reflexivity|]. cbn in *. rewrite IH. reflexivity. Qed.
Lemma sum_S n f : sum (S n) f = sum n f + f n.
Proof. reflexivity. Qed.
Lemma sum_ext n (f g : nat -> R) : (forall k, (k < n)%nat -> f k = g k) -> sum n f = sum n g.
Proof. induction n as [|n IH]; intros H; cbn; [reflexivity|]. rewrite IH, (H n) by (intros; try apply H; lia). reflexivity. Qed.
Lemma sum_plus n (f g : nat -> R) : sum n (fun k => f k + g k) = sum n f + sum n g.
Proof. induction n as [|n IH]; cbn in *; [lra|rewrite IH; lra]. Qed.
Lemma sum_minus n (f g : nat -> R) : sum n (fun k => f k - g k) = sum n f - sum n g.
Proof. induction n as [|n IH]; cbn in *; [lra|rewrite IH; lra]. Qed.
Lemma sum_scal n c (f : nat -> R) : sum n (fun k => c * f k) = c * sum n f.
Proof. induction n as [|n IH]; cbn in *; [lra|rewrite IH; lra]. Qed.
Lemma sum_scal_r n c (f : nat -> R) : sum n (fun k => f k * c) = sum n f * c.
Proof. induction n as [|n IH]; cbn in *; [lra|rewrite IH; lra]. Qed.
Lemma sum_opp n (f : nat -> R) : sum n (fun k => - f k) = - sum n f.
Proof. induction n as [|n IH]; cbn in *; [lra|rewrite IH; lra]. Qed.
Lemma sum_0 n : sum n (fun _ => 0) = 0.
Proof. induction n as [|n IH]; cbn in *; [reflexivity|rewrite IH; lra]. Qed.
Lemma sum_zero n (f : nat -> R) : (forall k, (k < n)%nat -> f k = 0) -> sum n f = 0.
Proof. intros H. rewrite (sum_ext n f (fun _ => 0) H). apply sum_0. Qed.
Lemma sum_swap n m (f : nat -> nat -> R) : sum n (fun i => sum m (f i)) = sum m (fun j => sum n (fun i => f i j)).
Proof.
  induction n as [|n IH]; cbn in *; [symmetry; apply sum_0|]. rewrite IH, (sum_plus m (fun j => sum n (fun i => f i j)) (f n)). reflexivity.
Qed.
Lemma sum_split n m (f : nat -> R) : sum (n + m) f = sum n f + sum m (fun k => f (n + k)%nat).
Proof. induction m as [|m IH]; cbn in *; [rewrite Nat.add_0_r; lra|]. rewrite Nat.add_succ_r. cbn in *. rewrite IH. lra. Qed.
Lemma sum_one n i (f : nat -> R) : (i < n)%nat -> (forall k, (k < n)%nat -> k <> i -> f k = 0) -> sum n f = f i.
Proof.
  induction n as [|n IH]; intros Hi H; [lia|]. cbn in *. destruct (Nat.eq_dec i n) as [->|E].
  - rewrite sum_zero by (intros; apply H; lia). lra.
  - rewrite IH by (intros; try apply H; lia). rewrite (H n) by lia. lra.
Qed.
(** pull one index out of a sum *)
Lemma sum_pick n i (f : nat -> R) : (i < n)%nat -> sum n f = f i + sum n (fun k => if (k =? i)%nat then 0 else f k).
Proof.
  intros Hi. rewrite (sum_ext n f (fun k => (if (k =? i)%nat then f i else 0) + (if (k =? i)%nat then 0 else f k))).
  2:{ intros k Hk. destruct (Nat.eqb_spec k i) as [->|]; lra. }
  rewrite sum_plus, (sum_one n i (fun k => if (k =? i)%nat then f i else 0)).
  - rewrite Nat.eqb_refl. reflexivity.
  - exact Hi.
  - intros k _ N. destruct (Nat.eqb_spec k i); [contradiction|reflexivity].
Qed.
Lemma sum_nonneg n (f : nat -> R) : (forall k, (k < n)%nat -> 0 <= f k) -> 0 <= sum n f.
Proof.
  induction n as [|n IH]; intros H; cbn in *; [lra|]. assert (0 <= f n) by (apply H; lia).
  assert (0 <= sum n f) by (apply IH; intros; apply H; lia). lra.
Qed.
Lemma sum_le n (f g : nat -> R) : (forall k, (k < n)%nat -> f k <= g k) -> sum n f <= sum n g.
Proof.
  induction n as [|n IH]; intros H; cbn in *; [lra|]. assert (f n <= g n) by (apply H; lia).
  assert (sum n f <= sum n g) by (apply IH; intros; apply H; lia). lra.
Qed.
Lemma sum_abs n (f : nat -> R) : Rabs (sum n f) <= sum n (fun k => Rabs (f k)).
Proof. induction n as [|n IH]; cbn in *; [rewrite Rabs_R0; lra|]. pose proof (Rabs_triang (sum n f) (f n)). lra. Qed.
(** a sum of squares is zero only when every term is *)
Lemma sum_sq_zero n (f : nat -> R) : sum n (fun k => f k * f k) = 0 -> forall k, (k < n)%nat -> f k = 0.
Proof.
  induction n as [|n IH]; intros H k Hk; [lia|]. cbn in H.
  assert (P : 0 <= sum n (fun k => f k * f k)) by (apply sum_nonneg; intros; apply Rle_0_sqr).
  assert (Q : 0 <= f n * f n) by apply Rle_0_sqr. destruct (Nat.eq_dec k n) as [->|N].
  - apply Rsqr_0_uniq. unfold Rsqr. lra.
  - apply IH; [lra|lia].
Qed.
(** the real vectors and matrices of the statements *)
Notation vecR := (nat -> R).
Notation matR := (nat -> nat -> R).
Definition dot (n : nat) (x y : vecR) : R := sum n (fun k => x k * y k).
Definition mv (n : nat) (M : matR) (x : vecR) : vecR := fun i => sum n (fun k => M i k * x k).
Definition mm (n : nat) (M P : matR) : matR := fun i j => sum n (fun k => M i k * P k j).
