(** Vectors and matrices as functions of their indices, and sums over them, for any number type.
    A BLASFEO vector is read through BLASFEO_DVECEL(v, i) = v i and a matrix through
    BLASFEO_DMATEL(M, i, j) = M i j, so only entries below the size are ever meaningful.
    BLASFEO computes sums in blocks; here they are taken left to right, so statements over doubles do
    not use these definitions - only statements over the reals do. *)
From Coq Require Import ZArith List Bool Lia Reals Lra.
From Verif Require Import Arith.
Import ListNotations.

Section V.
Variable A : arith.
Notation T := (num A).
Local Open Scope num_scope.
Fixpoint vsum (n : nat) (f : nat -> T) : T := match n with O => 0 | S k => vsum k f + f k end.
(** blasfeo_ddot *)
Definition vdot (n : nat) (x y : nat -> T) : T := vsum n (fun k => x k * y k).
(** blasfeo_dgemv_t with beta = 0: z_j = sum_k M_kj x_k *)
Definition mvt (m : nat) (M : nat -> nat -> T) (x : nat -> T) (j : nat) : T := vsum m (fun k => M k j * x k).
(** blasfeo_dgemv_n with beta = 0: z_i = sum_k M_ik x_k *)
Definition mvn (n : nat) (M : nat -> nat -> T) (x : nat -> T) (i : nat) : T := vsum n (fun k => M i k * x k).
(** one write BLASFEO_DVECEL(v, i) = a *)
Definition vset (v : nat -> T) (i : nat) (a : T) : nat -> T := fun j => if Nat.eqb j i then a else v j.
End V.
Arguments vsum {A}. Arguments vdot {A}. Arguments mvt {A}. Arguments mvn {A}. Arguments vset {A}.

Open Scope R_scope.
Lemma vsum_ext (n : nat) (f g : nat -> R) : (forall k, (k < n)%nat -> f k = g k) -> vsum (A := real) n f = vsum (A := real) n g.
Proof. induction n as [|n IH]; intros H; cbn; [reflexivity|]. rewrite IH, (H n) by (intros; try apply H; lia). reflexivity. Qed.
Lemma vsum_plus (n : nat) (f g : nat -> R) : vsum (A := real) n (fun k => f k + g k) = vsum (A := real) n f + vsum (A := real) n g.
Proof. induction n as [|n IH]; cbn in *; [lra|rewrite IH; lra]. Qed.
Lemma vsum_minus (n : nat) (f g : nat -> R) : vsum (A := real) n (fun k => f k - g k) = vsum (A := real) n f - vsum (A := real) n g.
Proof. induction n as [|n IH]; cbn in *; [lra|rewrite IH; lra]. Qed.
Lemma vsum_scal (n : nat) (c : R) (f : nat -> R) : vsum (A := real) n (fun k => c * f k) = c * vsum (A := real) n f.
Proof. induction n as [|n IH]; cbn in *; [lra|rewrite IH; lra]. Qed.
Lemma vsum_scal_r (n : nat) (c : R) (f : nat -> R) : vsum (A := real) n (fun k => f k * c) = vsum (A := real) n f * c.
Proof. induction n as [|n IH]; cbn in *; [lra|rewrite IH; lra]. Qed.
Lemma vsum_0 (n : nat) : vsum (A := real) n (fun _ => 0) = 0.
Proof. induction n as [|n IH]; cbn in *; [reflexivity|rewrite IH; lra]. Qed.
Lemma vsum_zero (n : nat) (f : nat -> R) : (forall k, (k < n)%nat -> f k = 0) -> vsum (A := real) n f = 0.
Proof. intros H. rewrite (vsum_ext n f (fun _ => 0) H). apply vsum_0. Qed.
Lemma vsum_swap (n m : nat) (f : nat -> nat -> R) :
  vsum (A := real) n (fun i => vsum (A := real) m (f i)) = vsum (A := real) m (fun j => vsum (A := real) n (fun i => f i j)).
Proof.
  induction n as [|n IH]; cbn in *; [symmetry; apply vsum_0|]. rewrite IH.
  rewrite (vsum_plus m (fun j => vsum (A := real) n (fun i => f i j)) (f n)). reflexivity.
Qed.
Lemma vsum_split (n m : nat) (f : nat -> R) :
  vsum (A := real) (n + m) f = vsum (A := real) n f + vsum (A := real) m (fun k => f (n + k)%nat).
Proof.
  induction m as [|m IH]; cbn in *; [rewrite Nat.add_0_r; lra|]. rewrite Nat.add_succ_r. cbn in *. rewrite IH. lra.
Qed.
Lemma vsum_one (n i : nat) (f : nat -> R) : (i < n)%nat -> (forall k, (k < n)%nat -> k <> i -> f k = 0) -> vsum (A := real) n f = f i.
Proof.
  induction n as [|n IH]; intros Hi H; [lia|]. cbn in *. destruct (Nat.eq_dec i n) as [->|E].
  - rewrite vsum_zero by (intros; apply H; lia). lra.
  - rewrite IH by (intros; try apply H; lia). rewrite (H n) by lia. lra.
Qed.
Lemma vsum_nonneg (n : nat) (f : nat -> R) : (forall k, (k < n)%nat -> 0 <= f k) -> 0 <= vsum (A := real) n f.
Proof.
  induction n as [|n IH]; intros H; cbn in *; [lra|]. assert (0 <= f n) by (apply H; lia).
  assert (0 <= vsum (A := real) n f) by (apply IH; intros; apply H; lia). cbn in *; lra.
Qed.
Lemma vsum_le (n : nat) (f g : nat -> R) : (forall k, (k < n)%nat -> f k <= g k) -> vsum (A := real) n f <= vsum (A := real) n g.
Proof.
  induction n as [|n IH]; intros H; cbn in *; [lra|]. assert (f n <= g n) by (apply H; lia).
  assert (vsum (A := real) n f <= vsum (A := real) n g) by (apply IH; intros; apply H; lia). cbn in *; lra.
Qed.
(** a folded loop that adds one term per index is a sum *)
Lemma fold_seq_vsum (f : nat -> R) : forall n s a,
  fold_left (fun (a : R) k => a + f k) (seq s n) a = a + vsum (A := real) n (fun k => f (s + k)%nat).
Proof.
  intros n s a. revert a. induction n as [|n IH]; intros a; [cbn; lra|]. rewrite seq_S, fold_left_app, IH. cbn. lra.
Qed.
Lemma fold_seq0 (f : nat -> R) (n : nat) (a : R) : fold_left (fun (a : R) k => a + f k) (seq 0 n) a = a + vsum (A := real) n f.
Proof. rewrite fold_seq_vsum. reflexivity. Qed.
Lemma fold_left_ext_in {X Y} (f g : X -> Y -> X) l : (forall a y, In y l -> f a y = g a y) -> forall a, fold_left f l a = fold_left g l a.
Proof.
  induction l as [|y l IH]; intros H a; cbn; [reflexivity|]. rewrite H by (left; reflexivity). apply IH. intros; apply H; right; assumption.
Qed.
