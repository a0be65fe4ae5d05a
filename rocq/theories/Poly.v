(** Polynomial functions of bounded degree over the reals. *)
From Coq Require Import List Bool Lia Reals Lra.
From Verif Require Import Arith Vec RSum.
Open Scope R_scope.

Ltac rr := change (@eq (num real)) with (@eq R) in *; change (@nadd real) with Rplus in *; change (@nmul real) with Rmult in *; change (@nsub real) with Rminus in *; change (@n0 real) with 0 in *; change (@n1 real) with 1 in *; change (@nopp real) with Ropp in *; change (@nabs real) with Rabs in *.
Ltac rlra := rr; lra.

(** [poly n a x] = a_0 + a_1 x + ... + a_n x^n *)
Definition poly (n : nat) (a : nat -> R) (x : R) : R := sum (S n) (fun k => a k * x ^ k).
Definition is_poly (n : nat) (f : R -> R) : Prop := exists a, forall x, f x = poly n a x.

Lemma poly_S n a x : poly (S n) a x = poly n a x + a (S n) * x ^ S n.
Proof. reflexivity. Qed.
Lemma is_poly_ext n f g : (forall x, f x = g x) -> is_poly n f -> is_poly n g.
Proof. intros E [a H]. exists a. intros x. rewrite <- E. apply H. Qed.
Lemma is_poly_const n c : is_poly n (fun _ => c).
Proof.
  exists (fun k => match k with O => c | _ => 0 end). intros x. unfold poly. rewrite (sum_one (S n) 0); [cbn; lra|lia|].
  intros k Hk N. destruct k; [congruence|lra].
Qed.
Lemma is_poly_add n f g : is_poly n f -> is_poly n g -> is_poly n (fun x => f x + g x).
Proof.
  intros [a Ha] [b Hb]. exists (fun k => a k + b k). intros x. rewrite Ha, Hb. unfold poly. rewrite <- sum_plus. apply sum_ext. intros; lra.
Qed.
Lemma is_poly_scal n c f : is_poly n f -> is_poly n (fun x => c * f x).
Proof. intros [a Ha]. exists (fun k => c * a k). intros x. rewrite Ha. unfold poly. rewrite <- sum_scal. apply sum_ext. intros; lra. Qed.
Lemma is_poly_up n f : is_poly n f -> is_poly (S n) f.
Proof.
  intros [a Ha]. exists (fun k => if (k <=? n)%nat then a k else 0). intros x. rewrite Ha. unfold poly. cbn [sum].
  rewrite (proj2 (Nat.leb_le n n) (Nat.le_refl n)). destruct (Nat.leb_spec (S n) n); [lia|].
  rewrite (sum_ext n (fun k => (if (k <=? n)%nat then a k else 0) * x ^ k) (fun k => a k * x ^ k)); [lra|].
  intros k Hk. destruct (Nat.leb_spec k n); [reflexivity|lia].
Qed.
Lemma is_poly_le m n f : (m <= n)%nat -> is_poly m f -> is_poly n f.
Proof. induction 1; auto using is_poly_up. Qed.
Lemma is_poly_x n f : is_poly n f -> is_poly (S n) (fun x => x * f x).
Proof.
  intros [a Ha]. exists (fun k => match k with O => 0 | S j => a j end). intros x. rewrite Ha. unfold poly.
  change (S (S n)) with (1 + S n)%nat. rewrite sum_split. cbn [sum].
   rewrite !Rplus_0_l, Rmult_0_l, Rplus_0_l.
  change (x * (sum n (fun k => a k * x ^ k) + a n * x ^ n) = sum n (fun k => a k * x ^ S k) + a n * x ^ S n).
  rewrite Rmult_plus_distr_l.
  rewrite <- sum_scal. f_equal; [apply sum_ext; intros k Hk|]; cbn; lra.
Qed.
Lemma is_poly_lin n c f : is_poly n f -> is_poly (S n) (fun x => (x - c) * f x).
Proof.
  intros H. apply is_poly_ext with (fun x => x * f x + (- c) * f x); [intros; lra|]. apply is_poly_add; [apply is_poly_x, H|apply is_poly_up, is_poly_scal, H].
Qed.
Lemma is_poly_pow n : is_poly n (fun x => x ^ n).
Proof. induction n as [|n IH]; [exact (is_poly_const 0 1)|]. exact (is_poly_x n _ IH). Qed.
Lemma pow_factor r n : exists h, is_poly n h /\ forall x, x ^ S n - r ^ S n = (x - r) * h x.
Proof.
  induction n as [|n IH].
  - exists (fun _ => 1). split; [apply is_poly_const|]. intros; cbn; lra.
  - destruct IH as (h & P & E). exists (fun x => x ^ S n + r * h x). split.
    + apply is_poly_add; [apply is_poly_pow|]. apply is_poly_up, is_poly_scal, P.
    + intros x. specialize (E x). change (x ^ S (S n)) with (x * x ^ S n). change (r ^ S (S n)) with (r * r ^ S n).
      replace (x * x ^ S n - r * r ^ S n) with ((x - r) * x ^ S n + r * (x ^ S n - r ^ S n)) by lra. rewrite E. lra.
Qed.
Lemma poly_factor r : forall n a, exists h, is_poly n h /\ forall x, poly (S n) a x = (x - r) * h x + poly (S n) a r.
Proof.
  induction n as [|n IH]; intros a.
  - exists (fun _ => a 1%nat). split; [apply is_poly_const|]. intros x. unfold poly. cbn. lra.
  - destruct (IH a) as (h & P & E). destruct (pow_factor r (S n)) as (g & Pg & Eg).
    exists (fun x => h x + a (S (S n)) * g x). split; [apply is_poly_add; [apply is_poly_up, P|apply is_poly_scal, Pg]|].
    intros x. rewrite (poly_S (S n) a x), (poly_S (S n) a r), E. specialize (Eg x).
    replace (x ^ S (S n)) with (r ^ S (S n) + (x - r) * g x) by lra. lra.
Qed.
(** a polynomial of degree at most n with n + 1 distinct roots vanishes *)
Lemma poly_roots : forall n f (x : nat -> R), is_poly n f -> (forall i j, (i < j <= n)%nat -> x i <> x j) ->
  (forall i, (i <= n)%nat -> f (x i) = 0) -> forall y, f y = 0.
Proof.
  induction n as [|n IH]; intros f x [a Ha] D Z y.
  - specialize (Z 0%nat (Nat.le_refl 0)). rewrite Ha in *. unfold poly in *. cbn in *. lra.
  - destruct (poly_factor (x (S n)) n a) as (h & Ph & E).
    assert (R0 : poly (S n) a (x (S n)) = 0) by (rewrite <- Ha; apply Z; lia).
    assert (H : forall y, h y = 0).
    { apply (IH h x Ph).
      - intros i j Hij. apply D. lia.
      - intros i Hi. specialize (E (x i)). rewrite <- Ha, Z, R0 in E by lia. assert (N : x i - x (S n) <> 0) by (specialize (D i (S n) ltac:(lia)); lra).
        symmetry in E. rewrite Rplus_0_r in E. apply Rmult_integral in E. tauto. }
    rewrite Ha, E, H, R0. lra.
Qed.
Lemma poly_unique n f g (x : nat -> R) : is_poly n f -> is_poly n g -> (forall i j, (i < j <= n)%nat -> x i <> x j) ->
  (forall i, (i <= n)%nat -> f (x i) = g (x i)) -> forall y, f y = g y.
Proof.
  intros F G D E y. assert (H : f y + (-1) * g y = 0).
  { apply (poly_roots n (fun y => f y + (-1) * g y) x); [apply is_poly_add; [exact F|apply is_poly_scal, G]|exact D|]. intros i Hi. rewrite E by exact Hi. lra. }
  lra.
Qed.
