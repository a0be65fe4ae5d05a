(** Collected statements and concrete cases for the Butcher tableaux. *)
From Coq Require Import ZArith List Bool Lia Reals Lra Psatz.
From Coquelicot Require Import Coquelicot.
From Verif Require Import Arith Vec LinModel LinProofs LinSolve PadeModel RSum PadeProofs PadeTop Poly CollModel CollProofs CollTop CollRadau CollGauss.
Import ListNotations.
Open Scope R_scope.

Lemma coll_BC n (c : vecR) : distinct (S n) c -> forall a : vecR,
  is_RInt (poly n a) 0 1 (sum (S n) (fun i => bt_b (A := real) (S n) c i * poly n a (c i))) /\
  forall k, is_RInt (poly n a) 0 (c k) (sum (S n) (fun i => bt_A (A := real) (S n) c i k * poly n a (c i))).
Proof. intros D a. split; [apply coll_B, D|intros k; apply coll_C, D]. Qed.
Lemma rint_eq (f : R -> R) (a b x y : R) : is_RInt f a b x -> is_RInt f a b y -> x = y.
Proof. intros X Y. apply (is_RInt_unique (V := R_CompleteNormedModule)) in X. apply (is_RInt_unique (V := R_CompleteNormedModule)) in Y. congruence. Qed.
Lemma coll_unique n (c : vecR) : distinct (S n) c -> forall (w : vecR) x,
  (forall a : vecR, is_RInt (poly n a) 0 x (sum (S n) (fun i => w i * poly n a (c i)))) ->
  (x = 1 -> forall i, (i <= n)%nat -> w i = bt_b (A := real) (S n) c i) /\
  (forall k, x = c k -> forall i, (i <= n)%nat -> w i = bt_A (A := real) (S n) c i k).
Proof.
  intros D w x W. split.
  - intros -> i Hi. apply (weights_unique n c w (bt_b (A := real) (S n) c) D); [|exact Hi]. intros a. apply (rint_eq (poly n a) 0 1); [apply W|apply coll_B, D].
  - intros k -> i Hi. apply (weights_unique n c w (fun i => bt_A (A := real) (S n) c i k) D); [|exact Hi]. intros a. apply (rint_eq (poly n a) 0 (c k)); [apply W|apply coll_C, D].
Qed.
Lemma radau_all s : (1 <= s <= 9)%nat ->
  (forall i j, (i < j < s)%nat -> radau_node (A := real) s i < radau_node (A := real) s j) /\
  exists c : vecR, (forall i, (i < s)%nat -> Rabs (radau_node (A := real) s i - c i) <= 1 / 10 ^ 15) /\
    (forall i j, (i < j < s)%nat -> c i < c j) /\ 0 < c 0%nat /\ c (s - 1)%nat = 1 /\
    forall a : vecR, is_RInt (poly (2 * s - 2) a) 0 1 (sum s (fun i => bt_b (A := real) s c i * poly (2 * s - 2) a (c i))).
Proof. intros H. split; [apply radau_distinct, H|apply radau_quadrature, H]. Qed.
Lemma gl_rate_fix s (y : R) : (1 <= s)%nat -> gl_der (A := real) s y <> 0 -> gl_step (A := real) s y = y -> is_derive (gl_step (A := real) s) y (1 / INR (s + 1)).
Proof. intros Hs N E. apply gl_rate_root; [exact Hs|exact (gl_fix s y N E)]. Qed.

Definition cr2 (i : nat) : R := match i with O => 1 / 3 | _ => 1 end.
Lemma cr2_distinct : distinct 2 cr2.
Proof. intros i j Hij. assert (i = 0 /\ j = 1)%nat as [-> ->] by lia. cbn. lra. Qed.
Lemma radau2 : let c := fun i : nat => match i with O => 1 / 3 | _ => 1 end in
  bt_b (A := real) 2 c 0 = 3 / 4 /\ bt_b (A := real) 2 c 1 = 1 / 4 /\
  bt_A (A := real) 2 c 0 0 = 5 / 12 /\ bt_A (A := real) 2 c 1 0 = - (1 / 12) /\ bt_A (A := real) 2 c 0 1 = 3 / 4 /\ bt_A (A := real) 2 c 1 1 = 1 / 4.
Proof.
  cbv zeta. change (fun i : nat => match i with O => 1 / 3 | _ => 1 end) with cr2.
  pose proof (moment_B 2 cr2 cr2_distinct 0 ltac:(lia)) as B0. pose proof (moment_B 2 cr2 cr2_distinct 1 ltac:(lia)) as B1.
  pose proof (moment_C 2 cr2 0 cr2_distinct 0 ltac:(lia)) as C0. pose proof (moment_C 2 cr2 0 cr2_distinct 1 ltac:(lia)) as C1.
  pose proof (moment_C 2 cr2 1 cr2_distinct 0 ltac:(lia)) as C2. pose proof (moment_C 2 cr2 1 cr2_distinct 1 ltac:(lia)) as C3.
  cbn [sum cr2 Nat.add INR pow] in *.
  repeat match goal with H : context [bt_b 2 cr2 ?i] |- _ => generalize dependent (bt_b (A := real) 2 cr2 i); intros end.
  repeat match goal with H : context [bt_A 2 cr2 ?i ?k] |- _ => generalize dependent (bt_A (A := real) 2 cr2 i k); intros end.
  change (num real) with R in *. lra.
Qed.
Lemma explicit2_sharp A b c : explicit_tableau (A := real) 2 = Some (A, b, c) -> ~ order_conditions 2 3 (row A) (ent b) (ent c).
Proof.
  intros E (_ & _ & H & _). destruct (H (le_n 3)) as [H3 _].
  assert (Eb : b = [0; 1] /\ c = [0; 5 / 10]) by (split; [exact (f_equal (fun o => match o with Some (_, b, _) => b | None => [] end) (eq_sym E))|exact (f_equal (fun o => match o with Some (_, _, c) => c | None => [] end) (eq_sym E))]).
  destruct Eb as [-> ->]. unfold ent in H3. cbn [sum nth] in H3. lra.
Qed.
