(** What the loops of tred2 compute, over the reals. *)
From Coq Require Import ZArith List Bool Reals Lia Lra.
From Verif Require Import Arith Vec LinModel RSum TredModel.
Open Scope R_scope.

Lemma loop_inv {S} (P : nat -> S -> Prop) n f s : P 0%nat s -> (forall k a, (k < n)%nat -> P k a -> P (k + 1)%nat (f k a)) -> P n (loop n f s).
Proof.
  intros H0 Hs. induction n as [|n IH]; [exact H0|]. cbn [loop]. rewrite <- Nat.add_1_r. apply Hs; [lia|]. apply IH. intros k a Hk. apply Hs. lia.
Qed.
Local Notation st := (tst real).
Notation V s := (fun a b => (tV s a b : R)) (only parsing).

Ltac upd := cbn [tV td te setV setd sete fst snd]; unfold put2, vset; cbn [fst snd tV td te nadd nsub nmul ndiv nopp n0 n1 nabs num real] in *;
  repeat match goal with
  | |- context [Nat.eqb ?a ?b] => destruct (Nat.eqb_spec a b)
  | |- context [Nat.ltb ?a ?b] => destruct (Nat.ltb_spec a b)
  | |- context [Nat.leb ?a ?b] => destruct (Nat.leb_spec a b)
  end; cbn [andb orb negb]; try lia.
Lemma sum_S1 n f : sum (n + 1) f = sum n f + f n. Proof. rewrite Nat.add_1_r. reflexivity. Qed.

Lemma scale_d_spec i (c : R) (s : st) : let r := scale_d i c s in
  tV (fst r) = tV s /\ te (fst r) = te s /\ (forall k, td (fst r) k = if (k <? i)%nat then td s k / c else td s k) /\ snd r = sum i (fun k => (td s k / c) * (td s k / c)).
Proof.
  intros r. unfold r, scale_d.
  apply (loop_inv (fun j (r : st * R) => tV (fst r) = tV s /\ te (fst r) = te s /\ (forall k, td (fst r) k = if (k <? j)%nat then td s k / c else td s k) /\ snd r = sum j (fun k => (td s k / c) * (td s k / c)))).
  - repeat split; intros; upd; reflexivity.
  - intros j [a h] Hj (H1 & H2 & H3 & H4). cbn [fst snd] in *. assert (D : td a j = td s j) by (rewrite H3; upd; reflexivity). repeat split.
    + exact H1.
    + exact H2.
    + intros k. specialize (H3 k). revert H3. upd; intros HQ; subst; try rewrite D; auto.
    + rewrite sum_S1, <- H4. cbn. unfold vset. rewrite Nat.eqb_refl, D. reflexivity.
Qed.
Lemma div_e_spec i (c : R) (s : st) : let r := div_e i c s in
  tV (fst r) = tV s /\ td (fst r) = td s /\ (forall k, te (fst r) k = if (k <? i)%nat then te s k / c else te s k) /\ snd r = sum i (fun k => (te s k / c) * td s k).
Proof.
  intros r. unfold r, div_e.
  apply (loop_inv (fun j (r : st * R) => tV (fst r) = tV s /\ td (fst r) = td s /\ (forall k, te (fst r) k = if (k <? j)%nat then te s k / c else te s k) /\ snd r = sum j (fun k => (te s k / c) * td s k))).
  - repeat split; intros; upd; reflexivity.
  - intros j [a h] Hj (H1 & H2 & H3 & H4). cbn [fst snd] in *. assert (D : te a j = te s j) by (rewrite H3; upd; reflexivity). repeat split.
    + exact H1.
    + exact H2.
    + intros k. specialize (H3 k). revert H3. upd; intros HQ; subst; try rewrite D; auto.
    + rewrite sum_S1, <- H4. cbn. unfold vset. rewrite Nat.eqb_refl, D, H2. reflexivity.
Qed.
Lemma zero_e_spec i (s : st) : let r := loop i (fun j s => sete j (@n0 real) s) s in
  tV r = tV s /\ td r = td s /\ (forall k, te r k = if (k <? i)%nat then 0 else te s k).
Proof.
  apply (loop_inv (fun j (r : st) => tV r = tV s /\ td r = td s /\ (forall k, te r k = if (k <? j)%nat then 0 else te s k))).
  - repeat split; intros; upd; reflexivity.
  - intros j a Hj (H1 & H2 & H3). repeat split; [exact H1|exact H2|]. intros k. specialize (H3 k). revert H3. upd; intros HQ; auto.
Qed.
Lemma sub_e_spec i (hh : R) (s : st) : let r := loop i (fun j s => sete j (@nsub real (te s j) (@nmul real hh (td s j))) s) s in
  tV r = tV s /\ td r = td s /\ (forall k, te r k = if (k <? i)%nat then te s k - hh * td s k else te s k).
Proof.
  apply (loop_inv (fun j (r : st) => tV r = tV s /\ td r = td s /\ (forall k, te r k = if (k <? j)%nat then te s k - hh * td s k else te s k))).
  - repeat split; intros; upd; reflexivity.
  - intros j a Hj (H1 & H2 & H3). repeat split; [exact H1|exact H2|]. assert (D : te a j = te s j) by (rewrite H3; upd; reflexivity).
    intros k. specialize (H3 k). revert H3. upd; intros HQ; subst; try rewrite D, H2; auto.
Qed.
Lemma apply_col_spec i j (s : st) : (j < i)%nat -> let r := apply_col i j s in
  td r = td s /\ (forall a b, tV r a b = if (a =? j)%nat && (b =? i)%nat then td s j else tV s a b) /\
  (forall k, te r k = if (k =? j)%nat then te s j + tV s j j * td s j + sum (i - 1 - j) (fun q => tV s (j + 1 + q)%nat j * td s (j + 1 + q)%nat)
     else if (j <? k)%nat && (k <? i)%nat then te s k + tV s k j * td s j else te s k).
Proof.
  intros Hj r. unfold r, apply_col.
  set (s1 := setV j i (td s j) s).
  match goal with |- context [loop ?m ?F ?x] => assert (L : (fun p (z : st * R) => td (fst z) = td s /\ tV (fst z) = tV s1 /\
      snd z = te s j + tV s j j * td s j + sum p (fun q => tV s (j + 1 + q)%nat j * td s (j + 1 + q)%nat) /\
      (forall k, te (fst z) k = if (j <? k)%nat && (k <? j + 1 + p)%nat then te s k + tV s k j * td s j else te s k)) m (loop m F x)) end.
  { apply loop_inv.
    - repeat split.
      + unfold s1. cbn. unfold put2. destruct (Nat.eqb_spec j i); [lia|]. rewrite andb_false_r. ring.
      + intros k. upd; reflexivity.
    - intros p [a g] Hp (H1 & H2 & H3 & H4). cbn [fst snd] in *.
      assert (D : forall k, (k <> j)%nat -> tV a k j = tV s k j). { intros k Hk. rewrite H2. unfold s1. upd; reflexivity. }
      assert (E : te a (j + 1 + p)%nat = te s (j + 1 + p)%nat) by (rewrite H4; upd; reflexivity).
      repeat split.
      + exact H1.
      + exact H2.
      + rewrite sum_S1, D, H1, H3 by lia. cbn. ring.
      + intros k. specialize (H4 k). revert H4. upd; intros HQ; subst; try rewrite E, D by lia; auto. }
  match goal with |- context [loop ?m ?F ?x] => destruct (loop m F x) as [a g] end. destruct L as (H1 & H2 & H3 & H4). cbn [fst snd] in *.
  split; [exact H1|]. split.
  - intros a' b'. cbn [tV sete]. rewrite H2. unfold s1. upd; reflexivity.
  - intros k. specialize (H4 k). revert H4. upd; intros HQ; subst; auto.
Qed.
(** the matrix of a lower triangle *)
Definition sy (M : nat -> nat -> R) (a b : nat) : R := M (Nat.max a b) (Nat.min a b).
Lemma sy_comm M a b : sy M a b = sy M b a. Proof. unfold sy. rewrite Nat.max_comm, Nat.min_comm. reflexivity. Qed.
Lemma sy_low M a b : (b <= a)%nat -> sy M a b = M a b. Proof. intros H. unfold sy. rewrite Nat.max_l, Nat.min_r by lia. reflexivity. Qed.
Lemma apply_spec i (s : st) : (forall k, (k < i)%nat -> te s k = 0) -> let r := loop i (fun j s => apply_col i j s) s in
  td r = td s /\ (forall a b, tV r a b = if (a <? i)%nat && (b =? i)%nat then td s a else tV s a b) /\
  (forall k, te r k = if (k <? i)%nat then sum i (fun b => sy (tV s) k b * td s b) else te s k).
Proof.
  intros E0.
  pose (P := fun j (r : st) => td r = td s /\ (forall a b, tV r a b = if (a <? j)%nat && (b =? i)%nat then td s a else tV s a b) /\
     (forall k, te r k = if (k <? i)%nat then sum i (fun b => if (Nat.min k b <? j)%nat then sy (tV s) k b * td s b else 0) else te s k)). assert (L : P i (loop i (fun j s => apply_col i j s) s)).
  { apply (loop_inv P); unfold P.
    - split; [reflexivity|]. split; [intros; upd; reflexivity|]. intros k. destruct (Nat.ltb_spec k i); [|reflexivity]. cbn beta. rewrite E0 by lia. symmetry. apply sum_zero. intros b _. upd; reflexivity.
    - intros j a Hj (H1 & H2 & H3). destruct (apply_col_spec i j a Hj) as (K1 & K2 & K3). split; [rewrite K1; exact H1|]. split.
      + intros x y. rewrite K2, H2, H1. upd; subst; try reflexivity.
      + assert (B : forall x, tV a x j = tV s x j). { intros x. rewrite H2. upd; reflexivity. }
        intros k. rewrite K3, H1.
        destruct (Nat.eqb_spec k j) as [->|NE].
        * destruct (Nat.ltb_spec j i); [|lia]. rewrite H3. destruct (Nat.ltb_spec j i); [|lia]. rewrite B.
          replace i with (j + (1 + (i - 1 - j)))%nat at 1 3 by lia. rewrite !sum_split.
          rewrite (sum_ext j (fun b => if (Nat.min j b <? j + 1)%nat then sy (tV s) j b * td s b else 0) (fun b => if (Nat.min j b <? j)%nat then sy (tV s) j b * td s b else 0)).
          2:{ intros b Hb. rewrite Nat.min_r by lia. upd; reflexivity. }
          rewrite (sum_zero (1) (fun k => if (Nat.min j (j + k) <? j)%nat then _ else _)) by (intros q _; rewrite Nat.min_l by lia; upd; reflexivity).
          rewrite (sum_zero (i - 1 - j) (fun k => if (Nat.min j (j + (1 + k)) <? j)%nat then _ else _)) by (intros q _; rewrite Nat.min_l by lia; upd; reflexivity).
          cbn [sum]. rewrite Nat.add_0_r, Nat.min_id. replace (j <? j + 1)%nat with true by (symmetry; apply Nat.ltb_lt; lia).
          rewrite (sy_low _ j j) by lia.
          rewrite (sum_ext (i - 1 - j) (fun k => if (Nat.min j (j + (1 + k)) <? j + 1)%nat then sy (tV s) j (j + (1 + k)) * td s (j + (1 + k))%nat else 0) (fun q => tV a (j + 1 + q)%nat j * td s (j + 1 + q)%nat)).
          2:{ intros q _. rewrite Nat.min_l by lia. replace (j <? j + 1)%nat with true by (symmetry; apply Nat.ltb_lt; lia). unfold sy. rewrite Nat.max_r, Nat.min_l by lia. rewrite B, !Nat.add_assoc. reflexivity. }
          match goal with |- @eq _ ?x ?y => change (@eq R x y) end. ring.
        * destruct (Nat.ltb_spec j k) as [LT|GE]; cbn [andb].
          -- destruct (Nat.ltb_spec k i) as [Hk|Hk]; [|rewrite H3; destruct (Nat.ltb_spec k i); [lia|reflexivity]].
             rewrite H3, B. destruct (Nat.ltb_spec k i); [|lia].
             rewrite (sum_pick i j (fun b => if (Nat.min k b <? j + 1)%nat then _ else _)) by lia.
             rewrite Nat.min_r by lia. replace (j <? j + 1)%nat with true by (symmetry; apply Nat.ltb_lt; lia).
             rewrite (sy_low _ k j) by lia. rewrite Rplus_comm. f_equal.
             apply sum_ext. intros b Hb. destruct (Nat.eqb_spec b j) as [->|]; [rewrite Nat.min_r by lia; upd; reflexivity|].
             destruct (Nat.ltb_spec (Nat.min k b) j), (Nat.ltb_spec (Nat.min k b) (j + 1)); try reflexivity; lia.
          -- rewrite H3. destruct (Nat.ltb_spec k i); [|reflexivity]. apply sum_ext. intros b Hb.
             destruct (Nat.ltb_spec (Nat.min k b) j), (Nat.ltb_spec (Nat.min k b) (j + 1)); try reflexivity; lia. }
  destruct L as (L1 & L2 & L3). split; [exact L1|]. split; [exact L2|]. intros k. rewrite L3. destruct (Nat.ltb_spec k i); [|reflexivity].
  apply sum_ext. intros b Hb. destruct (Nat.ltb_spec (Nat.min k b) i); [reflexivity|lia].
Qed.
Lemma update_col_spec i j (s : st) : (j < i)%nat -> let r := update_col i j s in
  te r = te s /\
  (forall a b, tV r a b = if (b =? j)%nat then if (a =? i)%nat then 0 else if (j <=? a)%nat && (a <? i)%nat then tV s a j - (td s j * te s a + te s j * td s a) else tV s a b else tV s a b) /\
  (forall k, td r k = if (k =? j)%nat then tV s (i - 1)%nat j - (td s j * te s (i - 1)%nat + te s j * td s (i - 1)%nat) else td s k).
Proof.
  intros Hj r. unfold r, update_col.
  match goal with |- context [loop ?m ?F ?x] => assert (L : (fun p (z : st) => te z = te s /\ td z = td s /\
      (forall a b, tV z a b = if (b =? j)%nat && (j <=? a)%nat && (a <? j + p)%nat then tV s a j - (td s j * te s a + te s j * td s a) else tV s a b)) m (loop m F x)) end.
  { apply loop_inv.
    - repeat split. intros a b. upd; reflexivity.
    - intros p a Hp (H1 & H2 & H3). repeat split; [exact H1|exact H2|]. intros x y. 
      assert (D : tV a (j + p)%nat j = tV s (j + p)%nat j) by (rewrite H3; upd; reflexivity).
      cbn [tV setV]. unfold put2. rewrite D, H1, H2. specialize (H3 x y). revert H3. upd; intros HQ; subst; auto. }
  match goal with |- context [loop ?m ?F ?x] => set (z := loop m F x) in * end. clearbody z. destruct L as (H1 & H2 & H3).
  split; [exact H1|]. split.
  - intros a b. specialize (H3 a b). revert H3. upd; intros HQ; subst; auto.
  - intros k. cbn [td setV setd]. unfold vset. rewrite H3, H2. upd; subst; reflexivity.
Qed.
Lemma update_spec i (s : st) : let r := loop i (fun j s => update_col i j s) s in
  te r = te s /\
  (forall a b, tV r a b = if (b <? i)%nat then if (a =? i)%nat then 0 else if (b <=? a)%nat && (a <? i)%nat then tV s a b - (td s b * te s a + te s b * td s a) else tV s a b else tV s a b) /\
  (forall k, td r k = if (k <? i)%nat then tV s (i - 1)%nat k - (td s k * te s (i - 1)%nat + te s k * td s (i - 1)%nat) else td s k).
Proof.
  apply (loop_inv (fun j (r : st) => te r = te s /\
  (forall a b, tV r a b = if (b <? j)%nat then if (a =? i)%nat then 0 else if (b <=? a)%nat && (a <? i)%nat then tV s a b - (td s b * te s a + te s b * td s a) else tV s a b else tV s a b) /\
  (forall k, td r k = if (k <? j)%nat then tV s (i - 1)%nat k - (td s k * te s (i - 1)%nat + te s k * td s (i - 1)%nat) else td s k))).
  - repeat split; intros; upd; reflexivity.
  - intros j r Hj (H1 & H2 & H3). destruct (update_col_spec i j r Hj) as (K1 & K2 & K3). split; [rewrite K1; exact H1|].
    assert (D : forall k, (j <= k)%nat -> td r k = td s k) by (intros k Hk; rewrite H3; upd; reflexivity).
    assert (B : forall a, tV r a j = tV s a j) by (intros a; rewrite H2; upd; reflexivity).
    split.
    + intros a b. rewrite K2. destruct (Nat.eqb_spec b j) as [->|NE].
      * rewrite B, H1. destruct (Nat.ltb_spec j (j + 1)); [|lia]. destruct (Nat.eqb_spec a i); [reflexivity|]. destruct (Nat.leb_spec j a), (Nat.ltb_spec a i); cbn [andb]; try reflexivity. rewrite !D by lia. reflexivity.
      * rewrite H2. destruct (Nat.ltb_spec b j), (Nat.ltb_spec b (j + 1)); try reflexivity; lia.
    + intros k. rewrite K3. destruct (Nat.eqb_spec k j) as [->|NE].
      * rewrite B, H1, !D by lia. destruct (Nat.ltb_spec j (j + 1)); [reflexivity|lia].
      * rewrite H3. destruct (Nat.ltb_spec k j), (Nat.ltb_spec k (j + 1)); try reflexivity; lia.
Qed.
Lemma no_reflection_spec i (s : st) : (0 < i)%nat -> let r := no_reflection i s in
  (forall a b, tV r a b = if (a =? i)%nat && (b <? i)%nat || (b =? i)%nat && (a <? i)%nat then 0 else tV s a b) /\
  (forall k, td r k = if (k <? i)%nat then tV s (i - 1)%nat k else td s k) /\ (forall k, te r k = if (k =? i)%nat then td s (i - 1)%nat else te s k).
Proof.
  intros Hi r. unfold r, no_reflection.
  apply (loop_inv (fun j (r : st) => (forall a b, tV r a b = if (a =? i)%nat && (b <? j)%nat || (b =? i)%nat && (a <? j)%nat then 0 else tV s a b) /\
  (forall k, td r k = if (k <? j)%nat then tV s (i - 1)%nat k else td s k) /\ (forall k, te r k = if (k =? i)%nat then td s (i - 1)%nat else te s k))).
  - repeat split; intros; upd; reflexivity.
  - intros j a Hj (H1 & H2 & H3). assert (B : tV a (i - 1)%nat j = tV s (i - 1)%nat j) by (rewrite H1; upd; reflexivity). split; [|split].
    + intros x y. specialize (H1 x y). revert H1. upd; intros HQ; auto.
    + intros k. specialize (H2 k). revert H2. upd; intros HQ; subst; auto.
    + exact H3.
Qed.
