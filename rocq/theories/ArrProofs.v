From Coq Require Import ZArith List Bool Lia.
From Verif Require Import Arr.
Import ListNotations.
Open Scope Z_scope.

Definition len {T} (l : list T) : Z := Z.of_nat (length l).

Lemma aget_in {T} (l : list T) i : 0 <= i < len l -> exists v, aget l i = Some v.
Proof.
  unfold len, aget; intro H. rewrite (proj2 (Z.leb_le 0 i)) by lia.
  destruct (nth_error l (Z.to_nat i)) eqn:E; [eauto|]. apply nth_error_None in E; lia.
Qed.
Lemma aget_range {T} (l : list T) i v : aget l i = Some v -> 0 <= i < len l.
Proof.
  unfold len, aget; intro H. destruct (Z.leb_spec 0 i); [|discriminate].
  assert (nth_error l (Z.to_nat i) <> None) as B by congruence. apply nth_error_Some in B; lia.
Qed.
Lemma aget_nat {T} (l : list T) n : aget l (Z.of_nat n) = nth_error l n.
Proof. unfold aget. rewrite (proj2 (Z.leb_le _ _)) by lia. now rewrite Nat2Z.id. Qed.
Lemma aget_ext {T} (l l' : list T) : (forall i, aget l i = aget l' i) -> l = l'.
Proof.
  revert l'; induction l as [|x l IH]; destruct l' as [|y l']; intro H; auto.
  - now specialize (H 0).
  - now specialize (H 0).
  - f_equal; [specialize (H 0); cbn in H; congruence|]. apply IH; intro i. specialize (H (i + 1)).
    unfold aget in *. destruct (Z.leb_spec 0 i); [|reflexivity]. rewrite (proj2 (Z.leb_le _ _)) in H by lia.
    rewrite Z2Nat.inj_add in H by lia. change (Z.to_nat 1) with 1%nat in H. rewrite Nat.add_1_r in H; exact H.
Qed.
Lemma nth_upd {T} (l : list T) v : forall n k, (n < length l)%nat ->
  nth_error (firstn n l ++ v :: skipn (S n) l) k = if (k =? n)%nat then Some v else nth_error l k.
Proof.
  induction l as [|x l IH]; intros n k H; cbn in H; [lia|].
  destruct n; [destruct k; reflexivity|]. destruct k; [reflexivity|].
  cbn [firstn skipn app nth_error Nat.eqb]. rewrite <- IH by lia. reflexivity.
Qed.
Lemma len_upd {T} (l : list T) v n : (n < length l)%nat -> length (firstn n l ++ v :: skipn (S n) l) = length l.
Proof. intro H. rewrite app_length, firstn_length; cbn [length]. rewrite skipn_length; lia. Qed.
Lemma aput_ok {T} (l : list T) i v : 0 <= i < len l ->
  exists l', aput l i v = Some l' /\ len l' = len l /\ forall k, aget l' k = if k =? i then Some v else aget l k.
Proof.
  unfold len, aput; intro H. rewrite (proj2 (Z.leb_le 0 i)), (proj2 (Z.ltb_lt _ _)) by lia. cbn [andb].
  eexists; split; [reflexivity|]. split; [rewrite len_upd; lia|]. intro k. unfold aget.
  destruct (Z.leb_spec 0 k).
  - rewrite nth_upd by lia. destruct (Z.eqb_spec k i).
    + subst. now rewrite Nat.eqb_refl.
    + destruct (Nat.eqb_spec (Z.to_nat k) (Z.to_nat i)); [lia|reflexivity].
  - destruct (Z.eqb_spec k i); [lia|reflexivity].
Qed.
Lemma aput_inv {T} (l l' : list T) i v : aput l i v = Some l' ->
  0 <= i < len l /\ len l' = len l /\ forall k, aget l' k = if k =? i then Some v else aget l k.
Proof.
  intro H. assert (0 <= i < len l) as R.
  { unfold aput in H. unfold len. destruct (Z.leb_spec 0 i); [|discriminate]. destruct (Z.ltb_spec i (Z.of_nat (length l))); [lia|discriminate]. }
  destruct (aput_ok l i v R) as (m & E & A & B). rewrite H in E; injection E as <-. auto.
Qed.
Lemma aput_none {T} (l : list T) i v : aput l i v = None <-> ~ 0 <= i < len l.
Proof.
  split.
  - intros H R. destruct (aput_ok l i v R) as (m & E & _); congruence.
  - intro R. destruct (aput l i v) eqn:E; [|reflexivity]. apply aput_inv in E; tauto.
Qed.
Lemma aget_none {T} (l : list T) i : aget l i = None <-> ~ 0 <= i < len l.
Proof.
  split.
  - intros H R. destruct (aget_in l i R); congruence.
  - intro R. destruct (aget l i) eqn:E; [|reflexivity]. apply aget_range in E; tauto.
Qed.

(** total correctness of a counted loop *)
Lemma for_rule {S} (I : Z -> S -> Prop) a b (f : Z -> S -> option S) s : a <= b -> I a s ->
  (forall i s, a <= i < b -> I i s -> exists s', f i s = Some s' /\ I (i + 1) s') ->
  exists s', for_ a b f s = Some s' /\ I b s'.
Proof.
  intros L H F. unfold for_. remember (Z.to_nat (b - a)) as n eqn:E. revert a s L H F E.
  induction n as [|n IH]; intros a s L H F E; cbn [ofor].
  - assert (a = b) by lia. subst. eauto.
  - destruct (F a s) as (s1 & E1 & H1); [lia|auto|]. rewrite E1; cbn [obind].
    apply IH; auto; [lia|intros; apply F; auto; lia|lia].
Qed.
Lemma for_empty {S} a b (f : Z -> S -> option S) s : b <= a -> for_ a b f s = Some s.
Proof. intro H. unfold for_. replace (Z.to_nat (b - a)) with 0%nat by lia. reflexivity. Qed.
Lemma for_step {S} a b (f : Z -> S -> option S) s : a < b -> for_ a b f s = (do s <- f a s; for_ (a + 1) b f s).
Proof. intro H. unfold for_. replace (Z.to_nat (b - a)) with (Datatypes.S (Z.to_nat (b - (a + 1)))) by lia. reflexivity. Qed.
Lemma for_ext {S} a b (f g : Z -> S -> option S) s : (forall i s, a <= i < b -> f i s = g i s) -> for_ a b f s = for_ a b g s.
Proof.
  intro F. unfold for_. remember (Z.to_nat (b - a)) as n eqn:E. revert a s F E.
  induction n as [|n IH]; intros a s F E; cbn [ofor]; [reflexivity|].
  rewrite F by lia. destruct (g a s); [|reflexivity]. cbn [obind]. apply IH; [intros; apply F; lia|lia].
Qed.
