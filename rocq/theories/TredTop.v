(** tred2 over the reals: V is orthogonal and V' M V is the tridiagonal matrix of d and e. *)
From Coq Require Import ZArith List Bool Reals Lia Lra.
From Verif Require Import Arith Vec LinModel RSum TredModel TredStep TredOrth TredReduce.
Open Scope R_scope.
Local Notation st := (tst real).

(** reflections lo, lo + 1, ..., lo + m - 1 applied one after the other *)
Definition PR (n : nat) (us : nat -> nat -> R) (hs : nat -> R) (lo m : nat) (x : nat -> R) : nat -> R := loop m (fun q x => refl n (us (lo + q)%nat) (hs (lo + q)%nat) x) x.
Lemma refl_ext n u u' h x x' : (forall a, u a = u' a) -> (forall a, x a = x' a) -> forall a, refl n u h x a = refl n u' h x' a.
Proof. intros E F a. unfold refl. rewrite E, F, (dot_ext n u u' x x') by auto. reflexivity. Qed.
Lemma PR_ext n us us' hs hs' lo m x x' : (forall k a, (lo <= k)%nat -> (k < lo + m)%nat -> us k a = us' k a) -> (forall k, (lo <= k)%nat -> (k < lo + m)%nat -> hs k = hs' k) -> (forall a, x a = x' a) ->
  forall a, PR n us hs lo m x a = PR n us' hs' lo m x' a.
Proof.
  intros E F G. unfold PR. induction m as [|m IH]; [exact G|]. cbn [loop]. intros a. rewrite F by lia. apply refl_ext; [intros; apply E; lia|]. apply IH; intros; [apply E|apply F]; lia.
Qed.
Lemma PR_head n us hs lo m x : PR n us hs lo (m + 1) x = PR n us hs (lo + 1) m (refl n (us lo) (hs lo) x).
Proof.
  unfold PR. rewrite Nat.add_1_r. induction m as [|m IH]; [cbn [loop]; rewrite Nat.add_0_r; reflexivity|].
  change (loop (S (S m)) ?f ?x) with (f (S m) (loop (S m) f x)). rewrite IH. cbn [loop]. replace (lo + S m)%nat with (lo + 1 + m)%nat by lia. reflexivity.
Qed.
Lemma PR_S n us hs lo m x : PR n us hs lo (S m) x = refl n (us (lo + m)%nat) (hs (lo + m)%nat) (PR n us hs lo m x). Proof. reflexivity. Qed.
Definition good (n : nat) (u : nat -> R) (h : R) : Prop := (h = 0 /\ forall a, u a = 0) \/ (h <> 0 /\ dot n u u = 2 * h).
Lemma good_dot n u h x y : good n u h -> dot n (refl n u h x) (refl n u h y) = dot n x y.
Proof. intros [[E U]|[H U]]; [|apply refl_dot; assumption]. apply dot_ext; intros a _; unfold refl; rewrite U; ring. Qed.
Lemma PR_dot n us hs lo m x y : (forall k, (lo <= k)%nat -> (k < lo + m)%nat -> good n (us k) (hs k)) -> dot n (PR n us hs lo m x) (PR n us hs lo m y) = dot n x y.
Proof. induction m as [|m IH]; intros G; [reflexivity|]. rewrite !PR_S. rewrite good_dot by (apply G; lia). apply IH. intros; apply G; lia. Qed.
Lemma PR_high n us hs m x a : (forall k b, (k <= b)%nat -> us k b = 0) -> (m <= a)%nat -> PR n us hs 1 m x a = x a.
Proof. intros U Ha. induction m as [|m IH]; [reflexivity|]. rewrite PR_S. unfold refl. rewrite U by lia. rewrite IH by lia. ring. Qed.
Lemma PR_low n us hs m x : (forall k b, (k <= b)%nat -> us k b = 0) -> (forall b, (b < m)%nat -> x b = 0) -> forall a, PR n us hs 1 m x a = x a.
Proof.
  intros U. induction m as [|m IH]; intros X a; [reflexivity|]. rewrite PR_S. assert (IH' := IH (fun b Hb => X b ltac:(lia))). unfold refl.
  rewrite IH'. match goal with |- context [dot n ?v ?w] => assert (Z : dot n v w = 0) end; [|rewrite Z; unfold Rdiv; ring].
  apply sum_zero. intros b _. rewrite IH'. destruct (le_lt_dec (1 + m) b); [rewrite U by lia; ring|rewrite X by lia; ring].
Qed.

Section Phases.
Variable n : nat.
Variable s0 : st.
Hypothesis Hn : (1 <= n)%nat.

Lemma init_spec : tV (tred_init n s0) = tV s0 /\ forall j, (j < n)%nat -> td (tred_init n s0) j = tV s0 (n - 1)%nat j.
Proof.
  unfold tred_init. apply (loop_inv (fun k (r : st) => tV r = tV s0 /\ forall j, (j < k)%nat -> td r j = tV s0 (n - 1)%nat j)); [split; [reflexivity|lia]|].
  intros k a Hk (H1 & H2). split; [exact H1|]. intros j Hj. cbn [td setd]. unfold vset. destruct (Nat.eqb_spec j k) as [->|]; [rewrite H1; reflexivity|apply H2; lia].
Qed.
Definition ph1 : st := loop (n - 1) (fun t s => reduce (A := real) sqrt (n - 1 - t) s) (tred_init n s0).
Lemma phase1 : (forall x y, bil n (shape 0 ph1) x y = bil n (sy (tV s0)) (PR n (ucol ph1) (td ph1) 1 (n - 1) x) (PR n (ucol ph1) (td ph1) 1 (n - 1) y)) /\
  (forall k, (1 <= k)%nat -> (k < n)%nat -> good n (ucol ph1 k) (td ph1 k)) /\ (forall k j, (k < n)%nat -> (j < k)%nat -> tV ph1 k j = 0).
Proof.
  pose (P := fun t (r : st) => (forall x y, bil n (shape (n - 1 - t) r) x y = bil n (sy (tV s0)) (PR n (ucol r) (td r) (n - t) t x) (PR n (ucol r) (td r) (n - t) t y)) /\
    (forall k, (n - t <= k)%nat -> (k < n)%nat -> good n (ucol r k) (td r k)) /\ (forall k j, (n - t <= k)%nat -> (k < n)%nat -> (j < k)%nat -> tV r k j = 0) /\ (forall j, (j <= n - 1 - t)%nat -> td r j = tV r (n - 1 - t)%nat j)).
  assert (L : P (n - 1)%nat ph1).
  { apply (loop_inv P); unfold P.
    - destruct init_spec as (V0 & D0). repeat split; try lia.
      + intros x y. rewrite Nat.sub_0_r. unfold PR. cbn [loop]. apply bil_ext. intros a b Ha Hb. unfold shape, sy. destruct (Nat.leb_spec (Nat.max a b) (n - 1)); [|lia]. rewrite V0. reflexivity.
      + intros j Hj. rewrite Nat.sub_0_r, D0, V0 by lia. reflexivity.
    - intros t a Ht (H1 & H2 & H3 & H4). pose proof (reduce_ok n (n - 1 - t) a ltac:(lia) ltac:(lia) H4) as K. set (r := reduce sqrt (n - 1 - t) a) in *. clearbody r.
      destruct K as (K1 & K2 & K3 & K4 & K5 & K6 & K7). replace (n - (t + 1))%nat with (n - 1 - t)%nat by lia. replace (n - 1 - (t + 1))%nat with (n - 1 - t - 1)%nat by lia.
      assert (UE : forall k, (n - 1 - t < k)%nat -> forall b, ucol r k b = ucol a k b). { intros k Hk b. unfold ucol. destruct (b <? k)%nat; [apply K5; exact Hk|reflexivity]. }
      split; [|split; [|split]].
      + intros x y. rewrite K1, H1, !PR_head. replace (n - 1 - t + 1)%nat with (n - t)%nat by lia.
        apply bil_ext_v; intros q _; apply PR_ext; intros; try reflexivity; symmetry; try (apply UE; lia); apply K4; lia.
      + intros k Hk Hk2. destruct (Nat.eq_dec k (n - 1 - t)) as [->|]; [exact K2|]. assert (G := H2 k ltac:(lia) Hk2). unfold good in *. rewrite K4 by lia.
        destruct G as [(G1 & G2)|(G1 & G2)]; [left; split; [exact G1|intros b; rewrite UE by lia; apply G2]|right; split; [exact G1|]]. rewrite <- G2. apply dot_ext; intros; apply UE; lia.
      + intros k j Hk Hk2 Hj. destruct (Nat.eq_dec k (n - 1 - t)) as [->|]; [apply K7; exact Hj|]. rewrite K6 by lia. apply H3; lia.
      + intros j Hj. apply K3. lia. }
  destruct L as (L1 & L2 & L3 & _). replace (n - 1 - (n - 1))%nat with 0%nat in * by lia. replace (n - (n - 1))%nat with 1%nat in * by lia.
  split; [exact L1|]. split; [exact L2|]. intros k j Hk Hj. apply L3; lia.
Qed.

(** V after :946-947 *)
Definition acc1 (i : nat) (s : st) (a b : nat) : R := if (a =? i)%nat && (b =? i)%nat then 1 else if (a =? n - 1)%nat && (b =? i)%nat then tV s i i else tV s a b.
Lemma acc_spec i (s : st) : (i < n - 1)%nat -> let r := accumulate n i s in
  let V1 := acc1 i s in
  let h := td s (i + 1)%nat in
  te r = te s /\ (forall k, (i < k)%nat -> td r k = td s k) /\
  (forall a b, tV r a b = if (a <=? i)%nat && (b =? i + 1)%nat then 0 else if (a <=? i)%nat && (b <=? i)%nat then
      if is_zero (A := real) h then V1 a b else V1 a b - sum (i + 1) (fun k => V1 k (i + 1)%nat * V1 k b) * (V1 a (i + 1)%nat / h) else V1 a b).
Proof.
  intros Hi r V1 h. unfold r, accumulate. set (s1 := setV i i 1 (setV (n - 1) i (tV s i i) s)).
  assert (T1 : forall a b, tV s1 a b = V1 a b). { intros a b. unfold s1, V1, acc1. upd; reflexivity. }
  change (td s1 (i + 1)%nat) with h.
  match goal with |- context [if is_zero h then s1 else ?Z] => set (s2 := if is_zero h then s1 else Z) end.
  assert (L2 : te s2 = te s /\ (forall k, (i < k)%nat -> td s2 k = td s k) /\ (forall a b, tV s2 a b = if (a <=? i)%nat && (b <=? i)%nat then
      if is_zero (A := real) h then V1 a b else V1 a b - sum (i + 1) (fun k => V1 k (i + 1)%nat * V1 k b) * (V1 a (i + 1)%nat / h) else V1 a b)).
  { unfold s2. destruct (is_zero h).
    - repeat split. intros a b. rewrite T1. destruct ((a <=? i)%nat && (b <=? i)%nat); reflexivity.
    - match goal with |- context [loop (i + 1) ?F s1] => set (s3 := loop (i + 1) F s1); assert (L3 : te s3 = te s /\ tV s3 = tV s1 /\ (forall k, td s3 k = if (k <? i + 1)%nat then V1 k (i + 1)%nat / h else td s k)) end.
      { unfold s3. apply (loop_inv (fun j (z : st) => te z = te s /\ tV z = tV s1 /\ (forall k, td z k = if (k <? j)%nat then V1 k (i + 1)%nat / h else td s k))).
        - repeat split.
        - intros k a Hk (H1 & H2 & H3). split; [exact H1|]. split; [exact H2|]. intros j. specialize (H3 j). cbn [td setd]. unfold vset. rewrite H2, T1. revert H3. upd; intros HQ; subst; auto. }
      clearbody s3. destruct L3 as (L31 & L32 & L33).
      match goal with |- context [loop (i + 1) ?F s3] => set (s4 := loop (i + 1) F s3); assert (L4 : te s4 = te s /\ td s4 = td s3 /\ (forall a b, tV s4 a b = if (a <=? i)%nat && (b <? i + 1)%nat then
          V1 a b - sum (i + 1) (fun k => V1 k (i + 1)%nat * V1 k b) * (V1 a (i + 1)%nat / h) else V1 a b)) end.
      { unfold s4. apply (loop_inv (fun j (z : st) => te z = te s /\ td z = td s3 /\ (forall a b, tV z a b = if (a <=? i)%nat && (b <? j)%nat then
          V1 a b - sum (i + 1) (fun k => V1 k (i + 1)%nat * V1 k b) * (V1 a (i + 1)%nat / h) else V1 a b))).
        - repeat split; [exact L31|]. intros a b. rewrite L32, T1, andb_false_r. reflexivity.
        - intros j a Hj (H1 & H2 & H3).
          match goal with |- context [loop (i + 1) ?F (@n0 real)] => set (g := loop (i + 1) F (@n0 real)); assert (G : g = sum (i + 1) (fun k => V1 k (i + 1)%nat * V1 k j)) end.
          { unfold g. apply (loop_inv (fun m (g : R) => (m <= i + 1)%nat -> g = sum m (fun k => V1 k (i + 1)%nat * V1 k j))); [reflexivity| |lia].
            intros k z Hk IH HL. rewrite sum_S1, <- IH by lia. rewrite !H3. destruct (Nat.ltb_spec (i + 1) j); [lia|]. destruct (Nat.ltb_spec j j); [lia|]. rewrite !andb_false_r. reflexivity. }
          clearbody g. subst g. set (g := sum (i + 1) (fun k => V1 k (i + 1)%nat * V1 k j)).
          match goal with |- context [loop (i + 1) ?F a] => set (s5 := loop (i + 1) F a); assert (L5 : te s5 = te s /\ td s5 = td s3 /\ (forall x y, tV s5 x y = if (x <? i + 1)%nat && (y =? j)%nat then V1 x j - g * (V1 x (i + 1)%nat / h) else tV a x y)) end.
          { unfold s5. apply (loop_inv (fun m (z : st) => te z = te s /\ td z = td s3 /\ (forall x y, tV z x y = if (x <? m)%nat && (y =? j)%nat then V1 x j - g * (V1 x (i + 1)%nat / h) else tV a x y))).
            - repeat split; assumption.
            - intros k z Hk (Z1 & Z2 & Z3). split; [exact Z1|]. split; [exact Z2|]. intros x y.
              assert (E : tV z k j = V1 k j). { rewrite Z3, Nat.ltb_irrefl. cbn [andb]. rewrite H3, Nat.ltb_irrefl, andb_false_r. reflexivity. }
              assert (E2 : td z k = V1 k (i + 1)%nat / h). { rewrite Z2, L33. destruct (Nat.ltb_spec k (i + 1)); [reflexivity|lia]. }
              specialize (Z3 x y). cbn [tV setV]. unfold put2. rewrite E, E2. revert Z3. clear -Hk. upd; intros HQ; subst; auto. }
          clearbody s5. destruct L5 as (L51 & L52 & L53). split; [exact L51|]. split; [exact L52|]. intros x y. rewrite L53, H3.
          destruct (Nat.ltb_spec x (i + 1)), (Nat.leb_spec x i); try lia; cbn [andb]; [|reflexivity]. destruct (Nat.eqb_spec y j) as [->|].
          + destruct (Nat.ltb_spec j (j + 1)); [reflexivity|lia].
          + destruct (Nat.ltb_spec y j), (Nat.ltb_spec y (j + 1)); try lia; reflexivity. }
      clearbody s4. destruct L4 as (L41 & L42 & L43). split; [exact L41|]. split.
      + intros k Hk. rewrite L42, L33. destruct (Nat.ltb_spec k (i + 1)); [lia|reflexivity].
      + intros a b. rewrite L43. destruct (Nat.ltb_spec b (i + 1)), (Nat.leb_spec b i); try lia; reflexivity. }
  clearbody s2. destruct L2 as (L21 & L22 & L23).
  match goal with |- context [loop (i + 1) ?F s2] => set (s6 := loop (i + 1) F s2); assert (L6 : te s6 = te s2 /\ td s6 = td s2 /\ (forall x y, tV s6 x y = if (x <? i + 1)%nat && (y =? i + 1)%nat then 0 else tV s2 x y)) end.
  { unfold s6. apply (loop_inv (fun m (z : st) => te z = te s2 /\ td z = td s2 /\ (forall x y, tV z x y = if (x <? m)%nat && (y =? i + 1)%nat then 0 else tV s2 x y))).
    - repeat split.
    - intros k z Hk (Z1 & Z2 & Z3). split; [exact Z1|]. split; [exact Z2|]. intros x y. specialize (Z3 x y). revert Z3. clear. upd; intros HQ; subst; auto. }
  clearbody s6. destruct L6 as (L61 & L62 & L63). rewrite L61, L62. split; [exact L21|]. split; [exact L22|].
  intros a b. rewrite L63, L23. destruct (Nat.ltb_spec a (i + 1)), (Nat.leb_spec a i); try lia; cbn [andb]; reflexivity.
Qed.
End Phases.
