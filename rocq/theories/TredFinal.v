(** Accumulation of the reflections, and the result of tred2 (reals). *)
From Coq Require Import ZArith List Bool Reals Lia Lra.
From Verif Require Import Arith Vec LinModel RSum TredModel TredStep TredOrth TredReduce TredTop.
Open Scope R_scope.
Local Notation st := (tst real).
Definition ev (j : nat) : nat -> R := fun a => if (a =? j)%nat then 1 else 0.

Section F.
Variable n : nat.
Variable r : st.
Hypothesis Hn : (1 <= n)%nat.
Hypothesis GD : forall k, (1 <= k)%nat -> (k < n)%nat -> good n (ucol r k) (td r k).
Hypothesis ZR : forall k j, (k < n)%nat -> (j < k)%nat -> tV r k j = 0.
Local Notation Q i := (PR n (ucol r) (td r) 1 i).
Lemma us_high k b : (k <= b)%nat -> ucol r k b = 0. Proof. intros H. unfold ucol. destruct (Nat.ltb_spec b k); [lia|reflexivity]. Qed.

Definition inv2 (i : nat) (z : st) : Prop :=
  (forall a j, (j < i)%nat -> (a < i)%nat -> tV z a j = Q i (ev j) a) /\
  (forall a j, (i <= a)%nat -> (a < n - 1)%nat -> (j < a)%nat -> tV z a j = 0) /\
  (forall k b, (i < b)%nat -> (b < n)%nat -> (k < b)%nat -> tV z k b = ucol r b k) /\
  (forall k, (k < i)%nat -> tV z k i = 0) /\
  (forall a, (i <= a)%nat -> (a < n)%nat -> tV z a a = tV r a a) /\
  (forall j, (j < i)%nat -> tV z (n - 1)%nat j = tV r j j) /\
  (forall k, (i < k)%nat -> td z k = td r k) /\ te z = te r.
Lemma inv2_step i z : (i < n - 1)%nat -> inv2 i z -> inv2 (i + 1) (accumulate n i z).
Proof.
  intros Hi (I1 & I2 & I3 & I4 & I5 & I6 & I7 & I8). destruct (acc_spec n Hn i z Hi) as (T & D & VR). cbn zeta in *.
  set (V1 := acc1 n i z) in *.
  set (w := accumulate n i z) in *. clearbody w.
  assert (C : forall a j, (a <= i)%nat -> (j <= i)%nat -> V1 a j = Q i (ev j) a).
  { intros a j Ha Hj. unfold V1, acc1. destruct (Nat.eq_dec j i) as [->|NJ].
    - rewrite (PR_low n (ucol r) (td r) i (ev i)); [|exact us_high|intros b Hb; unfold ev; destruct (Nat.eqb_spec b i); [lia|reflexivity]].
      unfold ev. rewrite Nat.eqb_refl, !andb_true_r. destruct (Nat.eqb_spec a i); [reflexivity|]. destruct (Nat.eqb_spec a (n - 1)); [lia|]. apply I4. lia.
    - destruct (Nat.eqb_spec j i); [lia|]. rewrite !andb_false_r. destruct (Nat.eq_dec a i) as [->|]; [|apply I1; lia].
      rewrite (PR_high n (ucol r) (td r) i (ev j)) by (first [exact us_high|lia]). unfold ev. destruct (Nat.eqb_spec i j); [lia|]. apply I2; lia. }
  assert (UC : forall k, (k <= i)%nat -> V1 k (i + 1)%nat = ucol r (i + 1) k).
  { intros k Hk. unfold V1, acc1. destruct (Nat.eqb_spec (i + 1) i); [lia|]. rewrite !andb_false_r. apply I3; lia. }
  assert (HH : td z (i + 1)%nat = td r (i + 1)%nat) by (apply I7; lia). rewrite HH in VR.
  unfold inv2. split; [|repeat split].
  - intros a j Hj Ha. rewrite VR. destruct (Nat.leb_spec a i); [|lia]. destruct (Nat.eqb_spec j (i + 1)); [lia|]. destruct (Nat.leb_spec j i); [|lia]. cbn [andb].
    rewrite Nat.add_1_r, PR_S. change (1 + i)%nat with (S i). rewrite <- (Nat.add_1_r i). unfold refl. rewrite C by lia.
    assert (S : dot n (ucol r (i + 1)) (Q i (ev j)) = sum (i + 1) (fun k => V1 k (i + 1)%nat * V1 k j)).
    { unfold dot. rewrite (sum_trunc n (i + 1)); [|lia|intros k Hk _; rewrite us_high by lia; ring]. apply sum_ext. intros k Hk. rewrite UC, C by lia. reflexivity. }
    rewrite S, UC by lia. destruct (is_zero (A := real) (td r (i + 1)%nat)) eqn:Z.
    + apply is_zero_real in Z. destruct (GD (i + 1) ltac:(lia) ltac:(lia)) as [(_ & G)|(G & _)]; [|contradiction]. rewrite G; toR; ring.
    + unfold Rdiv; toR; ring.
  - intros a j Ha Ha2 Hj. rewrite VR. destruct (Nat.leb_spec a i); [lia|]. cbn [andb]. unfold V1, acc1. destruct (Nat.eqb_spec a i); [lia|]. destruct (Nat.eqb_spec a (n - 1)); [lia|]. cbn [andb]. apply I2; lia.
  - intros k b Hb Hb2 Hk. rewrite VR. destruct (Nat.eqb_spec b (i + 1)); [lia|]. destruct (Nat.leb_spec b i); [lia|]. rewrite !andb_false_r. unfold V1, acc1. destruct (Nat.eqb_spec b i); [lia|]. rewrite !andb_false_r. apply I3; lia.
  - intros k Hk. rewrite VR. destruct (Nat.leb_spec k i); [|lia]. rewrite Nat.eqb_refl. reflexivity.
  - intros a Ha Ha2. rewrite VR. destruct (Nat.leb_spec a i); [lia|]. cbn [andb]. unfold V1, acc1. destruct (Nat.eqb_spec a i); [lia|]. cbn [andb]; rewrite ?andb_false_r; apply I5; lia.
  - intros j Hj. rewrite VR. destruct (Nat.leb_spec (n - 1) i); [lia|]. cbn [andb]. unfold V1, acc1. destruct (Nat.eqb_spec (n - 1) i); [lia|]. cbn [andb]. rewrite Nat.eqb_refl. cbn [andb].
    destruct (Nat.eqb_spec j i) as [->|]; [apply I5; lia|apply I6; lia].
  - intros k Hk. rewrite D by lia. apply I7. lia.
  - rewrite T. exact I8.
Qed.
Lemma inv2_end : inv2 (n - 1) (loop (n - 1) (fun i s => accumulate n i s) r).
Proof.
  apply (loop_inv inv2); [|intros; apply inv2_step; assumption]. unfold inv2. repeat split; try lia.
  - intros a j _ Ha Hj. apply ZR; lia.
  - intros k b _ Hb Hk. unfold ucol. destruct (Nat.ltb_spec k b); [reflexivity|lia].
Qed.
Lemma end_spec (z : st) : let w := tred_end n z in
  (forall a b, tV w a b = if (a =? n - 1)%nat && (b <? n)%nat then if (b =? n - 1)%nat then 1 else 0 else tV z a b) /\
  (forall j, (j < n)%nat -> td w j = tV z (n - 1)%nat j) /\ (forall k, (0 < k)%nat -> te w k = te z k).
Proof.
  intros w. unfold w, tred_end. destruct (Nat.ltb_spec 0 n); [|lia].
  match goal with |- context [loop n ?F z] => set (y := loop n F z); assert (L : te y = te z /\ (forall a b, tV y a b = if (a =? n - 1)%nat && (b <? n)%nat then 0 else tV z a b) /\ (forall j, (j < n)%nat -> td y j = tV z (n - 1)%nat j)) end.
  { unfold y. apply (loop_inv (fun m (y : st) => te y = te z /\ (forall a b, tV y a b = if (a =? n - 1)%nat && (b <? m)%nat then 0 else tV z a b) /\ (forall j, (j < m)%nat -> td y j = tV z (n - 1)%nat j))).
    - split; [reflexivity|]. split; [intros; rewrite andb_false_r; reflexivity|lia].
    - intros k a Hk (H1 & H2 & H3). split; [exact H1|]. split.
      + intros x b. specialize (H2 x b). revert H2. clear. upd; intros HQ; auto.
      + intros j Hj. cbn [td setV setd]. unfold vset. destruct (Nat.eqb_spec j k) as [->|]; [|apply H3; lia]. rewrite H2, Nat.ltb_irrefl, andb_false_r. reflexivity. }
  clearbody y. destruct L as (L1 & L2 & L3). split; [|split].
  - intros a b. specialize (L2 a b). revert L2. clear - Hn. upd; intros HQ; auto.
  - exact L3.
  - intros k Hk. cbn [te sete setV]. unfold vset. destruct (Nat.eqb_spec k 0); [lia|]. rewrite L1. reflexivity.
Qed.
Lemma phase2 : let w := tred_end n (loop (n - 1) (fun i s => accumulate n i s) r) in
  (forall a j, (a < n)%nat -> (j < n)%nat -> tV w a j = Q (n - 1) (ev j) a) /\ (forall j, (j < n)%nat -> td w j = tV r j j) /\ (forall k, (0 < k)%nat -> te w k = te r k).
Proof.
  pose proof inv2_end as (I1 & I2 & I3 & I4 & I5 & I6 & I7 & I8). set (z := loop (n - 1) (fun i s => accumulate n i s) r) in *. clearbody z.
  destruct (end_spec z) as (E1 & E2 & E3). cbn zeta. split; [|split].
  - intros a j Ha Hj. rewrite E1. destruct (Nat.ltb_spec j n); [|lia]. rewrite andb_true_r.
    destruct (Nat.eqb_spec a (n - 1)) as [->|NA].
    + rewrite PR_high by (first [exact us_high|lia]). unfold ev. rewrite (Nat.eqb_sym j). reflexivity.
    + destruct (Nat.eq_dec j (n - 1)) as [->|].
      * rewrite (PR_low n (ucol r) (td r)); [|exact us_high|intros b Hb; unfold ev; destruct (Nat.eqb_spec b (n - 1)); [lia|reflexivity]]. unfold ev. destruct (Nat.eqb_spec a (n - 1)); [lia|]. apply I4. lia.
      * apply I1; lia.
  - intros j Hj. rewrite E2 by exact Hj. destruct (Nat.eq_dec j (n - 1)) as [->|]; [apply I5; lia|apply I6; lia].
  - intros k Hk. rewrite E3, I8 by exact Hk. reflexivity.
Qed.
End F.

Lemma dot_ev n i j : (i < n)%nat -> dot n (ev i) (ev j) = if (i =? j)%nat then 1 else 0.
Proof. intros Hi. unfold dot. rewrite (sum_one n i) by first [assumption|intros k _ NE; unfold ev; destruct (Nat.eqb_spec k i); [contradiction|ring]]. unfold ev. rewrite Nat.eqb_refl. ring. Qed.
Lemma bil_ev n M i j : (i < n)%nat -> (j < n)%nat -> bil n M (ev i) (ev j) = M i j.
Proof.
  intros Hi Hj. rewrite bil_dot. unfold dot. rewrite (sum_one n i) by first [assumption|intros k _ NE; unfold ev at 1; destruct (Nat.eqb_spec k i); [contradiction|ring]].
  rewrite (sum_one n j) by first [assumption|intros k _ NE; unfold ev; destruct (Nat.eqb_spec k j); [contradiction|ring]]. unfold ev. rewrite !Nat.eqb_refl. ring.
Qed.

(** tred2 on the lower triangle of a symmetric matrix *)
Lemma tred2_similar n (M d e : nat -> _) (S : nat -> nat -> R) : (forall a b, (a < n)%nat -> (b <= a)%nat -> M a b = S a b) -> (forall a b, (a < n)%nat -> (b < n)%nat -> S a b = S b a) ->
  let w := tred2 (A := real) sqrt n (mkT M d e) in
  (forall i j, (i < n)%nat -> (j < n)%nat -> sum n (fun a => tV w a i * tV w a j) = if (i =? j)%nat then 1 else 0) /\
  (forall i j, (i < n)%nat -> (j < n)%nat -> sum n (fun a => sum n (fun b => tV w a i * S a b * tV w b j)) =
     if (i =? j)%nat then td w i else if (i =? j + 1)%nat then te w i else if (j =? i + 1)%nat then te w j else 0).
Proof.
  intros ML SS w. destruct (le_lt_dec 1 n) as [Hn|Hn]; [|split; intros; lia].
  destruct (phase1 n (mkT M d e) Hn) as (P1 & P2 & P3). set (r := ph1 n (mkT M d e)) in *.
  destruct (phase2 n r Hn P2 P3) as (F1 & F2 & F3). change (tred_end n (loop (n - 1) (fun i s => accumulate n i s) r)) with w in F1, F2, F3. cbn zeta in F1, F2, F3. clearbody w. clearbody r.
  split.
  - intros i j Hi Hj. rewrite <- (dot_ev n i j Hi), <- (PR_dot n (ucol r) (td r) 1 (n - 1) (ev i) (ev j)) by (intros; apply P2; lia).
    unfold dot. apply sum_ext. intros a Ha. rewrite !F1 by assumption. reflexivity.
  - intros i j Hi Hj. transitivity (bil n (sy M) (PR n (ucol r) (td r) 1 (n - 1) (ev i)) (PR n (ucol r) (td r) 1 (n - 1) (ev j))).
    + unfold bil. apply sum_ext. intros a Ha. apply sum_ext. intros b Hb. rewrite !F1 by assumption. f_equal. f_equal.
      unfold sy. destruct (le_lt_dec b a); [rewrite Nat.max_l, Nat.min_r by lia; symmetry; apply ML; lia|rewrite Nat.max_r, Nat.min_l by lia; rewrite SS by assumption; symmetry; apply ML; lia].
    + change (sy M) with (sy (tV (mkT (A := real) M d e))). rewrite <- P1, bil_ev by assumption. unfold shape.
      destruct (Nat.eqb_spec i j) as [<-|NE].
      * rewrite Nat.max_id, Nat.min_id, Nat.eqb_refl, F2 by exact Hi. destruct (Nat.leb_spec i 0); reflexivity.
      * destruct (Nat.leb_spec (Nat.max i j) 0); [lia|]. destruct (Nat.eqb_spec (Nat.max i j) (Nat.min i j)); [lia|].
        destruct (le_lt_dec j i).
        -- rewrite Nat.max_l, Nat.min_r by lia. rewrite F3 by lia. destruct (Nat.eqb_spec i (j + 1)); [reflexivity|]. destruct (Nat.eqb_spec j (i + 1)); [lia|reflexivity].
        -- rewrite Nat.max_r, Nat.min_l by lia. rewrite (F3 j) by lia. destruct (Nat.eqb_spec i (j + 1)); [lia|]. reflexivity.
Qed.
