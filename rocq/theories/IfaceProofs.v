From Coq Require Import ZArith List Bool Lia.
From Verif Require Import Arr ArrProofs DimsModel IfaceModel.
Import ListNotations.
Open Scope Z_scope.

Section P.
Context {T : Type} (mul : T -> T -> T).
Implicit Types (l src dst : list T) (L : list (list T)).

Lemma copy_ok m src so dst o : 0 <= m -> 0 <= so -> so + m <= len src -> 0 <= o -> o + m <= len dst ->
  exists dst', copy m src so dst o = Some dst' /\ len dst' = len dst /\
    forall k, aget dst' k = if (o <=? k) && (k <? o + m) then aget src (so + (k - o)) else aget dst k.
Proof.
  intros Hm Hso Hs Ho Hd. unfold copy.
  destruct (for_rule (fun i x => len x = len dst /\ forall k, aget x k = if (o <=? k) && (k <? o + i) then aget src (so + (k - o)) else aget dst k)
    0 m (fun i dst => do v <- aget src (so + i); aput dst (o + i) v) dst) as (x & E & A); auto.
  - split; [reflexivity|]. intro k. destruct (Z.leb_spec o k); destruct (Z.ltb_spec k (o + 0)); cbn [andb]; try reflexivity; lia.
  - intros i x Hi (A & B). destruct (aget_in src (so + i)) as (a & Ea); [lia|]. rewrite Ea; cbn [obind].
    destruct (aput_ok x (o + i) a) as (x' & E' & L' & G'); [lia|]. exists x'. split; [exact E'|]. split; [lia|]. intro k. rewrite G', B.
    destruct (Z.eqb_spec k (o + i)).
    + subst k. rewrite (proj2 (Z.leb_le _ _)) by lia. rewrite (proj2 (Z.ltb_lt _ _)) by lia. cbn [andb]. rewrite <- Ea. f_equal; lia.
    + destruct (Z.leb_spec o k); cbn [andb]; [|reflexivity]. destruct (Z.ltb_spec k (o + i)); destruct (Z.ltb_spec k (o + (i + 1))); try lia; reflexivity.
  - exists x; auto.
Qed.
Lemma mask_ok m mask l : 0 <= m -> m <= len mask -> m <= len l ->
  exists l', mask_mul mul m mask l = Some l' /\ len l' = len l /\
    forall k, aget l' k = if (0 <=? k) && (k <? m) then (do a <- aget mask k; do b <- aget l k; Some (mul a b)) else aget l k.
Proof.
  intros Hm Hk Hl. unfold mask_mul.
  destruct (for_rule (fun i x => len x = len l /\ forall k, aget x k = if (0 <=? k) && (k <? i) then (do a <- aget mask k; do b <- aget l k; Some (mul a b)) else aget l k)
    0 m (fun i l => do a <- aget mask i; do b <- aget l i; aput l i (mul a b)) l) as (x & E & A); auto.
  - split; [reflexivity|]. intro k. destruct (Z.leb_spec 0 k); destruct (Z.ltb_spec k 0); cbn [andb]; try reflexivity; lia.
  - intros i x Hi (A & B). destruct (aget_in mask i) as (a & Ea); [lia|]. rewrite Ea; cbn [obind].
    destruct (aget_in x i) as (b & Eb); [lia|]. rewrite Eb; cbn [obind].
    destruct (aput_ok x i (mul a b)) as (x' & E' & L' & G'); [lia|]. exists x'. split; [exact E'|]. split; [lia|]. intro k. rewrite G', B.
    destruct (Z.eqb_spec k i).
    + subst k. rewrite (proj2 (Z.leb_le _ _)) by lia. rewrite (proj2 (Z.ltb_lt _ _)) by lia. cbn [andb]. rewrite Ea; cbn [obind].
      rewrite B in Eb. rewrite (proj2 (Z.ltb_ge _ _)) in Eb by lia. rewrite andb_false_r in Eb. rewrite Eb; reflexivity.
    + destruct (Z.leb_spec 0 k); cbn [andb]; [|reflexivity]. destruct (Z.ltb_spec k i); destruct (Z.ltb_spec k (i + 1)); try lia; reflexivity.
  - exists x; auto.
Qed.

(** entry k of buffer st *)
Definition cell L st k : option T := do l <- aget L st; aget l k.
(** the same number of buffers, of the same lengths *)
Definition same_shape L L' : Prop := len L' = len L /\ forall st l', aget L' st = Some l' -> exists l, aget L st = Some l /\ len l' = len l.
Lemma same_shape_refl L : same_shape L L. Proof. split; eauto. Qed.
Lemma same_shape_trans L1 L2 L3 : same_shape L1 L2 -> same_shape L2 L3 -> same_shape L1 L3.
Proof. intros (A & B) (C & D). split; [lia|]. intros st l E. destruct (D _ _ E) as (l2 & E2 & F). destruct (B _ _ E2) as (l1 & E1 & G). exists l1; split; [auto|lia]. Qed.
Lemma shape_get L L' st l : same_shape L L' -> aget L st = Some l -> exists l', aget L' st = Some l' /\ len l' = len l.
Proof.
  intros (A & B) E. pose proof (aget_range _ _ _ E). destruct (aget_in L' st) as (l' & E'); [lia|]. destruct (B _ _ E') as (l2 & E2 & F).
  exists l'; split; [auto|]. congruence.
Qed.
Lemma aput_shape L st l l' L' : aget L st = Some l -> len l' = len l -> aput L st l' = Some L' -> same_shape L L' /\ forall s k, cell L' s k = if s =? st then aget l' k else cell L s k.
Proof.
  intros E F H. apply aput_inv in H. destruct H as (R & A & B). split.
  - split; [auto|]. intros s m M. rewrite B in M. destruct (Z.eqb_spec s st); [injection M as <-; subst; eauto|eauto].
  - intros s k. unfold cell. rewrite B. destruct (Z.eqb_spec s st); reflexivity.
Qed.

(** start of the part of stage st in the flat vector *)
Fixpoint start_nat (size : Z -> Z) (n : nat) : Z := match n with O => 0 | S n => start_nat size n + size (Z.of_nat n) end.
Definition start (size : Z -> Z) (st : Z) : Z := start_nat size (Z.to_nat st).
Lemma start_0 size : start size 0 = 0. Proof. reflexivity. Qed.
Lemma start_S size st : 0 <= st -> start size (st + 1) = start size st + size st.
Proof. intro H. unfold start. rewrite Z2Nat.inj_add by lia. change (Z.to_nat 1) with 1%nat. rewrite Nat.add_1_r. cbn [start_nat]. rewrite Z2Nat.id by lia. reflexivity. Qed.
Lemma start_mono size n : (forall st, 0 <= st < n -> 0 <= size st) -> forall a b, 0 <= a <= b -> b <= n -> start size a <= start size b.
Proof.
  intros H a b Hab Hb. replace b with (a + Z.of_nat (Z.to_nat (b - a))) in * by lia. generalize dependent (Z.to_nat (b - a)). intro k.
  induction k; intros; [rewrite Z.add_0_r; lia|]. replace (a + Z.of_nat (S k)) with (a + Z.of_nat k + 1) by lia. rewrite start_S by lia.
  pose proof (H (a + Z.of_nat k)). lia.
Qed.
Lemma start_find size n k : 0 <= n -> 0 <= k < start size n -> exists st, 0 <= st < n /\ start size st <= k < start size (st + 1).
Proof.
  intros Hn. pattern n. apply natlike_ind; auto; clear n Hn.
  - rewrite start_0; lia.
  - intros n Hn IH H. unfold Z.succ in *. destruct (Z_lt_dec k (start size n)).
    + destruct IH as (st & A & B); [lia|]. exists st; split; [lia|auto].
    + exists n. split; lia.
Qed.

Section Loop.
Variables (last : Z) (size off : Z -> option Z) (sz of : Z -> Z) (L : list (list T)).
Hypothesis last_pos : 0 <= last.
Hypothesis fits : forall st, 0 <= st < last -> size st = Some (sz st) /\ off st = Some (of st) /\ 0 <= sz st /\ 0 <= of st /\ exists l, aget L st = Some l /\ of st + sz st <= len l.

Lemma sz_pos : forall st, 0 <= st < last -> 0 <= sz st. Proof. intros st H. apply fits in H. tauto. Qed.
Lemma start_nonneg st : 0 <= st <= last -> 0 <= start sz st.
Proof. intro H. rewrite <- (start_0 sz). apply (start_mono sz last); [apply sz_pos|lia|lia]. Qed.
Lemma start_le a b : 0 <= a <= b -> b <= last -> start sz a <= start sz b. Proof. apply start_mono, sz_pos. Qed.

Lemma get_loop_ok value : start sz last <= len value ->
  exists value', get_loop last size off L value = Some value' /\ len value' = len value /\
    (forall st j, 0 <= st < last -> 0 <= j < sz st -> aget value' (start sz st + j) = cell L st (of st + j)) /\
    (forall k, ~ 0 <= k < start sz last -> aget value' k = aget value k).
Proof.
  intro Hv. unfold get_loop.
  destruct (for_rule (fun stage (r : list T * Z) => snd r = start sz stage /\ len (fst r) = len value /\
      (forall st j, 0 <= st < stage -> 0 <= j < sz st -> aget (fst r) (start sz st + j) = cell L st (of st + j)) /\
      (forall k, ~ 0 <= k < start sz stage -> aget (fst r) k = aget value k)) 0 last
    (fun stage '(value, tmp_offset) => do tmp_int <- size stage; do xi <- off stage; do vec <- aget L stage;
            do value <- copy tmp_int vec xi value tmp_offset; Some (value, tmp_offset + tmp_int)) (value, 0)) as ((v', o') & E & A); auto.
  - cbn [fst snd]. repeat split; auto. intros; lia.
  - intros stage (w, o) Hs (A1 & A2 & A3 & A4). cbn [fst snd] in *. destruct (fits stage Hs) as (S1 & S2 & S3 & S4 & l & S5 & S6).
    rewrite S1, S2, S5; cbn [obind]. pose proof (start_nonneg stage ltac:(lia)). pose proof (start_le (stage + 1) last ltac:(lia) ltac:(lia)) as Q. rewrite start_S in Q by lia.
    destruct (copy_ok (sz stage) l (of stage) w o) as (w' & E' & L' & G'); try lia. rewrite E'; cbn [obind].
    eexists; split; [reflexivity|]. cbn [fst snd]. rewrite start_S by lia. split; [lia|]. split; [lia|]. split.
    + intros st j Hst Hj. rewrite G'. destruct (Z.eq_dec st stage).
      * subst st. rewrite (proj2 (Z.leb_le _ _)), (proj2 (Z.ltb_lt _ _)) by lia. cbn [andb]. unfold cell. rewrite S5; cbn [obind]. f_equal; lia.
      * rewrite (proj2 (Z.leb_gt o (start sz st + j))); [cbn [andb]; apply A3; lia|].
        pose proof (start_le (st + 1) stage ltac:(lia) ltac:(lia)) as Q2. rewrite start_S in Q2 by lia. lia.
    + intros k Hk. rewrite G'. destruct (Z.leb_spec o k); cbn [andb]; [|apply A4; lia]. destruct (Z.ltb_spec k (o + sz stage)); [lia|apply A4; lia].
  - rewrite E; cbn [obind fst snd] in *. exists v'; tauto.
Qed.

Variables (post : Z -> Z -> list T -> option (list T)) (g : Z -> Z -> T -> option T).
(** the step after the copy changes entry k of the copied block of stage st from a to g st k a *)
Hypothesis post_ok : forall st l0 l, 0 <= st < last -> aget L st = Some l0 -> len l = len l0 -> exists l', post st (sz st) l = Some l' /\ len l' = len l /\
  forall k, aget l' k = if (of st <=? k) && (k <? of st + sz st) then (do a <- aget l k; g st k a) else aget l k.

Lemma set_loop_ok value : start sz last <= len value ->
  exists L', set_loop last size off post L value = Some L' /\ same_shape L L' /\
    forall st k, cell L' st k = if (0 <=? st) && (st <? last) && (of st <=? k) && (k <? of st + sz st) then (do a <- aget value (start sz st + (k - of st)); g st k a) else cell L st k.
Proof.
  intro Hv. unfold set_loop.
  destruct (for_rule (fun stage (r : list (list T) * Z) => snd r = start sz stage /\ same_shape L (fst r) /\
      (forall st k, cell (fst r) st k = if (0 <=? st) && (st <? stage) && (of st <=? k) && (k <? of st + sz st) then (do a <- aget value (start sz st + (k - of st)); g st k a) else cell L st k)) 0 last
    (fun stage '(L, tmp_offset) => do tmp_int <- size stage; do xi <- off stage; do vec <- aget L stage;
            do vec <- copy tmp_int value tmp_offset vec xi; do vec <- post stage tmp_int vec;
            do L <- aput L stage vec; Some (L, tmp_offset + tmp_int)) (L, 0)) as ((L', o') & E & A); auto.
  - cbn [fst snd]. split; [reflexivity|]. split; [apply same_shape_refl|]. intros st k. 
    destruct (Z.leb_spec 0 st); cbn [andb]; [|reflexivity]. rewrite (proj2 (Z.ltb_ge _ _)) by lia. reflexivity.
  - intros stage (M, o) Hs (A1 & A2 & A3). cbn [fst snd] in *. destruct (fits stage Hs) as (S1 & S2 & S3 & S4 & l & S5 & S6).
    destruct (shape_get _ _ _ _ A2 S5) as (m & M1 & M2).
    rewrite S1, S2, M1; cbn [obind]. pose proof (start_nonneg stage ltac:(lia)). pose proof (start_le (stage + 1) last ltac:(lia) ltac:(lia)) as Q. rewrite start_S in Q by lia.
    destruct (copy_ok (sz stage) value o m (of stage)) as (w & E' & L' & G'); try lia. rewrite E'; cbn [obind].
    destruct (post_ok stage l w Hs S5 ltac:(lia)) as (w' & E2 & L2 & G2). rewrite E2; cbn [obind].
    pose proof (aget_range _ _ _ M1) as R. destruct (aput_ok M stage w' R) as (M' & E3 & _). rewrite E3; cbn [obind].
    destruct (aput_shape M stage m w' M' M1 ltac:(lia) E3) as (B1 & B2).
    eexists; split; [reflexivity|]. cbn [fst snd]. rewrite start_S by lia. split; [lia|]. split; [eapply same_shape_trans; eauto|].
    intros st k. rewrite B2. destruct (Z.eqb_spec st stage).
    + subst st. rewrite (proj2 (Z.leb_le 0 _)), (proj2 (Z.ltb_lt stage _)) by lia. cbn [andb]. rewrite G2, G'.
      destruct (Z.leb_spec (of stage) k); destruct (Z.ltb_spec k (of stage + sz stage)); cbn [andb]; try (subst o; reflexivity);
      specialize (A3 stage k); unfold cell in A3 at 1; rewrite M1 in A3; cbn [obind] in A3; rewrite A3; rewrite Z.ltb_irrefl, andb_false_r; reflexivity.
    + rewrite A3. destruct (Z.leb_spec 0 st); cbn [andb]; [|reflexivity]. destruct (Z.ltb_spec st stage); destruct (Z.ltb_spec st (stage + 1)); try lia; reflexivity.
  - rewrite E; cbn [obind fst snd] in *. exists L'; tauto.
Qed.
End Loop.
End P.
