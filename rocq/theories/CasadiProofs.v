From Coq Require Import ZArith List Bool Lia FinFun.
From Verif Require Import Arr ArrProofs CasadiModel CasadiSpec.
Import ListNotations.
Open Scope Z_scope.

(** ** reading the int array *)
Lemma len_app {T} (l m : list T) : len (l ++ m) = len l + len m. Proof. unfold len; rewrite app_length; lia. Qed.
Lemma len_cons {T} (x : T) l : len (x :: l) = 1 + len l. Proof. unfold len; cbn [length]; lia. Qed.
Lemma len_nonneg {T} (l : list T) : 0 <= len l. Proof. unfold len; lia. Qed.
Lemma len_map {S T} (f : S -> T) l : len (map f l) = len l. Proof. unfold len; now rewrite map_length. Qed.
Lemma aget_app1 {T} (l m : list T) i : i < len l -> aget (l ++ m) i = aget l i.
Proof. unfold len, aget; intro H. destruct (Z.leb_spec 0 i); [|reflexivity]. apply nth_error_app1; lia. Qed.
Lemma aget_app2 {T} (l m : list T) i : len l <= i -> aget (l ++ m) i = aget m (i - len l).
Proof.
  unfold len, aget; intro H. destruct (Z.leb_spec 0 i); [|lia]. rewrite (proj2 (Z.leb_le _ _)) by lia.
  rewrite nth_error_app2 by lia. f_equal; lia.
Qed.
Lemma aget_cons {T} (x : T) l i : 0 < i -> aget (x :: l) i = aget l (i - 1).
Proof. intro H. change (x :: l) with ([x] ++ l). rewrite aget_app2 by (cbn; lia). reflexivity. Qed.
Lemma aget_map {S T} (f : S -> T) l i : aget (map f l) i = option_map f (aget l i).
Proof. unfold aget. destruct (0 <=? i); [apply nth_error_map|reflexivity]. Qed.

Lemma colind_len a P : len (colind a P) = len P + 1.
Proof. revert a; induction P as [|c r IH]; intro a; cbn [colind]; rewrite ?len_cons; [reflexivity|]. rewrite IH; lia. Qed.
(** column j occupies positions colind j .. colind (j+1) *)
Lemma column P : forall a j0 j c, aget P j = Some c -> exists p,
  aget (colind a P) j = Some p /\ aget (colind a P) (j + 1) = Some (p + len c) /\ a <= p /\
  p + len c <= a + len (concat P) /\
  (forall r, 0 <= r < len c -> aget (entries_from j0 P) (p - a + r) = option_map (fun i => (i, j0 + j)) (aget c r) /\ aget (concat P) (p - a + r) = aget c r).
Proof.
  induction P as [|x P IH]; intros a j0 j c H; [destruct (aget_range _ _ _ H) as [A B]; cbn in B; lia|].
  pose proof (aget_range _ _ _ H) as R. cbn [colind entries_from concat].
  destruct (Z.eq_dec j 0) as [->|N].
  - cbn in H; injection H as ->. exists a. split; [reflexivity|]. split.
    { rewrite aget_cons by lia. replace (0 + 1 - 1) with 0 by lia. destruct P; reflexivity. }
    split; [lia|]. split; [rewrite len_app; pose proof (len_nonneg (concat P)); lia|]. intros r Hr. replace (a - a + r) with r by lia.
    rewrite !aget_app1 by (rewrite ?len_map; lia). rewrite aget_map. replace (j0 + 0) with j0 by lia. split; reflexivity.
  - rewrite aget_cons in H by lia. destruct (IH (a + len x) (j0 + 1) (j - 1) c H) as (p & A & B & L & U & C).
    exists p. rewrite !aget_cons by lia. split; [exact A|]. split; [replace (j + 1 - 1) with (j - 1 + 1) by lia; exact B|].
    pose proof (len_nonneg x). split; [lia|]. split; [rewrite len_app; lia|]. intros r Hr. destruct (C r Hr) as [C1 C2].
    rewrite !aget_app2 by (rewrite ?len_map; lia). rewrite len_map.
    replace (p - a + r - len x) with (p - (a + len x) + r) by lia. rewrite C1, C2. replace (j0 + 1 + (j - 1)) with (j0 + j) by lia. split; reflexivity.
Qed.
Lemma entries_len P : forall j0, len (entries_from j0 P) = len (concat P).
Proof. induction P as [|c P IH]; intro j0; cbn [entries_from concat]; [reflexivity|]. rewrite !len_app, len_map, IH; lia. Qed.
Lemma colind_bounds P : forall a j p, aget (colind a P) j = Some p -> a <= p <= a + len (concat P).
Proof.
  induction P as [|c P IH]; intros a j p H; cbn [colind concat] in *.
  - destruct (Z.eq_dec j 0) as [->|N]; [cbn in H; injection H as ->; cbn; lia|].
    pose proof (aget_range _ _ _ H) as R. cbn in R. lia.
  - pose proof (aget_range _ _ _ H) as R. rewrite len_app. pose proof (len_nonneg c); pose proof (len_nonneg (concat P)).
    destruct (Z.eq_dec j 0) as [->|N]; [cbn in H; injection H as ->; lia|].
    rewrite aget_cons in H by lia. apply IH in H; lia.
Qed.

Lemma entries_in P : forall j0 i j, In (i, j) (entries_from j0 P) -> j0 <= j < j0 + len P /\ exists c, In c P /\ In i c.
Proof.
  induction P as [|c P IH]; intros j0 i j H; cbn [entries_from] in H; [easy|].
  rewrite len_cons. pose proof (len_nonneg P). apply in_app_or in H as [H|H].
  - apply in_map_iff in H as (r & E & H). injection E as <- <-. split; [lia|]. exists c; split; [now left|auto].
  - apply IH in H as (A & d & B & C). split; [lia|]. exists d; split; [now right|auto].
Qed.
Lemma nodup_app {T} (l m : list T) : NoDup l -> NoDup m -> (forall x, In x l -> In x m -> False) -> NoDup (l ++ m).
Proof.
  induction 1 as [|x l Nx Nl IH]; intros M D; cbn [app]; [exact M|]. constructor.
  - intro B. apply in_app_or in B as [B|B]; [tauto|]. apply (D x); [now left|auto].
  - apply IH; [auto|]. intros y A B. apply (D y); [now right|auto].
Qed.
Lemma colind_last P : forall a, aget (colind a P) (len P) = Some (a + len (concat P)).
Proof.
  induction P as [|c P IH]; intro a; cbn [colind concat]; [cbn; f_equal; lia|].
  rewrite len_cons. pose proof (len_nonneg P). rewrite aget_cons by lia. replace (1 + len P - 1) with (len P) by lia.
  rewrite IH, len_app. f_equal; lia.
Qed.
Lemma entries_nodup nrow P : pattern_ok nrow P -> forall j0, NoDup (entries_from j0 P).
Proof.
  induction 1 as [|c P [N F] H IH]; intro j0; cbn [entries_from]; [constructor|].
  assert (NoDup (map (fun i => (i, j0)) c)) as M.
  { clear - N. induction N as [|x l Nx Nl IH]; cbn [map]; constructor; auto.
    intro B. apply in_map_iff in B as (y & E & B). injection E as ->. auto. }
  apply nodup_app; auto. intros (i, j) A B. apply in_map_iff in A as (y & E & A). injection E as -> <-. apply entries_in in B; lia.
Qed.
Lemma entries_block nrow P i j : pattern_ok nrow P -> In (i, j) (entries P) -> 0 <= i < nrow /\ 0 <= j < len P.
Proof.
  intros H B. apply entries_in in B as (A & c & C & D). split; [|lia].
  unfold pattern_ok in H; rewrite Forall_forall in H. destruct (H c C) as [_ F]. rewrite Forall_forall in F; auto.
Qed.
Lemma nodup_aget {T} (l : list T) a b x : NoDup l -> aget l a = Some x -> aget l b = Some x -> a = b.
Proof.
  intros N A B. pose proof (aget_range _ _ _ A); pose proof (aget_range _ _ _ B). unfold aget in *.
  rewrite (proj2 (Z.leb_le 0 a)) in A by lia. rewrite (proj2 (Z.leb_le 0 b)) in B by lia. rewrite NoDup_nth_error in N.
  enough (Z.to_nat a = Z.to_nat b) by lia. apply N; [unfold len in *; lia|congruence].
Qed.
Lemma in_aget {T} (l : list T) x : In x l <-> exists k, aget l k = Some x.
Proof.
  split.
  - intro H. apply In_nth_error in H as (n & H). exists (Z.of_nat n). now rewrite aget_nat.
  - intros (k & H). unfold aget in H. destruct (0 <=? k); [|discriminate]. eapply nth_error_In; eauto.
Qed.

(** ** filling a block *)
Section Block.
Variable T : Type.
Variable zero : T.
Variables (acc : access) (loc : Z -> Z -> Z) (nrow ncol : Z) (size : Z).
Hypothesis Hacc : forall i j, 0 <= i < nrow -> 0 <= j < ncol -> acc i j = Some (loc i j) /\ 0 <= loc i j < size.
Hypothesis Hinj : forall i j i' j', 0 <= i < nrow -> 0 <= j < ncol -> 0 <= i' < nrow -> 0 <= j' < ncol -> loc i j = loc i' j' -> i = i' /\ j = j'.
Hypothesis Hn : 0 <= nrow. Hypothesis Hc : 0 <= ncol.

(** the block of [o'] holds g, everything else is as in [o] *)
Definition block_is (g : Z -> Z -> option T) (o o' : list T) : Prop :=
  len o' = len o /\ (forall i j, 0 <= i < nrow -> 0 <= j < ncol -> aget o' (loc i j) = g i j) /\
  (forall a, (forall i j, 0 <= i < nrow -> 0 <= j < ncol -> a <> loc i j) -> aget o' a = aget o a).

(** any double loop that stores g(i,j) at (i,j), columns outermost *)
Lemma store_cols (g : Z -> Z -> T) (f : Z -> Z -> list T -> option (list T)) o :
  size <= len o ->
  (forall i j l, 0 <= i < nrow -> 0 <= j < ncol -> f j i l = aput l (loc i j) (g i j)) ->
  exists o', for_ 0 ncol (fun jj l => for_ 0 nrow (f jj) l) o = Some o' /\ block_is (fun i j => Some (g i j)) o o'.
Proof.
  intros Hs Hf.
  destruct (for_rule (fun jj l => len l = len o /\
     (forall i j, 0 <= i < nrow -> 0 <= j < jj -> aget l (loc i j) = Some (g i j)) /\
     (forall a, (forall i j, 0 <= i < nrow -> 0 <= j < jj -> a <> loc i j) -> aget l a = aget o a)) 0 ncol
     (fun jj l => for_ 0 nrow (f jj) l) o) as (o' & E & A & B & C).
  - lia.
  - split; [reflexivity|]. split; [lia|auto].
  - intros jj l Hj (L & V & U).
    destruct (for_rule (fun ii m => len m = len o /\
      (forall i j, 0 <= i < nrow -> 0 <= j < ncol -> (j < jj \/ (j = jj /\ i < ii)) -> aget m (loc i j) = Some (g i j)) /\
      (forall a, (forall i j, 0 <= i < nrow -> 0 <= j < ncol -> (j < jj \/ (j = jj /\ i < ii)) -> a <> loc i j) -> aget m a = aget o a)) 0 nrow (f jj) l)
      as (m & E & A & B & C).
    + lia.
    + split; [auto|]. split; [intros i j Hi Hj' [D|D]; [apply V; lia|lia]|].
      intros a Ha. apply U. intros i j Hi Hj'. apply Ha; [lia|lia|left; lia].
    + intros ii m Hi (L' & V' & U'). rewrite Hf by lia. destruct (Hacc ii jj) as [_ R]; [lia|lia|].
      destruct (aput_ok m (loc ii jj) (g ii jj)) as (m' & E & L2 & G); [lia|]. exists m'. split; [exact E|].
      split; [lia|]. split.
      * intros i j Hi' Hj' D. rewrite G. destruct (Z.eqb_spec (loc i j) (loc ii jj)) as [Q|Q].
        -- apply Hinj in Q as [-> ->]; [reflexivity|lia|lia|lia|lia].
        -- apply V'; [lia|lia|]. destruct D as [D|[-> D]]; [left; lia|]. right; split; [reflexivity|].
           destruct (Z.eq_dec i ii) as [->|]; [congruence|lia].
      * intros a Ha. rewrite G. destruct (Z.eqb_spec a (loc ii jj)) as [->|Q].
        -- exfalso. apply (Ha ii jj); [lia|lia|right; lia|reflexivity].
        -- apply U'. intros i j Hi' Hj' D. apply Ha; [lia|lia|]. lia.
    + exists m. split; [exact E|]. split; [exact A|]. split.
      * intros i j Hi Hj'. apply B; lia.
      * intros a Ha. apply C. intros i j Hi Hj' D. apply Ha; lia.
  - exists o'. split; [exact E|]. split; [exact A|]. split; auto.
Qed.
(** and with rows outermost *)
Lemma store_rows (g : Z -> Z -> T) (f : Z -> Z -> list T -> option (list T)) o :
  size <= len o ->
  (forall i j l, 0 <= i < nrow -> 0 <= j < ncol -> f i j l = aput l (loc i j) (g i j)) ->
  exists o', for_ 0 nrow (fun ii l => for_ 0 ncol (f ii) l) o = Some o' /\ block_is (fun i j => Some (g i j)) o o'.
Proof.
  intros Hs Hf.
  destruct (for_rule (fun ii l => len l = len o /\
     (forall i j, 0 <= i < ii -> 0 <= j < ncol -> aget l (loc i j) = Some (g i j)) /\
     (forall a, (forall i j, 0 <= i < ii -> 0 <= j < ncol -> a <> loc i j) -> aget l a = aget o a)) 0 nrow
     (fun ii l => for_ 0 ncol (f ii) l) o) as (o' & E & A & B & C).
  - lia.
  - split; [reflexivity|]. split; [lia|auto].
  - intros ii l Hi (L & V & U).
    destruct (for_rule (fun jj m => len m = len o /\
      (forall i j, 0 <= i < nrow -> 0 <= j < ncol -> (i < ii \/ (i = ii /\ j < jj)) -> aget m (loc i j) = Some (g i j)) /\
      (forall a, (forall i j, 0 <= i < nrow -> 0 <= j < ncol -> (i < ii \/ (i = ii /\ j < jj)) -> a <> loc i j) -> aget m a = aget o a)) 0 ncol (f ii) l)
      as (m & E & A & B & C).
    + lia.
    + split; [auto|]. split; [intros i j Hi' Hj' [D|D]; [apply V; lia|lia]|].
      intros a Ha. apply U. intros i j Hi' Hj'. apply Ha; [lia|lia|left; lia].
    + intros jj m Hj (L' & V' & U'). rewrite Hf by lia. destruct (Hacc ii jj) as [_ R]; [lia|lia|].
      destruct (aput_ok m (loc ii jj) (g ii jj)) as (m' & E & L2 & G); [lia|]. exists m'. split; [exact E|].
      split; [lia|]. split.
      * intros i j Hi' Hj' D. rewrite G. destruct (Z.eqb_spec (loc i j) (loc ii jj)) as [Q|Q].
        -- apply Hinj in Q as [-> ->]; [reflexivity|lia|lia|lia|lia].
        -- apply V'; [lia|lia|]. destruct D as [D|[-> D]]; [left; lia|]. right; split; [reflexivity|].
           destruct (Z.eq_dec j jj) as [->|]; [congruence|lia].
      * intros a Ha. rewrite G. destruct (Z.eqb_spec a (loc ii jj)) as [->|Q].
        -- exfalso. apply (Ha ii jj); [lia|lia|right; lia|reflexivity].
        -- apply U'. intros i j Hi' Hj' D. apply Ha; [lia|lia|]. lia.
    + exists m. split; [exact E|]. split; [exact A|]. split.
      * intros i j Hi' Hj'. apply B; lia.
      * intros a Ha. apply C. intros i j Hi' Hj' D. apply Ha; lia.
  - exists o'. split; [exact E|]. split; [exact A|]. split; auto.
Qed.

(** ** the loops over the nonzeros, for an array in compressed column form *)
Variable P : pattern.
Hypothesis HP : pattern_ok nrow P.
Hypothesis HPn : len P = ncol.
Let s := nrow :: len P :: colind 0 P ++ concat P.
Lemma s_col j : 0 <= j <= ncol -> aget s (2 + j) = aget (colind 0 P) j.
Proof.
  intro H. unfold s. rewrite !aget_cons by lia. replace (2 + j - 1 - 1) with j by lia.
  apply aget_app1. rewrite colind_len; lia.
Qed.
Lemma s_row k : 0 <= k -> aget s (ncol + 3 + k) = aget (concat P) k.
Proof.
  intro H. unfold s. rewrite !aget_cons by lia. rewrite aget_app2 by (rewrite colind_len; lia). rewrite colind_len. f_equal; lia.
Qed.
(** a loop over the nonzeros in storage order *)
Lemma nonzeros {S} (I : Z -> S -> Prop) (f : Z -> Z -> S * Z -> option (S * Z)) (st : S) :
  I 0 st ->
  (forall k i j st, aget (entries P) k = Some (i, j) -> I k st -> exists st', 
     (aget s (ncol + 3 + k) = Some i -> f j k (st, k) = Some (st', k + 1)) /\ I (k + 1) st') ->
  exists st', (do r <- for_ 0 ncol (fun jj '(o, ptr) =>
      do a <- aget s (2 + jj); do b <- aget s (2 + jj + 1); if b <? a then None else for_ a b (f jj) (o, ptr)) (st, 0); Some (fst r)) = Some st'
    /\ I (len (entries P)) st'.
Proof.
  intros H0 Hf.
  destruct (for_rule (fun jj (x : S * Z) => aget (colind 0 P) jj = Some (snd x) /\ I (snd x) (fst x)) 0 ncol (fun jj '(o, ptr) =>
      do a <- aget s (2 + jj); do b <- aget s (2 + jj + 1); if b <? a then None else for_ a b (f jj) (o, ptr)) (st, 0)) as ((st1 & p) & E & C & H1).
  - lia.
  - split; [destruct P; reflexivity|exact H0].
  - intros jj (o, ptr) Hj (C & H1). cbn [fst snd] in *.
    destruct (aget_in P jj) as (c & Ec); [lia|]. destruct (column P 0 0 jj c Ec) as (p & A & B & L & U & R).
    rewrite C in A; injection A as <-. rewrite s_col by lia. rewrite C. cbn [obind].
    replace (2 + jj + 1) with (2 + (jj + 1)) by lia. rewrite s_col by lia. rewrite B. cbn [obind].
    pose proof (len_nonneg c). destruct (Z.ltb_spec (ptr + len c) ptr); [lia|].
    destruct (for_rule (fun idx (x : S * Z) => snd x = idx /\ I idx (fst x)) ptr (ptr + len c) (f jj) (o, ptr)) as ((o1 & p1) & E1 & Q & HH2).
    + lia.
    + auto.
    + intros idx (m, k) Hi (<- & H3). cbn [fst snd] in *. destruct (R (k - ptr)) as [R1 R2]; [lia|].
      destruct (aget_in c (k - ptr)) as (i & Ei); [lia|]. rewrite Ei in R1, R2. cbn [option_map] in R1.
      replace (ptr - 0 + (k - ptr)) with k in R1, R2 by lia. replace (0 + jj) with jj in R1 by lia.
      destruct (Hf k i jj m R1 H3) as (m' & F & H4). exists (m', k + 1). split; [apply F; rewrite s_row by lia; exact R2|]. auto.
    + cbn [fst snd] in *. subst p1. exists (o1, ptr + len c). auto.
  - rewrite E. cbn [obind fst snd] in *. exists st1. split; [reflexivity|].
    replace (len (entries P)) with p; [exact H1|]. unfold entries. rewrite entries_len.
    rewrite <- HPn, colind_last in C. injection C as <-. lia.
Qed.

Lemma scatter_ok inp o o1 : len inp = len (entries P) -> size <= len o -> block_is (fun _ _ => Some zero) o o1 ->
  exists o', scatter acc s ncol inp o1 = Some o' /\ unpacked zero loc nrow P inp o o'.
Proof.
  intros Hi Hs (L & V & U). unfold scatter.
  destruct (nonzeros (fun p m => len m = len o /\
     (forall k i j, 0 <= k < p -> aget (entries P) k = Some (i, j) -> aget m (loc i j) = aget inp k) /\
     (forall i j, 0 <= i < nrow -> 0 <= j < len P -> (forall k, 0 <= k < p -> aget (entries P) k <> Some (i, j)) -> aget m (loc i j) = Some zero) /\
     (forall a, (forall i j, 0 <= i < nrow -> 0 <= j < len P -> a <> loc i j) -> aget m a = aget o a))
     (fun jj idx '(out, ptr) => do r <- aget s (ncol + 3 + idx); do v <- aget inp ptr; do c <- acc r jj; do out <- aput out c v; Some (out, ptr + 1)) o1)
     as (o' & E & A & B & C & D).
  - split; [auto|]. split; [lia|]. split; [intros; apply V; lia|]. intros a Ha. apply U. intros; apply Ha; lia.
  - intros k i j m Hk (L1 & V1 & Z1 & U1).
    assert (0 <= k < len (entries P)) as Rk by (eapply aget_range; eauto).
    destruct (aget_in inp k) as (v & Ev); [lia|].
    destruct (entries_block nrow P i j HP) as [Bi Bj]; [apply in_aget; eauto|].
    destruct (Hacc i j) as [Ea R]; [lia|lia|].
    destruct (aput_ok m (loc i j) v) as (m' & E & L2 & G); [lia|]. exists m'. split.
    + intro Er. rewrite Er. cbn [obind]. rewrite Ev. cbn [obind]. rewrite Ea. cbn [obind]. rewrite E. reflexivity.
    + split; [lia|]. split; [|split].
      * intros k' i' j' Hk' Ek'. rewrite G. destruct (entries_block nrow P i' j' HP) as [Bi' Bj']; [apply in_aget; eauto|].
        destruct (Z.eqb_spec (loc i' j') (loc i j)) as [Q|Q].
        -- apply Hinj in Q as [-> ->]; try lia. replace k' with k; [auto|].
           apply (nodup_aget (entries P) k k' (i, j)); auto. apply (entries_nodup nrow); exact HP.
        -- apply (V1 k'); auto. destruct (Z.eq_dec k' k) as [->|]; [|lia]. congruence.
      * intros i' j' Bi' Bj' N. rewrite G. destruct (Z.eqb_spec (loc i' j') (loc i j)) as [Q|Q].
        -- apply Hinj in Q as [-> ->]; try lia. exfalso. apply (N k); [lia|auto].
        -- apply Z1; auto. intros k' Hk'. apply N. lia.
      * intros a Ha. rewrite G. destruct (Z.eqb_spec a (loc i j)) as [->|Q]; [exfalso; apply (Ha i j); auto|]. apply U1; auto.
  - exists o'. split; [exact E|]. split; [exact A|]. split; [|split].
    + intros k i j Ek. apply B; auto. eapply aget_range; eauto.
    + intros i j Bi Bj N. apply C; auto. intros k Hk Q. apply N. apply in_aget; eauto.
    + exact D.
Qed.
Lemma gather_ok (inp o : list T) : len (entries P) <= len o -> size <= len inp ->
  exists o', gather acc s ncol inp o = Some o' /\ packed loc P inp o o'.
Proof.
  intros Hi Hs. unfold gather.
  destruct (nonzeros (fun p m => len m = len o /\
     (forall k i j, 0 <= k < p -> aget (entries P) k = Some (i, j) -> aget m k = aget inp (loc i j)) /\
     (forall k, p <= k -> aget m k = aget o k))
     (fun jj idx '(out, ptr) => do r <- aget s (ncol + 3 + idx); do c <- acc r jj; do v <- aget inp c; do out <- aput out ptr v; Some (out, ptr + 1)) o)
     as (o' & E & A & B & C).
  - split; [auto|]. split; [lia|]. auto.
  - intros k i j m Hk (L1 & V1 & U1).
    assert (0 <= k < len (entries P)) as Rk by (eapply aget_range; eauto).
    destruct (entries_block nrow P i j HP) as [Bi Bj]; [apply in_aget; eauto|].
    destruct (Hacc i j) as [Ea R]; [lia|lia|]. destruct (aget_in inp (loc i j)) as (v & Ev); [lia|].
    destruct (aput_ok m k v) as (m' & E & L2 & G); [lia|]. exists m'. split.
    + intro Er. rewrite Er. cbn [obind]. rewrite Ea. cbn [obind]. rewrite Ev. cbn [obind]. rewrite E. reflexivity.
    + split; [lia|]. split.
      * intros k' i' j' Hk' Ek'. rewrite G. destruct (Z.eqb_spec k' k) as [->|Q]; [congruence|]. apply (V1 k'); auto; lia.
      * intros k' Hk'. rewrite G. destruct (Z.eqb_spec k' k); [lia|]. apply U1; lia.
  - exists o'. split; [exact E|]. split; [exact A|]. split; [|exact C].
    intros k i j Ek. apply B; auto. eapply aget_range; eauto.
Qed.
End Block.

(** ** the dense pattern *)
Lemma rows_len n : 0 <= n -> len (rows n) = n. Proof. intro H. unfold rows. rewrite len_map. unfold len. rewrite seq_length. lia. Qed.
Lemma rows_get n r : 0 <= r < n -> aget (rows n) r = Some r.
Proof.
  intro H. unfold rows. rewrite aget_map. unfold aget. rewrite (proj2 (Z.leb_le _ _)) by lia.
  replace (nth_error (seq 0 (Z.to_nat n)) (Z.to_nat r)) with (Some (Z.to_nat r)); [cbn [option_map]; f_equal; lia|].
  symmetry. replace (Some (Z.to_nat r)) with (Some (nth (Z.to_nat r) (seq 0 (Z.to_nat n)) 0%nat)).
  - apply nth_error_nth'. rewrite seq_length; lia.
  - rewrite seq_nth by lia. reflexivity.
Qed.
Lemma is_rows n c : 0 <= n -> (c = rows n <-> len c = n /\ forall r, 0 <= r < n -> aget c r = Some r).
Proof.
  intro Hn. split.
  - intros ->. split; [now apply rows_len|]. intros r Hr. now apply rows_get.
  - intros [L H]. apply aget_ext. intro i. assert (0 <= i < n \/ ~ 0 <= i < n) as [R|R] by lia.
    + rewrite H, rows_get by lia. reflexivity.
    + rewrite !(proj2 (aget_none _ _)); auto; [rewrite rows_len; lia|lia].
Qed.
Lemma is_full nrow P : P = full nrow (length P) <-> forall j c, aget P j = Some c -> c = rows nrow.
Proof.
  unfold full. split.
  - intros E j c H. assert (In c P) as B by (apply in_aget; eauto). rewrite E in B. apply repeat_spec in B; auto.
  - intro H. assert (forall c, In c P -> c = rows nrow) as B by (intros c A; apply in_aget in A as (k & A); eauto).
    clear H. induction P as [|x P IH]; [reflexivity|]. cbn [length repeat]. f_equal; [apply B; now left|]. apply IH. intros; apply B; now right.
Qed.
Lemma full_ok nrow n : 0 <= nrow -> pattern_ok nrow (full nrow n).
Proof.
  intro Hn. apply Forall_forall. intros c H. apply repeat_spec in H as ->. split.
  - unfold rows. apply FinFun.Injective_map_NoDup; [intros x y; lia|apply seq_NoDup].
  - apply Forall_forall. intros i H. apply in_aget in H as (k & H). pose proof (aget_range _ _ _ H) as R. rewrite rows_len in R by lia.
    rewrite rows_get in H by lia. injection H as <-; lia.
Qed.
Lemma full_len nrow n : len (full nrow n) = Z.of_nat n. Proof. unfold len, full. now rewrite repeat_length. Qed.
Lemma full_concat nrow n : 0 <= nrow -> len (concat (full nrow n)) = nrow * Z.of_nat n.
Proof.
  intro H. unfold full. induction n as [|n IH]; cbn [repeat concat]; [cbn; lia|]. rewrite len_app, IH, rows_len by lia. lia.
Qed.
Lemma full_at nrow n : 0 <= nrow -> forall j0 i j, 0 <= i < nrow -> 0 <= j < Z.of_nat n ->
  aget (entries_from j0 (full nrow n)) (i + j * nrow) = Some (i, j0 + j).
Proof.
  intro H. unfold full. induction n as [|n IH]; intros j0 i j Hi Hj; [lia|]. cbn [repeat entries_from].
  destruct (Z.eq_dec j 0) as [->|N].
  - rewrite aget_app1 by (rewrite len_map, rows_len; lia). rewrite aget_map. replace (i + 0 * nrow) with i by lia. rewrite rows_get by lia.
    cbn [option_map]. do 2 f_equal. lia.
  - rewrite aget_app2 by (rewrite len_map, rows_len; nia). rewrite len_map, rows_len by lia.
    replace (i + j * nrow - nrow) with (i + (j - 1) * nrow) by lia. rewrite IH by lia. do 2 f_equal. lia.
Qed.
Lemma full_entries nrow n k i j : 0 <= nrow -> aget (entries (full nrow n)) k = Some (i, j) ->
  k = i + j * nrow /\ 0 <= i < nrow /\ 0 <= j < Z.of_nat n.
Proof.
  intros H E. destruct (entries_block nrow (full nrow n) i j) as [Bi Bj]; [now apply full_ok|apply in_aget; eauto|].
  rewrite full_len in Bj. split; [|auto]. apply (nodup_aget (entries (full nrow n)) k _ (i, j)); [|exact E|].
  - apply (entries_nodup nrow). now apply full_ok.
  - unfold entries. rewrite full_at by lia. reflexivity.
Qed.
Lemma full_in nrow n i j : 0 <= i < nrow -> 0 <= j < Z.of_nat n -> In (i, j) (entries (full nrow n)).
Proof. intros Hi Hj. apply in_aget. exists (i + j * nrow). unfold entries. rewrite full_at by lia. reflexivity. Qed.

(** ** the density test *)
Lemma is_dense_ok s nrow P : describes s nrow P -> 0 < nrow -> 0 < len P ->
  exists d, casadi_is_dense s = Some d /\ (d = true <-> P = full nrow (length P)).
Proof.
  intros D Hn Hp. destruct D as [->|[-> E]].
  - set (ncol := len P) in *. unfold casadi_is_dense.
    change (aget (nrow :: ncol :: colind 0 P ++ concat P) 0) with (Some nrow).
    change (aget (nrow :: ncol :: colind 0 P ++ concat P) 1) with (Some ncol). cbn [obind].
    replace (aget (nrow :: ncol :: colind 0 P ++ concat P) 2) with (Some 0) by (destruct P; reflexivity). cbn [obind].
    destruct (Z.leb_spec nrow 0); [lia|]. destruct (Z.leb_spec ncol 0); [lia|]. cbn [orb negb Z.eqb].
    pose proof (s_col nrow ncol P eq_refl) as Sc. assert (forall k, 0 <= k -> aget (nrow :: len P :: colind 0 P ++ concat P) (ncol + 3 + k) = aget (concat P) k) as Sr by (apply s_row; [lia|reflexivity]). fold ncol in Sc, Sr.
    set (s := nrow :: ncol :: colind 0 P ++ concat P) in *. clearbody s.
    match goal with |- exists d, for_ 0 ncol ?f true = _ /\ _ =>
      destruct (for_rule (fun jj ok => (ok = true -> aget (colind 0 P) jj = Some (jj * nrow)) /\
        (ok = true <-> forall j c, j < jj -> aget P j = Some c -> c = rows nrow)) 0 ncol f true) as (d & E & A & B) end.
    + lia.
    + split; [intros _; destruct P; reflexivity|]. split; [|auto]. intros _ j c Hj Hc. apply aget_range in Hc; lia.
    + intros jj ok Hj (A & B). destruct ok.
      * specialize (A eq_refl). pose proof (proj1 B eq_refl) as B'. clear B. destruct (aget_in P jj) as (c & Ec); [unfold ncol in *; lia|].
        destruct (column P 0 0 jj c Ec) as (p & C1 & C2 & L & U & R). rewrite A in C1; injection C1 as <-.
        replace (2 + jj + 1) with (2 + (jj + 1)) by lia. rewrite !Sc by lia. rewrite A, C2. cbn [obind].
        replace (jj * nrow + len c - jj * nrow) with (len c) by lia.
        destruct (Z.eqb_spec (len c) nrow) as [Lc|Lc]; cbn [negb].
        -- destruct (for_rule (fun idx ok => ok = true <-> forall r, 0 <= r < idx - jj * nrow -> aget c r = Some r) (jj * nrow) (jj * nrow + len c)
             (fun idx ok => if ok : bool then do r <- aget s (ncol + 3 + idx); Some (r + jj * nrow =? idx) else Some false) true) as (d & E & F).
           ++ lia.
           ++ split; [lia|auto].
           ++ intros idx ok Hi F. destruct ok.
              ** pose proof (proj1 F eq_refl) as F'. clear F. destruct (R (idx - jj * nrow)) as [_ R2]; [lia|].
                 destruct (aget_in c (idx - jj * nrow)) as (r & Er); [lia|]. rewrite Er in R2.
                 replace (jj * nrow - 0 + (idx - jj * nrow)) with idx in R2 by lia. rewrite Sr, R2 by lia. cbn [obind]. eexists; split; [reflexivity|].
                 split.
                 --- intros Q r' Hr'. apply Z.eqb_eq in Q. destruct (Z.eq_dec r' (idx - jj * nrow)) as [->|]; [rewrite Er; f_equal; lia|]. apply F'; lia.
                 --- intro Q. apply Z.eqb_eq. specialize (Q (idx - jj * nrow)). rewrite Er in Q. assert (Some r = Some (idx - jj * nrow)) as Q' by (apply Q; lia). injection Q' as ->; lia.
              ** eexists; split; [reflexivity|]. split; [easy|]. intro Q. apply F. intros r Hr. apply Q; lia.
           ++ exists d. split; [exact E|]. split.
              ** intros ->. f_equal; lia.
              ** split.
                 --- intros -> j c' Hj' Hc'. destruct (Z.eq_dec j jj) as [->|]; [|apply (B' j); auto; lia].
                     rewrite Ec in Hc'; injection Hc' as <-. apply is_rows; [lia|]. split; [exact Lc|]. intros r Hr. apply (proj1 F eq_refl). lia.
                 --- intro Q. apply F. intros r Hr. specialize (Q jj c). assert (c = rows nrow) as -> by (apply Q; [lia|exact Ec]). apply rows_get; lia.
        -- exists false. split; [reflexivity|]. split; [easy|]. split; [easy|]. intro Q. exfalso. apply Lc.
           assert (c = rows nrow) as -> by (apply (Q jj c); [lia|auto]). apply rows_len; lia.
      * exists false. split; [reflexivity|]. split; [easy|]. split; [easy|]. intro Q. apply B. intros j c Hj' Hc. apply (Q j c); [lia|auto].
    + exists d. split; [exact E|]. rewrite B, is_full. split; intros Q j c.
      * intro Hc. apply (Q j c); [apply aget_range in Hc; unfold ncol; lia|auto].
      * intros _ Hc. apply (Q j c Hc).
  - exists true. split; [|split; auto]. unfold casadi_is_dense.
    change (aget [nrow; len P; 1] 0) with (Some nrow). change (aget [nrow; len P; 1] 1) with (Some (len P)). change (aget [nrow; len P; 1] 2) with (Some 1).
    cbn [obind]. destruct (Z.leb_spec nrow 0); [lia|]. destruct (Z.leb_spec (len P) 0); [lia|]. reflexivity.
Qed.
Lemma nnz_ok s nrow P : describes s nrow P -> 0 <= nrow -> casadi_nnz s = Some (len (entries P)).
Proof.
  intros D Hn. unfold entries; rewrite entries_len. destruct D as [->|[-> E]].
  - unfold casadi_nnz. set (ncol := len P) in *.
    change (aget (nrow :: ncol :: colind 0 P ++ concat P) 0) with (Some nrow).
    change (aget (nrow :: ncol :: colind 0 P ++ concat P) 1) with (Some ncol). cbn [obind].
    replace (aget (nrow :: ncol :: colind 0 P ++ concat P) 2) with (Some 0) by (destruct P; reflexivity). cbn [obind Z.eqb negb].
    pose proof (s_col nrow ncol P eq_refl) as Sc. fold ncol in Sc. set (s := nrow :: ncol :: colind 0 P ++ concat P) in *. clearbody s.
    match goal with |- for_ 0 ncol ?f 0 = _ => destruct (for_rule (fun i nnz => aget (colind 0 P) i = Some nnz) 0 ncol f 0) as (d & E & A) end.
    + unfold ncol; apply len_nonneg.
    + destruct P; reflexivity.
    + intros i n Hi A. destruct (aget_in P i) as (c & Ec); [unfold ncol in *; lia|].
      destruct (column P 0 0 i c Ec) as (p & C1 & C2 & _). replace (2 + i + 1) with (2 + (i + 1)) by lia. rewrite !Sc by lia. rewrite C1, C2. cbn [obind].
      rewrite A in C1; injection C1 as <-. eexists; split; [reflexivity|]. f_equal; lia.
    + rewrite E. unfold ncol in A. rewrite colind_last in A. injection A as <-. f_equal; lia.
  - assert (len (concat P) = nrow * len P) as Q by (rewrite E at 1; apply full_concat; lia). rewrite Q. unfold casadi_nnz.
    change (aget [nrow; len P; 1] 0) with (Some nrow). change (aget [nrow; len P; 1] 1) with (Some (len P)). change (aget [nrow; len P; 1] 2) with (Some 1). reflexivity.
Qed.

(** ** places of the entries *)
Lemma place_acc t nrow ncol size : fits t nrow ncol size -> 0 < nrow -> 0 < ncol ->
  let acc := match t with COLMAJ => acc_colmaj nrow | COLMAJ_ARGS lda => acc_colmaj lda | DMAT m n ai aj => acc_dmat m n ai aj | DVEC xi => acc_dvec xi | IGNORE_ARGUMENT => acc_colmaj nrow end in
  (forall i j, 0 <= i < nrow -> 0 <= j < ncol -> acc i j = Some (place t nrow i j) /\ 0 <= place t nrow i j < size) /\
  (forall i j i' j', 0 <= i < nrow -> 0 <= j < ncol -> 0 <= i' < nrow -> 0 <= j' < ncol -> place t nrow i j = place t nrow i' j' -> i = i' /\ j = j').
Proof.
  intros F Hn Hc. destruct t as [|lda|m n ai aj|xi|]; cbn [fits place] in *; try easy; cbv zeta; unfold acc_colmaj, acc_dmat, acc_dvec.
  - split.
    + intros i j Hi Hj. split; [reflexivity|]. nia.
    + intros i j i' j' Hi Hj Hi' Hj' E. assert (j = j') by nia. subst; lia.
  - destruct F as [F1 F2]. split.
    + intros i j Hi Hj. split; [reflexivity|]. nia.
    + intros i j i' j' Hi Hj Hi' Hj' E. assert (j = j') by nia. subst; lia.
  - destruct F as (F1 & F2 & F3 & F4 & F5). split.
    + intros i j Hi Hj. rewrite !(proj2 (Z.leb_le _ _)), !(proj2 (Z.ltb_lt _ _)) by lia. split; [reflexivity|]. nia.
    + intros i j i' j' Hi Hj Hi' Hj' E. assert (aj + j = aj + j') by nia. assert (j = j') by lia. subst; lia.
  - destruct F as (F1 & F2 & F3). split.
    + intros i j Hi Hj. split; [reflexivity|lia].
    + intros; lia.
Qed.

Section Convert.
Variable T : Type.
Variable zero : T.
Variables (t : arg) (nrow : Z) (P : pattern) (s : list Z).
Hypothesis HD : describes s nrow P.
Hypothesis HP : pattern_ok nrow P.
Hypothesis Hn : 0 < nrow. Hypothesis Hc : 0 < len P.
Lemma s_head : aget s 0 = Some nrow /\ aget s 1 = Some (len P).
Proof. destruct HD as [->|[-> _]]; split; reflexivity. Qed.

Lemma dense_value (inp : list T) : P = full nrow (length P) -> len inp = len (entries P) ->
  exists g, (forall i j, 0 <= i < nrow -> 0 <= j < len P -> aget inp (i + j * nrow) = Some (g i j)).
Proof.
  intros E L. destruct inp as [|x0 inp'] eqn:Ei.
  - exfalso. unfold entries in L; rewrite entries_len in L. rewrite E, full_concat in L by lia. cbn in L. unfold len in Hc. nia.
  - rewrite <- Ei in *. exists (fun i j => nth (Z.to_nat (i + j * nrow)) inp x0). intros i j Hi Hj.
    assert (len (entries P) = nrow * len P) as Q by (unfold entries; rewrite entries_len, E at 1; apply full_concat; lia).
    unfold aget. rewrite (proj2 (Z.leb_le _ _)) by nia. apply nth_error_nth'. unfold len in *. nia.
Qed.
Lemma dense_unpacked (loc : Z -> Z -> Z) (inp o o' : list T) g : P = full nrow (length P) ->
  (forall i j, 0 <= i < nrow -> 0 <= j < len P -> aget inp (i + j * nrow) = Some (g i j)) ->
  block_is T loc nrow (len P) (fun i j => Some (g i j)) o o' -> unpacked zero loc nrow P inp o o'.
Proof.
  intros E G (A & B & C). split; [exact A|]. split; [|split; [|exact C]].
  - intros k i j Hk. rewrite E in Hk. apply full_entries in Hk as (-> & Bi & Bj); [|lia]. unfold len in *. rewrite G, B by (unfold len; lia). reflexivity.
  - intros i j Bi Bj N. exfalso. apply N. rewrite E. apply full_in; [auto|unfold len in Bj; auto].
Qed.

Theorem to_arg_ok inp o : fits t nrow (len P) (len o) -> len inp = len (entries P) ->
  (match t with COLMAJ_ARGS _ => P = full nrow (length P) -> nrow = len P | _ => True end) ->
  exists d o', casadi_is_dense s = Some d /\ casadi_to_arg zero t inp s o d = Done o' /\ unpacked zero (place t nrow) nrow P inp o o'.
Proof.
  intros F L Hsq. destruct s_head as [S0 S1]. destruct (is_dense_ok s nrow P HD Hn Hc) as (d & Ed & Dd). exists d.
  unfold casadi_to_arg. rewrite S0, S1.
  assert ((nrow <=? 0) || (len P <=? 0) = false) as Hz by (rewrite !(proj2 (Z.leb_gt _ _)) by lia; reflexivity).
  destruct (place_acc t nrow (len P) (len o) F Hn Hc) as [Hacc Hinj].
  destruct d.
  - pose proof (proj1 Dd eq_refl) as E. destruct (dense_value inp E L) as (g & G).
    destruct t as [|lda|m n ai aj|xi|]; cbn [fits] in F; try easy; rewrite ?Hz.
    + (* linear copy *)
      assert (len (entries P) = nrow * len P) as Q by (unfold entries; rewrite entries_len, E at 1; apply full_concat; lia).
      unfold copy. destruct (for_rule (fun k m => len m = len o /\ (forall q, 0 <= q < k -> aget m q = aget inp q) /\ (forall q, ~ 0 <= q < k -> aget m q = aget o q))
        0 (len P * nrow) (fun ii out => do v <- aget inp ii; aput out ii v) o) as (o' & Eo & A & B & C).
      * nia.
      * split; [auto|]. split; [lia|auto].
      * intros k m Hk (A & B & C). destruct (aget_in inp k) as (v & Ev); [nia|]. rewrite Ev. cbn [obind].
        destruct (aput_ok m k v) as (m' & Em & L2 & Gm); [nia|]. exists m'. split; [exact Em|]. split; [lia|]. split.
        -- intros q Hq. rewrite Gm. destruct (Z.eqb_spec q k) as [->|]; [auto|]. apply B; lia.
        -- intros q Hq. rewrite Gm. destruct (Z.eqb_spec q k) as [->|]; [lia|]. apply C; lia.
      * rewrite Eo. exists o'. split; [exact Ed|]. split; [reflexivity|]. apply dense_unpacked with (g := g); auto.
        split; [exact A|]. split.
        -- intros i j Hi Hj. cbn [place]. rewrite B by nia. apply G; auto.
        -- intros a Ha. apply C. intro R. pose proof (Z_div_mod a nrow ltac:(lia)) as M. destruct (Z.div_eucl a nrow) as (qq, rr). destruct M as [M1 M2].
           apply (Ha rr qq); [lia|nia|]. cbn [place]. lia.
    + specialize (Hsq E).
      destruct (store_rows T (acc_colmaj lda) (place (COLMAJ_ARGS lda) nrow) nrow (len P) (len o) Hacc Hinj ltac:(lia) ltac:(lia) g
        (fun ii jj out => do v <- aget inp (ii + len P * jj); aput out (ii + jj * lda) v) o) as (o' & Eo & B); [lia| |].
      * intros i j l Hi Hj. replace (i + len P * j) with (i + j * nrow) by lia. rewrite G by auto. reflexivity.
      * unfold pack_args. replace (for_ 0 (len P) (fun ii out => for_ 0 nrow (fun jj out0 => do v <- aget inp (ii + len P * jj); aput out0 (ii + jj * lda) v) out) o) with (Some o')
          by (rewrite <- Eo; rewrite Hsq at 1; f_equal; rewrite Hsq; reflexivity).
        exists o'. split; [exact Ed|]. split; [reflexivity|]. apply dense_unpacked with (g := g); auto.
    + destruct (store_cols T (acc_dmat m n ai aj) (place (DMAT m n ai aj) nrow) nrow (len P) (len o) Hacc Hinj ltac:(lia) ltac:(lia) g
        (fun jj ii out => do v <- aget inp (ii + jj * nrow); do a <- acc_dmat m n ai aj ii jj; aput out a v) o) as (o' & Eo & B); [lia| |].
      * intros i j l Hi Hj. rewrite G by auto. cbn [obind]. destruct (Hacc i j Hi Hj) as [-> _]. reflexivity.
      * unfold pack. rewrite Eo. exists o'. split; [exact Ed|]. split; [reflexivity|]. apply dense_unpacked with (g := g); auto.
    + destruct F as (F1 & F2 & F3). rewrite F1. cbn [Z.eqb Pos.eqb orb negb]. destruct (Z.leb_spec nrow 0); [lia|].
      destruct (store_cols T (acc_dvec xi) (place (DVEC xi) nrow) nrow (len P) (len o) Hacc Hinj ltac:(lia) ltac:(lia) g
        (fun jj ii out => do v <- aget inp (ii + jj * nrow); do a <- acc_dvec xi ii jj; aput out a v) o) as (o' & Eo & B); [lia| |].
      * intros i j l Hi Hj. rewrite G by auto. cbn [obind]. destruct (Hacc i j Hi Hj) as [-> _]. reflexivity.
      * unfold pack. rewrite F1 in Eo. rewrite Eo. exists o'. split; [exact Ed|]. split; [reflexivity|]. apply dense_unpacked with (g := g); auto.
  - assert (P <> full nrow (length P)) as E by (intro Q; apply Dd in Q; discriminate). destruct HD as [Hs|[_ Q]]; [|tauto].
    clear S0 S1.
    assert (forall acc, (forall i j, 0 <= i < nrow -> 0 <= j < len P -> acc i j = Some (place t nrow i j) /\ 0 <= place t nrow i j < len o) ->
      exists o', (do o1 <- fill_zero zero acc nrow (len P) o; scatter acc s (len P) inp o1) = Some o' /\ unpacked zero (place t nrow) nrow P inp o o') as K.
    { intros acc Ha. destruct (store_cols T acc (place t nrow) nrow (len P) (len o) Ha Hinj ltac:(lia) ltac:(lia) (fun _ _ => zero)
        (fun jj ii out => do a <- acc ii jj; aput out a zero) o) as (o1 & Eo & B); [lia| |].
      { intros i j l Hi Hj. destruct (Ha i j Hi Hj) as [-> _]. reflexivity. }
      unfold fill_zero. rewrite Eo. cbn [obind]. rewrite Hs.
      destruct (scatter_ok T zero acc (place t nrow) nrow (len P) (len o) Ha Hinj ltac:(lia) P HP eq_refl inp o o1) as (o' & E2 & U); [exact L|lia|exact B|].
      eauto. }
    destruct (K _ Hacc) as (o' & Eo & U). exists o'.
    destruct t as [|lda|m n ai aj|xi|]; cbn [fits] in F; try easy; rewrite ?Hz.
    + rewrite Eo. auto.
    + rewrite Eo. auto.
    + rewrite Eo. auto.
    + destruct F as (F1 & F2 & F3). rewrite F1 in *. cbn [Z.eqb Pos.eqb orb negb]. destruct (Z.leb_spec nrow 0); [lia|]. rewrite Eo. auto.
Qed.

Lemma dense_packed (loc : Z -> Z -> Z) (inp o o' : list T) g : P = full nrow (length P) ->
  (forall i j, 0 <= i < nrow -> 0 <= j < len P -> aget inp (loc i j) = Some (g i j)) ->
  block_is T (fun i j => i + j * nrow) nrow (len P) (fun i j => Some (g i j)) o o' -> packed loc P inp o o'.
Proof.
  intros E G (A & B & C). split; [exact A|]. split.
  - intros k i j Hk. rewrite E in Hk. apply full_entries in Hk as (-> & Bi & Bj); [|lia]. rewrite G, B by (unfold len; lia). reflexivity.
  - intros k Hk. apply C. intros i j Hi Hj ->. unfold entries in Hk. rewrite entries_len in Hk. rewrite E, full_concat in Hk by lia. unfold len in Hj. nia.
Qed.
Lemma block_value (loc : Z -> Z -> Z) (inp : list T) : (forall i j, 0 <= i < nrow -> 0 <= j < len P -> 0 <= loc i j < len inp) ->
  exists g, forall i j, 0 <= i < nrow -> 0 <= j < len P -> aget inp (loc i j) = Some (g i j).
Proof.
  intro R. destruct inp as [|x0 inp'] eqn:Ei.
  - exfalso. specialize (R 0 0 ltac:(lia) ltac:(lia)). cbn in R. lia.
  - rewrite <- Ei in *. exists (fun i j => nth (Z.to_nat (loc i j)) inp x0). intros i j Hi Hj. specialize (R i j Hi Hj).
    unfold aget. rewrite (proj2 (Z.leb_le _ _)) by lia. apply nth_error_nth'. unfold len in *. lia.
Qed.
Theorem of_arg_ok (inp o : list T) : fits t nrow (len P) (len inp) -> len o = len (entries P) ->
  (match t with COLMAJ_ARGS _ => P = full nrow (length P) -> nrow = len P | _ => True end) ->
  exists d o', casadi_is_dense s = Some d /\ arg_to_casadi t inp o s d = Done o' /\ packed (place t nrow) P inp o o'.
Proof.
  intros F L Hsq. destruct s_head as [S0 S1]. destruct (is_dense_ok s nrow P HD Hn Hc) as (d & Ed & Dd). exists d.
  unfold arg_to_casadi. rewrite S0, S1.
  assert ((nrow <=? 0) || (len P <=? 0) = false) as Hz by (rewrite !(proj2 (Z.leb_gt _ _)) by lia; reflexivity).
  destruct (place_acc t nrow (len P) (len inp) F Hn Hc) as [Hacc Hinj].
  destruct d.
  - pose proof (proj1 Dd eq_refl) as E.
    assert (len (entries P) = nrow * len P) as Q by (unfold entries; rewrite entries_len, E at 1; apply full_concat; lia).
    destruct (block_value (place t nrow) inp) as (g & G); [intros; apply Hacc; auto|].
    assert (forall i j, 0 <= i < nrow -> 0 <= j < len P -> acc_colmaj nrow i j = Some (i + j * nrow) /\ 0 <= i + j * nrow < len o) as Ha
      by (intros; split; [reflexivity|nia]).
    assert (forall i j i' j', 0 <= i < nrow -> 0 <= j < len P -> 0 <= i' < nrow -> 0 <= j' < len P -> i + j * nrow = i' + j' * nrow -> i = i' /\ j = j') as Hi2
      by (intros i j i' j' ? ? ? ? ?; assert (j = j') by nia; subst; lia).
    destruct t as [|lda|m n ai aj|xi|]; cbn [fits] in F; try easy; rewrite ?Hz.
    + unfold copy. destruct (for_rule (fun k m => len m = len o /\ (forall q, 0 <= q < k -> aget m q = aget inp q) /\ (forall q, ~ 0 <= q < k -> aget m q = aget o q))
        0 (len P * nrow) (fun ii out => do v <- aget inp ii; aput out ii v) o) as (o' & Eo & A & B & C).
      * nia.
      * split; [auto|]. split; [lia|auto].
      * intros k m Hk (A & B & C). destruct (aget_in inp k) as (v & Ev); [nia|]. rewrite Ev. cbn [obind].
        destruct (aput_ok m k v) as (m' & Em & L2 & Gm); [nia|]. exists m'. split; [exact Em|]. split; [lia|]. split.
        -- intros q Hq. rewrite Gm. destruct (Z.eqb_spec q k) as [->|]; [auto|]. apply B; lia.
        -- intros q Hq. rewrite Gm. destruct (Z.eqb_spec q k) as [->|]; [lia|]. apply C; lia.
      * rewrite Eo. exists o'. split; [exact Ed|]. split; [reflexivity|]. apply dense_packed with (g := g); auto.
        split; [exact A|]. split.
        -- intros i j Hi Hj. rewrite B by nia. apply G; auto.
        -- intros a Hb. apply C. intro R. pose proof (Z_div_mod a nrow ltac:(lia)) as M. destruct (Z.div_eucl a nrow) as (qq, rr). destruct M as [M1 M2].
           apply (Hb rr qq); [lia|nia|]. lia.
    + specialize (Hsq E).
      destruct (store_rows T (acc_colmaj nrow) (fun i j => i + j * nrow) nrow (len P) (len o) Ha Hi2 ltac:(lia) ltac:(lia) g
        (fun ii jj out => do v <- aget inp (ii + jj * lda); aput out (ii + len P * jj) v) o) as (o' & Eo & B); [lia| |].
      * intros i j l Hi Hj. replace (i + len P * j) with (i + j * nrow) by lia. change (i + j * lda) with (place (COLMAJ_ARGS lda) nrow i j); rewrite (G i j) by auto; reflexivity.
      * unfold unpack_args. replace (for_ 0 (len P) (fun ii out => for_ 0 nrow (fun jj out0 => do v <- aget inp (ii + jj * lda); aput out0 (ii + len P * jj) v) out) o) with (Some o')
          by (rewrite <- Eo; rewrite Hsq at 1; f_equal; rewrite Hsq; reflexivity).
        exists o'. split; [exact Ed|]. split; [reflexivity|]. apply dense_packed with (g := g); auto.
    + destruct (store_cols T (acc_colmaj nrow) (fun i j => i + j * nrow) nrow (len P) (len o) Ha Hi2 ltac:(lia) ltac:(lia) g
        (fun jj ii out => do a <- acc_dmat m n ai aj ii jj; do v <- aget inp a; aput out (ii + jj * nrow) v) o) as (o' & Eo & B); [lia| |].
      * intros i j l Hi Hj. destruct (Hacc i j Hi Hj) as [-> _]. cbn [obind]. rewrite G by auto. reflexivity.
      * unfold unpack. rewrite Eo. exists o'. split; [exact Ed|]. split; [reflexivity|]. apply dense_packed with (g := g); auto.
    + destruct F as (F1 & F2 & F3). rewrite F1. cbn [Z.eqb Pos.eqb orb negb]. destruct (Z.leb_spec nrow 0); [lia|].
      destruct (store_cols T (acc_colmaj nrow) (fun i j => i + j * nrow) nrow (len P) (len o) Ha Hi2 ltac:(lia) ltac:(lia) g
        (fun jj ii out => do a <- acc_dvec xi ii jj; do v <- aget inp a; aput out (ii + jj * nrow) v) o) as (o' & Eo & B); [lia| |].
      * intros i j l Hi Hj. destruct (Hacc i j Hi Hj) as [-> _]. cbn [obind]. rewrite G by auto. reflexivity.
      * unfold unpack. rewrite F1 in Eo. rewrite Eo. exists o'. split; [exact Ed|]. split; [reflexivity|]. apply dense_packed with (g := g); auto.
  - assert (P <> full nrow (length P)) as E by (intro Q; apply Dd in Q; discriminate). destruct HD as [Hs|[_ Q]]; [|tauto].
    clear S0 S1.
    destruct (gather_ok T _ (place t nrow) nrow (len P) (len inp) Hacc ltac:(lia) P HP eq_refl inp o) as (o' & Eo & U); [lia|lia|].
    rewrite <- Hs in Eo. exists o'.
    destruct t as [|lda|m n ai aj|xi|]; cbn [fits] in F; try easy; rewrite ?Hz.
    + rewrite Eo. auto.
    + rewrite Eo. auto.
    + rewrite Eo. auto.
    + destruct F as (F1 & F2 & F3). rewrite F1 in *. cbn [Z.eqb Pos.eqb orb negb]. destruct (Z.leb_spec nrow 0); [lia|]. rewrite Eo. auto.
Qed.
(** writing the values and reading them back gives the same values *)
Theorem round_trip inp o back : fits t nrow (len P) (len o) -> len inp = len (entries P) -> len back = len (entries P) ->
  (match t with COLMAJ_ARGS _ => P = full nrow (length P) -> nrow = len P | _ => True end) ->
  exists d o', casadi_is_dense s = Some d /\ casadi_to_arg zero t inp s o d = Done o' /\ arg_to_casadi t o' back s d = Done inp.
Proof.
  intros F L Lb Hsq. destruct (to_arg_ok inp o F L Hsq) as (d & o' & Ed & Eo & A & B & _ & _).
  assert (fits t nrow (len P) (len o')) as F' by (rewrite A; exact F).
  destruct (of_arg_ok o' back F' Lb Hsq) as (d' & b & Ed' & Eb & A' & B' & C'). rewrite Ed in Ed'; injection Ed' as <-.
  exists d, o'. split; [exact Ed|]. split; [exact Eo|]. rewrite Eb. f_equal. apply aget_ext. intro k.
  assert (0 <= k < len (entries P) \/ ~ 0 <= k < len (entries P)) as [R|R] by lia.
  - destruct (aget_in (entries P) k R) as ((i, j) & Ek). rewrite (B' k i j Ek), (B k i j Ek). reflexivity.
  - rewrite !(proj2 (aget_none _ _)); auto; lia.
Qed.
End Convert.
