From Coq Require Import ZArith List Bool Lia.
From Verif Require Import Arr ArrProofs DimsModel DimsSpec DimsProofs DimsTop IfaceModel IfaceSpec IfaceProofs.
Import ListNotations.
Open Scope Z_scope.

Section P.
Context {T : Type} (mul : T -> T -> T) (N : nat) (d : ndims).
Hypothesis dims : dims_ok N d.
Implicit Types (s : store T) (value b : list T) (f g : field).

Definition bufof f : buf := match f with Fx | Fu | Fs | Fsl | Fsu => Bux | Fz => Bz | Fpi => Bpi | Flam => Blam | Fp => Bp end.
Definition szZ f (st : Z) : Z := field_size d f (Z.to_nat st).
Definition ofZ f (st : Z) : Z :=
  let k := d (Z.to_nat st) in match f with Fx => nu k | Fsl | Fs => nu k + nx k | Fsu => nu k + nx k + ns k | _ => 0 end.
Definition lastZ f : Z := Z.of_nat (stages N f).
Definition sizeO f : Z -> option Z :=
  match f with
  | Fx => dim N d nx | Fu => dim N d nu | Fsl | Fsu => dim N d ns | Fs => twice (dim N d ns) | Fz => dim N d nz | Fpi => fun st => dim N d nx (st + 1)
  | Flam => twice (dim N d ni) | Fp => dim N d np
  end.
Definition offO f : Z -> option Z :=
  match f with
  | Fx => dim N d nu | Fsl | Fs => dsum (dim N d nu) (dim N d nx) | Fsu => dsum (dsum (dim N d nu) (dim N d nx)) (dim N d ns) | _ => zero
  end.
Definition offS f : Z -> option Z :=
  match f with
  | Fx => dim N d nu | Fsl | Fs => dsum (dim N d nx) (dim N d nu) | Fsu => dsum (dsum (dim N d nx) (dim N d nu)) (dim N d ns) | _ => zero
  end.
Definition postO s f := match f with Flam => lampost mul s | _ => nopost end.
Lemma last_S : Z.of_nat (S N) = Z.of_nat N + 1. Proof. lia. Qed.
Lemma get_all_eq s f b : get_all N d s f b = get_loop (lastZ f) (sizeO f) (offO f) (getb s (bufof f)) b.
Proof. destruct f; unfold get_all, lastZ, stages; rewrite ?last_S; reflexivity. Qed.
Lemma set_all_eq s f v : set_all mul N d s f v = (do L <- set_loop (lastZ f) (sizeO f) (offS f) (postO s f) (getb s (bufof f)) v; Some (putb s (bufof f) L)).
Proof. destruct f; unfold set_all, lastZ, stages; rewrite ?last_S; reflexivity. Qed.
Lemma dim_ok h st : 0 <= st <= Z.of_nat N -> dim N d h st = Some (h (d (Z.to_nat st))).
Proof. intro H. unfold dim. now rewrite (proj2 (Z.leb_le _ _)), (proj2 (Z.leb_le _ _)) by lia. Qed.
Lemma sizeO_ok f st : 0 <= st < lastZ f -> sizeO f st = Some (szZ f st).
Proof.
  intro H. unfold lastZ, szZ in *. destruct f; unfold stages in H; cbn [sizeO field_size]; unfold twice; rewrite ?dim_ok by lia; try reflexivity.
  do 4 f_equal. lia.
Qed.
Lemma offO_ok f st : 0 <= st < lastZ f -> offO f st = Some (ofZ f st) /\ offS f st = Some (ofZ f st).
Proof.
  intro H. unfold lastZ, ofZ in *. destruct f; unfold stages in H; cbn [offO offS]; unfold dsum, zero; rewrite ?dim_ok by lia; cbn [obind]; split; try reflexivity; f_equal; lia.
Qed.
Lemma sized_get n (h : nat -> Z) (L : list (list T)) st : sized n h L -> 0 <= st < Z.of_nat n -> exists l, aget L st = Some l /\ len l = h (Z.to_nat st).
Proof.
  intros (A & B) H. destruct (aget_in L st) as (l & E); [unfold len; lia|]. exists l; split; [auto|]. apply B. rewrite <- E, <- aget_nat. f_equal; lia.
Qed.
Lemma fits_all s f : allocated N d s -> forall st, 0 <= st < lastZ f -> 0 <= szZ f st /\ 0 <= ofZ f st /\ exists l, aget (getb s (bufof f)) st = Some l /\ ofZ f st + szZ f st <= len l.
Proof.
  intros [A1 A2 A3 A4 A5 A6] st H. unfold lastZ, szZ, ofZ in *.
  assert (dims_at : forall i, 0 <= i <= Z.of_nat N -> let k := d (Z.to_nat i) in 0 <= nx k /\ 0 <= nu k /\ 0 <= nz k /\ 0 <= ns k /\ 0 <= ni k /\ 0 <= np k /\ nv k = nu k + nx k + 2 * ns k).
  { intros i Hi. apply dims. lia. } 
  cbv zeta in dims_at.
  destruct f; unfold stages in H; cbn [field_size bufof getb];
    try (destruct (dims_at st ltac:(lia)) as (B1 & B2 & B3 & B4 & B5 & B6 & B7)).
  1-5: destruct (sized_get _ _ _ st A1 ltac:(lia)) as (l & E & F); cbv beta in F; cbv beta iota zeta; split; [lia|split; [lia|exists l; split; [auto|lia]]].
  - destruct (sized_get _ _ _ st A2 ltac:(lia)) as (l & E & F); cbv beta in F; cbv beta iota zeta; split; [lia|split; [lia|exists l; split; [auto|lia]]].
  - destruct (sized_get _ _ _ st A3 ltac:(lia)) as (l & E & F); cbv beta in F; cbv beta iota zeta.
    destruct (dims_at (st + 1) ltac:(lia)) as (C1 & _). replace (Z.to_nat (st + 1)) with (S (Z.to_nat st)) in C1 by lia.
    split; [lia|split; [lia|exists l; split; [auto|lia]]].
  - destruct (sized_get _ _ _ st A4 ltac:(lia)) as (l & E & F); cbv beta in F; cbv beta iota zeta; split; [lia|split; [lia|exists l; split; [auto|lia]]].
  - destruct (sized_get _ _ _ st A5 ltac:(lia)) as (l & E & F); cbv beta in F; cbv beta iota zeta; split; [lia|split; [lia|exists l; split; [auto|lia]]].
Qed.
Lemma start_total f i : start (szZ f) (Z.of_nat i) = flat_start d f i.
Proof.
  unfold start, flat_start, total. rewrite Nat2Z.id, <- acc_fold. induction i; cbn [start_nat acc_stages]; [reflexivity|]. rewrite IHi. unfold szZ. now rewrite Nat2Z.id.
Qed.
Lemma start_length f : start (szZ f) (lastZ f) = flat_length N d f.
Proof. unfold lastZ. rewrite start_total. reflexivity. Qed.

(** the value stored for a: multipliers are multiplied by the mask *)
Definition stored s f (st k : Z) (a : T) : option T := match f with Flam => do m <- cell (dmask s) st k; Some (mul m a) | _ => Some a end.
Lemma post_all s f : allocated N d s -> forall st l0 l, 0 <= st < lastZ f -> aget (getb s (bufof f)) st = Some l0 -> len l = len l0 ->
  exists l', postO s f st (szZ f st) l = Some l' /\ len l' = len l /\
  forall k, aget l' k = if (ofZ f st <=? k) && (k <? ofZ f st + szZ f st) then (do a <- aget l k; stored s f st k a) else aget l k.
Proof.
  intros A st l0 l H E F. destruct f;
    try (exists l; split; [reflexivity|split; [reflexivity|]]; intro k; destruct ((_ <=? k) && (k <? _)); [|reflexivity]; cbn [stored]; destruct (aget l k); reflexivity).
  destruct (fits_all s Flam A st H) as (B1 & B2 & l1 & B3 & B4). rewrite E in B3; injection B3 as <-. unfold ofZ in *.
  destruct (sized_get _ _ _ st (al_mask _ _ _ A) H) as (m & M1 & M2).
  destruct (mask_ok mul (szZ Flam st) m l) as (l' & L1 & L2 & L3); [lia|unfold szZ; cbn [field_size]; lia|lia|].
  exists l'. split; [|split; [auto|]].
  - unfold postO, lampost. rewrite M1; cbn [obind]. exact L1.
  - intro k. rewrite L3. cbn [Z.add]. destruct ((0 <=? k) && (k <? szZ Flam st)); [|reflexivity]. unfold stored, cell. rewrite M1; cbn [obind].
    destruct (aget m k), (aget l k); reflexivity.
Qed.

Lemma getb_putb s c c' L : getb (putb s c L) c' = if match c, c' with Bux, Bux | Bz, Bz | Bpi, Bpi | Blam, Blam | Bp, Bp => true | _, _ => false end then L else getb s c'.
Proof. destruct c, c'; reflexivity. Qed.
Lemma dmask_putb s c L : dmask (putb s c L) = dmask s. Proof. destruct c; reflexivity. Qed.
Lemma sized_shape n h (L L' : list (list T)) : sized n h L -> same_shape L L' -> sized n h L'.
Proof.
  intros (A & B) (C & D). unfold len in C. split; [lia|]. intros i l E. rewrite <- aget_nat in E. destruct (D _ _ E) as (l0 & E0 & F). rewrite aget_nat in E0. rewrite F. now apply B.
Qed.
Lemma allocated_put s c L : allocated N d s -> same_shape (getb s c) L -> allocated N d (putb s c L).
Proof. intros [A1 A2 A3 A4 A5 A6] S. destruct c; constructor; cbn in *; try assumption; (eapply sized_shape; [|exact S]; assumption). Qed.

(** effect of set_all on every buffer *)
Definition in_block f (c : buf) (st k : Z) : bool :=
  match bufof f, c with Bux, Bux | Bz, Bz | Bpi, Bpi | Blam, Blam | Bp, Bp => true | _, _ => false end && ((0 <=? st) && (st <? lastZ f) && (ofZ f st <=? k) && (k <? ofZ f st + szZ f st)).
Lemma set_all_ok s f v : allocated N d s -> flat_length N d f <= len v ->
  exists s', set_all mul N d s f v = Some s' /\ allocated N d s' /\ dmask s' = dmask s /\
    forall c st k, cell (getb s' c) st k = if in_block f c st k then (do a <- aget v (start (szZ f) st + (k - ofZ f st)); stored s f st k a) else cell (getb s c) st k.
Proof.
  intros A H. rewrite set_all_eq.
  destruct (set_loop_ok (lastZ f) (sizeO f) (offS f) (szZ f) (ofZ f) (getb s (bufof f)) ltac:(unfold lastZ; lia)) with (post := postO s f) (g := stored s f) (value := v) as (L' & E & S & C).
  - intros st Hst. split; [apply sizeO_ok; auto|]. split; [apply offO_ok; auto|]. now apply fits_all.
  - now apply post_all.
  - rewrite start_length. lia.
  - rewrite E; cbn [obind]. eexists; split; [reflexivity|]. split; [now apply allocated_put|]. split; [apply dmask_putb|].
    intros c st k. rewrite getb_putb. unfold in_block. destruct (bufof f) eqn:EB; destruct c; cbn [andb]; try reflexivity; rewrite C; reflexivity.
Qed.
Lemma get_all_ok s f b : allocated N d s -> flat_length N d f <= len b ->
  exists b', get_all N d s f b = Some b' /\ len b' = len b /\
    (forall st j, 0 <= st < lastZ f -> 0 <= j < szZ f st -> aget b' (start (szZ f) st + j) = cell (getb s (bufof f)) st (ofZ f st + j)) /\
    (forall k, ~ 0 <= k < flat_length N d f -> aget b' k = aget b k).
Proof.
  intros A H. rewrite get_all_eq.
  destruct (get_loop_ok (lastZ f) (sizeO f) (offO f) (szZ f) (ofZ f) (getb s (bufof f)) ltac:(unfold lastZ; lia)) with (value := b) as (b' & E & C).
  - intros st Hst. split; [apply sizeO_ok; auto|]. split; [apply offO_ok; auto|]. now apply fits_all.
  - rewrite start_length. lia.
  - exists b'. rewrite <- start_length. auto.
Qed.
Lemma in_own_block f st j : 0 <= st < lastZ f -> 0 <= j < szZ f st -> in_block f (bufof f) st (ofZ f st + j) = true.
Proof.
  intros H J. unfold in_block. rewrite (proj2 (Z.leb_le 0 _)), (proj2 (Z.ltb_lt st _)), (proj2 (Z.leb_le _ _)), (proj2 (Z.ltb_lt _ _)) by lia. destruct (bufof f); reflexivity.
Qed.
Lemma in_other_block f g st j : clash f g = false -> 0 <= st < lastZ g -> 0 <= j < szZ g st -> in_block f (bufof g) st (ofZ g st + j) = false.
Proof.
  intros C H J. unfold in_block. apply not_true_is_false. intro E. repeat rewrite andb_true_iff in E. rewrite Z.leb_le, Z.ltb_lt, Z.leb_le, Z.ltb_lt in E.
  assert (forall i, 0 <= i <= Z.of_nat N -> let k := d (Z.to_nat i) in 0 <= nx k /\ 0 <= nu k /\ 0 <= nz k /\ 0 <= ns k /\ 0 <= ni k /\ 0 <= np k /\ nv k = nu k + nx k + 2 * ns k) as D.
  { intros i Hi. apply dims. lia. }
  specialize (D st). destruct E as (E0 & ((E1 & E2) & E3) & E4). unfold lastZ, ofZ, szZ in *.
  destruct f, g; cbn in C; try discriminate C; cbn [bufof] in E0; try discriminate E0; unfold stages in H, E2; cbn [field_size] in *; lia.
Qed.

Lemma round_trip s f v b : f <> Flam -> allocated N d s -> flat_length N d f <= len v -> flat_length N d f <= len b ->
  exists s' b', set_all mul N d s f v = Some s' /\ allocated N d s' /\ get_all N d s' f b = Some b' /\ len b' = len b /\
    forall k, aget b' k = if (0 <=? k) && (k <? flat_length N d f) then aget v k else aget b k.
Proof.
  intros NL A H1 H2. destruct (set_all_ok s f v A H1) as (s' & E & A' & _ & C). destruct (get_all_ok s' f b A' H2) as (b' & G & L & R1 & R2).
  exists s', b'. repeat (split; [auto|]). intro k. destruct ((0 <=? k) && (k <? flat_length N d f)) eqn:B.
  - apply andb_true_iff in B. rewrite Z.leb_le, Z.ltb_lt in B. rewrite <- start_length in B.
    destruct (start_find (szZ f) (lastZ f) k ltac:(unfold lastZ; lia) B) as (st & S1 & S2). rewrite start_S in S2 by lia.
    replace k with (start (szZ f) st + (k - start (szZ f) st)) at 1 by lia. rewrite R1 by lia. rewrite C, in_own_block by lia.
    replace (start (szZ f) st + (ofZ f st + (k - start (szZ f) st) - ofZ f st)) with k by lia. destruct (aget v k); [|reflexivity]. cbn [obind]. destruct f; try reflexivity. congruence.
  - apply R2. intro K. rewrite (proj2 (Z.leb_le 0 k)), (proj2 (Z.ltb_lt k _)) in B by lia. discriminate B.
Qed.
Lemma multipliers s v b : allocated N d s -> flat_length N d Flam <= len v -> flat_length N d Flam <= len b ->
  exists s' b', set_all mul N d s Flam v = Some s' /\ allocated N d s' /\ get_all N d s' Flam b = Some b' /\ len b' = len b /\
    (forall k, ~ 0 <= k < flat_length N d Flam -> aget b' k = aget b k) /\
    (forall i j, (i <= N)%nat -> 0 <= j < 2 * ni (d i) ->
       let k := flat_start d Flam i + j in exists mask m a, nth_error (dmask s) i = Some mask /\ aget mask j = Some m /\ aget v k = Some a /\ aget b' k = Some (mul m a)).
Proof.
  intros A H1 H2. destruct (set_all_ok s Flam v A H1) as (s' & E & A' & _ & C). destruct (get_all_ok s' Flam b A' H2) as (b' & G & L & R1 & R2).
  exists s', b'. repeat (split; [auto|]). intros i j Hi Hj k.
  assert (0 <= Z.of_nat i < lastZ Flam) as HI by (unfold lastZ, stages; lia). assert (0 <= j < szZ Flam (Z.of_nat i)) as HJ by (unfold szZ; cbn [field_size]; rewrite Nat2Z.id; lia).
  destruct (sized_get _ _ _ (Z.of_nat i) (al_mask _ _ _ A) HI) as (mask & M1 & M2). rewrite Nat2Z.id in M2.
  destruct (aget_in mask j) as (m & Em); [lia|]. 
  assert (forall st, 0 <= st < lastZ Flam -> 0 <= szZ Flam st) as SP by (intros st Hst; apply (fits_all s Flam A st Hst)).
  pose proof (start_mono (szZ Flam) (lastZ Flam) SP (Z.of_nat i + 1) (lastZ Flam) ltac:(lia) ltac:(lia)) as Q. rewrite start_S, start_length in Q by lia.
  pose proof (start_mono (szZ Flam) (lastZ Flam) SP 0 (Z.of_nat i) ltac:(lia) ltac:(lia)) as Q0. rewrite start_0 in Q0. rewrite start_total in *.
  destruct (aget_in v k) as (a & Ea); [unfold k; lia|].
  exists mask, m, a. rewrite aget_nat in M1. repeat (split; [auto|]). unfold k. rewrite <- start_total. rewrite R1 by auto. rewrite C, in_own_block by auto.
  replace (start (szZ Flam) (Z.of_nat i) + (ofZ Flam (Z.of_nat i) + j - ofZ Flam (Z.of_nat i))) with k by (unfold k; rewrite <- start_total; lia). rewrite Ea; cbn [obind].
  unfold stored, cell. rewrite aget_nat, M1; cbn [obind]. replace (ofZ Flam (Z.of_nat i) + j) with j by (unfold ofZ; lia). rewrite Em. reflexivity.
Qed.
Lemma same_get s s' g b : allocated N d s -> allocated N d s' -> flat_length N d g <= len b ->
  (forall st j, 0 <= st < lastZ g -> 0 <= j < szZ g st -> cell (getb s' (bufof g)) st (ofZ g st + j) = cell (getb s (bufof g)) st (ofZ g st + j)) ->
  get_all N d s' g b = get_all N d s g b.
Proof.
  intros A A' H C. destruct (get_all_ok s g b A H) as (b1 & G1 & L1 & R1 & R1'). destruct (get_all_ok s' g b A' H) as (b2 & G2 & L2 & R2 & R2').
  rewrite G1, G2. f_equal. apply aget_ext. intro k. destruct ((0 <=? k) && (k <? flat_length N d g)) eqn:B.
  - apply andb_true_iff in B. rewrite Z.leb_le, Z.ltb_lt in B. rewrite <- start_length in B.
    destruct (start_find (szZ g) (lastZ g) k ltac:(unfold lastZ; lia) B) as (st & S1 & S2). rewrite start_S in S2 by lia.
    replace k with (start (szZ g) st + (k - start (szZ g) st)) by lia. rewrite R1, R2, C by lia. reflexivity.
  - assert (~ 0 <= k < flat_length N d g) as K. { intro K. rewrite (proj2 (Z.leb_le 0 k)), (proj2 (Z.ltb_lt k _)) in B by lia. discriminate B. }
    rewrite R1', R2' by auto. reflexivity.
Qed.
Lemma others s s' f g v b : clash f g = false -> allocated N d s -> flat_length N d f <= len v -> flat_length N d g <= len b ->
  set_all mul N d s f v = Some s' -> get_all N d s' g b = get_all N d s g b /\ dmask s' = dmask s.
Proof.
  intros C A H1 H2 E. destruct (set_all_ok s f v A H1) as (s1 & E1 & A' & M & R). rewrite E in E1. injection E1 as <-. split; [|auto].
  apply same_get; auto. intros st j S J. rewrite R, in_other_block; auto.
Qed.

(** ** one stage *)
Lemma field_eq_lam f : {f = Flam} + {f <> Flam}. Proof. destruct f; auto; right; discriminate. Qed.
Lemma out_get_eq s i f b : single f = true -> out_get N d s i f b = get_stage (sizeO f) (offO f) (getb s (bufof f)) i b.
Proof. destruct f; intro H; try discriminate H; reflexivity. Qed.
Lemma out_set_eq s i f v : single f = true -> out_set mul N d s i f v = (do L <- set_stage (sizeO f) (offO f) (postO s f) (getb s (bufof f)) i v; Some (putb s (bufof f) L)).
Proof. destruct f; intro H; try discriminate H; reflexivity. Qed.
Lemma stage_fits s f i : single f = true -> allocated N d s -> inside N f i ->
  sizeO f (Z.of_nat i) = Some (field_size d f i) /\ offO f (Z.of_nat i) = Some (ofZ f (Z.of_nat i)) /\ 0 <= field_size d f i /\ 0 <= ofZ f (Z.of_nat i) /\
  exists l, aget (getb s (bufof f)) (Z.of_nat i) = Some l /\ ofZ f (Z.of_nat i) + field_size d f i <= len l.
Proof.
  intros Sf A Hi. assert (Z.of_nat i < lastZ f \/ (f = Fu \/ f = Fz) /\ i = N) as [H|[H ->]].
  { unfold lastZ, inside in *. destruct f; unfold stages; try (left; lia); destruct (Nat.eq_dec i N); try (left; lia); auto. }
  - destruct (fits_all s f A (Z.of_nat i) ltac:(lia)) as (B1 & B2 & B3). rewrite (sizeO_ok f) by lia. destruct (offO_ok f (Z.of_nat i) ltac:(lia)) as (-> & _).
    unfold szZ in *. rewrite Nat2Z.id in *. auto.
  - pose proof (dims N (le_n N)) as D. destruct H as [-> | ->].
    + destruct (sized_get _ _ _ (Z.of_nat N) (al_ux _ _ _ A) ltac:(lia)) as (l & E & F). rewrite Nat2Z.id in F.
      cbn [sizeO offO ofZ bufof getb field_size]. rewrite dim_ok, Nat2Z.id by lia. repeat (split; [auto; lia|]). exists l. split; [auto|lia].
    + destruct (sized_get _ _ _ (Z.of_nat N) (al_z _ _ _ A) ltac:(lia)) as (l & E & F). rewrite Nat2Z.id in F.
      cbn [sizeO offO ofZ bufof getb field_size]. rewrite dim_ok, Nat2Z.id by lia. repeat (split; [auto; lia|]). exists l. split; [auto|lia].
Qed.
Lemma out_get_ok s f i b : single f = true -> allocated N d s -> inside N f i -> field_size d f i <= len b ->
  exists b', out_get N d s (Z.of_nat i) f b = Some b' /\ len b' = len b /\
    forall k, aget b' k = if (0 <=? k) && (k <? field_size d f i) then cell (getb s (bufof f)) (Z.of_nat i) (ofZ f (Z.of_nat i) + k) else aget b k.
Proof.
  intros Sf A Hi Hb. rewrite out_get_eq by auto. destruct (stage_fits s f i Sf A Hi) as (B1 & B2 & B3 & B4 & l & B5 & B6).
  unfold get_stage. rewrite B1, B2, B5; cbn [obind]. destruct (copy_ok (field_size d f i) l (ofZ f (Z.of_nat i)) b 0) as (b' & E & L & G); try lia.
  exists b'. split; [auto|split; [auto|]]. intro k. rewrite G. unfold cell. rewrite B5; cbn [obind]. rewrite Z.sub_0_r, Z.add_0_l. reflexivity.
Qed.
(** reading one stage after writing all stages *)
Lemma slices s f v i b : single f = true -> f <> Flam -> allocated N d s -> flat_length N d f <= len v -> (i < stages N f)%nat -> field_size d f i <= len b ->
  exists s' b', set_all mul N d s f v = Some s' /\ out_get N d s' (Z.of_nat i) f b = Some b' /\ len b' = len b /\
    forall k, aget b' k = if (0 <=? k) && (k <? field_size d f i) then aget v (flat_start d f i + k) else aget b k.
Proof.
  intros Sf NL A Hv Hi Hb. destruct (set_all_ok s f v A Hv) as (s' & E & A' & _ & C).
  assert (inside N f i) as I by (unfold inside, stages in *; destruct f; lia).
  destruct (out_get_ok s' f i b Sf A' I Hb) as (b' & E2 & L & G). exists s', b'. repeat (split; [auto|]). intro k. rewrite G.
  destruct ((0 <=? k) && (k <? field_size d f i)) eqn:B; [|reflexivity]. apply andb_true_iff in B. rewrite Z.leb_le, Z.ltb_lt in B.
  rewrite C, in_own_block; [|unfold lastZ; lia|unfold szZ; rewrite Nat2Z.id; lia]. rewrite start_total.
  replace (flat_start d f i + (ofZ f (Z.of_nat i) + k - ofZ f (Z.of_nat i))) with (flat_start d f i + k) by lia.
  destruct (aget v _); [|reflexivity]. cbn [obind]. destruct f; try reflexivity. congruence.
Qed.
Lemma out_set_ok s f i v : single f = true -> allocated N d s -> inside N f i -> field_size d f i <= len v ->
  exists s', out_set mul N d s (Z.of_nat i) f v = Some s' /\ allocated N d s' /\ dmask s' = dmask s /\
    forall c st k, cell (getb s' c) st k =
      if match bufof f, c with Bux, Bux | Bz, Bz | Bpi, Bpi | Blam, Blam | Bp, Bp => true | _, _ => false end && (st =? Z.of_nat i) && (ofZ f (Z.of_nat i) <=? k) && (k <? ofZ f (Z.of_nat i) + field_size d f i)
      then (do a <- aget v (k - ofZ f (Z.of_nat i)); stored s f (Z.of_nat i) k a) else cell (getb s c) st k.
Proof.
  intros Sf A Hi Hb. rewrite out_set_eq by auto. destruct (stage_fits s f i Sf A Hi) as (B1 & B2 & B3 & B4 & l & B5 & B6).
  unfold set_stage. rewrite B1, B2, B5; cbn [obind]. destruct (copy_ok (field_size d f i) v 0 l (ofZ f (Z.of_nat i))) as (l1 & E & L & G); try lia.
  rewrite E; cbn [obind].
  assert (exists l', postO s f (Z.of_nat i) (field_size d f i) l1 = Some l' /\ len l' = len l1 /\
    forall k, aget l' k = if (ofZ f (Z.of_nat i) <=? k) && (k <? ofZ f (Z.of_nat i) + field_size d f i) then (do a <- aget l1 k; stored s f (Z.of_nat i) k a) else aget l1 k) as (l2 & P1 & P2 & P3).
  { assert (forall st, szZ f (Z.of_nat st) = field_size d f st) as SZ by (intro; unfold szZ; now rewrite Nat2Z.id).
    destruct (field_eq_lam f) as [->|NL].
    - rewrite <- SZ. apply (post_all s Flam A (Z.of_nat i) l l1); [unfold lastZ, stages, inside in *; lia|auto|lia].
    - exists l1. split; [destruct f; try reflexivity; congruence|]. split; [reflexivity|]. intro k. destruct ((_ <=? k) && (k <? _)); [|reflexivity].
      destruct (aget l1 k); [|reflexivity]. destruct f; try reflexivity; congruence. }
  rewrite P1; cbn [obind]. pose proof (aget_range _ _ _ B5) as R. destruct (aput_ok (getb s (bufof f)) (Z.of_nat i) l2 R) as (M & E3 & _). rewrite E3; cbn [obind].
  destruct (aput_shape (getb s (bufof f)) (Z.of_nat i) l l2 M B5 ltac:(lia) E3) as (S1 & S2).
  eexists; split; [reflexivity|]. split; [now apply allocated_put|]. split; [apply dmask_putb|]. intros c st k. rewrite getb_putb.
  assert (forall L0, getb s (bufof f) = L0 -> cell M st k = if (st =? Z.of_nat i) && (ofZ f (Z.of_nat i) <=? k) && (k <? ofZ f (Z.of_nat i) + field_size d f i)
      then (do a <- aget v (k - ofZ f (Z.of_nat i)); stored s f (Z.of_nat i) k a) else cell L0 st k) as X.
  { intros L0 <-. rewrite S2. destruct (Z.eqb_spec st (Z.of_nat i)); cbn [andb]; [|reflexivity]. rewrite P3, G. subst st. unfold cell. rewrite B5; cbn [obind].
    destruct ((_ <=? k) && (k <? _)) eqn:B; reflexivity. }
  destruct (bufof f) eqn:EB, c; cbn [andb]; try reflexivity; apply X; reflexivity.
Qed.
End P.
