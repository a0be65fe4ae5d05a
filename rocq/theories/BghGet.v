From Coq Require Import ZArith List Bool Lia.
From Verif Require Import FP Arr ArrProofs DimsModel CasadiModel CasadiProofs BghModel BghSpec BghProofs BghTop.
Import ListNotations.
Open Scope Z_scope.

(** for (ii=0; ii<n; ii++) value[ii] = src[o + ii] - s; *)
Lemma get_idx_ok (g : Z -> option Z) n s value : 0 <= n -> n <= len value -> (forall ii, 0 <= ii < n -> exists k, g ii = Some k) ->
  exists value', for_ 0 n (fun ii value => do k <- g ii; aput value ii (k - s)) value = Some value' /\ len value' = len value /\
    forall k, aget value' k = if (0 <=? k) && (k <? n) then (do x <- g k; Some (x - s)) else aget value k.
Proof.
  intros Hn Hv Hg.
  destruct (for_rule (fun i x => len x = len value /\ forall k, aget x k = if (0 <=? k) && (k <? i) then (do x <- g k; Some (x - s)) else aget value k)
    0 n (fun ii value => do k <- g ii; aput value ii (k - s)) value) as (x & E & A); auto.
  - split; [reflexivity|]. intro k. destruct (Z.leb_spec 0 k); destruct (Z.ltb_spec k 0); cbn [andb]; try reflexivity; lia.
  - intros i x Hi (A & B). destruct (Hg i Hi) as (a & Ea). rewrite Ea; cbn [obind].
    destruct (aput_ok x i (a - s)) as (x' & E' & L' & G'); [lia|]. exists x'. split; [exact E'|]. split; [lia|]. intro k. rewrite G', B.
    destruct (Z.eqb_spec k i).
    + subst k. rewrite (proj2 (Z.leb_le _ _)), (proj2 (Z.ltb_lt _ _)) by lia. cbn [andb]. rewrite Ea. reflexivity.
    + destruct (Z.leb_spec 0 k); cbn [andb]; [|reflexivity]. destruct (Z.ltb_spec k i); destruct (Z.ltb_spec k (i + 1)); try lia; reflexivity.
  - exists x; auto.
Qed.

Lemma colmaj_inj g i j i' j' : 0 <= i < g -> 0 <= i' < g -> i + g * j = i' + g * j' -> i = i' /\ j = j'.
Proof. intros A B E. assert (g * (j - j') = i' - i) by lia. assert (j = j') by nia. subst. lia. Qed.

Section T.
Variable dm : cdims.
Variable order : list bfield.
Hypothesis W : wf dm.
Hypothesis O : declared dm order.
Let pos : forall f, 0 <= dm f := proj1 W.

Lemma get_idxbx_ok m0 h m value : reflects dm order m0 h m -> given h idxbx = true -> dm cNbx <= len value ->
  exists value', get_idxbx dm m value = Some value' /\ len value' = len value /\ forall k, aget value' k = if (0 <=? k) && (k <? dm cNbx) then Some (lasti h idxbx k) else aget value k.
Proof.
  intros (_ & _ & I & _) G L. assert (Q : forall k, 0 <= k < dm cNbx -> aget (idxb m) (k + dm cNbu) = Some (dm cNu + lasti h idxbx k)).
  { intros k K. specialize (I idxbx k ltac:(cbn; intuition congruence) K). rewrite G in I. cbn [arr iorder ishift] in I. rewrite <- I. f_equal. unfold iplace. cbn [place order_b ifield_eqb isize]. lia. }
  pose proof (pos cNbx).
  destruct (get_idx_ok (fun ii => aget (idxb m) (ii + dm cNbu)) (dm cNbx) (dm cNu) value) as (v' & E & L' & G'); [lia|lia|intros; eauto|].
  exists v'. split; [exact E|]. split; [exact L'|]. intro k. rewrite G'. destruct ((0 <=? k) && (k <? dm cNbx)) eqn:C; [|reflexivity].
  apply andb_prop in C as (C1 & C2). apply Z.leb_le in C1. apply Z.ltb_lt in C2. rewrite Q by lia. cbn [obind]. f_equal; lia.
Qed.
Lemma get_idxbu_ok m0 h m value : reflects dm order m0 h m -> given h idxbu = true -> dm cNbu <= len value ->
  exists value', get_idxbu dm m value = Some value' /\ len value' = len value /\ forall k, aget value' k = if (0 <=? k) && (k <? dm cNbu) then Some (lasti h idxbu k) else aget value k.
Proof.
  intros (_ & _ & I & _) G L. assert (Q : forall k, 0 <= k < dm cNbu -> aget (idxb m) k = Some (lasti h idxbu k)).
  { intros k K. specialize (I idxbu k ltac:(cbn; intuition congruence) K). rewrite G in I. exact I. }
  pose proof (pos cNbu).
  destruct (get_idx_ok (fun ii => aget (idxb m) ii) (dm cNbu) 0 value) as (v' & E & L' & G'); [lia|lia|intros; eauto|].
  exists v'. split; [rewrite <- E; unfold get_idxbu; apply for_ext; intros; cbv beta; destruct (aget (idxb m) i); [cbn [obind]; now rewrite Z.sub_0_r|reflexivity]|].
  split; [exact L'|]. intro k. rewrite G'. destruct ((0 <=? k) && (k <? dm cNbu)) eqn:C; [|reflexivity].
  apply andb_prop in C as (C1 & C2). apply Z.leb_le in C1. apply Z.ltb_lt in C2. rewrite Q by lia. cbn [obind]. f_equal; lia.
Qed.

Lemma get_idxs_ok m0 h m value : order = order_idx -> reflects dm order m0 h m -> (forall f, In f order_s -> given h f = true) -> dm cNs <= len value ->
  exists value', get_idxs dm m value = Some value' /\ len value' = len value /\
    (forall f k, In f order_s -> 0 <= k < isize dm f -> aget value' (iplace dm order_s f + k) = Some (ishift dm f + lasti h f k)) /\
    (forall k, dm cNs <= k -> aget value' k = aget value k).
Proof.
  clear O. intros OI (Sh & _ & I & _) G L. pose proof (pos cNs).
  assert (Ls : len (idxs m) = dm cNs) by apply Sh.
  destruct (get_idx_ok (fun ii => aget (idxs m) ii) (dm cNs) 0 value) as (v' & E & L' & G'); [lia|lia|intros ii Hi; apply aget_in; lia|].
  exists v'. split; [rewrite <- E; unfold get_idxs; apply for_ext; intros; cbv beta; destruct (aget (idxs m) i); [cbn [obind]; now rewrite Z.sub_0_r|reflexivity]|].
  split; [exact L'|]. split.
  - intros f k Hf K. pose proof (I f k (fun _ => OI) K) as Q. rewrite (G f Hf) in Q.
    assert (Ea : arr f m = idxs m) by (cbn in Hf; decompose [or] Hf; subst; try reflexivity; contradiction).
    assert (Eo : iorder f = order_s) by (cbn in Hf; decompose [or] Hf; subst; try reflexivity; contradiction).
    rewrite Ea, Eo in Q. pose proof (aget_range _ _ _ Q). rewrite G'.
    rewrite (proj2 (Z.leb_le _ _)), (proj2 (Z.ltb_lt _ _)) by lia. cbn [andb]. rewrite Q. cbn [obind]. f_equal; lia.
  - intros k K. rewrite G'. rewrite (proj2 (Z.ltb_ge _ _)) by lia. now rewrite andb_false_r.
Qed.

Lemma unpack_tran_ok n B value ai : 0 <= n -> 0 <= ai -> ai + n <= dm cNu + dm cNx -> dm cNg * n <= len value -> len B = (dm cNu + dm cNx) * dm cNg ->
  exists value', unpack_tran dm n (dm cNg) B ai 0 value (dm cNg) = Some value' /\ len value' = len value /\
    (forall i j, 0 <= i < dm cNg -> 0 <= j < n -> aget value' (i + dm cNg * j) = aget B (adr dm (ai + j) i)) /\
    (forall k, dm cNg * n <= k -> aget value' k = aget value k).
Proof.
  intros Hn Ha Hr Hv HB. pose proof (pos cNg) as Pg. unfold unpack_tran.
  assert (Hacc : forall i j, 0 <= i < dm cNg -> 0 <= j < n -> acc_colmaj (dm cNg) i j = Some (i + dm cNg * j) /\ 0 <= i + dm cNg * j < dm cNg * n).
  { intros i j Hi Hj. unfold acc_colmaj. split; [f_equal; lia|]. clear - Hi Hj Pg. nia. }
  destruct (store_cols double _ (fun i j => i + dm cNg * j) (dm cNg) n (dm cNg * n) Hacc
    ltac:(intros i j i' j' A1 A2 A3 A4 E; cbv beta in E; exact (colmaj_inj _ _ _ _ _ A1 A3 E)) ltac:(lia) ltac:(lia) (fun i j => nthz B (adr dm (ai + j) i) f0)
    (fun i j value => do a <- acc_dmat (dm cNu + dm cNx) (dm cNg) ai 0 i j; do v <- aget B a; aput value (j + dm cNg * i) v) value) as (B' & E & L & G1 & G2).
  - lia.
  - intros i j l Hi Hj. unfold acc_dmat. rewrite !(proj2 (Z.leb_le _ _)), !(proj2 (Z.ltb_lt _ _)) by lia. cbn [andb obind].
    pose proof (adr_range dm (ai + j) i ltac:(lia) Hi) as R. unfold adr in *. replace (ai + j + (0 + i) * (dm cNu + dm cNx)) with (ai + j + i * (dm cNu + dm cNx)) by lia.
    destruct (aget_in B (ai + j + i * (dm cNu + dm cNx))) as (x & Ex); [lia|]. unfold nthz. rewrite Ex. reflexivity.
  - exists B'. split; [exact E|]. split; [exact L|]. split.
    + intros i j Hi Hj. rewrite (G1 i j Hi Hj). pose proof (adr_range dm (ai + j) i ltac:(lia) Hi) as R. destruct (aget_in B (adr dm (ai + j) i)) as (x & Ex); [lia|]. unfold nthz. rewrite Ex. reflexivity.
    + intros k Hk. apply G2. intros i j Hi Hj. clear - Hk Hi Hj Pg. nia.
Qed.
Lemma get_C_ok m0 h m value : reflects dm order m0 h m -> shaped dm m0 -> dm cNg * dm cNx <= len value ->
  exists value', get_C dm m value = Some value' /\ len value' = len value /\
    (forall i j x, 0 <= i < dm cNg -> 0 <= j < dm cNx -> aget (DCt m0) (adr dm (dm cNu + j) i) = Some x -> aget value' (i + dm cNg * j) = Some (lastC dm h i j x)) /\
    (forall k, dm cNg * dm cNx <= k -> aget value' k = aget value k).
Proof.
  intros (S & _ & _ & _ & C & _) S0 L. pose proof (pos cNx); pose proof (pos cNu). destruct S as (_ & _ & _ & _ & _ & _ & S7).
  destruct (unpack_tran_ok (dm cNx) (DCt m) value (dm cNu)) as (v' & E & L' & G & R); try lia.
  exists v'. split; [exact E|]. split; [exact L'|]. split; [|exact R]. intros i j x Hi Hj Ex. rewrite G by lia. auto.
Qed.
Lemma get_D_ok m0 h m value : reflects dm order m0 h m -> shaped dm m0 -> dm cNg * dm cNu <= len value ->
  exists value', get_D dm m value = Some value' /\ len value' = len value /\
    (forall i j x, 0 <= i < dm cNg -> 0 <= j < dm cNu -> aget (DCt m0) (adr dm j i) = Some x -> aget value' (i + dm cNg * j) = Some (lastD dm h i j x)) /\
    (forall k, dm cNg * dm cNu <= k -> aget value' k = aget value k).
Proof.
  intros (S & _ & _ & _ & _ & D) S0 L. pose proof (pos cNx); pose proof (pos cNu). destruct S as (_ & _ & _ & _ & _ & _ & S7).
  destruct (unpack_tran_ok (dm cNu) (DCt m) value 0) as (v' & E & L' & G & R); try lia.
  exists v'. split; [exact E|]. split; [exact L'|]. split; [|exact R]. intros i j x Hi Hj Ex. rewrite G by lia. auto.
Qed.
End T.
