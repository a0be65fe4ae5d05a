From Coq Require Import ZArith List Bool Lia.
From Verif Require Import FP Arr ArrProofs DimsModel IfaceModel IfaceProofs CasadiModel BghModel BghSpec.
Import ListNotations.
Open Scope Z_scope.

Lemma bfield_spec f g : reflect (f = g) (bfield_eqb f g).
Proof. destruct f, g; cbn; constructor; congruence. Qed.
Lemma ifield_spec f g : reflect (f = g) (ifield_eqb f g).
Proof. destruct f, g; cbn; constructor; congruence. Qed.

Section Blocks.
Context {K : Type} (eqb : K -> K -> bool) (size : K -> Z).
Hypothesis eqb_spec : forall f g, reflect (f = g) (eqb f g).
Hypothesis size_pos : forall f, 0 <= size f.
Fixpoint total (order : list K) : Z := match order with nil => 0 | g :: r => size g + total r end.
Lemma total_pos order : 0 <= total order.
Proof. induction order as [|g r]; cbn [total]; [lia|]. pose proof (size_pos g). lia. Qed.
Lemma place_range order f : In f order -> 0 <= place eqb size order f /\ place eqb size order f + size f <= total order.
Proof.
  induction order as [|g r IH]; [intros []|]. intro H. cbn [place total]. pose proof (total_pos r). pose proof (size_pos g).
  destruct (eqb_spec g f); [subst; lia|]. destruct H as [H|H]; [contradiction|]. specialize (IH H). lia.
Qed.
Lemma place_disjoint order f g : In f order -> In g order -> f <> g ->
  place eqb size order f + size f <= place eqb size order g \/ place eqb size order g + size g <= place eqb size order f.
Proof.
  induction order as [|h r IH]; [intros []|]. intros F G N. cbn [place].
  destruct (eqb_spec h f) as [E|E]; destruct (eqb_spec h g) as [E'|E']; try congruence.
  - left. subst. destruct G as [G|G]; [contradiction|]. pose proof (place_range r g G). lia.
  - right. subst. destruct F as [F|F]; [contradiction|]. pose proof (place_range r f F). lia.
  - destruct F as [F|F]; [contradiction|]. destruct G as [G|G]; [contradiction|]. destruct (IH F G N); lia.
Qed.
Lemma place_cover order e : NoDup order -> 0 <= e < total order -> exists f k, In f order /\ 0 <= k < size f /\ e = place eqb size order f + k.
Proof.
  intro ND. revert e. induction ND as [|g r I ND IH]; intros e H; cbn [total] in H; [lia|].
  destruct (Z_lt_dec e (size g)).
  - exists g, e. cbn [place]. destruct (eqb_spec g g); [|contradiction]. split; [left; reflexivity|]. split; lia.
  - destruct (IH (e - size g) ltac:(lia)) as (f & k & A & B & C). exists f, k. cbn [place]. destruct (eqb_spec g f); [subst; contradiction|]. split; [right; auto|]. split; lia.
Qed.
Lemma block_write {A} (a a' : list A) order f (w : Z -> option A) : In f order ->
  (forall k, aget a' k = if (place eqb size order f <=? k) && (k <? place eqb size order f + size f) then w (k - place eqb size order f) else aget a k) ->
  forall g j, In g order -> 0 <= j < size g -> aget a' (place eqb size order g + j) = if eqb f g then w j else aget a (place eqb size order g + j).
Proof.
  intros F H g j G J. rewrite H. destruct (eqb_spec f g) as [E|E].
  - subst g. rewrite (proj2 (Z.leb_le _ _)), (proj2 (Z.ltb_lt _ _)) by lia. cbn [andb]. f_equal; lia.
  - destruct (place_disjoint order f g F G E).
    + rewrite (proj2 (Z.ltb_ge _ _)) by lia. rewrite andb_false_r. reflexivity.
    + rewrite (proj2 (Z.leb_gt _ _)) by lia. reflexivity.
Qed.
End Blocks.

Lemma update_mask_ok up n o d mask : 0 <= n -> 0 <= o -> o + n <= len d -> o + n <= len mask ->
  exists mask', update_mask up n o d mask = Some mask' /\ len mask' = len mask /\
    forall k, aget mask' k = if (o <=? k) && (k <? o + n) then (do x <- aget d k; Some (if (if up then fge x ACADOS_INFTY else fle x (fopp ACADOS_INFTY)) then f0 else f1)) else aget mask k.
Proof.
  intros Hn Ho Hd Hm. unfold update_mask. set (act := fun x => if (if up then fge x ACADOS_INFTY else fle x (fopp ACADOS_INFTY)) then f0 else f1).
  destruct (for_rule (fun i m => len m = len mask /\ forall k, aget m k = if (o <=? k) && (k <? o + i) then (do x <- aget d k; Some (act x)) else aget mask k)
    0 n (fun ii mask => do x <- aget d (o + ii); aput mask (o + ii) (act x)) mask) as (x & E & A); auto.
  - split; [reflexivity|]. intro k. destruct (Z.leb_spec o k); destruct (Z.ltb_spec k (o + 0)); cbn [andb]; try reflexivity; lia.
  - intros i m Hi (A & B). destruct (aget_in d (o + i)) as (a & Ea); [lia|]. rewrite Ea; cbn [obind].
    destruct (aput_ok m (o + i) (act a)) as (m' & E' & L' & G'); [lia|]. exists m'. split; [exact E'|]. split; [lia|]. intro k. rewrite G', B.
    destruct (Z.eqb_spec k (o + i)).
    + subst k. rewrite (proj2 (Z.leb_le _ _)), (proj2 (Z.ltb_lt _ _)) by lia. cbn [andb]. rewrite Ea. reflexivity.
    + destruct (Z.leb_spec o k); cbn [andb]; [|reflexivity]. destruct (Z.ltb_spec k (o + i)); destruct (Z.ltb_spec k (o + (i + 1))); try lia; reflexivity.
  - exists x; auto.
Qed.
Lemma set_idx_ok n o add v dst : 0 <= n -> n <= len v -> 0 <= o -> o + n <= len dst ->
  exists dst', set_idx n o add v dst = Some dst' /\ len dst' = len dst /\
    forall k, aget dst' k = if (o <=? k) && (k <? o + n) then (do x <- aget v (k - o); Some (add + x)) else aget dst k.
Proof.
  intros Hn Hv Ho Hd. unfold set_idx.
  destruct (for_rule (fun i m => len m = len dst /\ forall k, aget m k = if (o <=? k) && (k <? o + i) then (do x <- aget v (k - o); Some (add + x)) else aget dst k)
    0 n (fun ii dst => do k <- aget v ii; aput dst (o + ii) (add + k)) dst) as (x & E & A); auto.
  - split; [reflexivity|]. intro k. destruct (Z.leb_spec o k); destruct (Z.ltb_spec k (o + 0)); cbn [andb]; try reflexivity; lia.
  - intros i m Hi (A & B). destruct (aget_in v i) as (a & Ea); [lia|]. rewrite Ea; cbn [obind].
    destruct (aput_ok m (o + i) (add + a)) as (m' & E' & L' & G'); [lia|]. exists m'. split; [exact E'|]. split; [lia|]. intro k. rewrite G', B.
    destruct (Z.eqb_spec k (o + i)).
    + subst k. rewrite (proj2 (Z.leb_le _ _)), (proj2 (Z.ltb_lt _ _)) by lia. cbn [andb]. replace (o + i - o) with i by lia. rewrite Ea. reflexivity.
    + destruct (Z.leb_spec o k); cbn [andb]; [|reflexivity]. destruct (Z.ltb_spec k (o + i)); destruct (Z.ltb_spec k (o + (i + 1))); try lia; reflexivity.
  - exists x; auto.
Qed.

Section S.
Variable dm : cdims.
Variable order : list bfield.
Hypothesis W : wf dm.
Hypothesis O : declared dm order.
Let pos : forall f, 0 <= dm f := proj1 W.

Lemma bsize_pos f : 0 <= bsize dm f. Proof. destruct f; apply pos. Qed.
Lemma isize_pos f : 0 <= isize dm f. Proof. destruct f; cbn [isize]; try apply pos. pose proof (pos cNb); pose proof (pos cNg); pose proof (pos cNh). lia. Qed.
Lemma order_total : total (bsize dm) order = 2 * (dm cNb + dm cNg + dm cNh + dm cNs).
Proof. pose proof (proj2 W) as E. destruct O as [(-> & Q)| ->]; cbn [total order_idx order_rev bsize]; lia. Qed.
Lemma order_nodup : NoDup order.
Proof. destruct O as [(-> & _)| ->]; repeat (constructor; [cbn [In]; intuition congruence|]); constructor. Qed.
Lemma args_ok f : In f order -> bound_args dm f = (bsize dm f, bplace dm order f, is_upper f).
Proof.
  pose proof (proj2 W) as E. intro I. destruct O as [(-> & Q)| ->]; destruct f; try (exfalso; cbn in I; intuition congruence);
  cbn [bound_args bsize is_upper]; unfold bplace; cbn [place order_idx order_rev bfield_eqb bsize]; f_equal; f_equal; lia.
Qed.

Lemma unbounded_eq f x : (if is_upper f then fge x ACADOS_INFTY else fle x (fopp ACADOS_INFTY)) = unbounded f x.
Proof. reflexivity. Qed.

(** blocks of d and of the mask after setting field f *)
Lemma set_bound_ok f v m : In f order -> bsize dm f <= len v -> shaped dm m ->
  exists m', set_bound dm f v m = Some m' /\ shaped dm m' /\
    idxb m' = idxb m /\ idxs m' = idxs m /\ idxs_rev m' = idxs_rev m /\ idxe m' = idxe m /\ DCt m' = DCt m /\ use_idxs_rev m' = use_idxs_rev m /\
    forall g j, In g order -> 0 <= j < bsize dm g ->
      aget (bd m') (bplace dm order g + j) = (if bfield_eqb f g then aget v j else aget (bd m) (bplace dm order g + j)) /\
      aget (bmask m') (bplace dm order g + j) = (if bfield_eqb f g then (do x <- aget v j; Some (if unbounded f x then f0 else f1)) else aget (bmask m) (bplace dm order g + j)).
Proof.
  intros I Hv (S1 & S2 & S3 & S4 & S5 & S6 & S7). unfold set_bound. rewrite (args_ok f I).
  pose proof (place_range bfield_eqb (bsize dm) bfield_spec bsize_pos order f I) as (R1 & R2). rewrite order_total in R2. fold (bplace dm order f) in R1, R2. pose proof (bsize_pos f).
  destruct (copy_ok (bsize dm f) v 0 (bd m) (bplace dm order f)) as (d' & E & L & G); try lia. rewrite E; cbn [obind].
  destruct (update_mask_ok (is_upper f) (bsize dm f) (bplace dm order f) d' (bmask m)) as (k' & E2 & L2 & G2); try lia. rewrite E2; cbn [obind].
  eexists; split; [reflexivity|]. cbn [bd bmask idxb idxs idxs_rev idxe DCt use_idxs_rev]. split.
  { unfold shaped; cbn [bd bmask idxb idxs idxs_rev idxe DCt]. repeat split; lia. }
  do 6 (split; [reflexivity|]). intros g j Hg Hj.
  assert (A : aget d' (bplace dm order g + j) = if bfield_eqb f g then aget v j else aget (bd m) (bplace dm order g + j)).
  { apply (block_write bfield_eqb (bsize dm) bfield_spec bsize_pos (bd m) d' order f (fun j => aget v j)); auto. }
  split; [exact A|].
  apply (block_write bfield_eqb (bsize dm) bfield_spec bsize_pos (bmask m) k' order f (fun j => do x <- aget v j; Some (if unbounded f x then f0 else f1))); auto.
  intro k. rewrite G2. fold (bplace dm order f). destruct ((bplace dm order f <=? k) && (k <? bplace dm order f + bsize dm f)) eqn:C; [|reflexivity].
  rewrite G, C, Z.add_0_l.
  destruct (aget v (k - bplace dm order f)) as [x|]; [|reflexivity]. cbn [obind]. rewrite unbounded_eq. reflexivity.
Qed.

(** index arrays *)
Definition kind (f : ifield) : nat := match f with idxbu | idxbx => 0 | idxsbu | idxsbx | idxsg | idxsh => 1 | idxbue | idxbxe | idxge | idxhe => 2 | idxsrev => 3 end.
Lemma set_index_ok f v m : (In f order_s -> order = order_idx) -> isize dm f <= len v -> shaped dm m ->
  exists m', set_index dm f v m = Some m' /\ shaped dm m' /\ bd m' = bd m /\ bmask m' = bmask m /\ DCt m' = DCt m /\ use_idxs_rev m' = (ifield_eqb f idxsrev || use_idxs_rev m) /\
    forall g j, (In g order_s -> order = order_idx) -> 0 <= j < isize dm g ->
      aget (arr g m') (iplace dm (iorder g) g + j) = (if ifield_eqb f g then (do x <- aget v j; Some (ishift dm f + x)) else aget (arr g m) (iplace dm (iorder g) g + j)).
Proof.
  intros I Hv (S1 & S2 & S3 & S4 & S5 & S6 & S7). pose proof (proj2 W) as E0. pose proof (isize_pos f) as Hp.
  assert (Q : In f order_s -> dm cNs = dm cNsbu + dm cNsbx + dm cNsg + dm cNsh).
  { intro H. specialize (I H). destruct O as [(_ & Q)|Q]; [exact Q|]. rewrite I in Q. discriminate Q. }
  assert (T : total (isize dm) (iorder f) <= len (arr f m)).
  { destruct f; cbn [iorder total order_b order_s order_e isize arr]; try (specialize (Q ltac:(cbn; auto 10))); lia. }
  assert (F : In f (iorder f)) by (destruct f; cbn; auto 10).
  pose proof (place_range ifield_eqb (isize dm) ifield_spec isize_pos (iorder f) f F) as (R1 & R2).
  destruct (set_idx_ok (isize dm f) (iplace dm (iorder f) f) (ishift dm f) v (arr f m)) as (l & E & L & G); [lia|lia|exact R1|unfold iplace; lia|].
  assert (B : forall g j, (forall h, iorder h = iorder f -> arr h m = arr f m) -> iorder g = iorder f -> 0 <= j < isize dm g ->
     aget l (iplace dm (iorder g) g + j) = if ifield_eqb f g then (do x <- aget v j; Some (ishift dm f + x)) else aget (arr f m) (iplace dm (iorder g) g + j)).
  { intros g j _ Hg Hj. rewrite Hg. apply (block_write ifield_eqb (isize dm) ifield_spec isize_pos (arr f m) l (iorder f) f (fun j => do x <- aget v j; Some (ishift dm f + x))); auto.
    rewrite <- Hg. destruct g; cbn; auto 10. }
  assert (M : exists m', set_index dm f v m = Some m' /\ (forall g, arr g m' = if Nat.eqb (kind g) (kind f) then l else arr g m) /\ bd m' = bd m /\ bmask m' = bmask m /\ DCt m' = DCt m /\ use_idxs_rev m' = (ifield_eqb f idxsrev || use_idxs_rev m)).
  { destruct f; unfold set_index; cbv zeta; cbn [isize ishift arr iorder] in E; unfold iplace in E; cbn [place order_b order_s order_e ifield_eqb isize] in E;
    match type of E with set_idx ?a ?b ?c ?d ?e = _ => match goal with |- context [set_idx a ?b2 c d e] => replace b2 with b by lia end end;
    rewrite E; cbn [obind]; (eexists; split; [reflexivity|]); cbn [bd bmask DCt use_idxs_rev ifield_eqb orb]; (split; [intro g; destruct g; reflexivity|auto]). }
  destruct M as (m' & M1 & M2 & M3 & M4 & M5 & M6). exists m'. split; [exact M1|]. split.
  { assert (LL : forall g, len (arr g m') = len (arr g m)).
    { intro g. rewrite M2. destruct (Nat.eqb (kind g) (kind f)) eqn:e; [|reflexivity]. rewrite L. destruct g, f; try reflexivity; discriminate e. }
    pose proof (LL idxbu) as A1. pose proof (LL idxsbu) as A2. pose proof (LL idxbue) as A3. pose proof (LL idxsrev) as A4. cbn [arr] in *.
    unfold shaped. rewrite M3, M4, M5, A1, A2, A3, A4. repeat split; assumption. }
  do 4 (split; [assumption|]). intros g j Hg Hj. rewrite M2. destruct (Nat.eqb (kind g) (kind f)) eqn:e.
  - rewrite (B g j); auto.
    + destruct g, f; try reflexivity; discriminate e.
    + intros h Hh. destruct h, f; try reflexivity; discriminate Hh.
    + destruct g, f; try reflexivity; discriminate e.
  - destruct (ifield_spec f g); [subst; rewrite Nat.eqb_refl in e; discriminate e|reflexivity].
Qed.
End S.

From Verif Require Import CasadiProofs.
Section M.
Variable dm : cdims.
Hypothesis W : wf dm.
Let pos : forall f, 0 <= dm f := proj1 W.
Notation adr := (adr dm).
Lemma adr_inj r c r' c' : 0 <= r < dm cNu + dm cNx -> 0 <= r' < dm cNu + dm cNx -> adr r c = adr r' c' -> r = r' /\ c = c'.
Proof. unfold BghSpec.adr. intros A B E. assert (c = c') by nia. subst. lia. Qed.
Lemma adr_range r c : 0 <= r < dm cNu + dm cNx -> 0 <= c < dm cNg -> 0 <= adr r c < (dm cNu + dm cNx) * dm cNg.
Proof. unfold BghSpec.adr. nia. Qed.
Lemma pack_tran_ok n v B bi : 0 <= n -> 0 <= bi -> bi + n <= dm cNu + dm cNx -> dm cNg * n <= len v -> len B = (dm cNu + dm cNx) * dm cNg ->
  exists B', pack_tran dm (dm cNg) n v (dm cNg) B bi 0 = Some B' /\ len B' = len B /\
    forall r c, 0 <= r < dm cNu + dm cNx -> 0 <= c < dm cNg ->
      aget B' (adr r c) = if (bi <=? r) && (r <? bi + n) then aget v (c + dm cNg * (r - bi)) else aget B (adr r c).
Proof.
  intros Hn Hb Hr Hv HB. pose proof (pos cNg) as Pg. unfold pack_tran.
  assert (Hacc : forall i j, 0 <= i < dm cNg -> 0 <= j < n -> (fun i j => acc_dmat (dm cNu + dm cNx) (dm cNg) bi 0 j i) i j = Some (adr (bi + j) i) /\ 0 <= adr (bi + j) i < (dm cNu + dm cNx) * dm cNg).
  { intros i j Hi Hj. split; [|apply adr_range; lia]. cbv beta. unfold acc_dmat. rewrite !(proj2 (Z.leb_le _ _)), !(proj2 (Z.ltb_lt _ _)) by lia. cbn [andb]. unfold BghSpec.adr. f_equal; lia. }
  destruct (store_cols double _ (fun i j => adr (bi + j) i) (dm cNg) n ((dm cNu + dm cNx) * dm cNg) Hacc
    ltac:(intros i j i' j' A1 A2 A3 A4 E; apply adr_inj in E; lia) ltac:(lia) ltac:(lia) (fun i j => nthz v (i + dm cNg * j) f0)
    (fun j i B => do v <- aget v (i + dm cNg * j); do a <- acc_dmat (dm cNu + dm cNx) (dm cNg) bi 0 j i; aput B a v) B) as (B' & E & L & G1 & G2).
  - lia.
  - intros i j l Hi Hj. destruct (aget_in v (i + dm cNg * j)) as (x & Ex); [nia|]. unfold nthz. rewrite Ex; cbn [obind].
    destruct (Hacc i j Hi Hj) as (-> & _). reflexivity.
  - exists B'. split; [exact E|]. split; [exact L|]. intros r c Rr Rc.
    destruct (Z.leb_spec bi r); destruct (Z.ltb_spec r (bi + n)); cbn [andb];
      try (apply G2; intros i j Hi Hj Q; apply adr_inj in Q; lia).
    replace (adr r c) with (adr (bi + (r - bi)) c) by (f_equal; lia). rewrite (G1 c (r - bi)) by lia.
    destruct (aget_in v (c + dm cNg * (r - bi))) as (x & Ex); [nia|]. unfold nthz. rewrite Ex. reflexivity.
Qed.
End M.
