From Coq Require Import ZArith List Bool Lia.
From Flocq Require Import IEEE754.BinarySingleNaN.
From Verif Require Import FP Arr ArrProofs DimsModel IfaceModel IfaceProofs IfaceCases BghModel BghSpec BghProofs.
Import ListNotations.
Open Scope Z_scope.

Section T.
Variable dm : cdims.
Variable order : list bfield.
Hypothesis W : wf dm.
Hypothesis O : declared dm order.
Let pos : forall f, 0 <= dm f := proj1 W.
Notation ni := (dm cNb + dm cNg + dm cNh + dm cNs).

Lemma lastb_snoc h c f k : lastb (h ++ [c]) f k = match c with SetB g v => if bfield_eqb g f then nthz v k (lastb h f k) else lastb h f k | _ => lastb h f k end.
Proof. unfold lastb. rewrite fold_left_app. cbn [fold_left]. destruct c; try reflexivity. Qed.
Lemma lasti_snoc h c f k : lasti (h ++ [c]) f k = match c with SetI g v => if ifield_eqb g f then nthz v k (lasti h f k) else lasti h f k | _ => lasti h f k end.
Proof. unfold lasti. rewrite fold_left_app. cbn [fold_left]. destruct c; try reflexivity. Qed.
Lemma lastC_snoc h c i j x : lastC dm (h ++ [c]) i j x = match c with SetC v => nthz v (i + dm cNg * j) (lastC dm h i j x) | _ => lastC dm h i j x end.
Proof. unfold lastC. rewrite fold_left_app. reflexivity. Qed.
Lemma lastD_snoc h c i j x : lastD dm (h ++ [c]) i j x = match c with SetD v => nthz v (i + dm cNg * j) (lastD dm h i j x) | _ => lastD dm h i j x end.
Proof. unfold lastD. rewrite fold_left_app. reflexivity. Qed.
Lemma given_snoc h c f : given (h ++ [c]) f = given h f || match c with SetI g _ => ifield_eqb g f | _ => false end.
Proof. unfold given. rewrite existsb_app. cbn [existsb]. rewrite orb_false_r. reflexivity. Qed.
Lemma nthz_get {A} (v : list A) k x y : aget v k = Some y -> nthz v k x = y.
Proof. unfold nthz. now intros ->. Qed.

Lemma fresh_reflects m : fresh dm m -> reflects dm order m [] m.
Proof.
  intros (A & B & C). pose proof A as (S1 & S2 & _). split; [exact A|]. split.
  - intros f k I K. pose proof (place_range bfield_eqb (bsize dm) bfield_spec (bsize_pos dm W) order f I) as (R1 & R2). rewrite (order_total dm order W O) in R2. fold (bplace dm order f) in R1, R2.
    destruct (aget_in (bd m) (bplace dm order f + k)) as (x & Ex); [lia|]. destruct (aget_in (bmask m) (bplace dm order f + k)) as (y & Ey); [lia|].
    rewrite Ex, Ey. rewrite (B _ _ Ex), (C _ _ Ey). change (lastb [] f k) with f0. split; [reflexivity|]. destruct f; reflexivity.
  - repeat split; auto.
Qed.

Lemma set_reflects m0 h m c : valid dm order c -> reflects dm order m0 h m -> shaped dm m0 -> exists m', model_set dm c m = Some m' /\ reflects dm order m0 (h ++ [c]) m'.
Proof.
  intros V (S & B & I & U & C & D) S0. destruct c as [f v|f v|v|v]; cbn [valid model_set] in *.
  - destruct V as (V1 & V2). destruct (set_bound_ok dm order W O f v m V1 V2 S) as (m' & E & S' & E1 & E2 & E3 & E4 & E5 & E6 & G).
    exists m'. split; [exact E|]. split; [exact S'|]. split; [|split; [|split; [|split]]].
    + intros g k Ig Ik. destruct (G g k Ig Ik) as (G1 & G2). rewrite G1, G2, lastb_snoc. destruct (bfield_spec f g) as [->|].
      * destruct (aget_in v k) as (x & Ex); [lia|]. rewrite Ex. rewrite (nthz_get _ _ _ _ Ex). split; reflexivity.
      * apply B; auto.
    + intros g k Ig Ik. rewrite given_snoc, orb_false_r, lasti_snoc. replace (arr g m') with (arr g m) by (destruct g; cbn [arr]; congruence). apply I; auto.
    + rewrite given_snoc, orb_false_r. congruence.
    + intros i j x Hi Hj Ex. rewrite lastC_snoc, E5. auto.
    + intros i j x Hi Hj Ex. rewrite lastD_snoc, E5. auto.
  - destruct V as (V1 & V2). destruct (set_index_ok dm order W O f v m V1 V2 S) as (m' & E & S' & E1 & E2 & E3 & E4 & G).
    exists m'. split; [exact E|]. split; [exact S'|]. split; [|split; [|split; [|split]]].
    + intros g k Ig Ik. rewrite lastb_snoc, E1, E2. apply B; auto.
    + intros g k Ig Ik. rewrite (G g k Ig Ik), given_snoc, lasti_snoc. destruct (ifield_spec f g) as [->|].
      * rewrite orb_true_r. destruct (aget_in v k) as (x & Ex); [lia|]. rewrite Ex. rewrite (nthz_get _ _ _ _ Ex). reflexivity.
      * rewrite orb_false_r. apply I; auto.
    + rewrite given_snoc, E4, U. destruct (ifield_eqb f idxsrev), (given h idxsrev); reflexivity.
    + intros i j x Hi Hj Ex. rewrite lastC_snoc, E3. auto.
    + intros i j x Hi Hj Ex. rewrite lastD_snoc, E3. auto.
  - pose proof S as (S1 & S2 & S3 & S4 & S5 & S6 & S7). pose proof S0 as (_ & _ & _ & _ & _ & _ & S07). pose proof (pos cNx); pose proof (pos cNu); pose proof (pos cNg).
    destruct (pack_tran_ok dm W (dm cNx) v (DCt m) (dm cNu)) as (D' & E & L & G); try lia.
    rewrite E; cbn [obind]. eexists; split; [reflexivity|]. unfold put_DCt. split; [unfold shaped; cbn [bd bmask idxb idxs idxs_rev idxe DCt]; repeat split; lia|].
    cbn [bd bmask use_idxs_rev DCt]. split; [|split; [|split; [|split]]].
    + intros g k Ig Ik. rewrite lastb_snoc. apply B; auto.
    + intros g k Ig Ik. rewrite given_snoc, orb_false_r, lasti_snoc. etransitivity; [|apply I; auto]. destruct g; reflexivity.
    + rewrite given_snoc, orb_false_r. exact U.
    + intros i j x Hi Hj Ex. rewrite lastC_snoc, G by lia. rewrite (proj2 (Z.leb_le _ _)), (proj2 (Z.ltb_lt _ _)) by lia. cbn [andb].
      replace (dm cNu + j - dm cNu) with j by lia. destruct (aget_in v (i + dm cNg * j)) as (y & Ey); [nia|]. rewrite Ey. now rewrite (nthz_get _ _ _ _ Ey).
    + intros i j x Hi Hj Ex. rewrite lastD_snoc, G by lia. rewrite (proj2 (Z.leb_gt _ _)) by lia. cbn [andb]. auto.
  - pose proof S as (S1 & S2 & S3 & S4 & S5 & S6 & S7). pose proof (pos cNx); pose proof (pos cNu); pose proof (pos cNg).
    destruct (pack_tran_ok dm W (dm cNu) v (DCt m) 0) as (D' & E & L & G); try lia.
    rewrite E; cbn [obind]. eexists; split; [reflexivity|]. unfold put_DCt. split; [unfold shaped; cbn [bd bmask idxb idxs idxs_rev idxe DCt]; repeat split; lia|].
    cbn [bd bmask use_idxs_rev DCt]. split; [|split; [|split; [|split]]].
    + intros g k Ig Ik. rewrite lastb_snoc. apply B; auto.
    + intros g k Ig Ik. rewrite given_snoc, orb_false_r, lasti_snoc. etransitivity; [|apply I; auto]. destruct g; reflexivity.
    + rewrite given_snoc, orb_false_r. exact U.
    + intros i j x Hi Hj Ex. rewrite lastC_snoc, G by lia. rewrite (proj2 (Z.ltb_ge _ _)) by lia. rewrite andb_false_r. auto.
    + intros i j x Hi Hj Ex. rewrite lastD_snoc, G by lia. rewrite (proj2 (Z.leb_le _ _)), (proj2 (Z.ltb_lt _ _)) by lia. cbn [andb].
      rewrite Z.sub_0_r. destruct (aget_in v (i + dm cNg * j)) as (y & Ey); [nia|]. rewrite Ey. now rewrite (nthz_get _ _ _ _ Ey).
Qed.

(** the multipliers after a call *)
Definition remasked (mask lam lam' : list double) : Prop :=
  forall k a, 0 <= k < 2 * ni -> aget lam k = Some a -> is_finite a = true ->
    (aget mask k = Some f1 /\ aget lam' k = Some a) \/ (aget mask k = Some f0 /\ exists b, aget lam' k = Some (B754_zero b)).
Lemma mask_values m0 h m k : reflects dm order m0 h m -> 0 <= k < 2 * ni -> exists f j, In f order /\ 0 <= j < bsize dm f /\ k = bplace dm order f + j.
Proof.
  intros R K. apply (place_cover bfield_eqb (bsize dm) bfield_spec); [apply order_nodup with (dm := dm); exact O|]. rewrite (order_total dm order W O). exact K.
Qed.
Lemma call_ok m0 h m lam c : valid dm order c -> reflects dm order m0 h m -> shaped dm m0 -> 2 * ni <= len lam ->
  exists m' lam', constraints_model_set dm ni c (m, lam) = Some (m', lam') /\ reflects dm order m0 (h ++ [c]) m' /\ len lam' = len lam /\ remasked (bmask m') lam lam'.
Proof.
  intros V R S0 L. destruct (set_reflects m0 h m c V R S0) as (m' & E & R'). unfold constraints_model_set. rewrite E; cbn [obind].
  pose proof R' as ((S1 & S2 & _) & B & _). pose proof (pos cNb); pose proof (pos cNg); pose proof (pos cNh); pose proof (pos cNs).
  destruct (mask_ok fmul (2 * ni) (bmask m') lam) as (lam' & E2 & L2 & G); try lia. rewrite E2; cbn [obind].
  exists m', lam'. split; [reflexivity|]. split; [exact R'|]. split; [exact L2|]. intros k a K A F.
  destruct (mask_values _ _ _ k R' K) as (f & j & If & Ij & ->). destruct (B f j If Ij) as (_ & B2). rewrite G, B2, A.
  rewrite (proj2 (Z.leb_le _ _)), (proj2 (Z.ltb_lt _ _)) by lia. cbn [andb obind]. destruct (unbounded f (lastb (h ++ [c]) f j)).
  - right. split; [reflexivity|]. destruct (fmul_zero a F) as (b & Eb). exists b. now rewrite Eb.
  - left. split; [reflexivity|]. rewrite fmul_one; [reflexivity|]. destruct a; try discriminate F; reflexivity.
Qed.
Lemma history_from m0 : shaped dm m0 -> forall h2 h1 m lam, Forall (valid dm order) h2 -> reflects dm order m0 h1 m -> 2 * ni <= len lam ->
  exists m' lam', set_history dm ni h2 (m, lam) = Some (m', lam') /\ reflects dm order m0 (h1 ++ h2) m' /\ len lam' = len lam.
Proof.
  intros S0. induction h2 as [|c h2 IH]; intros h1 m lam V R L.
  - exists m, lam. rewrite app_nil_r. auto.
  - apply Forall_cons_iff in V as (V1 & V2). destruct (call_ok m0 h1 m lam c V1 R S0 L) as (m1 & lam1 & E & R1 & L1 & _).
    cbn [set_history]. rewrite E; cbn [obind]. destruct (IH (h1 ++ [c]) m1 lam1 V2 R1 ltac:(lia)) as (m' & lam' & E' & R' & L').
    exists m', lam'. split; [exact E'|]. rewrite <- app_assoc in R'. split; [exact R'|lia].
Qed.
Lemma history_ok m lam h : fresh dm m -> Forall (valid dm order) h -> 2 * ni <= len lam ->
  exists m' lam', set_history dm ni h (m, lam) = Some (m', lam') /\ reflects dm order m h m' /\ len lam' = len lam.
Proof. intros F V L. apply (history_from m (proj1 F) h [] m lam V (fresh_reflects m F) L). Qed.

(** after a non-empty history, from finite multipliers: none of a masked constraint is left *)
Lemma finite_history m0 : shaped dm m0 -> forall h2 h1 m lam m' lam', Forall (valid dm order) h2 -> reflects dm order m0 h1 m -> 2 * ni <= len lam -> h2 <> [] ->
  (forall k a, aget lam k = Some a -> is_finite a = true) ->
  set_history dm ni h2 (m, lam) = Some (m', lam') ->
  (forall k, 0 <= k < 2 * ni -> aget (bmask m') k = Some f0 -> exists b, aget lam' k = Some (B754_zero b)).
Proof.
  intros S0. induction h2 as [|c h2 IH]; intros h1 m lam m' lam' V R L NE F H; [congruence|].
  apply Forall_cons_iff in V as (V1 & V2). destruct (call_ok m0 h1 m lam c V1 R S0 L) as (m1 & lam1 & E & R1 & L1 & Q).
  cbn [set_history] in H. rewrite E in H; cbn [obind] in H. destruct h2 as [|c2 h2].
  - cbn [set_history] in H. injection H as <- <-. intros k K M. destruct (aget_in lam k) as (a & A); [lia|].
    destruct (Q k a K A (F k a A)) as [(Q1 & _)|(_ & Q2)]; [|exact Q2]. rewrite M in Q1. discriminate Q1.
  - apply (IH (h1 ++ [c]) m1 lam1 m' lam' V2 R1); [lia|discriminate| |exact H].
    intros k a A. pose proof (aget_range _ _ _ A) as RR. destruct (aget_in lam k) as (a0 & A0); [lia|].
    destruct (Z_lt_dec k (2 * ni)) as [K|K].
    + destruct (Q k a0 ltac:(lia) A0 (F k a0 A0)) as [(_ & Q2)|(_ & b & Q2)]; rewrite A in Q2; injection Q2 as ->; [eauto|reflexivity].
    + unfold constraints_model_set in E. destruct (model_set dm c m) as [mm|]; [|discriminate E]. cbn [obind] in E.
      destruct (mask_mul fmul (2 * ni) (bmask mm) lam) as [ll|] eqn:EM; [|discriminate E]. cbn [obind] in E. injection E as -> <-.
      pose proof R1 as ((_ & S2 & _) & _). pose proof (pos cNb); pose proof (pos cNg); pose proof (pos cNh); pose proof (pos cNs).
      destruct (mask_ok fmul (2 * ni) (bmask m1) lam) as (l2 & E2 & _ & G); try lia. rewrite EM in E2. injection E2 as <-.
      rewrite G in A. rewrite (proj2 (Z.ltb_ge _ _)) in A by lia. rewrite andb_false_r in A. eauto.
Qed.
Lemma masked_zero m lam h m' lam' : fresh dm m -> Forall (valid dm order) h -> 2 * ni <= len lam -> h <> [] -> (forall k a, aget lam k = Some a -> is_finite a = true) ->
  set_history dm ni h (m, lam) = Some (m', lam') ->
  forall k, 0 <= k < 2 * ni -> aget (bmask m') k = Some f0 -> exists b, aget lam' k = Some (B754_zero b).
Proof. intros F V L N FI H. exact (finite_history m (proj1 F) h [] m lam m' lam' V (fresh_reflects m F) L N FI H). Qed.

(** the getters return the values last set *)
Lemma get_bound_ok m0 h m f value : reflects dm order m0 h m -> In f [lbu; lbx; lg; lh; ubu; ubx; ug; uh] -> bsize dm f <= len value ->
  exists value', get_bound dm f m value = Some value' /\ len value' = len value /\
    forall k, aget value' k = if (0 <=? k) && (k <? bsize dm f) then Some (lastb h f k) else aget value k.
Proof.
  intros ((S1 & _) & B & _) I L.
  assert (If : In f order) by (destruct O as [(-> & _)| ->]; cbn [In order_idx order_rev] in *; intuition).
  pose proof (args_ok dm order W O f If) as A.
  pose proof (place_range bfield_eqb (bsize dm) bfield_spec (bsize_pos dm W) order f If) as (R1 & R2). rewrite (order_total dm order W O) in R2. fold (bplace dm order f) in R1, R2.
  pose proof (bsize_pos dm W f) as P.
  destruct (copy_ok (bsize dm f) (bd m) (bplace dm order f) value 0) as (v' & E & L' & G); try lia.
  exists v'. split.
  { rewrite <- E. pose proof (f_equal (fun p => snd (fst p)) A) as A'. cbn [fst snd] in A'. rewrite <- A'. clear - I.
    destruct f; cbn [In] in I; try (exfalso; intuition congruence); cbn [bound_args get_bound bsize fst snd]; f_equal; lia. }
  split; [exact L'|]. intro k. rewrite G. rewrite Z.add_0_l. destruct ((0 <=? k) && (k <? bsize dm f)) eqn:C; [|reflexivity].
  apply andb_prop in C as (C1 & C2). apply Z.leb_le in C1. apply Z.ltb_lt in C2. rewrite Z.sub_0_r. apply B; auto.
Qed.
End T.
