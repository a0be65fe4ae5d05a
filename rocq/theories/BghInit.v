From Coq Require Import ZArith List Bool Lia.
From Flocq Require Import IEEE754.BinarySingleNaN.
From Verif Require Import FP Arr ArrProofs DimsModel IfaceProofs CasadiProofs BghModel BghSpec BghProofs BghTop BghGet.
Import ListNotations.
Open Scope Z_scope.

Lemma copy_idx_ok (src : list Z) n (l : list Z) : 0 <= n -> n <= len src -> n <= len l ->
  exists l', for_ 0 n (fun j l => do k <- aget src j; aput l j k) l = Some l' /\ len l' = len l /\ forall k, aget l' k = if (0 <=? k) && (k <? n) then aget src k else aget l k.
Proof.
  intros Hn Hs Hl. destruct (get_idx_ok (fun ii => aget src ii) n 0 l) as (v' & E & L & G); auto.
  { intros ii Hi. apply aget_in. lia. }
  exists v'. split; [rewrite <- E; apply for_ext; intros; cbv beta; destruct (aget src i); [cbn [obind]; now rewrite Z.sub_0_r|reflexivity]|].
  split; [exact L|]. intro k. rewrite G. destruct ((0 <=? k) && (k <? n)); [|reflexivity]. destruct (aget src k); [cbn [obind]; now rewrite Z.sub_0_r|reflexivity].
Qed.
Lemma rev_ok (src : list Z) n (l : list Z) : 0 <= n -> n <= len src -> (forall j k, 0 <= j < n -> aget src j = Some k -> 0 <= k < len l) ->
  exists l', for_ 0 n (fun j l => do k <- aget src j; aput l k j) l = Some l' /\ len l' = len l /\
    (forall k, (forall j, 0 <= j < n -> aget src j <> Some k) -> aget l' k = aget l k) /\
    (forall j k, 0 <= j < n -> aget src j = Some k -> exists j', j <= j' < n /\ aget src j' = Some k /\ aget l' k = Some j').
Proof.
  intros Hn Hs Hr.
  destruct (for_rule (fun i x => len x = len l /\ (forall k, (forall j, 0 <= j < i -> aget src j <> Some k) -> aget x k = aget l k) /\
      (forall j k, 0 <= j < i -> aget src j = Some k -> exists j', j <= j' < i /\ aget src j' = Some k /\ aget x k = Some j'))
    0 n (fun j l => do k <- aget src j; aput l k j) l) as (x & E & A); auto.
  - split; [reflexivity|]. split; [auto|]. intros; lia.
  - intros i x Hi (A & B & C). destruct (aget_in src i) as (a & Ea); [lia|]. rewrite Ea; cbn [obind]. pose proof (Hr i a Hi Ea).
    destruct (aput_ok x a i) as (x' & E' & L' & G'); [lia|]. exists x'. split; [exact E'|]. split; [lia|]. split.
    + intros k K. rewrite G'. destruct (Z.eqb_spec k a); [subst; exfalso; apply (K i); [lia|auto]|]. apply B. intros j Hj. apply K. lia.
    + intros j k Hj Ek. rewrite G'. destruct (Z.eqb_spec k a).
      * subst. exists i. split; [lia|auto].
      * destruct (Z.eq_dec j i); [subst; congruence|]. destruct (C j k ltac:(lia) Ek) as (j' & J1 & J2 & J3). exists j'. split; [lia|auto].
  - exists x; tauto.
Qed.

(** what the QP is told: bounds, equality constraints and which slack softens which constraint *)
Lemma initialize_ok dm m q : wf dm -> shaped dm m ->
  len (q_idxb q) = dm cNb -> len (q_idxs_rev q) = dm cNb + dm cNg + dm cNh -> len (q_idxe q) = dm cNbue + dm cNbxe + dm cNge + dm cNhe ->
  (use_idxs_rev m = false -> forall j k, aget (idxs m) j = Some k -> 0 <= k < dm cNb + dm cNg + dm cNh) ->
  exists q', initialize dm m q = Some q' /\
    (forall k, aget (q_idxb q') k = aget (idxb m) k) /\ (forall k, aget (q_idxe q') k = aget (idxe m) k) /\
    (use_idxs_rev m = true -> forall k, aget (q_idxs_rev q') k = aget (idxs_rev m) k) /\
    (use_idxs_rev m = false -> NoDup (idxs m) -> (forall j k, aget (idxs m) j = Some k -> aget (q_idxs_rev q') k = Some j) /\ (forall k, ~ In k (idxs m) -> aget (q_idxs_rev q') k = aget (q_idxs_rev q) k)).
Proof.
  intros W (S1 & S2 & S3 & S4 & S5 & S6 & _) L1 L2 L3 R. pose proof (proj1 W) as pos.
  pose proof (pos cNb); pose proof (pos cNg); pose proof (pos cNh); pose proof (pos cNs); pose proof (pos cNbue); pose proof (pos cNbxe); pose proof (pos cNge); pose proof (pos cNhe).
  unfold initialize. destruct (copy_idx_ok (idxb m) (dm cNb) (q_idxb q)) as (b & Eb & Lb & Gb); try lia. rewrite Eb; cbn [obind].
  destruct (copy_idx_ok (idxe m) (dm cNbue + dm cNbxe + dm cNge + dm cNhe) (q_idxe q)) as (e & Ee & Le & Ge); try lia.
  assert (CL : forall (a c o : list Z) n, len a = n -> len c = n -> (forall k, aget c k = if (0 <=? k) && (k <? n) then aget a k else aget o k) -> forall k, aget c k = aget a k).
  { intros a c o n A B C k. destruct (Z.leb_spec 0 k); destruct (Z.ltb_spec k n).
    1: rewrite C; rewrite (proj2 (Z.leb_le _ _)), (proj2 (Z.ltb_lt _ _)) by lia; reflexivity.
    all: transitivity (@None Z); [|symmetry]; apply aget_none; lia. }
  destruct (use_idxs_rev m) eqn:U.
  - destruct (copy_idx_ok (idxs_rev m) (dm cNb + dm cNg + dm cNh) (q_idxs_rev q)) as (r & Er & Lr & Gr); try lia.
    rewrite Er, Ee; cbn [obind]. eexists; split; [reflexivity|]. cbn [q_idxb q_idxe q_idxs_rev].
    split; [eapply CL; [exact S3|rewrite Lb; exact L1|exact Gb]|]. split; [eapply CL; [exact S6|rewrite Le; exact L3|exact Ge]|].
    split; [intros _; eapply CL; [exact S5|rewrite Lr; exact L2|exact Gr]|]. intro Q; discriminate Q.
  - destruct (rev_ok (idxs m) (dm cNs) (q_idxs_rev q)) as (r & Er & Lr & Gr & Hr); try lia.
    { intros j k Hj Ek. rewrite L2. apply (R eq_refl j k Ek). }
    rewrite Er, Ee; cbn [obind]. eexists; split; [reflexivity|]. cbn [q_idxb q_idxe q_idxs_rev].
    split; [eapply CL; [exact S3|rewrite Lb; exact L1|exact Gb]|]. split; [eapply CL; [exact S6|rewrite Le; exact L3|exact Ge]|].
    split; [intro Q; discriminate Q|]. intros _ ND. split.
    + intros j k Ek. pose proof (aget_range _ _ _ Ek). destruct (Hr j k ltac:(lia) Ek) as (j' & J1 & J2 & J3). rewrite J3. f_equal. apply (nodup_aget _ _ _ _ ND J2 Ek).
    + intros k Hk. apply Gr. intros j Hj Ek. apply Hk. apply in_aget. eauto.
Qed.

(** ** cases *)
Definition ex_dm : cdims := fun f => match f with cNx => 2 | cNu => 1 | cNbx => 1 | cNbu => 1 | cNb => 2 | cNg => 1 | cNh => 2 | cNs => 1 | cNsh => 1 | cNsDerived => 1 | cNhe => 1 | _ => 0 end.
Definition ex_m : bgh := mkB (repeat f0 12) (repeat f1 12) [0; 0] [0] [0; 0; 0; 0; 0] [0] (repeat f0 3) false.
Lemma ex_wf : wf ex_dm. Proof. split; [intro f; destruct f; cbn; lia|reflexivity]. Qed.
Lemma ex_declared : declared ex_dm order_idx. Proof. left; split; reflexivity. Qed.
Lemma repeat_get {A} (x : A) n k y : aget (repeat x n) k = Some y -> y = x.
Proof. intro H. unfold aget in H. destruct (0 <=? k); [|discriminate H]. apply nth_error_In, repeat_spec in H. exact H. Qed.
Lemma ex_fresh : fresh ex_dm ex_m.
Proof. split; [unfold shaped; repeat split; reflexivity|]. split; intros k x H; eapply repeat_get; exact H. Qed.
Definition ten10 := fz2 10000000000 0.
Definition ex_h : list setcall :=
  [SetI idxbx [1]; SetB lbx [fz2 (-3) 0]; SetB ubx [ten10]; SetI idxsh [1]; SetB lsh [fopp ten10]; SetC [fz2 5 0; fz2 7 0]; SetD [fz2 9 0]; SetB uh [fz2 1 0; fz2 2 0]; SetB ubx [fz2 4 0]; SetB lh [fnan; fopp finf]; SetI idxhe [0]].
Lemma ex_valid : Forall (valid ex_dm order_idx) ex_h.
Proof. repeat (constructor; [cbn [valid]; split; cbn; intuition (try congruence; try lia)|]); repeat constructor; cbn; lia. Qed.
Definition beq (x y : double) : bool := match Bcompare x y with Some Eq => true | _ => false end.
Definition show (s : bgh * list double) : list bool * list bool * list Z * list Z * list Z :=
  let '(m, lam) := s in (map (fun x => beq x f1) (bmask m), map (fun x => beq x f1) lam, idxb m, idxs m, idxe m).
(** upper state bound made infinite, then finite again: active again, its multiplier stays 0; a lower bound that is not a number is active *)
Example ex_run : option_map show (set_history ex_dm 6 ex_h (ex_m, repeat f1 12)) =
  Some ([true; true; true; true; false; true; true; true; true; true; false; true],
        [true; true; true; true; false; true; false; true; true; true; false; true], [0; 2], [4], [3]).
Proof. vm_compute. reflexivity. Qed.

(** a slack index set again: the constraint softened before stays softened in the QP *)
Definition ex_q : qpidx := mkQI [0; 0] [-1; -1; -1; -1; -1] [0].
Definition rerun : option (list Z) :=
  do m <- model_set ex_dm (SetI idxsh [1]) ex_m; do q <- initialize ex_dm m ex_q;
  do m <- model_set ex_dm (SetI idxsh [0]) m; do q <- initialize ex_dm m q; Some (q_idxs_rev q).
Example rerun_case : rerun = Some [-1; -1; -1; 0; 0]. Proof. reflexivity. Qed.
Lemma stale_slack : exists dm m q m1 q1 m2 q2, wf dm /\ fresh dm m /\ (forall k x, aget (q_idxs_rev q) k = Some x -> x = -1) /\
  model_set dm (SetI idxsh [1]) m = Some m1 /\ initialize dm m1 q = Some q1 /\ model_set dm (SetI idxsh [0]) m1 = Some m2 /\ initialize dm m2 q1 = Some q2 /\
  precompute_accepts dm m2 = true /\ exists k, ~ In k (idxs m2) /\ aget (q_idxs_rev q2) k = Some 0.
Proof.
  exists ex_dm, ex_m, ex_q. do 4 eexists. split; [exact ex_wf|]. split; [exact ex_fresh|]. split; [intros k x H; apply (repeat_get (-1) 5 k x H)|].
  split; [reflexivity|]. split; [reflexivity|]. split; [reflexivity|]. split; [reflexivity|]. split; [reflexivity|].
  exists 4. split; [cbn; intuition congruence|reflexivity].
Qed.

(** precompute accepts the declaration exactly when the parts add up, or when there are no parts *)
Lemma accepts_ok dm m : wf dm -> dm cNsDerived = dm cNsbu + dm cNsbx + dm cNsg + dm cNsh ->
  precompute_accepts dm m = true <-> (if use_idxs_rev m then dm cNsbu = 0 /\ dm cNsbx = 0 /\ dm cNsg = 0 /\ dm cNsh = 0 else declared dm order_idx).
Proof.
  intros (P & _) E. pose proof (P cNsbu). pose proof (P cNsbx). pose proof (P cNsg). pose proof (P cNsh). unfold precompute_accepts. destruct (use_idxs_rev m).
  - destruct (Z.ltb_spec 0 (dm cNsDerived)); cbn; split; intro Q; try reflexivity; try discriminate Q; lia.
  - destruct (Z.eqb_spec (dm cNsDerived) (dm cNs)); split; intro Q; try reflexivity; try discriminate Q.
    + left. split; [reflexivity|lia].
    + destruct Q as [(_ & Q)|Q]; [lia|discriminate Q].
Qed.
