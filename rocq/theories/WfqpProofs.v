(** Proofs about the feasibility QP: slack numbering, relaxed bounds, mode switching. *)
From Coq Require Import ZArith List Bool Lia Reals Lra Permutation.
From Verif Require Import Arith Vec LinModel RSum Poly WfqpModel.
Import ListNotations.

(** ** slack numbering *)
Definition thr (d : wdims) : nat := if w_first d then w_nbu d + w_nbx d else w_nbu d.
Definition nst (d : wdims) : nat := if w_first d then w_nsbu d + w_nsbx d else w_nsbu d.
(** softened constraints: distinct, control bounds first, then state bounds, then the others (constraints_bgh.c dims and model_set) *)
Definition valid_idxs (d : wdims) (idxs : nat -> nat) : Prop :=
  (w_nbu d + w_nbx d <= w_n d)%nat /\ (w_nsbu d + w_nsbx d <= w_ns d)%nat /\
  (forall j, (j < w_ns d)%nat -> (idxs j < w_n d)%nat /\ (j < w_nsbu d <-> idxs j < w_nbu d)%nat /\ (j < w_nsbu d + w_nsbx d <-> idxs j < w_nbu d + w_nbx d)%nat) /\
  (forall j k, (j < w_ns d)%nat -> (k < w_ns d)%nat -> idxs j = idxs k -> j = k).

Lemma is_slacked_iff ns idxs i : is_slacked ns idxs i = true <-> exists j, (j < ns)%nat /\ idxs j = i.
Proof.
  unfold is_slacked. rewrite existsb_exists. split.
  - intros (j & Hj & E). apply in_seq in Hj. apply Nat.eqb_eq in E. exists j. split; [lia|exact E].
  - intros (j & Hj & E). exists j. split; [apply in_seq; lia|apply Nat.eqb_eq, E].
Qed.
Lemma relaxable_iff d i : relaxable d i = true <-> (thr d <= i)%nat.
Proof.
  unfold relaxable, thr. destruct (w_first d); cbn [negb andb orb]; [|rewrite orb_false_r]; apply Nat.leb_le.
Qed.

Lemma NoDup_map_on (f : nat -> nat) l : NoDup l -> (forall a b, In a l -> In b l -> f a = f b -> a = b) -> NoDup (map f l).
Proof.
  induction 1 as [|a l Ha Hl IH]; intros Hf; [constructor|]. cbn. constructor.
  - intros Hin. apply in_map_iff in Hin. destruct Hin as (b & E & Hb). apply Ha. rewrite <- (Hf b a); [exact Hb|right; exact Hb|left; reflexivity|exact E].
  - apply IH. intros x y Hx Hy. apply Hf; right; assumption.
Qed.

Section N.
Variable d : wdims.
Variable idxs : nat -> nat.
Hypothesis Hv : valid_idxs d idxs.
Definition keep (i : nat) : bool := negb (is_slacked (w_ns d) idxs i) && relaxable d i.
Definition kept (m : nat) : list nat := filter keep (seq 0 m).
Lemma kept_S m : kept (S m) = kept m ++ (if keep m then [m] else []).
Proof. unfold kept. rewrite seq_S, filter_app. cbn. destruct (keep m); reflexivity. Qed.
Lemma kept_len_mono m n : (m <= n)%nat -> (length (kept m) <= length (kept n))%nat.
Proof. induction 1; [lia|]. rewrite kept_S, app_length. lia. Qed.
Lemma kept_in m i : In i (kept m) <-> (i < m)%nat /\ (thr d <= i)%nat /\ forall j, (j < w_ns d)%nat -> idxs j <> i.
Proof.
  unfold kept. rewrite filter_In, in_seq. unfold keep. rewrite andb_true_iff, negb_true_iff, relaxable_iff. split.
  - intros (H1 & H2 & H3). split; [lia|]. split; [exact H3|]. intros j Hj E. assert (is_slacked (w_ns d) idxs i = true) by (apply is_slacked_iff; eauto). congruence.
  - intros (H1 & H2 & H3). split; [lia|]. split; [|exact H2]. destruct (is_slacked (w_ns d) idxs i) eqn:E; [|reflexivity]. apply is_slacked_iff in E. destruct E as (j & Hj & E). destruct (H3 j Hj E).
Qed.
Lemma nst_le : (nst d <= w_ns d)%nat.
Proof. destruct Hv as (_ & H & _). unfold nst. destruct (w_first d); lia. Qed.
Lemma thr_le : (thr d <= w_n d)%nat.
Proof. destruct Hv as (H & _). unfold thr. destruct (w_first d); lia. Qed.
Lemma thr_idxs j : (j < w_ns d)%nat -> (j < nst d <-> idxs j < thr d)%nat.
Proof. intros Hj. destruct Hv as (_ & _ & H & _). destruct (H j Hj) as (_ & H1 & H2). unfold nst, thr. destruct (w_first d); assumption. Qed.
Lemma kept_length : length (kept (w_n d)) = (w_n d - thr d - (w_ns d - nst d))%nat.
Proof.
  pose proof nst_le. pose proof thr_le. destruct Hv as (_ & _ & Hi & Hj).
  set (L := map idxs (seq (nst d) (w_ns d - nst d))).
  assert (HP : Permutation (L ++ kept (w_n d)) (seq (thr d) (w_n d - thr d))).
  { apply NoDup_Permutation.
    - assert (NoDup L) as NL.
      { unfold L. apply NoDup_map_on; [apply seq_NoDup|]. intros a b Ha Hb E. apply in_seq in Ha, Hb. apply Hj; [lia|lia|exact E]. }
      assert (NoDup (kept (w_n d))) as NK by (apply NoDup_filter, seq_NoDup).
      revert NL. generalize (kept_in (w_n d)). intros KI NL.
      assert (HD : forall x, In x L -> ~ In x (kept (w_n d))).
      { intros x Hx Hk. apply KI in Hk. unfold L in Hx. apply in_map_iff in Hx. destruct Hx as (j & <- & Hjs). apply in_seq in Hjs. apply (proj2 (proj2 Hk) j); [lia|reflexivity]. }
      clear KI. induction L as [|a L IH]; cbn; [exact NK|]. inversion NL; subst. constructor.
      + intros Hin. apply in_app_or in Hin. destruct Hin as [Hin|Hin]; [contradiction|]. apply (HD a); [left; reflexivity|exact Hin].
      + apply IH; [assumption|]. intros x Hx. apply HD. right; exact Hx.
    - apply seq_NoDup.
    - intros x. rewrite in_app_iff, in_seq, kept_in. unfold L. rewrite in_map_iff. split.
      + intros [(j & <- & Hjs)|(H1 & H2 & H3)]; [|lia]. apply in_seq in Hjs. destruct (Hi j ltac:(lia)) as (H1 & _). pose proof (thr_idxs j ltac:(lia)). lia.
      + intros Hx. destruct (is_slacked (w_ns d) idxs x) eqn:E.
        * apply is_slacked_iff in E. destruct E as (j & H1 & <-). left. exists j. split; [reflexivity|]. apply in_seq. pose proof (thr_idxs j H1). lia.
        * right. split; [lia|]. split; [lia|]. intros j H1 H2. assert (is_slacked (w_ns d) idxs x = true) by (apply is_slacked_iff; eauto). congruence. }
  apply Permutation_length in HP. rewrite app_length, seq_length in HP. unfold L in HP. rewrite map_length, seq_length in HP. lia.
Qed.
Lemma nns_val : w_nns d = Z.of_nat (length (kept (w_n d))).
Proof.
  rewrite kept_length. pose proof nst_le. pose proof thr_le.
  assert (H1 : (w_ns d - nst d <= w_n d - thr d)%nat).
  { destruct Hv as (_ & _ & Hi & Hj).
    assert (NoDup (map idxs (seq (nst d) (w_ns d - nst d)))) as ND.
    { apply NoDup_map_on; [apply seq_NoDup|]. intros a b Ha Hb E. apply in_seq in Ha, Hb. apply Hj; [lia|lia|exact E]. }
    pose proof (NoDup_incl_length ND (l' := seq (thr d) (w_n d - thr d))) as HL. rewrite map_length, !seq_length in HL. apply HL.
    intros x Hx. apply in_map_iff in Hx. destruct Hx as (j & <- & Hjs). apply in_seq in Hjs. apply in_seq. destruct (Hi j ltac:(lia)) as (H1 & _). pose proof (thr_idxs j ltac:(lia)). lia. }
  unfold w_nns, thr, nst in *. destruct (w_first d); lia.
Qed.
Lemma idxns_loop idxns0 m : (m <= w_n d)%nat -> exists idxns, loop m (idxns_step d idxs) (Some (idxns0, 0%nat)) = Some (idxns, length (kept m)) /\
  forall k, (k < length (kept m))%nat -> idxns k = nth k (kept m) 0%nat.
Proof.
  induction m as [|m IH]; intros Hm; cbn [loop].
  - exists idxns0. split; [reflexivity|]. cbn; lia.
  - destruct (IH ltac:(lia)) as (ix & E & Hx). rewrite E. unfold idxns_step. fold (keep m). rewrite kept_S.
    destruct (keep m) eqn:K.
    + assert (length (kept m) < length (kept (w_n d)))%nat. { pose proof (kept_len_mono (S m) (w_n d) ltac:(lia)) as Hl. rewrite kept_S, K, app_length in Hl. cbn in Hl. lia. }
      rewrite (proj2 (Z.ltb_lt _ _)) by (rewrite nns_val; lia). rewrite app_length. cbn [length]. rewrite Nat.add_1_r. eexists. split; [reflexivity|].
      intros k Hk. cbn beta. destruct (Nat.eqb_spec k (length (kept m))) as [->|Hne].
      * rewrite app_nth2 by lia. rewrite Nat.sub_diag. reflexivity.
      * rewrite app_nth1 by lia. apply Hx. lia.
    + rewrite app_nil_r. eauto.
Qed.
Lemma kept_sorted m j k : (j < k < length (kept m))%nat -> (nth j (kept m) 0 < nth k (kept m) 0)%nat.
Proof.
  induction m as [|m IH]; [cbn; lia|]. rewrite kept_S, app_length. intros Hk. destruct (keep m); cbn [length] in Hk; [|rewrite app_nil_r; apply IH; lia].
  destruct (Nat.eq_dec k (length (kept m))) as [->|Hne].
  - rewrite (app_nth2 _ _ _ (le_n _)), Nat.sub_diag. cbn [nth]. rewrite app_nth1 by lia.
    assert (In (nth j (kept m) 0%nat) (kept m)) as Hin by (apply nth_In; lia). apply kept_in in Hin. lia.
  - rewrite !app_nth1 by lia. apply IH. lia.
Qed.
Lemma precompute_ok idxns0 : exists idxns, precompute_idxns d idxs idxns0 = Some (idxns, Z.to_nat (w_nns d)) /\
  (forall k, (k < Z.to_nat (w_nns d))%nat -> idxns k = nth k (kept (w_n d)) 0%nat) /\ Z.to_nat (w_nns d) = length (kept (w_n d)).
Proof.
  destruct (idxns_loop idxns0 (w_n d) (le_n _)) as (ix & E & Hx). exists ix. unfold precompute_idxns. rewrite nns_val, Nat2Z.id. split; [exact E|]. split; [exact Hx|reflexivity].
Qed.

(** writes through an index array *)
Lemma write_hit (f : nat -> nat) (g : nat -> Z) m r0 i : (i < m)%nat -> (forall a b, (a < m)%nat -> (b < m)%nat -> f a = f b -> a = b) ->
  loop m (fun i rev k => if (k =? f i)%nat then g i else rev k) r0 (f i) = g i.
Proof.
  induction m as [|m IH]; intros Hi Hf; [lia|]. cbn [loop]. destruct (Nat.eqb_spec (f i) (f m)) as [E|E].
  - apply Hf in E; [subst; reflexivity|lia|lia].
  - assert (i <> m) by (intros ->; contradiction). apply IH; [lia|]. intros a b Ha Hb. apply Hf; lia.
Qed.
Lemma write_miss (f : nat -> nat) (g : nat -> Z) m r0 k : (forall i, (i < m)%nat -> f i <> k) -> loop m (fun i rev k => if (k =? f i)%nat then g i else rev k) r0 k = r0 k.
Proof.
  induction m as [|m IH]; intros Hf; [reflexivity|]. cbn [loop]. destruct (Nat.eqb_spec k (f m)) as [E|E]; [destruct (Hf m ltac:(lia)); auto|]. apply IH. intros i Hi. apply Hf. lia.
Qed.

(** the numbering *)
Theorem numbering idxns0 : exists idxns, precompute_idxns d idxs idxns0 = Some (idxns, Z.to_nat (w_nns d)) /\
  (forall i, (exists j, (j < Z.to_nat (w_nns d))%nat /\ idxns j = i) <-> (i < w_n d)%nat /\ (thr d <= i)%nat /\ forall j, (j < w_ns d)%nat -> idxs j <> i) /\
  (forall j k, (j < k < Z.to_nat (w_nns d))%nat -> (idxns j < idxns k)%nat) /\
  (let rev := relaxed_idxs_rev d idxs idxns (fun _ => -1)%Z in
   (forall j, (j < w_ns d)%nat -> rev (idxs j) = Z.of_nat j) /\
   (forall j, (j < Z.to_nat (w_nns d))%nat -> rev (idxns j) = Z.of_nat (j + w_ns d)) /\
   (forall s, (s < w_ns d + Z.to_nat (w_nns d))%nat -> exists i, (i < w_n d)%nat /\ rev i = Z.of_nat s /\ forall i', rev i' = Z.of_nat s -> i' = i) /\
   (forall i, (i < w_n d)%nat -> (rev i = -1)%Z <-> (i < thr d)%nat /\ forall j, (j < w_ns d)%nat -> idxs j <> i)).
Proof.
  destruct (precompute_ok idxns0) as (ix & E & Hx & HL). exists ix. split; [exact E|].
  set (M := Z.to_nat (w_nns d)) in *.
  assert (HI : forall i, (exists j, (j < M)%nat /\ ix j = i) <-> (i < w_n d)%nat /\ (thr d <= i)%nat /\ forall j, (j < w_ns d)%nat -> idxs j <> i).
  { intros i. rewrite <- kept_in. split.
    - intros (j & Hj & <-). rewrite Hx by lia. apply nth_In. lia.
    - intros Hin. destruct (In_nth _ _ 0%nat Hin) as (j & Hj & Hn). exists j. split; [lia|]. rewrite Hx by lia. exact Hn. }
  assert (HS : forall j k, (j < k < M)%nat -> (ix j < ix k)%nat).
  { intros j k Hjk. rewrite !Hx by lia. apply kept_sorted. lia. }
  assert (HF : forall a b, (a < M)%nat -> (b < M)%nat -> ix a = ix b -> a = b).
  { intros a b Ha Hb Eab. destruct (lt_eq_lt_dec a b) as [[Hlt|He]|Hlt]; [specialize (HS a b ltac:(lia)); lia|exact He|specialize (HS b a ltac:(lia)); lia]. }
  split; [exact HI|]. split; [exact HS|].
  destruct Hv as (_ & _ & Hi & Hj).
  set (r1 := loop (w_ns d) (fun i rev k => if (k =? idxs i)%nat then Z.of_nat i else rev k) (fun _ => -1)%Z).
  cbv zeta. unfold relaxed_idxs_rev. fold M. fold r1.
  set (r2 := loop M (fun i rev k => if (k =? ix i)%nat then Z.of_nat (i + w_ns d) else rev k) r1).
  assert (R1 : forall j, (j < w_ns d)%nat -> r2 (idxs j) = Z.of_nat j).
  { intros j Hjn. unfold r2. rewrite (write_miss ix (fun i => Z.of_nat (i + w_ns d))).
    - unfold r1. apply (write_hit idxs (fun i => Z.of_nat i)); [exact Hjn|exact Hj].
    - intros i Him Hc. assert (Hex : exists j0, (j0 < M)%nat /\ ix j0 = idxs j) by (exists i; auto). apply HI in Hex. apply (proj2 (proj2 Hex) j Hjn). reflexivity. }
  assert (R2 : forall j, (j < M)%nat -> r2 (ix j) = Z.of_nat (j + w_ns d)).
  { intros j Hjn. unfold r2. apply (write_hit ix (fun i => Z.of_nat (i + w_ns d))); assumption. }
  assert (R3 : forall i, (forall j, (j < w_ns d)%nat -> idxs j <> i) -> (forall j, (j < M)%nat -> ix j <> i) -> r2 i = (-1)%Z).
  { intros i H1 H2. unfold r2. rewrite (write_miss ix (fun i => Z.of_nat (i + w_ns d))) by assumption. unfold r1. rewrite (write_miss idxs (fun i => Z.of_nat i)) by assumption. reflexivity. }
  assert (R4 : forall i, (exists j, (j < w_ns d)%nat /\ idxs j = i) \/ (exists j, (j < M)%nat /\ ix j = i) \/ ((forall j, (j < w_ns d)%nat -> idxs j <> i) /\ forall j, (j < M)%nat -> ix j <> i)).
  { intros i. destruct (is_slacked (w_ns d) idxs i) eqn:E1; [left; apply is_slacked_iff, E1|]. destruct (is_slacked M ix i) eqn:E2; [right; left; apply is_slacked_iff, E2|]. right; right. split; intros j Hjn Hc.
    - assert (is_slacked (w_ns d) idxs i = true) by (apply is_slacked_iff; eauto). congruence.
    - assert (is_slacked M ix i = true) by (apply is_slacked_iff; eauto). congruence. }
  split; [exact R1|]. split; [exact R2|]. split.
  - intros s Hs. destruct (Nat.lt_ge_cases s (w_ns d)) as [Hlt|Hge].
    + exists (idxs s). split; [apply (Hi s Hlt)|]. split; [apply R1, Hlt|]. intros i' Hi'. destruct (R4 i') as [(j & Hjn & <-)|[(j & Hjn & <-)|[H1 H2]]].
      * rewrite R1 in Hi' by assumption. apply Nat2Z.inj in Hi'. subst; reflexivity.
      * rewrite R2 in Hi' by assumption. lia.
      * rewrite R3 in Hi' by assumption. lia.
    + exists (ix (s - w_ns d)%nat). assert (Hsm : (s - w_ns d < M)%nat) by lia. split; [apply HI; eauto|]. split; [rewrite R2 by assumption; lia|].
      intros i' Hi'. destruct (R4 i') as [(j & Hjn & <-)|[(j & Hjn & <-)|[H1 H2]]].
      * rewrite R1 in Hi' by assumption. lia.
      * rewrite R2 in Hi' by assumption. f_equal. lia.
      * rewrite R3 in Hi' by assumption. lia.
  - intros i Hin. split.
    + intros Hr. destruct (R4 i) as [(j & Hjn & <-)|[(j & Hjn & <-)|[H1 H2]]]; [rewrite R1 in Hr by assumption; lia|rewrite R2 in Hr by assumption; lia|].
      split; [|exact H1]. destruct (Nat.lt_ge_cases i (thr d)) as [|Hge]; [assumption|]. exfalso. assert (exists j, (j < M)%nat /\ ix j = i) as (j & Hjn & Ej) by (apply HI; auto). exact (H2 j Hjn Ej).
    + intros [H1 H2]. apply R3; [exact H2|]. intros j Hjn Ej. assert (exists j, (j < M)%nat /\ ix j = i) as Hex by eauto. apply HI in Hex. lia.
Qed.
End N.

(** ** relaxed bounds *)
Open Scope R_scope.
(** a point (v, sl, su) satisfies the inequality constraints of a QP stage with n constraints and ns slacks;
    val j is the bounded variable or the row of the general constraint *)
Definition slk (rev : nat -> Z) (s : vecR) (j : nat) : R := if (rev j <? 0)%Z then 0 else s (Z.to_nat (rev j)).
Definition qp_feasible (n ns : nat) (mask d : vecR) (rev : nat -> Z) (val sl su : vecR) : Prop :=
  (forall j, (j < n)%nat -> (mask j <> 0 -> d j <= val j + slk rev sl j) /\ (mask (n + j)%nat <> 0 -> d (n + j)%nat <= - val j + slk rev su j)) /\
  (forall k, (k < ns)%nat -> (mask (2 * n + k)%nat <> 0 -> d (2 * n + k)%nat <= sl k) /\ (mask (2 * n + ns + k)%nat <> 0 -> d (2 * n + ns + k)%nat <= su k)).

Definition bstep (d : wdims) (idxns : nat -> nat) (rev : nat -> Z) (f : R) (sl su : vecR) (j : nat) (v : vecR) : vecR :=
  let c := idxns j in let s := Z.to_nat (rev c) in
  let v := vset (A := real) v c (v c - f * sl s) in vset (A := real) v (w_n d + c) (v (w_n d + c)%nat - f * su s).
Lemma bounds_val d (idxns : nat -> nat) rev (f : R) (sl su dn : vecR) (m : nat) :
  (forall j, (j < m)%nat -> (idxns j < w_n d)%nat) -> (forall a b, (a < m)%nat -> (b < m)%nat -> idxns a = idxns b -> a = b) ->
  let v := loop m (bstep d idxns rev f sl su) dn in
  (forall j, (j < m)%nat -> v (idxns j) = dn (idxns j) - f * sl (Z.to_nat (rev (idxns j))) /\ v (w_n d + idxns j)%nat = dn (w_n d + idxns j)%nat - f * su (Z.to_nat (rev (idxns j)))) /\
  (forall k, (forall j, (j < m)%nat -> k <> idxns j /\ k <> (w_n d + idxns j)%nat) -> v k = dn k).
Proof.
  induction m as [|m IH]; intros Hn Hf; cbn zeta; [split; [intros; lia|reflexivity]|].
  cbn [loop]. destruct (IH (fun j Hj => Hn j ltac:(lia)) (fun a b Ha Hb => Hf a b ltac:(lia) ltac:(lia))) as [I1 I2]. cbn zeta in I1, I2.
  set (v := loop m (bstep d idxns rev f sl su) dn) in *. clearbody v. unfold bstep. cbn zeta. unfold vset.
  pose proof (Hn m ltac:(lia)) as Hm.
  assert (Vm : v (idxns m) = dn (idxns m) /\ v (w_n d + idxns m)%nat = dn (w_n d + idxns m)%nat).
  { split; apply I2; intros j Hj; specialize (Hn j ltac:(lia)); split; try lia; intros E; [apply Hf in E; lia|assert (idxns m = idxns j) as E' by lia; apply Hf in E'; lia]. }
  split.
  - intros j Hj. destruct (Nat.eq_dec j m) as [->|Hne].
    + rewrite Nat.eqb_refl. destruct (Nat.eqb_spec (idxns m) (w_n d + idxns m)); [lia|]. destruct (Nat.eqb_spec (w_n d + idxns m) (idxns m)); [lia|]. destruct Vm as [-> ->]. rewrite !Nat.eqb_refl. split; reflexivity.
    + specialize (I1 j ltac:(lia)). pose proof (Hn j ltac:(lia)). assert (idxns j <> idxns m) by (intros E; apply Hf in E; lia).
      repeat match goal with |- context [(?a =? ?b)%nat] => destruct (Nat.eqb_spec a b); [lia|] end. exact I1.
  - intros k Hk. destruct (Hk m ltac:(lia)) as [K1 K2]. repeat match goal with |- context [(?a =? ?b)%nat] => destruct (Nat.eqb_spec a b); [lia|] end.
    apply I2. intros j Hj. apply Hk. lia.
Qed.

Theorem relaxed_feasible d idxs idxns0 idxns cnt nrev (f : R) (mask dn relaxed0 mask0 val sl su : vecR) :
  valid_idxs d idxs -> precompute_idxns d idxs idxns0 = Some (idxns, cnt) ->
  (forall j, (j < w_ns d)%nat -> nrev (idxs j) = Z.of_nat j) -> (forall i, (forall j, (j < w_ns d)%nat -> idxs j <> i) -> (nrev i < 0)%Z) ->
  (forall k, relaxed0 k = 0) -> 1 <= f ->
  let rev := relaxed_idxs_rev d idxs idxns (fun _ => -1)%Z in
  qp_feasible (w_n d) (w_ns d + cnt) (relaxed_mask (A := real) d mask mask0) (relaxed_d (A := real) d dn relaxed0) rev val sl su ->
  qp_feasible (w_n d) (w_ns d) mask (byrd_omojokun_bounds (A := real) d idxns rev f sl su dn) nrev val sl su.
Proof.
  intros Hv Hp N1 N2 Z0 Hf rev [F1 F2].
  destruct (numbering d idxs Hv idxns0) as (ix & E & HI & HS & HR). rewrite Hp in E. injection E as <- Ec.
  cbv zeta in HR. fold rev in HR. destruct HR as (R1 & R2 & _ & R4). set (M := Z.to_nat (w_nns d)) in *. subst cnt.
  assert (HF : forall a b, (a < M)%nat -> (b < M)%nat -> idxns a = idxns b -> a = b).
  { intros a b Ha Hb Eab. destruct (lt_eq_lt_dec a b) as [[Hlt|He]|Hlt]; [specialize (HS a b ltac:(lia)); lia|exact He|specialize (HS b a ltac:(lia)); lia]. }
  assert (HN : forall j, (j < M)%nat -> (idxns j < w_n d)%nat) by (intros j Hj; apply HI; eauto).
  destruct (bounds_val d idxns rev f sl su dn M HN HF) as [B1 B2]. cbv zeta in B1, B2.
  change (byrd_omojokun_bounds (A := real) d idxns rev f sl su dn) with (loop M (bstep d idxns rev f sl su) dn).
  set (v := loop M (bstep d idxns rev f sl su) dn) in *. clearbody v.
  unfold relaxed_mask, relaxed_d in F1, F2. fold M in F1, F2.
  assert (S0 : forall k, (k < M)%nat -> 0 <= sl (k + w_ns d)%nat /\ 0 <= su (k + w_ns d)%nat).
  { intros k Hk. destruct (F2 (k + w_ns d)%nat ltac:(lia)) as [G1 G2]. cbn beta in G1, G2.
    rewrite (proj2 (Nat.ltb_ge _ (2 * w_n d)%nat)) in G1 by lia. rewrite (proj2 (Nat.ltb_lt _ _)) in G1 by lia. rewrite (proj2 (Nat.leb_gt _ _)) in G1 by lia. cbn [andb] in G1. rewrite (proj2 (Nat.ltb_ge _ (2 * w_n d + w_ns d)%nat)) in G1 by lia. rewrite Z0 in G1.
    rewrite (proj2 (Nat.ltb_ge _ (2 * w_n d)%nat)) in G2 by lia. rewrite (proj2 (Nat.ltb_lt _ (2 * w_n d + 2 * (w_ns d + M))%nat)) in G2 by lia. rewrite (proj2 (Nat.ltb_ge _ (2 * w_n d + w_ns d + M + w_ns d)%nat)) in G2 by lia. rewrite andb_false_r in G2. rewrite (proj2 (Nat.ltb_ge _ (2 * w_n d + w_ns d)%nat)) in G2 by lia. rewrite Z0 in G2.
    split; [apply G1|apply G2]; exact R1_neq_R0. }
  split.
  - intros j Hj. destruct (F1 j Hj) as [G1 G2]. cbn beta in G1, G2.
    rewrite (proj2 (Nat.ltb_lt j (2 * w_n d)%nat)) in G1 by lia. rewrite (proj2 (Nat.leb_gt _ _)) in G1 by lia. cbn [andb] in G1. rewrite (proj2 (Nat.ltb_lt j _)) in G1 by lia.
    rewrite (proj2 (Nat.ltb_lt (w_n d + j) (2 * w_n d)%nat)) in G2 by lia. rewrite (proj2 (Nat.leb_gt _ (w_n d + j)%nat)) in G2 by lia. cbn [andb] in G2. rewrite (proj2 (Nat.ltb_lt (w_n d + j) _)) in G2 by lia.
    destruct (is_slacked M idxns j) eqn:E1.
    + apply is_slacked_iff in E1. destruct E1 as (a & Ha & <-). destruct (B1 a Ha) as [V1 V2].
      assert (Hu : forall b, (b < w_ns d)%nat -> idxs b <> idxns a) by (apply HI; eauto).
      unfold slk in G1, G2 |- *. rewrite R2 in G1, G2, V1, V2 by assumption. rewrite (proj2 (Z.ltb_ge _ _)) in G1, G2 by lia. rewrite Nat2Z.id in *.
      rewrite (proj2 (Z.ltb_lt _ _) (N2 _ Hu)). destruct (S0 a Ha) as [P1 P2].
      split; intros Hm; [rewrite V1; specialize (G1 Hm)|rewrite V2; specialize (G2 Hm)].
      * pose proof (Rmult_le_compat_r (sl (a + w_ns d)%nat) 1 f P1 Hf). lra.
      * pose proof (Rmult_le_compat_r (su (a + w_ns d)%nat) 1 f P2 Hf). lra.
    + assert (Hu : forall a, (a < M)%nat -> idxns a <> j) by (intros a Ha Ea; assert (is_slacked M idxns j = true) by (apply is_slacked_iff; eauto); congruence).
      assert (V1 : v j = dn j) by (apply B2; intros a Ha; specialize (Hu a Ha); split; [auto|specialize (HN a Ha); lia]).
      assert (V2 : v (w_n d + j)%nat = dn (w_n d + j)%nat) by (apply B2; intros a Ha; specialize (Hu a Ha); specialize (HN a Ha); split; [lia|lia]).
      rewrite V1, V2.
      assert (SS : forall s, slk nrev s j = slk rev s j).
      { intros s. unfold slk. destruct (is_slacked (w_ns d) idxs j) eqn:E2.
        - apply is_slacked_iff in E2. destruct E2 as (b & Hb & <-). rewrite N1, R1 by assumption. reflexivity.
        - assert (Hi2 : forall b, (b < w_ns d)%nat -> idxs b <> j) by (intros b Hb Eb; assert (is_slacked (w_ns d) idxs j = true) by (apply is_slacked_iff; eauto); congruence).
          rewrite (proj2 (Z.ltb_lt _ _) (N2 _ Hi2)). rewrite (proj2 (R4 j Hj)); [reflexivity|]. split; [|exact Hi2].
          destruct (Nat.lt_ge_cases j (thr d)) as [|Hge]; [assumption|]. exfalso. assert (exists a, (a < M)%nat /\ idxns a = j) as (a & Ha & Ea) by (apply HI; auto). exact (Hu a Ha Ea). }
      rewrite !SS. split; assumption.
  - intros k Hk. assert (V1 : forall q, v (2 * w_n d + q)%nat = dn (2 * w_n d + q)%nat) by (intros q; apply B2; intros a Ha; specialize (HN a Ha); split; lia).
    rewrite <- !Nat.add_assoc, !V1. rewrite !Nat.add_assoc.
    destruct (F2 k ltac:(lia)) as [G1 G2]. cbn beta in G1, G2.
    rewrite (proj2 (Nat.ltb_ge _ (2 * w_n d)%nat)) in G1 by lia. rewrite (proj2 (Nat.ltb_lt _ _)) in G1 by lia. rewrite (proj2 (Nat.leb_gt _ _)) in G1 by lia. cbn [andb] in G1. rewrite (proj2 (Nat.ltb_lt _ (2 * w_n d + w_ns d)%nat)) in G1 by lia.
    rewrite (proj2 (Nat.ltb_ge _ (2 * w_n d)%nat)) in G2 by lia. rewrite (proj2 (Nat.ltb_lt _ (2 * w_n d + 2 * (w_ns d + M))%nat)) in G2 by lia. rewrite (proj2 (Nat.leb_le _ _)) in G2 by lia. rewrite (proj2 (Nat.ltb_lt _ (2 * w_n d + w_ns d + M + w_ns d)%nat)) in G2 by lia. cbn [andb] in G2.
    replace (2 * w_n d + (w_ns d + M) + k - (2 * w_n d + w_ns d + M) + (2 * w_n d + w_ns d))%nat with (2 * w_n d + w_ns d + k)%nat in G2 by lia.
    split; intros _; [apply G1|apply G2]; exact R1_neq_R0.
Qed.
