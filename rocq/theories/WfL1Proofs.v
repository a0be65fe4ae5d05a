From Coq Require Import ZArith List Bool Reals Lra Lia Arith.
From Verif Require Import FP Arith LinModel RSum OcpProofs IrkCostProofs WfL1Model.
Open Scope R_scope.

Definition pos (x : R) : R := Rmax 0 x.
Lemma pos_nonneg x : 0 <= pos x. Proof. apply Rmax_l. Qed.
Lemma pos_le x y : x <= y -> pos x <= pos y. Proof. intros H. unfold pos. apply Rle_max_compat_l, H. Qed.
Lemma pos_zero x : x <= 0 -> pos x = 0. Proof. intros H. unfold pos. apply Rmax_left, H. Qed.

(** value of constraint j, slack of a reverse index on the lower (h = 0) or upper side *)
Definition cval (s : stage real) (j : nat) : R :=
  if (j <? s_nb s)%nat then s_ux s (s_idxb s j) else sum (s_nv s) (fun r => s_DC s r (j - s_nb s)%nat * s_ux s r).
Definition slack_lo (s : stage real) (k : nat) : R := s_ux s (s_nv s + k)%nat.
Definition slack_up (s : stage real) (k : nat) : R := s_ux s (s_nv s + s_ns s + s_nns s + k)%nat.
Definition relax (rev : Z) (sl : nat -> R) : R := if (rev <? 0)%Z then 0 else sl (Z.to_nat rev).
Definition nc (s : stage real) : nat := (s_nb s + s_ng s)%nat.
(** the point satisfies the relaxed constraints of the stage *)
Definition relaxed_ok (s : stage real) : Prop :=
  (forall j, (j < nc s)%nat -> s_mask s j = true -> s_d s j <= cval s j + relax (s_rev s j) (slack_lo s)) /\
  (forall j, (j < nc s)%nat -> s_mask s (nc s + j)%nat = true -> cval s j - relax (s_rev s j) (slack_up s) <= - s_d s (nc s + j)%nat).
(** every added slack belongs to at most one constraint *)
Definition one_each (s : stage real) : Prop :=
  (forall j, (j < nc s)%nat -> (s_rev s j < Z.of_nat (s_ns s + s_nns s))%Z) /\
  (forall i j, (i < nc s)%nat -> (j < nc s)%nat -> (Z.of_nat (s_ns s) <= s_rev s i)%Z -> s_rev s i = s_rev s j -> i = j).

(** violation of the nominal constraint: only the slacks of the user count *)
Definition user (s : stage real) (j : nat) : bool := ((0 <=? s_rev s j)%Z && (s_rev s j <? Z.of_nat (s_ns s))%Z)%bool.
Definition viol_lo (s : stage real) (j : nat) : R :=
  if s_mask s j then pos (s_d s j - (cval s j + (if user s j then slack_lo s (Z.to_nat (s_rev s j)) else 0))) else 0.
Definition viol_up (s : stage real) (j : nat) : R :=
  if s_mask s (nc s + j)%nat then pos (s_d s (nc s + j)%nat + (cval s j - (if user s j then slack_up s (Z.to_nat (s_rev s j)) else 0))) else 0.
Definition viol (s : stage real) : R := sum (nc s) (viol_lo s) + sum (nc s) (viol_up s).
Definition added (s : stage real) : R :=
  sum (s_nns s) (fun k => pos (slack_lo s (s_ns s + k)%nat)) + sum (s_nns s) (fun k => pos (slack_up s (s_ns s + k)%nat)).

Lemma value_cval s j : value s j = cval s j.
Proof.
  unfold value, cval. destruct (j <? s_nb s)%nat; [reflexivity|].
  pose proof (loop_sum (s_nv s) (fun r => s_DC s r (j - s_nb s)%nat * s_ux s r) 0) as H.
  rewrite Rplus_0_l in H. exact H.
Qed.
Lemma user_eq s j : user_slack s j = user s j.
Proof.
  unfold user_slack, user. destruct (Nat.ltb_spec 0 (s_ns s)) as [H|H]; [reflexivity|].
  assert (s_ns s = 0%nat) as -> by lia. destruct (Z.leb_spec 0 (s_rev s j)); destruct (Z.ltb_spec (s_rev s j) (Z.of_nat 0)); try reflexivity; lia.
Qed.
Lemma lower_eq s j : tmp_lower s j = cval s j + (if user s j then slack_lo s (Z.to_nat (s_rev s j)) else 0).
Proof.
  unfold tmp_lower. rewrite user_eq, value_cval. destruct (user s j); [|symmetry; apply Rplus_0_r].
  unfold slack_lo. rewrite (Nat.add_comm (s_nv s)). reflexivity.
Qed.
Lemma upper_eq s j : tmp_upper s j = cval s j - (if user s j then slack_up s (Z.to_nat (s_rev s j)) else 0).
Proof.
  unfold tmp_upper. rewrite user_eq, value_cval. destruct (user s j); [|symmetry; apply Rminus_0_r].
  unfold slack_up. replace (Z.to_nat (s_rev s j) + s_nv s + s_ns s + s_nns s)%nat with (s_nv s + s_ns s + s_nns s + Z.to_nat (s_rev s j))%nat by lia. reflexivity.
Qed.

Lemma manual_eq s l : manual_stage s l = l + viol s.
Proof.
  unfold manual_stage. cbv zeta. fold (nc s).
  rewrite (loop_proj (fun x => x) _ _ (fun j => if (j <? nc s)%nat then viol_lo s j else viol_up s (j - nc s))).
  - f_equal. replace (2 * s_nb s + 2 * s_ng s)%nat with (nc s + nc s)%nat by (unfold nc; lia).
    rewrite sum_split. unfold viol. f_equal.
    + apply sum_ext. intros k Hk. destruct (Nat.ltb_spec k (nc s)); [reflexivity|lia].
    + apply sum_ext. intros k Hk. destruct (Nat.ltb_spec (nc s + k) (nc s)); [lia|]. f_equal. lia.
  - intros j x Hj. destruct (Nat.ltb_spec j (nc s)) as [H|H].
    + unfold viol_lo. destruct (s_mask s j); [|lra]. rewrite nmax_real, lower_eq. reflexivity.
    + unfold viol_up. replace (nc s + (j - nc s))%nat with j by lia. destruct (s_mask s j); [|lra].
      rewrite nmax_real, upper_eq. reflexivity.
Qed.
Lemma slacks_eq s l : slacks_stage s l = l + added s.
Proof.
  unfold slacks_stage.
  rewrite (loop_proj (fun x => x) _ _ (fun k => pos (slack_lo s (s_ns s + k)%nat) + pos (slack_up s (s_ns s + k)%nat))).
  - rewrite sum_plus. reflexivity.
  - intros k x Hk. rewrite !nmax_real. unfold slack_lo, slack_up, pos.
    replace (s_nv s + s_ns s + k)%nat with (s_nv s + (s_ns s + k))%nat by lia.
    replace (s_nv s + 2 * s_ns s + s_nns s + k)%nat with (s_nv s + s_ns s + s_nns s + (s_ns s + k))%nat by lia.
    cbn [nadd real n0]. lra.
Qed.
Lemma manually_eq N st : manually N st = sum (N + 1) (fun i => viol (st i)).
Proof.
  unfold manually. rewrite (loop_proj (fun x => x) _ _ (fun i => viol (st i))); [apply Rplus_0_l|]. intros. apply manual_eq.
Qed.
Lemma from_slacks_eq N st : from_slacks N st = sum (N + 1) (fun i => added (st i)).
Proof.
  unfold from_slacks. rewrite (loop_proj (fun x => x) _ _ (fun i => added (st i))); [apply Rplus_0_l|]. intros. apply slacks_eq.
Qed.

(** sums along a partial injection *)
Lemma at_most_one n (b : nat -> bool) c : 0 <= c -> (forall i j, (i < n)%nat -> (j < n)%nat -> b i = true -> b j = true -> i = j) ->
  sum n (fun i => if b i then c else 0) <= c.
Proof.
  intros Hc. induction n as [|n IH]; intros H; [cbn; exact Hc|].
  rewrite sum_S. destruct (b n) eqn:E.
  - rewrite sum_zero; [lra|]. intros k Hk. destruct (b k) eqn:F; [|reflexivity]. assert (k = n) by (apply H; auto; lia). lia.
  - rewrite Rplus_0_r. apply IH. intros i j Hi Hj. apply H; lia.
Qed.
Lemma sum_inj n m (R0 : nat -> nat -> bool) (f g : nat -> R) :
  (forall k, 0 <= g k) -> (forall j, (j < n)%nat -> f j <= 0 \/ exists k, (k < m)%nat /\ R0 j k = true /\ f j <= g k) ->
  (forall k i j, (k < m)%nat -> (i < n)%nat -> (j < n)%nat -> R0 i k = true -> R0 j k = true -> i = j) ->
  sum n f <= sum m g.
Proof.
  intros Hg Hf Hi.
  apply Rle_trans with (sum n (fun j => sum m (fun k => if R0 j k then g k else 0))).
  - apply sum_le. intros j Hj.
    assert (P : forall k, (k < m)%nat -> 0 <= (if R0 j k then g k else 0)) by (intros k _; destruct (R0 j k); [apply Hg|lra]).
    destruct (Hf j Hj) as [H|(k & Hk & Hr & Hle)].
    + apply Rle_trans with (1 := H). apply sum_nonneg, P.
    + rewrite (sum_pick m k _ Hk), Hr. apply Rle_trans with (1 := Hle).
      assert (0 <= sum m (fun q => if (q =? k)%nat then 0 else if R0 j q then g q else 0)); [|lra].
      apply sum_nonneg. intros q Hq. destruct (q =? k)%nat; [lra|apply P, Hq].
  - rewrite sum_swap. apply sum_le. intros k Hk. apply at_most_one; [apply Hg|]. intros i j Hi' Hj'. apply (Hi k); assumption.
Qed.

Definition rel (s : stage real) (j k : nat) : bool := (s_rev s j =? Z.of_nat (s_ns s + k))%Z.

Lemma viol_lo_nonneg s j : 0 <= viol_lo s j.
Proof. unfold viol_lo. destruct (s_mask s j); [apply pos_nonneg|lra]. Qed.
Lemma viol_up_nonneg s j : 0 <= viol_up s j.
Proof. unfold viol_up. destruct (s_mask s _); [apply pos_nonneg|lra]. Qed.

Theorem stage_le s : relaxed_ok s -> one_each s -> viol s <= added s.
Proof.
  intros [Hl Hu] [Hb Hi]. unfold viol, added.
  assert (I : forall k i j, (k < s_nns s)%nat -> (i < nc s)%nat -> (j < nc s)%nat -> rel s i k = true -> rel s j k = true -> i = j).
  { intros k i j _ Hi' Hj' Ei Ej. apply Z.eqb_eq in Ei. apply Z.eqb_eq in Ej. apply Hi; try assumption; lia. }
  apply Rplus_le_compat.
  - apply (sum_inj _ _ (rel s)); [intros; apply pos_nonneg| |exact I].
    intros j Hj. unfold viol_lo, rel. destruct (s_mask s j) eqn:M; [|left; lra].
    specialize (Hl j Hj M). specialize (Hb j Hj). unfold user, relax in *.
    destruct (Z.ltb_spec (s_rev s j) 0) as [H0|H0].
    + left. destruct (Z.leb_spec 0 (s_rev s j)); [lia|]. cbn [andb]. rewrite pos_zero; lra.
    + destruct (Z.leb_spec 0 (s_rev s j)); [|lia]. cbn [andb]. destruct (Z.ltb_spec (s_rev s j) (Z.of_nat (s_ns s))) as [H1|H1].
      * left. rewrite pos_zero; lra.
      * right. exists (Z.to_nat (s_rev s j) - s_ns s)%nat. split; [lia|]. split; [apply Z.eqb_eq; lia|].
        apply pos_le. replace (s_ns s + (Z.to_nat (s_rev s j) - s_ns s))%nat with (Z.to_nat (s_rev s j)) by lia. lra.
  - apply (sum_inj _ _ (rel s)); [intros; apply pos_nonneg| |exact I].
    intros j Hj. unfold viol_up, rel. destruct (s_mask s (nc s + j)%nat) eqn:M; [|left; lra].
    specialize (Hu j Hj M). specialize (Hb j Hj). unfold user, relax in *.
    destruct (Z.ltb_spec (s_rev s j) 0) as [H0|H0].
    + left. destruct (Z.leb_spec 0 (s_rev s j)); [lia|]. cbn [andb]. rewrite pos_zero; lra.
    + destruct (Z.leb_spec 0 (s_rev s j)); [|lia]. cbn [andb]. destruct (Z.ltb_spec (s_rev s j) (Z.of_nat (s_ns s))) as [H1|H1].
      * left. rewrite pos_zero; lra.
      * right. exists (Z.to_nat (s_rev s j) - s_ns s)%nat. split; [lia|]. split; [apply Z.eqb_eq; lia|].
        apply pos_le. replace (s_ns s + (Z.to_nat (s_rev s j) - s_ns s))%nat with (Z.to_nat (s_rev s j)) by lia. lra.
Qed.

(** the added slacks are no larger than needed *)
Definition minimal (s : stage real) : Prop := forall k, (k < s_nns s)%nat -> exists j, (j < nc s)%nat /\ s_rev s j = Z.of_nat (s_ns s + k) /\
  (0 < slack_lo s (s_ns s + k)%nat -> s_mask s j = true /\ slack_lo s (s_ns s + k)%nat <= s_d s j - cval s j) /\
  (0 < slack_up s (s_ns s + k)%nat -> s_mask s (nc s + j)%nat = true /\ slack_up s (s_ns s + k)%nat <= cval s j + s_d s (nc s + j)%nat).

Theorem stage_ge s : minimal s -> added s <= viol s.
Proof.
  intros Hm. unfold viol, added.
  assert (I : forall k i j, (k < nc s)%nat -> (i < s_nns s)%nat -> (j < s_nns s)%nat -> rel s k i = true -> rel s k j = true -> i = j).
  { intros k i j _ _ _ Ei Ej. apply Z.eqb_eq in Ei. apply Z.eqb_eq in Ej. lia. }
  assert (U : forall j k, s_rev s j = Z.of_nat (s_ns s + k) -> user s j = false).
  { intros j k E. unfold user. destruct (Z.ltb_spec (s_rev s j) (Z.of_nat (s_ns s))); [lia|]. apply andb_false_r. }
  apply Rplus_le_compat.
  - apply (sum_inj _ _ (fun k j => rel s j k)); [apply viol_lo_nonneg| |exact I].
    intros k Hk. destruct (Hm k Hk) as (j & Hj & Hr & Hlo & _). destruct (Rle_lt_dec (slack_lo s (s_ns s + k)%nat) 0) as [H|H].
    + left. rewrite pos_zero by exact H. lra.
    + right. exists j. split; [exact Hj|]. split; [apply Z.eqb_eq, Hr|]. destruct (Hlo H) as [M L].
      unfold viol_lo. rewrite M, (U j k Hr). apply pos_le. lra.
  - apply (sum_inj _ _ (fun k j => rel s j k)); [apply viol_up_nonneg| |exact I].
    intros k Hk. destruct (Hm k Hk) as (j & Hj & Hr & _ & Hup). destruct (Rle_lt_dec (slack_up s (s_ns s + k)%nat) 0) as [H|H].
    + left. rewrite pos_zero by exact H. lra.
    + right. exists j. split; [exact Hj|]. split; [apply Z.eqb_eq, Hr|]. destruct (Hup H) as [M L].
      unfold viol_up. rewrite M, (U j k Hr). apply pos_le. lra.
Qed.

Theorem manual_is_violation N (st : nat -> stage real) :
  manually N st = sum (N + 1) (fun i => sum (nc (st i)) (viol_lo (st i)) + sum (nc (st i)) (viol_up (st i))).
Proof. apply manually_eq. Qed.
Theorem manual_le_slacks N (st : nat -> stage real) : (forall i, (i <= N)%nat -> relaxed_ok (st i) /\ one_each (st i)) ->
  0 <= manually N st <= from_slacks N st.
Proof.
  intros H. rewrite manually_eq, from_slacks_eq. split.
  - apply sum_nonneg. intros i _. unfold viol. apply Rplus_le_le_0_compat; apply sum_nonneg; intros; [apply viol_lo_nonneg|apply viol_up_nonneg].
  - apply sum_le. intros i Hi. destruct (H i) as [H1 H2]; [lia|]. apply stage_le; assumption.
Qed.
Theorem both_equal N (st : nat -> stage real) : (forall i, (i <= N)%nat -> relaxed_ok (st i) /\ one_each (st i) /\ minimal (st i)) ->
  forall u u', qp_l1 u N st = qp_l1 u' N st.
Proof.
  intros H. assert (E : manually N st = from_slacks N st).
  { apply Rle_antisym.
    - apply manual_le_slacks. intros i Hi. destruct (H i Hi) as (? & ? & _). split; assumption.
    - rewrite manually_eq, from_slacks_eq. apply sum_le. intros i Hi. apply stage_ge. apply H. lia. }
  intros [] []; unfold qp_l1; congruence.
Qed.
Theorem zero_means_feasible N (st : nat -> stage real) : manually N st = 0 -> forall i, (i <= N)%nat -> forall j, (j < nc (st i))%nat ->
  let s := st i in
  (s_mask s j = true -> s_d s j <= cval s j + (if user s j then slack_lo s (Z.to_nat (s_rev s j)) else 0)) /\
  (s_mask s (nc s + j)%nat = true -> cval s j - (if user s j then slack_up s (Z.to_nat (s_rev s j)) else 0) <= - s_d s (nc s + j)%nat).
Proof.
  intros E i Hi j Hj. cbv zeta. rewrite manually_eq in E.
  assert (NN : forall s, 0 <= sum (nc s) (viol_lo s) /\ 0 <= sum (nc s) (viol_up s)) by (intros s; split; apply sum_nonneg; intros; [apply viol_lo_nonneg|apply viol_up_nonneg]).
  assert (Z : forall n (f : nat -> R), (forall k, 0 <= f k) -> sum n f <= 0 -> forall k, (k < n)%nat -> f k <= 0).
  { intros n f Hf Hs k Hk. rewrite (sum_pick n k f Hk) in Hs.
    assert (0 <= sum n (fun q => if (q =? k)%nat then 0 else f q)) by (apply sum_nonneg; intros q _; destruct (q =? k)%nat; [lra|apply Hf]). lra. }
  assert (V : viol (st i) <= 0).
  { apply (Z (N + 1)%nat (fun i => viol (st i))); [|lra|lia]. intros k. unfold viol. destruct (NN (st k)). lra. }
  unfold viol in V. destruct (NN (st i)) as [A B].
  assert (L : viol_lo (st i) j <= 0) by (apply (Z (nc (st i)) (viol_lo (st i))); [apply viol_lo_nonneg|lra|exact Hj]).
  assert (U : viol_up (st i) j <= 0) by (apply (Z (nc (st i)) (viol_up (st i))); [apply viol_up_nonneg|lra|exact Hj]).
  unfold viol_lo, viol_up, pos in *. split; intros M; rewrite M in *.
  - match goal with _ : Rmax 0 ?x <= 0 |- _ => pose proof (Rmax_r 0 x) end. lra.
  - match goal with _ : Rmax 0 ?x <= 0 |- _ => pose proof (Rmax_r 0 x) end. lra.
Qed.
