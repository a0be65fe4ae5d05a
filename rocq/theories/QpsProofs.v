(** Scaling a QP by positive factors maps its KKT points and minimisers to those of the scaled QP. *)
From Coq Require Import ZArith List Bool Lia Reals Lra Psatz.
From Verif Require Import Arith Vec LinModel QpsModel QpsSpec Poly RSum.
Open Scope R_scope.
Ltac rR := change (num real) with R in *; try match goal with |- @eq _ ?a ?b => change (@eq R a b) end.
Ltac fld := first [field | symmetry; field].
Ltac rng := rR; rr; first [ring | symmetry; ring].

Section A.
Variable d : qdims.
Variables (f : R) (rho sig : nat -> nat -> R) (q q' : rqp).
Notation nv := (nv d). Notation nrow := (nrow d). Notation nall := (nall d).

(** factor of inequality [m] *)
Definition tau (i m : nat) : R :=
  if (m <? nrow i)%nat then rho i m else if (m <? 2 * nrow i)%nat then rho i (m - nrow i)%nat
  else let e := (m - 2 * nrow i)%nat in sig i (if (e <? qns d i)%nat then e else (e - qns d i)%nat).
Definition side (i : nat) (up : bool) : nat := if up then qns d i else 0%nat.

Record Scaled : Prop := mkScaled {
  Sf : 0 < f;
  Srho : forall i k, 0 < rho i k; Ssig : forall i k, 0 < sig i k;
  Sb : forall i k, (k < qnb d i)%nat -> rho i k = 1;
  Srev : forall i k, (i <= qN d)%nat -> (k < nrow i)%nat -> (0 <= q_rev q i k)%Z ->
    (q_rev q i k < Z.of_nat (qns d i))%Z /\ sig i (Z.to_nat (q_rev q i k)) = rho i k;
  SH : forall i r c, (i <= qN d)%nat -> (r < nv i)%nat -> (c < nv i)%nat -> (q_H q' i r c : R) = f * q_H q i r c;
  SDC : forall i r j, (i <= qN d)%nat -> (r < nv i)%nat -> (j < qng d i)%nat -> (q_DC q' i r j : R) = rho i (qnb d i + j)%nat * q_DC q i r j;
  Srq : forall i r, (i <= qN d)%nat -> (r < nv i)%nat -> (q_rqz q' i r : R) = f * q_rqz q i r;
  Srz : forall i k up, (i <= qN d)%nat -> (k < qns d i)%nat -> (q_rqz q' i (nv i + (side i up + k))%nat : R) = f * q_rqz q i (nv i + (side i up + k))%nat / sig i k;
  SZ : forall i k up, (i <= qN d)%nat -> (k < qns d i)%nat -> (q_Z q' i (side i up + k)%nat : R) = f * q_Z q i (side i up + k)%nat / (sig i k * sig i k);
  Sd : forall i m, (i <= qN d)%nat -> (m < nall i)%nat -> (q_mask q i m : R) <> 0 -> (q_d q' i m : R) = tau i m * q_d q i m;
  SBA : q_BA q' = q_BA q; Sbb : q_b q' = q_b q; Smask : q_mask q' = q_mask q; Sidxb : q_idxb q' = q_idxb q; Srv : q_rev q' = q_rev q }.

Section U.
Variables u u' : nat -> vecR.
Record RelU : Prop := mkRelU {
  Rux : forall i r, (i <= qN d)%nat -> (r < nv i)%nat -> u i r = u' i r;
  Rus : forall i k up, (i <= qN d)%nat -> (k < qns d i)%nat -> u i (nv i + (side i up + k))%nat = u' i (nv i + (side i up + k))%nat / sig i k }.
Hypothesis Sc : Scaled.
Hypothesis Ru : RelU.

Lemma coef_scaled i k r : (i <= qN d)%nat -> (k < nrow i)%nat -> (r < nv i)%nat -> coef d q' i k r = rho i k * coef d q i k r.
Proof.
  intros Hi Hk Hr. unfold coef. rewrite (Sidxb Sc). destruct (Nat.ltb_spec k (qnb d i)) as [L|L].
  - rewrite (Sb Sc i k L). destruct (q_idxb q i k =? r)%nat; lra.
  - pose proof (SDC Sc i r (k - qnb d i) Hi Hr ltac:(unfold QpsSpec.nrow in Hk; lia)) as E. replace (qnb d i + (k - qnb d i))%nat with k in E by lia. exact E.
Qed.
Lemma lin_scaled i k : (i <= qN d)%nat -> (k < nrow i)%nat -> lin d q' u' i k = rho i k * lin d q u i k.
Proof.
  intros Hi Hk. unfold lin. rewrite <- sum_scal. apply sum_ext. intros r Hr. rewrite coef_scaled, (Rux Ru i r Hi Hr) by assumption. ring.
Qed.
Lemma slack_scaled i k up : (i <= qN d)%nat -> (k < nrow i)%nat -> slack d q' u' i k up = rho i k * slack d q u i k up.
Proof.
  intros Hi Hk. unfold slack. rewrite (Srv Sc). destruct (Z.leb_spec 0 (q_rev q i k)) as [L|L]; [|lra].
  destruct (Srev Sc i k Hi Hk L) as [B E]. pose proof (Rus Ru i (Z.to_nat (q_rev q i k)) up Hi ltac:(lia)) as G.
  unfold side in G. replace (nv i + ((if up then qns d i else 0) + Z.to_nat (q_rev q i k)))%nat with (nv i + (if up then qns d i else 0) + Z.to_nat (q_rev q i k))%nat in G by lia.
  rewrite G, E. pose proof (Srho Sc i k). fld. lra.
Qed.
Lemma tau_pos i m : 0 < tau i m.
Proof. unfold tau. destruct (_ <? _)%nat; [apply (Srho Sc)|]. destruct (_ <? _)%nat; [apply (Srho Sc)|]. apply (Ssig Sc). Qed.
Lemma ineq_scaled i m : (i <= qN d)%nat -> (m < nall i)%nat -> q_mask q i m <> 0 -> ineq d q' u' i m = tau i m * ineq d q u i m.
Proof.
  intros Hi Hm Hk. unfold ineq. rewrite (Sd Sc i m Hi Hm Hk). unfold tau. destruct (Nat.ltb_spec m (nrow i)) as [L|L].
  - rewrite lin_scaled, slack_scaled by assumption. rR. ring.
  - destruct (Nat.ltb_spec m (2 * nrow i)) as [L2|L2].
    + rewrite lin_scaled, slack_scaled by (assumption || lia). rR. ring.
    + cbv zeta. set (e := (m - 2 * nrow i)%nat). unfold QpsSpec.nall, QpsSpec.nrow in *.
      assert (E : exists k up, (k < qns d i)%nat /\ e = (side i up + k)%nat /\ (if (e <? qns d i)%nat then e else (e - qns d i)%nat) = k).
      { destruct (Nat.ltb_spec e (qns d i)) as [L3|L3].
        - exists e, false. cbn. lia.
        - exists (e - qns d i)%nat, true. cbn. lia. }
      destruct E as (k & up & Hk' & E & ->). rewrite E, (Rus Ru i k up Hi Hk').
      pose proof (Ssig Sc i k). rR. fld. lra.
Qed.
Lemma dyn_scaled i c : (i < qN d)%nat -> (c < qnx d (S i))%nat -> dyn d q' u' i c = dyn d q u i c.
Proof.
  intros Hi Hc. unfold dyn. rewrite (SBA Sc), (Sbb Sc), (Rux Ru (S i) (qnu d (S i) + c)%nat) by (unfold QpsSpec.nv; lia).
  f_equal. f_equal. apply sum_ext. intros r Hr. rewrite (Rux Ru i r) by (assumption || lia). reflexivity.
Qed.
Lemma sym_scaled i r c : (i <= qN d)%nat -> (r < nv i)%nat -> (c < nv i)%nat -> sym q' i r c = f * sym q i r c.
Proof. intros. unfold sym. destruct (c <=? r)%nat; apply (SH Sc); assumption. Qed.
Lemma feasible_scaled : feasible d q' u' <-> feasible d q u.
Proof.
  unfold feasible. split; intros [P Q]; split.
  - intros i c Hi Hc. rewrite <- dyn_scaled by assumption. apply P; assumption.
  - intros i m Hi Hm K. specialize (Q i m Hi Hm). rewrite (Smask Sc), ineq_scaled in Q by assumption. specialize (Q K).
    pose proof (tau_pos i m). apply Rmult_le_reg_l with (tau i m); lra.
  - intros i c Hi Hc. rewrite dyn_scaled by assumption. apply P; assumption.
  - intros i m Hi Hm K. rewrite (Smask Sc) in K. rewrite ineq_scaled by assumption. specialize (Q i m Hi Hm K).
    pose proof (tau_pos i m). apply Rmult_le_pos; lra.
Qed.
Lemma sides i (g : nat -> R) : sum (2 * qns d i) g = sum (qns d i) (fun k => g (side i false + k)%nat) + sum (qns d i) (fun k => g (side i true + k)%nat).
Proof. replace (2 * qns d i)%nat with (qns d i + qns d i)%nat by lia. rewrite sum_split. reflexivity. Qed.
Lemma cost_scaled : cost d q' u' = f * cost d q u.
Proof.
  unfold cost. rewrite <- sum_scal. apply sum_ext. intros i Hi. assert (Hn : (i <= qN d)%nat) by lia.
  rewrite !Rmult_plus_distr_l. f_equal; [f_equal|].
  - rewrite <- Rmult_assoc, (Rmult_comm f), Rmult_assoc. f_equal. rewrite <- sum_scal. apply sum_ext. intros r Hr. rewrite <- sum_scal. apply sum_ext. intros c Hc.
    rewrite sym_scaled, !(Rux Ru i) by assumption. ring.
  - rewrite <- Rmult_assoc, (Rmult_comm f), Rmult_assoc. f_equal. rewrite !sides, Rmult_plus_distr_l, <- !sum_scal. f_equal; apply sum_ext; intros k Hk;
      rewrite (SZ Sc i k _ Hn Hk), (Rus Ru i k _ Hn Hk); pose proof (Ssig Sc i k); rR; fld; lra.
  - rewrite !(sum_split (nv i)), Rmult_plus_distr_l. f_equal.
    + rewrite <- sum_scal. apply sum_ext. intros r Hr. rewrite (Srq Sc i r Hn Hr), (Rux Ru i r Hn Hr). rR. ring.
    + rewrite !sides, Rmult_plus_distr_l, <- !sum_scal. f_equal; apply sum_ext; intros k Hk;
        rewrite (Srz Sc i k _ Hn Hk), (Rus Ru i k _ Hn Hk); pose proof (Ssig Sc i k); rR; fld; lra.
Qed.
End U.

Variables s s' : rsol.
Record Rel : Prop := mkRel {
  Ru : RelU (s_ux s) (s_ux s');
  Rpi : forall i c, (i < qN d)%nat -> (c < qnx d (S i))%nat -> (s_pi s i c : R) = s_pi s' i c / f;
  Rlam : forall i m, (i <= qN d)%nat -> (m < nall i)%nat -> (s_lam s i m : R) = tau i m * s_lam s' i m / f }.
Hypothesis Sc : Scaled.
Hypothesis Rs : Rel.

Lemma lam_low i k : (i <= qN d)%nat -> (k < nrow i)%nat -> (s_lam s' i k : R) = f * s_lam s i k / rho i k.
Proof.
  intros Hi Hk. rewrite (Rlam Rs i k) by (unfold QpsSpec.nall, QpsSpec.nrow in *; lia). unfold tau.
  destruct (Nat.ltb_spec k (nrow i)); [|lia]. pose proof (Srho Sc i k). pose proof (Sf Sc). rR. fld. lra.
Qed.
Lemma lam_up i k : (i <= qN d)%nat -> (k < nrow i)%nat -> (s_lam s' i (nrow i + k)%nat : R) = f * s_lam s i (nrow i + k)%nat / rho i k.
Proof.
  intros Hi Hk. rewrite (Rlam Rs i (nrow i + k)) by (unfold QpsSpec.nall, QpsSpec.nrow in *; lia). unfold tau.
  destruct (Nat.ltb_spec (nrow i + k) (nrow i)); [lia|]. destruct (Nat.ltb_spec (nrow i + k) (2 * nrow i)); [|lia].
  replace (nrow i + k - nrow i)%nat with k by lia. pose proof (Srho Sc i k). pose proof (Sf Sc). rR. fld. lra.
Qed.
Lemma lam_sl i k up : (i <= qN d)%nat -> (k < qns d i)%nat ->
  (s_lam s' i (2 * nrow i + (side i up + k))%nat : R) = f * s_lam s i (2 * nrow i + (side i up + k))%nat / sig i k.
Proof.
  intros Hi Hk. rewrite (Rlam Rs i (2 * nrow i + (side i up + k))%nat) by (unfold QpsSpec.nall, QpsSpec.nrow, side in *; destruct up; lia). unfold tau.
  destruct (Nat.ltb_spec (2 * nrow i + (side i up + k)) (nrow i)); [lia|]. destruct (Nat.ltb_spec (2 * nrow i + (side i up + k)) (2 * nrow i)); [lia|].
  cbv zeta. replace (2 * nrow i + (side i up + k) - 2 * nrow i)%nat with (side i up + k)%nat by lia.
  assert (E : (if (side i up + k <? qns d i)%nat then (side i up + k)%nat else (side i up + k - qns d i)%nat) = k).
  { unfold side. destruct up; cbn [Nat.add]; destruct (Nat.ltb_spec (qns d i + k) (qns d i)); try lia; destruct (Nat.ltb_spec k (qns d i)); lia. }
  rewrite E. pose proof (Ssig Sc i k). pose proof (Sf Sc). rR. fld. lra.
Qed.
Lemma stat_scaled i r : (i <= qN d)%nat -> (r < nv i)%nat -> stat d q' s' i r = f * stat d q s i r.
Proof.
  intros Hi Hr. unfold stat. rewrite !Rmult_minus_distr_l, !Rmult_plus_distr_l. rewrite (SBA Sc). f_equal; [f_equal; [f_equal; [f_equal|]|]|].
  - rewrite <- sum_scal. apply sum_ext. intros c Hc. rewrite (sym_scaled Sc), (Rux _ _ (Ru Rs) i c) by assumption. ring.
  - apply (Srq Sc); assumption.
  - destruct (Nat.ltb_spec i (qN d)) as [L|L]; [|lra]. rewrite <- sum_scal. apply sum_ext. intros c Hc. rewrite (Rpi Rs i c L Hc). pose proof (Sf Sc).
    rR. fld. lra.
  - destruct (0 <? i)%nat eqn:E0; cbn [andb]; [|lra]. apply Nat.ltb_lt in E0. destruct (Nat.leb_spec (qnu d i) r) as [L|L]; [|lra].
    rewrite (Rpi Rs (i - 1) (r - qnu d i)) by (replace (S (i - 1)) with i by lia; unfold QpsSpec.nv in *; lia). pose proof (Sf Sc).
    rR. fld. lra.
  - rewrite <- sum_scal. apply sum_ext. intros k Hk. rewrite (coef_scaled Sc), lam_low, lam_up by assumption. pose proof (Srho Sc i k). rR. fld. lra.
Qed.
Lemma stat_slack_scaled i k up : (i <= qN d)%nat -> (k < qns d i)%nat -> stat_slack d q' s' i k up = f / sig i k * stat_slack d q s i k up.
Proof.
  intros Hi Hk. unfold stat_slack. cbv zeta. rewrite (Srv Sc). change (if up then qns d i else 0)%nat with (side i up).
  rewrite (SZ Sc i k up Hi Hk), (Srz Sc i k up Hi Hk), (lam_sl i k up Hi Hk), (Rus _ _ (Ru Rs) i k up Hi Hk).
  assert (E : sum (nrow i) (fun l => if (q_rev q i l =? Z.of_nat k)%Z then s_lam s' i ((if up then nrow i else 0) + l)%nat else 0)
    = f / sig i k * sum (nrow i) (fun l => if (q_rev q i l =? Z.of_nat k)%Z then s_lam s i ((if up then nrow i else 0) + l)%nat else 0)).
  { rewrite <- sum_scal. apply sum_ext. intros l Hl. destruct (Z.eqb_spec (q_rev q i l) (Z.of_nat k)) as [E|E].
    - destruct (Srev Sc i l Hi Hl ltac:(lia)) as [_ G]. rewrite E, Nat2Z.id in G. rewrite G. pose proof (Srho Sc i l).
      destruct up; [rewrite lam_up by assumption|cbn [Nat.add]; rewrite lam_low by assumption]; rR; fld; lra.
    - rR. lra. }
  rewrite E. pose proof (Ssig Sc i k). rR. fld. lra.
Qed.
Lemma kkt_scaled : kkt d q' s' <-> kkt d q s.
Proof.
  unfold kkt. split; intros (P1 & P2 & P3 & P4); (split; [|split; [|split]]).
  - intros i r Hi Hr. specialize (P1 i r Hi Hr). rewrite stat_scaled in P1 by assumption. pose proof (Sf Sc). apply Rmult_integral in P1. lra.
  - intros i k up Hi Hk. specialize (P2 i k up Hi Hk). rewrite stat_slack_scaled in P2 by assumption. pose proof (Sf Sc). pose proof (Ssig Sc i k).
    assert (0 < f / sig i k) by (apply Rdiv_lt_0_compat; assumption). apply Rmult_integral in P2. lra.
  - intros i c Hi Hc. rewrite <- (dyn_scaled _ _ Sc (Ru Rs)) by assumption. apply P3; assumption.
  - intros i m Hi Hm. specialize (P4 i m Hi Hm). rewrite (Smask Sc) in P4. destruct P4 as [P4 P5]. pose proof (Sf Sc). pose proof (tau_pos Sc i m). split.
    + intros K. specialize (P4 K). rewrite (ineq_scaled _ _ Sc (Ru Rs)) in P4 by assumption. destruct P4 as (Q1 & Q2 & Q3). rewrite (Rlam Rs i m Hi Hm).
      rR. split; [|split].
      * apply Rmult_le_reg_l with (tau i m); lra.
      * unfold Rdiv. apply Rmult_le_pos; [apply Rmult_le_pos; lra|]. left. apply Rinv_0_lt_compat. assumption.
      * unfold Rdiv. replace (tau i m * s_lam s' i m * / f * ineq d q (s_ux s) i m) with (/ f * (s_lam s' i m * (tau i m * ineq d q (s_ux s) i m))) by ring. rewrite Q3. ring.
    + intros K. specialize (P5 K). rewrite (Rlam Rs i m Hi Hm), P5. unfold Rdiv. rR. ring.
  - intros i r Hi Hr. rewrite stat_scaled, (P1 i r Hi Hr) by assumption. ring.
  - intros i k up Hi Hk. rewrite stat_slack_scaled, (P2 i k up Hi Hk) by assumption. ring.
  - intros i c Hi Hc. rewrite (dyn_scaled _ _ Sc (Ru Rs)) by assumption. apply P3; assumption.
  - intros i m Hi Hm. specialize (P4 i m Hi Hm). rewrite (Smask Sc). destruct P4 as [P4 P5]. pose proof (Sf Sc). pose proof (tau_pos Sc i m).
    assert (L : (s_lam s' i m : R) = f / tau i m * s_lam s i m) by (rewrite (Rlam Rs i m Hi Hm); rR; fld; lra).
    assert (0 < f / tau i m) by (apply Rdiv_lt_0_compat; assumption). split.
    + intros K. specialize (P4 K). rewrite (ineq_scaled _ _ Sc (Ru Rs)), L by assumption. destruct P4 as (Q1 & Q2 & Q3). rR.
      split; [|split]; [apply Rmult_le_pos; lra|apply Rmult_le_pos; lra|].
      replace (f / tau i m * s_lam s i m * (tau i m * ineq d q (s_ux s) i m)) with (f * (s_lam s i m * ineq d q (s_ux s) i m)) by (field; lra). rewrite Q3. ring.
    + intros K. rewrite L, (P5 K). rR. ring.
Qed.
End A.

(** a point of the original QP with its slacks multiplied is the scaled point *)
Section M.
Variable d : qdims.
Variables (f : R) (rho sig : nat -> nat -> R) (q q' : rqp).
Hypothesis Sc : Scaled d f rho sig q q'.
Definition to_scaled (y : nat -> vecR) : nat -> vecR := fun i k =>
  if (k <? nv d i)%nat then y i k
  else let e := (k - nv d i)%nat in y i k * sig i (if (e <? qns d i)%nat then e else (e - qns d i)%nat).
Lemma to_scaled_rel y : RelU d sig y (to_scaled y).
Proof.
  constructor.
  - intros i r Hi Hr. unfold to_scaled. destruct (Nat.ltb_spec r (nv d i)); [reflexivity|lia].
  - intros i k up Hi Hk. unfold to_scaled. destruct (Nat.ltb_spec (nv d i + (side d i up + k)) (nv d i)); [lia|]. cbv zeta.
    replace (nv d i + (side d i up + k) - nv d i)%nat with (side d i up + k)%nat by lia.
    assert (E : (if (side d i up + k <? qns d i)%nat then (side d i up + k)%nat else (side d i up + k - qns d i)%nat) = k).
    { unfold side. destruct up; cbn [Nat.add]; destruct (Nat.ltb_spec (qns d i + k) (qns d i)); try lia; destruct (Nat.ltb_spec k (qns d i)); lia. }
    rewrite E. pose proof (Ssig _ _ _ _ _ _ Sc i k). fld. lra.
Qed.
Lemma minimiser_scaled u u' : RelU d sig u u' -> minimiser d q' u' <-> minimiser d q u.
Proof.
  intros Ru. assert (F : 0 < f) by apply (Sf _ _ _ _ _ _ Sc). unfold minimiser. rewrite (feasible_scaled _ _ _ _ _ _ _ _ Sc Ru), (cost_scaled _ _ _ _ _ _ _ _ Sc Ru). split; intros [P Q]; split; try exact P.
  - intros y Hy. pose proof (to_scaled_rel y) as Ry. specialize (Q (to_scaled y)).
    rewrite (feasible_scaled _ _ _ _ _ _ _ _ Sc Ry), (cost_scaled _ _ _ _ _ _ _ _ Sc Ry) in Q. specialize (Q Hy). apply Rmult_le_reg_l with f; assumption.
  - intros y' Hy.
    set (y := fun i k => if (k <? nv d i)%nat then y' i k else let e := (k - nv d i)%nat in y' i k / sig i (if (e <? qns d i)%nat then e else (e - qns d i)%nat)).
    assert (Ry : RelU d sig y y').
    { constructor.
      - intros i r Hi Hr. unfold y. destruct (Nat.ltb_spec r (nv d i)); [reflexivity|lia].
      - intros i k up Hi Hk. unfold y. destruct (Nat.ltb_spec (nv d i + (side d i up + k)) (nv d i)); [lia|]. cbv zeta.
        replace (nv d i + (side d i up + k) - nv d i)%nat with (side d i up + k)%nat by lia.
        assert (E : (if (side d i up + k <? qns d i)%nat then (side d i up + k)%nat else (side d i up + k - qns d i)%nat) = k).
        { unfold side. destruct up; cbn [Nat.add]; destruct (Nat.ltb_spec (qns d i + k) (qns d i)); try lia; destruct (Nat.ltb_spec k (qns d i)); lia. }
        rewrite E. reflexivity. }
    rewrite (feasible_scaled _ _ _ _ _ _ _ _ Sc Ry) in Hy. rewrite (cost_scaled _ _ _ _ _ _ _ _ Sc Ry). apply Rmult_le_compat_l; [lra|]. apply Q, Hy.
Qed.
End M.
