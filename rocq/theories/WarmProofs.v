(** ocp_qp_compute_t computes the values of the inequalities; the starting point taken from the NLP iterate. *)
From Coq Require Import ZArith List Bool Arith Lia Reals Lra.
From Verif Require Import Arith Vec RSum LinModel QpsModel QpsSpec WarmModel.
Open Scope R_scope.

Section S.
Variable d : qdims.
Variable q : rqp.
Variable i : nat.
Notation nb := (qnb d i). Notation ng := (qng d i). Notation ns := (qns d i).
Notation nvi := (qnu d i + qnx d i)%nat.
Variable ux : vecR.

Definition sl (up : bool) (j : nat) : R := if negb (q_rev q i j =? -1)%Z then ux (nvi + (if up then ns else 0) + Z.to_nat (q_rev q i j))%nat else 0.
Lemma slack_loop n (t : vecR) : (n <= nb + ng)%nat -> forall k,
  loop n (fun j (t : vecR) =>
      let idx := q_rev q i j in
      if negb (idx =? -1)%Z then
        let t := vset (A := real) t j (t j + ux (nvi + Z.to_nat idx)%nat) in
        vset (A := real) t (nb + ng + j)%nat (t (nb + ng + j)%nat + ux (nvi + ns + Z.to_nat idx)%nat)
      else t) t k =
  t k + (if (k <? n)%nat then sl false k else 0) + (if (nb + ng <=? k)%nat && (k <? nb + ng + n)%nat then sl true (k - (nb + ng)) else 0).
Proof.
  induction n as [|n IH]; intros Hn k.
  - cbn [loop]. replace (k <? 0)%nat with false by (symmetry; apply Nat.ltb_ge; lia).
    replace (k <? nb + ng + 0)%nat with (k <? nb + ng)%nat by (f_equal; lia).
    destruct (Nat.leb_spec (nb + ng) k), (Nat.ltb_spec k (nb + ng)); cbn [andb]; try lia; lra.
  - cbn [loop]. specialize (IH ltac:(lia)). set (u := loop n _ t) in *. cbv zeta.
    destruct (negb (q_rev q i n =? -1)%Z) eqn:Er.
    + unfold vset. destruct (Nat.eqb_spec k (nb + ng + n)) as [->|Hk].
      * replace (nb + ng + n =? n)%nat with false by (symmetry; apply Nat.eqb_neq; lia).
        rewrite IH. replace (nb + ng + n <? n)%nat with false by (symmetry; apply Nat.ltb_ge; lia).
        replace (nb + ng + n <? S n)%nat with false by (symmetry; apply Nat.ltb_ge; lia).
        replace (nb + ng <=? nb + ng + n)%nat with true by (symmetry; apply Nat.leb_le; lia).
        replace (nb + ng + n <? nb + ng + n)%nat with false by (symmetry; apply Nat.ltb_ge; lia).
        replace (nb + ng + n <? nb + ng + S n)%nat with true by (symmetry; apply Nat.ltb_lt; lia).
        cbn [andb]. replace (nb + ng + n - (nb + ng))%nat with n by lia.
        unfold sl. rewrite Er. cbn. lra.
      * destruct (Nat.eqb_spec k n) as [->|Hk2].
        { rewrite IH. rewrite Nat.ltb_irrefl. replace (n <? S n)%nat with true by (symmetry; apply Nat.ltb_lt; lia).
          replace (nb + ng <=? n)%nat with false by (symmetry; apply Nat.leb_gt; lia). cbn [andb].
          unfold sl. rewrite Er. rewrite Nat.add_0_r. cbn. lra. }
        rewrite IH.
        replace (k <? S n)%nat with (k <? n)%nat by (destruct (Nat.ltb_spec k n), (Nat.ltb_spec k (S n)); lia || reflexivity).
        replace (k <? nb + ng + S n)%nat with (k <? nb + ng + n)%nat by (destruct (Nat.ltb_spec k (nb + ng + n)), (Nat.ltb_spec k (nb + ng + S n)); lia || reflexivity).
        reflexivity.
    + rewrite IH.
      assert (Z0 : sl false n = 0 /\ sl true n = 0) by (unfold sl; rewrite Er; auto). destruct Z0 as [Z1 Z2].
      destruct (Nat.eq_dec k n) as [->|Hk].
      * rewrite Nat.ltb_irrefl. replace (n <? S n)%nat with true by (symmetry; apply Nat.ltb_lt; lia). rewrite Z1.
        replace (nb + ng <=? n)%nat with false by (symmetry; apply Nat.leb_gt; lia). cbn [andb]. reflexivity.
      * replace (k <? S n)%nat with (k <? n)%nat by (destruct (Nat.ltb_spec k n), (Nat.ltb_spec k (S n)); lia || reflexivity).
        destruct (Nat.eq_dec k (nb + ng + n)) as [->|Hk2].
        { replace (nb + ng <=? nb + ng + n)%nat with true by (symmetry; apply Nat.leb_le; lia).
          rewrite Nat.ltb_irrefl. replace (nb + ng + n <? nb + ng + S n)%nat with true by (symmetry; apply Nat.ltb_lt; lia).
          cbn [andb]. replace (nb + ng + n - (nb + ng))%nat with n by lia. rewrite Z2. reflexivity. }
        replace (k <? nb + ng + S n)%nat with (k <? nb + ng + n)%nat by (destruct (Nat.ltb_spec k (nb + ng + n)), (Nat.ltb_spec k (nb + ng + S n)); lia || reflexivity).
        reflexivity.
Qed.

Ltac nbools := repeat match goal with
  | |- context [(?a <=? ?b)%nat] => first [replace (a <=? b)%nat with true by (symmetry; apply Nat.leb_le; lia) | replace (a <=? b)%nat with false by (symmetry; apply Nat.leb_gt; lia)]
  | |- context [(?a <? ?b)%nat] => first [replace (a <? b)%nat with true by (symmetry; apply Nat.ltb_lt; lia) | replace (a <? b)%nat with false by (symmetry; apply Nat.ltb_ge; lia)]
  end; cbn [andb].

Hypothesis Hidx : forall k, (k < nb)%nat -> (q_idxb q i k < nvi)%nat.
Hypothesis Hrev : forall k, (k < nb + ng)%nat -> (q_rev q i k = -1 \/ 0 <= q_rev q i k)%Z.

Lemma sum_pick n j (x : vecR) : (j < n)%nat -> sum n (fun r => (if (j =? r)%nat then 1 else 0) * x r) = x j.
Proof.
  induction n as [|n IH]; intros H; [lia|]. cbn. destruct (Nat.eq_dec j n) as [->|Hn].
  - rewrite Nat.eqb_refl. replace (sum n (fun r => (if (n =? r)%nat then 1 else 0) * x r)) with 0; [lra|].
    symmetry. rewrite (sum_ext n _ (fun _ => 0)); [apply sum_0|]. intros r Hr. replace (n =? r)%nat with false by (symmetry; apply Nat.eqb_neq; lia). lra.
  - rewrite IH by lia. replace (j =? n)%nat with false by (symmetry; apply Nat.eqb_neq; lia). lra.
Qed.
Variable uxs : nat -> vecR.
Hypothesis Hux : uxs i = ux.
Lemma lin_bound k : (k < nb)%nat -> lin d q uxs i k = ux (q_idxb q i k).
Proof.
  intros Hk. unfold lin, coef. replace (k <? qnb d i)%nat with true by (symmetry; apply Nat.ltb_lt; lia).
  rewrite Hux. apply sum_pick. apply Hidx, Hk.
Qed.
Lemma lin_gen j : lin d q uxs i (nb + j) = mvt (A := real) nvi (q_DC q i) ux j.
Proof.
  unfold lin, coef, mvt. apply (sum_ext nvi). intros r Hr.
  replace (nb + j <? qnb d i)%nat with false by (symmetry; apply Nat.ltb_ge; lia).
  replace (nb + j - qnb d i)%nat with j by lia. rewrite Hux. reflexivity.
Qed.
Lemma sl_slack up k : (k < nb + ng)%nat -> sl up k = slack d q uxs i k up.
Proof.
  intros Hk. unfold sl, slack. rewrite Hux. unfold nv.
  destruct (Hrev k Hk) as [E|E].
  - rewrite E. reflexivity.
  - replace (q_rev q i k =? -1)%Z with false by (symmetry; apply Z.eqb_neq; lia).
    replace (0 <=? q_rev q i k)%Z with true by (symmetry; apply Z.leb_le; lia). reflexivity.
Qed.

Lemma t_stage_ineq t m : (m < nall d i)%nat -> t_stage (A := real) d q ux i t m = ineq d q uxs i m.
Proof.
  unfold nall. intros Hm. unfold t_stage, ineq, nrow.
  set (T0 := seg (2 * nb + ng) ng _ _).
  unfold seg at 1.
  destruct (Nat.ltb_spec m (nb + ng)) as [H1|H1].
  - nbools. rewrite slack_loop by lia. nbools. rewrite (sl_slack false) by lia.
    assert (E : T0 m = lin d q uxs i m - q_d q i m).
    { unfold T0, seg. destruct (Nat.lt_ge_cases m nb) as [L|L].
      - nbools. rewrite Nat.sub_0_r. replace (nb + ng + m - (nb + ng))%nat with m by lia. rewrite lin_bound by lia. cbn. lra.
      - nbools. replace m with (nb + (m - nb))%nat at 3 by lia. rewrite lin_gen. replace (nb + (m - nb))%nat with m by lia. cbn. lra. }
    rewrite E. lra.
  - destruct (Nat.ltb_spec m (2 * (nb + ng))) as [H2|H2].
    + nbools. rewrite slack_loop by lia. nbools. rewrite (sl_slack true) by lia.
      assert (E : T0 m = - lin d q uxs i (m - (nb + ng)) - q_d q i m).
      { unfold T0, seg. destruct (Nat.lt_ge_cases m (2 * nb + ng)) as [L|L].
        - nbools. replace (nb + ng + (m - (nb + ng)) - (nb + ng))%nat with (m - (nb + ng))%nat by lia. rewrite lin_bound by lia.
          replace (nb + ng + (m - (nb + ng)))%nat with m by lia. cbn. lra.
        - nbools. replace (m - (nb + ng))%nat with (nb + (m - (2 * nb + ng)))%nat by lia. rewrite lin_gen.
          replace (2 * nb + ng + (m - (2 * nb + ng)))%nat with m by lia. cbn. lra. }
      rewrite E. lra.
    + nbools. rewrite Hux. unfold nv. replace (m - (2 * nb + 2 * ng))%nat with (m - 2 * (nb + ng))%nat by lia.
      replace (2 * nb + 2 * ng + (m - 2 * (nb + ng)))%nat with m by lia. cbn. lra.
Qed.
Lemma t_stage_beyond t m : (nall d i <= m)%nat -> t_stage (A := real) d q ux i t m = t m.
Proof.
  unfold nall. intros Hm. unfold t_stage. unfold seg at 1. nbools. rewrite slack_loop by lia. nbools. unfold seg. nbools. cbn. lra.
Qed.
End S.

(** the maps of the QP are valid *)
Definition maps_ok (d : qdims) (q : rqp) : Prop := forall i, (i <= qN d)%nat ->
  (forall k, (k < qnb d i)%nat -> (q_idxb q i k < nv d i)%nat) /\ (forall k, (k < nrow d i)%nat -> (q_rev q i k = -1 \/ 0 <= q_rev q i k)%Z).

Lemma compute_t_ineq d q ux t i m : maps_ok d q -> (i <= qN d)%nat -> (m < nall d i)%nat -> compute_t (A := real) d q ux t i m = ineq d q ux i m.
Proof.
  intros H Hi Hm. unfold compute_t. replace (i <=? qN d)%nat with true by (symmetry; apply Nat.leb_le; lia).
  destruct (H i Hi) as [H1 H2]. apply t_stage_ineq; auto.
Qed.
Lemma compute_t_frame d q ux t i m : (qN d < i)%nat \/ (nall d i <= m)%nat -> compute_t (A := real) d q ux t i m = t i m.
Proof.
  intros H. unfold compute_t. destruct (Nat.leb_spec i (qN d)); [|reflexivity].
  destruct H; [lia|]. apply t_stage_beyond; assumption.
Qed.

(** the starting point taken from the NLP iterate *)
Record from_nlp (d : qdims) (q : rqp) (pi lam : nat -> vecR) (p : pt real) : Prop := mkFn {
  fn_ux : forall i r, (i <= qN d)%nat -> (r < nv d i + 2 * qns d i)%nat -> s_ux (p_s p) i r = 0;
  fn_pi : forall i c, (i < qN d)%nat -> (c < qnx d (S i))%nat -> s_pi (p_s p) i c = pi i c;
  fn_lam : forall i m, (i <= qN d)%nat -> (m < nall d i)%nat -> s_lam (p_s p) i m = lam i m;
  fn_t : forall i m, (i <= qN d)%nat -> (m < nall d i)%nat -> p_t p i m = - q_d q i m }.
Lemma init_from_nlp d q pi lam out : maps_ok d q -> 
  (forall i k, (i <= qN d)%nat -> (k < nrow d i)%nat -> (q_rev q i k < Z.of_nat (qns d i))%Z) ->
  from_nlp d q pi lam (initialize_qp_from_nlp (A := real) d q pi lam out).
Proof.
  intros H Hs. set (p := initialize_qp_from_nlp d q pi lam out).
  assert (U : forall i r, (i <= qN d)%nat -> (r < nv d i + 2 * qns d i)%nat -> s_ux (p_s p) i r = 0).
  { intros i r Hi Hr. unfold p, initialize_qp_from_nlp; cbn [p_s s_ux]. 
    replace (i <=? qN d)%nat with true by (symmetry; apply Nat.leb_le; lia). unfold seg, nv in *.
    replace (0 <=? r)%nat with true by reflexivity. replace (r <? 0 + (qnx d i + qnu d i + 2 * qns d i))%nat with true by (symmetry; apply Nat.ltb_lt; lia). reflexivity. }
  constructor.
  - exact U.
  - intros i c Hi Hc. unfold p, initialize_qp_from_nlp; cbn [p_s s_pi]. replace (i <? qN d)%nat with true by (symmetry; apply Nat.ltb_lt; lia).
    unfold cp. replace (c <? qnx d (S i))%nat with true by (symmetry; apply Nat.ltb_lt; lia). reflexivity.
  - intros i m Hi Hm. unfold p, initialize_qp_from_nlp; cbn [p_s s_lam]. replace (i <=? qN d)%nat with true by (symmetry; apply Nat.leb_le; lia).
    unfold cp, nall in *. replace (m <? 2 * (qnb d i + qng d i + qns d i))%nat with true by (symmetry; apply Nat.ltb_lt; lia). reflexivity.
  - intros i m Hi Hm.
    assert (E : p_t p i m = ineq d q (s_ux (p_s p)) i m) by (unfold p, initialize_qp_from_nlp; cbn [p_s p_t]; apply compute_t_ineq; assumption).
    rewrite E. destruct (H i Hi) as [H1 H2].
    assert (L : forall k, lin d q (s_ux (p_s p)) i k = 0).
    { intros k. unfold lin. rewrite (sum_ext _ _ (fun _ => 0)); [apply sum_0|]. intros r Hr. rewrite U by lia. lra. }
    assert (S : forall k up, (k < nrow d i)%nat -> slack d q (s_ux (p_s p)) i k up = 0).
    { intros k up Hk. unfold slack. destruct (Z.leb_spec 0 (q_rev q i k)); [|reflexivity].
      apply U; [lia|]. specialize (Hs i k Hi Hk). destruct up; lia. }
    unfold ineq. destruct (Nat.ltb_spec m (nrow d i)); [rewrite L, S by lia; lra|].
    destruct (Nat.ltb_spec m (2 * nrow d i)); [rewrite L, S by lia; lra|].
    rewrite U; [lra|lia|]. unfold nall, nrow in *. lia.
Qed.
