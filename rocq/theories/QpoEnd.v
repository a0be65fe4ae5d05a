(** Statements about the qpOASES interface put together from the parts. *)
From Coq Require Import ZArith List Bool Lia Reals Lra Arith.
From Verif Require Import Arr Arith Vec LinModel RSum DenseModel QpoModel DenseSpec DenseProofs StackProofs QpoProofs QpoTop QpoKkt QpoRun QpoCases.
Import ListNotations.
Open Scope R_scope.

Lemma qpo_t d q i0 x y out : own_bounds d q -> one_row_each d q -> let s := qpo_out d q i0 true x y out in
  (forall m, (m < dall d)%nat -> ds_t s m = dineq d q (ds_v s) m) /\ ds_pi s = ds_pi out.
Proof.
  intros Hb Hs s. split; [|reflexivity]. intros m H. unfold s, qpo_out. cbn [ds_t ds_v]. apply compute_t_ineq; [exact Hb| |exact H].
  intros k Hk. destruct (proj1 Hs k Hk); lia.
Qed.
Lemma qpo_idxb_refuted : own_bounds dB qB /\ one_row_each dB qB /\
  (forall e, (e < 2 * dns dB)%nat -> dq_d qB (2 * drows dB + e)%nat = 0 /\ 0 <= dq_Z qB e /\ 0 <= dq_g qB (dnv dB + e)%nat) /\ (forall m, (m < dall dB)%nat -> dq_mask qB m = 1) /\
  (forall i j, (i < j < dnb dB)%nat -> False) /\ (forall r, (r < 4)%nat -> -1000 < xB r < 1000) /\
  box_kkt (qpo_in 1000 dB qB o0) xB yB /\ forall sg i0 ct out, ~ dkkt dB qB sg (qpo_out dB qB i0 ct xB yB out).
Proof.
  split; [exact B_own|]. split; [exact B_rows|]. split; [exact (proj1 B_rest)|]. split; [exact (proj2 B_rest)|]. split; [intros i j H; cbn in H; lia|].
  split; [intros r Hr; do 4 (destruct r as [|r]; [unfold xB, lr; cbn; lra|]); lia|]. split; [exact B_kkt|].
  intros sg i0 ct out K. destruct (dk_in _ _ _ _ K 0%nat ltac:(cbv; lia)) as [H _]; [cbv; lra|]. rewrite B_out in H. lra.
Qed.
Lemma qpo_mask_refuted : own_bounds dW qW /\ one_row_each dW qW /\ stackable dW qW /\ box_kkt (qpo_in 1000 dW qW o0) (lr [0]) (lr [1]) /\
  (exists s, dkkt dW qW (-1) s) /\ forall sg i0 ct out, ~ dkkt dW qW sg (qpo_out dW qW i0 ct (lr [0]) (lr [1]) out).
Proof.
  destruct W_wf as (A & B & C). split; [exact A|]. split; [exact B|]. split; [exact C|]. split; [exact W_kkt|]. split; [eexists; exact W_solution|].
  intros sg i0 ct out K. pose proof (dk_stat _ _ _ _ K 0%nat ltac:(cbv; lia)) as H. rewrite W_out in H. lra.
Qed.
Lemma qpo_slack_bound_refuted : own_bounds dZ qZ /\ one_row_each dZ qZ /\ (forall i j, (i < j < dnb dZ)%nat -> False) /\ (forall i, (i < dnb dZ)%nat -> dq_idxb qZ i = i) /\
  (forall e, (e < 2 * dns dZ)%nat -> 0 < dq_Z qZ e /\ 0 < dq_g qZ (dnv dZ + e)%nat) /\ (forall m, (m < dall dZ)%nat -> dq_mask qZ m = 1) /\
  box_kkt (qpo_in 1000 dZ qZ o0) xZ yZ /\ forall sg i0 ct out, ~ dkkt dZ qZ sg (qpo_out dZ qZ i0 ct xZ yZ out).
Proof.
  destruct Z_wf as (A & B). destruct Z_rest as (C & D & E). split; [exact A|]. split; [exact B|]. split; [exact C|]. split; [intros i Hi; cbn in Hi; replace i with O by lia; reflexivity|]. split; [exact D|]. split; [exact E|]. split; [exact Z_kkt|].
  intros sg i0 ct out K. destruct (dk_in _ _ _ _ K 0%nat ltac:(cbv; lia)) as (_ & _ & H); [cbv; lra|]. destruct (Z_out i0 ct out) as [E1 E2]. rewrite E1, E2 in H. lra.
Qed.
Lemma qpo_slack_order_refuted : own_bounds dP qP /\ one_row_each dP qP /\ (forall i, (i < dnb dP)%nat -> dq_idxb qP i = i) /\
  (forall e, (e < 2 * dns dP)%nat -> dq_d qP (2 * drows dP + e)%nat = 0 /\ 0 <= dq_Z qP e /\ 0 <= dq_g qP (dnv dP + e)%nat) /\ (forall m, (m < dall dP)%nat -> dq_mask qP m = 1) /\
  box_kkt (qpo_in 1000 dP qP o0) xP yP /\ forall sg i0 ct out, ~ dkkt dP qP sg (qpo_out dP qP i0 ct xP yP out).
Proof.
  destruct P_wf as (A & B). destruct P_rest as (C & D & E). split; [exact A|]. split; [exact B|]. split; [exact C|]. split; [exact D|]. split; [exact E|]. split; [exact P_kkt|].
  intros sg i0 ct out K. pose proof (dk_stat _ _ _ _ K 0%nat ltac:(cbv; lia)) as H. rewrite P_out in H. lra.
Qed.
Lemma qpo_cap_refuted : own_bounds dC qC /\ one_row_each dC qC /\ stackable dC qC /\ (forall m, (m < dall dC)%nat -> dq_mask qC m = 1) /\
  (exists s, forall sg, dkkt dC qC sg s) /\ forall inf o x y, ~ box_kkt (qpo_in inf dC qC o) x y.
Proof. destruct C_wf as (A & B & C & D). split; [exact A|]. split; [exact B|]. split; [exact C|]. split; [exact D|]. split; [exists sC; exact C_kkt|exact C_none]. Qed.
Lemma qpo_equality_refuted : own_bounds dE qE /\ one_row_each dE qE /\ stackable dE qE /\ (forall m, (m < dall dE)%nat -> dq_mask qE m = 1) /\
  box_kkt (qpo_in 1000 dE qE o0) (lr [0]) (lr [0]) /\ forall sg i0 ct out, ~ dkkt dE qE sg (qpo_out dE qE i0 ct (lr [0]) (lr [0]) out).
Proof.
  split; [intros i Hi; cbn in Hi; lia|]. split; [unfold one_row_each, drows; cbn; split; [|split]; intros; lia|]. split; [constructor; cbn; intros; lia|]. split; [intros; reflexivity|]. split; [exact E_kkt|].
  intros sg i0 ct out K. pose proof (dk_eq _ _ _ _ K 0%nat ltac:(cbv; lia)) as H. destruct (E_out i0 ct out) as [E1 E2]. change (dnv dE) with 1%nat in H. rewrite E1, E2 in H. lra.
Qed.
Lemma qpo_hessian_refuted : (forall h, own_bounds dH (qH h) /\ one_row_each dH (qH h) /\ stackable dH (qH h) /\ (forall m, (m < dall dH)%nat -> dq_mask (qH h) m = 1)) /\
  box_kkt (snd B2) (lr [2]) (lr [0; 0]) /\ forall sg i0 ct out, ~ dkkt dH (qH 2) sg (qpo_out dH (qH 2) i0 ct (lr [2]) (lr [0; 0]) out).
Proof.
  split; [exact H_wf|]. split; [exact H_kkt|]. intros sg i0 ct out K. pose proof (dk_stat _ _ _ _ K 0%nat ltac:(cbv; lia)) as H. rewrite H_out in H. lra.
Qed.
Lemma V_all : own_bounds dV qV /\ one_row_each dV qV /\ stackable dV qV /\ (forall m, (m < dall dV)%nat -> dq_mask qV m = 1) /\ box_kkt (qpo_in 1000 dV qV o0) xV yV /\ -1000 < xV 0%nat < 1000 /\
  (forall e, (e < 2 * dns dV)%nat -> xV (dnv dV + e)%nat < 1000000) /\
  ds_v outV 0%nat = -2 /\ ds_v outV 1%nat = 2 /\ ds_lam outV 0%nat = 3 /\ ds_lam outV 5%nat = 1 /\ ds_t outV 0%nat = 0 /\ ds_t outV 2%nat = 12.
Proof.
  split; [exact V_own|]. split; [exact V_rows|]. split; [exact V_stack|]. split; [exact V_mask|]. split; [exact V_kkt|]. split; [unfold xV, lr; cbn; lra|]. split; [|exact V_out].
  intros e He. cbn in He. destruct e as [|[|e]]; [| |lia]; unfold xV, lr; cbn; lra.
Qed.
Lemma unstack_contradicts : forall d (q : rdqp), (0 < dns d)%nat -> unstack_assert d q = true <-> dng d = 0%nat /\ nsb_of d q = 0%nat.
Proof.
  intros d q H. unfold unstack_assert, stk_ng. destruct (Nat.ltb_spec 0 (dns d)); [|lia]. rewrite Nat.eqb_eq. lia.
Qed.
