(** Calls of qpOASES: status, sequence of calls, stale matrices. *)
From Coq Require Import ZArith List Bool Lia Arith.
From Verif Require Import Arr Arith DenseModel QpoModel.
Import ListNotations.

Lemma run_honest o gen first solver st f c : qo_hot o = false \/ gen = true -> qpo_run o gen first solver = Done (st, f, c) -> st = qpo_status (solver c).
Proof.
  unfold qpo_run. intros [E|E]; rewrite E; [intros H; injection H; congruence|]. destruct (qo_hot o); intros H; injection H; congruence.
Qed.
Lemma status_zero r : qpo_status r = 0%Z <-> r = SUCCESSFUL_RETURN.
Proof. destruct r; cbn; split; intros H; try reflexivity; discriminate. Qed.
Lemma run_defined o gen first solver : qpo_run o gen first solver = UB <-> qo_hot o = true /\ gen = false /\ first = true /\ qo_acado o = true.
Proof.
  unfold qpo_run. destruct (qo_hot o), gen, first, (qo_acado o); cbn; (split; [intros H; try discriminate; repeat split; reflexivity|intros (A & B & C & D); try discriminate; reflexivity]).
Qed.
Lemma run_blind o first solver : qo_hot o = true -> first = false \/ qo_acado o = false -> exists c, qpo_run o false first solver = Done (0%Z, false, c).
Proof. unfold qpo_run. intros -> [->|E]; [exists Hotstart; reflexivity|]. rewrite E. destruct first; eexists; reflexivity. Qed.

Section S.
Context {A : arith}.
Lemma calls_snoc o (l : list (box A)) b st : qpo_calls o (l ++ [b]) st = qpo_step o (qpo_calls o l st) b.
Proof. unfold qpo_calls. rewrite fold_left_app. reflexivity. Qed.
Lemma step_cold o st (b : box A) : qo_hot o = false -> snd (qpo_step o st b) = b.
Proof. intros H. unfold qpo_step, qpo_run. rewrite H. destruct (qo_chol o), (qo_warm o); reflexivity. Qed.
Lemma calls_cold o (l : list (box A)) b st : qo_hot o = false -> snd (qpo_calls o (l ++ [b]) st) = b.
Proof. intros H. rewrite calls_snoc. apply step_cold. exact H. Qed.
Lemma calls_hot o (b : box A) l s0 : qo_hot o = true -> let r := qpo_calls o (b :: l) (true, s0) in
  fst r = false /\ bx_H (snd r) = bx_H b /\ bx_C (snd r) = bx_C b /\
  let n := last l b in bx_nv (snd r) = bx_nv n /\ bx_ng (snd r) = bx_ng n /\ bx_g (snd r) = bx_g n /\ bx_lb (snd r) = bx_lb n /\ bx_ub (snd r) = bx_ub n /\ bx_lg (snd r) = bx_lg n /\ bx_ug (snd r) = bx_ug n.
Proof.
  intros H. induction l as [|c l IH] using rev_ind.
  - cbv zeta. unfold qpo_calls, qpo_step, qpo_run. cbn [fold_left fst]. rewrite H. cbn. repeat split.
  - cbv zeta in *. rewrite last_last. rewrite app_comm_cons, calls_snoc. destruct (qpo_calls o (b :: l) (true, s0)) as [f B]. cbn [fst snd] in IH. destruct IH as (E1 & E2 & E3 & _). subst f.
    unfold qpo_step, qpo_run. rewrite H. cbn. rewrite E2, E3. repeat split.
Qed.
End S.
