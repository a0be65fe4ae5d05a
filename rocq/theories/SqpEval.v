(** Every residual reported by the SQP driver was computed from the linearisation at its iterate. *)
From Coq Require Import ZArith List Bool Lia.
From Verif Require Import FP SqpModel SqpSpec SqpProofs SqpTop SqpFinal.
Import ListNotations.
Open Scope Z_scope.

Section E.
Variables iterate world : Type.
Variable Or : oracles iterate world.
Variable opts : sqp_opts.
Notation mem := (mem iterate world).

Definition genuine (tr : list (event iterate)) : Prop :=
  forall x r, In (EvRes x r) tr -> exists w, r = o_res Or x (o_linearize Or x w).
Definition not_res (e : event iterate) : bool := match e with EvRes _ _ => false | _ => true end.

Lemma genuine_cons e tr : not_res e = true -> genuine tr -> genuine (e :: tr).
Proof. intros He H x r [->|Hin]; [discriminate He|eauto]. Qed.

Lemma evaluate_gen s s1 : evaluate Or opts s = Some s1 -> genuine (trace s) -> genuine (trace s1).
Proof.
  unfold evaluate. destruct (negb _ || _); [|intros H G; injection H as <-; exact G].
  intros H G. 
  assert (K : forall s2, trace s2 = trace s -> Some (log iterate world (set_res iterate world (set_wd iterate world s2 (o_linearize Or (nlp_out s2) (wd s2)))
       (o_res Or (nlp_out s2) (o_linearize Or (nlp_out s2) (wd s2)))) (EvRes (nlp_out s2) (o_res Or (nlp_out s2) (o_linearize Or (nlp_out s2) (wd s2))))) = Some s1 -> genuine (trace s1)).
  { intros s2 E K. injection K as <-. cbn. rewrite E. intros x r [Hin|Hin]; [injection Hin as <- <-; eauto|eauto]. }
  destruct (store_iterates opts).
  - destruct (put (iterates s) (iter s) (nlp_out s)) as [l|]; cbn [bind] in H; [|discriminate H].
    apply (K (set_iterates iterate world s l)); [reflexivity|exact H].
  - cbn [bind] in H. apply (K s); [reflexivity|exact H].
Qed.
Lemma save_gen s s1 : save_res_stats Or s = Some s1 -> trace s1 = trace s.
Proof.
  unfold save_res_stats. set (s2 := if iter s =? 0 then _ else s). assert (E : trace s2 = trace s) by (unfold s2; destruct (iter s =? 0); reflexivity).
  clearbody s2. destruct (iter s2 <? stat_m s2); [|intros H; injection H as <-; exact E].
  intros H. repeat (match type of H with bind ?e _ = _ => destruct e; cbn [bind] in H; [|discriminate H] end).
  injection H as <-. exact E.
Qed.
Lemma timeout_gen s : genuine (trace s) -> genuine (trace (update_timeout Or opts s)).
Proof.
  intros G. unfold update_timeout. destruct (fgt _ _); [|exact G]. destruct (o_clock _ _) as [w t]. cbn. apply genuine_cons; auto.
Qed.
Lemma final_gen s : trace (final_clock Or s) = trace s.
Proof. unfold final_clock. destruct (o_clock _ _). reflexivity. Qed.
Lemma qp_gen s r : solve_qp Or opts s = Some r -> genuine (trace s) -> genuine (trace (match r with inl s | inr s => s end)).
Proof.
  unfold solve_qp. destruct (o_qp Or (nlp_out s) (wd s)) as [[w st] qi]. intros H G.
  set (s2 := log _ _ _ _) in H. assert (G2 : genuine (trace s2)) by (apply genuine_cons; auto). clearbody s2.
  match type of H with bind ?e _ = _ => assert (K : forall s3, e = Some s3 -> trace s3 = trace s2); [|destruct e as [s3|]; cbn [bind] in H; [|discriminate H]] end.
  { intros s3. destruct (_ <? _); [|intros K; injection K as <-; reflexivity].
    destruct (put _ _ _); cbn [bind]; [|discriminate]. destruct (put _ _ _); cbn [bind]; [|discriminate]. intros K; injection K as <-; reflexivity. }
  specialize (K s3 eq_refl). rewrite <- K in G2.
  match type of H with bind ?e _ = _ => assert (K2 : forall s4, e = Some s4 -> trace s4 = trace s3); [|destruct e as [s4|]; cbn [bind] in H; [|discriminate H]] end.
  { intros s4. destruct (_ && _); [|intros K2; injection K2 as <-; reflexivity]. destruct (o_qp_res _ _) as [[[a0 a1] a2] a3].
    do 4 (destruct (put _ _ _); cbn [bind]; [|discriminate]). intros K2; injection K2 as <-; reflexivity. }
  specialize (K2 s4 eq_refl). rewrite <- K2 in G2.
  destruct (qp_ok st); injection H as <-; [exact G2|]. rewrite final_gen. exact G2.
Qed.
Lemma norms_gen s s1 : step_norms Or opts s = Some s1 -> trace s1 = trace s.
Proof.
  unfold step_norms. intros H.
  match type of H with bind ?e _ = _ => assert (K : forall s3, e = Some s3 -> trace s3 = trace s); [|destruct e as [s3|]; cbn [bind] in H; [|discriminate H]] end.
  { intros s3. destruct (_ || _); [|intros K; injection K as <-; reflexivity].
    destruct (log_primal_step_norm opts); [|intros K; injection K as <-; reflexivity].
    destruct (put _ _ _); cbn [bind]; [|discriminate]. intros K; injection K as <-; reflexivity. }
  specialize (K s3 eq_refl). destruct (_ && _); [|injection H as <-; exact K].
  destruct (put _ _ _); cbn [bind] in H; [|discriminate H]. injection H as <-; exact K.
Qed.
Lemma glob_gen s r : globalize Or s = Some r -> genuine (trace s) -> genuine (trace (match r with inl s | inr s => s end)).
Proof.
  unfold globalize. destruct (o_glob Or (nlp_out s) (wd s) (alpha s)) as [[[w x] st] a]. intros H G.
  set (s2 := log _ _ _ _) in H. assert (G2 : genuine (trace s2)) by (apply genuine_cons; auto). clearbody s2.
  destruct (st =? ACADOS_SUCCESS).
  - destruct (_ <? _); [destruct (put _ _ _); cbn [bind] in H; [|discriminate H]|]; injection H as <-; exact G2.
  - injection H as <-. rewrite final_gen. exact G2.
Qed.
Lemma body_gen s r : body Or opts s = Some r -> genuine (trace s) -> genuine (trace (match r with inl s | inr s => s end)).
Proof.
  unfold body. intros H G. destruct (evaluate Or opts s) as [s1|] eqn:E1; cbn [bind] in H; [|discriminate H].
  apply evaluate_gen in E1; [|exact G]. destruct (save_res_stats Or s1) as [s2|] eqn:E2; cbn [bind] in H; [|discriminate H].
  apply save_gen in E2. rewrite <- E2 in E1. apply timeout_gen in E1. set (s3 := update_timeout Or opts s2) in *. clearbody s3.
  destruct (check_termination Or opts (iter s3) s3); [injection H as <-; rewrite final_gen; exact E1|].
  destruct (solve_qp Or opts s3) as [[s4|s4]|] eqn:E4; cbn [bind] in H; [injection H as <-; apply qp_gen in E4; assumption| |discriminate H].
  apply qp_gen in E4; [|exact E1]. destruct (step_norms Or opts s4) as [s5|] eqn:E5; cbn [bind] in H; [|discriminate H].
  apply norms_gen in E5. cbn in E4. rewrite <- E5 in E4. apply glob_gen in H; assumption.
Qed.
Lemma loop_gen n : forall s s', loop Or opts n s = Some s' -> genuine (trace s) -> genuine (trace s').
Proof.
  induction n as [|n IH]; intros s s' H G; cbn [loop] in H; [injection H as <-; exact G|].
  destruct (body Or opts s) as [[s1|s1]|] eqn:E; cbn [bind] in H; [| |discriminate H]; apply body_gen in E; try assumption.
  - injection H as <-. exact E.
  - apply (IH s1); assumption.
Qed.
Lemma call_gen s s' : sqp_call Or opts s = Some s' -> trace s = [] -> genuine (trace s').
Proof. intros H E. apply loop_gen in H; [exact H|]. cbn. rewrite E. intros x r []. Qed.

Lemma qp_ok_true st : qp_ok st = true <-> st = ACADOS_SUCCESS \/ st = ACADOS_MAXITER.
Proof. unfold qp_ok. rewrite orb_true_iff, !Z.eqb_eq. reflexivity. Qed.
Lemma qp_ok_false st : qp_ok st = false <-> st <> ACADOS_SUCCESS /\ st <> ACADOS_MAXITER.
Proof. unfold qp_ok. rewrite orb_false_iff, !Z.eqb_neq. reflexivity. Qed.

Lemma sqp_qp_failure_st s0 s : 0 <= max_iter opts -> sqp_call Or opts s0 = Some s -> status s = ACADOS_QP_FAILURE ->
  (exists st qi ck older, trace s = EvQP (nlp_out s) st qi :: ck ++ EvRes (nlp_out s) (nlp_res s) :: older /\
     (st <> ACADOS_SUCCESS /\ st <> ACADOS_MAXITER) /\ forallb is_clock ck = true) \/
  (exists x a older, trace s = EvGlob x (nlp_out s) ACADOS_QP_FAILURE a :: older).
Proof.
  intros Hm H Hs. destruct (sqp_qp_failure _ _ _ _ _ _ Hm H Hs) as [(st & qi & ck & older & A & B & C)|K]; [left|right; exact K].
  exists st, qi, ck, older. split; [exact A|]. split; [apply qp_ok_false; exact B|exact C].
Qed.

(** C07 with the linearisation point *)
Lemma sqp_success_point s0 s : 0 <= max_iter opts -> sqp_call Or opts s0 = Some s -> status s = ACADOS_SUCCESS ->
  trace s0 = [] ->
  exists w, let r := o_res Or (nlp_out s) (o_linearize Or (nlp_out s) w) in
    nlp_res s = r /\ flt (r_stat r) (tol_stat opts) = true /\ flt (r_eq r) (tol_eq opts) = true /\
    flt (r_ineq r) (tol_ineq opts) = true /\ flt (r_comp r) (tol_comp opts) = true.
Proof.
  intros Hm H Hs Ht. destruct (sqp_success _ _ _ _ _ _ Hm H Hs) as (A & B & C & D & newer & older & E & _).
  destruct (call_gen _ _ H Ht (nlp_out s) (nlp_res s)) as [w Hw].
  { rewrite E. apply in_or_app. right. left. reflexivity. }
  exists w. cbv zeta. rewrite <- Hw. auto.
Qed.
End E.
