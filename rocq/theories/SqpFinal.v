(** Property-level lemmas for the SQP driver. *)
From Coq Require Import ZArith List Bool Lia.
From Verif Require Import FP FPProofs SqpModel SqpSpec SqpProofs SqpTop SqpLogs.
Import ListNotations.
Open Scope Z_scope.

Section P.
Variables iterate world : Type.
Notation mem := (mem iterate world).
Notation event := (event iterate).
Variable Or : oracles iterate world.
Variable opts : sqp_opts.
Variables s0 s : mem.
Hypothesis Hm : 0 <= max_iter opts.
Hypothesis Hcall : sqp_call Or opts s0 = Some s.

Lemma sqp_success : status s = ACADOS_SUCCESS ->
  flt (r_stat (nlp_res s)) (tol_stat opts) = true /\ flt (r_eq (nlp_res s)) (tol_eq opts) = true /\
  flt (r_ineq (nlp_res s)) (tol_ineq opts) = true /\ flt (r_comp (nlp_res s)) (tol_comp opts) = true /\
  exists newer older, trace s = newer ++ EvRes (nlp_out s) (nlp_res s) :: older ++ trace s0 /\
     forallb is_clock newer = true.
Proof.
  intros Hs. destruct (run_post _ _ _ _ _ _ Hm Hcall) as (new & Htr & _ & _ & _ & _ & _ & X).
  destruct X as [ck ev older Hn Hck Hi Hev H|st qi ck older Hn Hq Hck Hst|x a st qi ck older Hn Hck Hq Hst].
  - destruct H as [[_ H]|[_ H]]; [rewrite H in Hs; discriminate|].
    destruct H as [[H _]|[H|[H|[H|[H _]]]]]; try (rewrite H in Hs; discriminate).
    destruct H as (_ & E & A & B & C & D). repeat split; auto. exists ck, older. split; [|exact Hck].
    rewrite Htr, Hn, E, <- !app_assoc. reflexivity.
  - rewrite Hst in Hs; discriminate.
  - contradiction.
Qed.

Lemma sqp_bounds : exists new, trace s = new ++ trace s0 /\
  qp_count new <= max_iter opts /\ 0 <= iter s <= max_iter opts /\
  (iter s = qp_count new \/ iter s + 1 = qp_count new) /\
  (In (status s) [ACADOS_SUCCESS; ACADOS_NAN_DETECTED; ACADOS_MAXITER; ACADOS_MINSTEP;
                  ACADOS_QP_FAILURE; ACADOS_UNBOUNDED; ACADOS_TIMEOUT] \/
   exists x a older, new = EvGlob x (nlp_out s) (status s) a :: older /\ status s <> ACADOS_SUCCESS) /\
  (status s = ACADOS_MAXITER -> qp_count new = max_iter opts \/
     exists x a older, new = EvGlob x (nlp_out s) ACADOS_MAXITER a :: older) /\
  (status s = ACADOS_QP_FAILURE -> (exists st qi older, new = EvQP (nlp_out s) st qi :: older /\ qp_ok st = false) \/
     exists x a older, new = EvGlob x (nlp_out s) ACADOS_QP_FAILURE a :: older).
Proof.
  destruct (run_post _ _ _ _ _ _ Hm Hcall) as (new & Htr & _ & Hi & Hq & _ & _ & X).
  exists new. split; [exact Htr|]. split; [exact Hq|]. split; [exact Hi|].
  destruct X as [ck ev older Hn Hck Hit Hev H|st qi ck older Hn Hqq Hck Hst Hit Hnan|x a st qi ck older Hn Hck Hqq Hst Hit Hnan].
  - split; [auto|]. cbn [In].
    destruct H as [[_ H]|[_ H]]; [rewrite H; repeat split; auto; discriminate|].
    destruct H as [[H Hmx]|[[H _]|[H|[H|[H _]]]]]; rewrite H; repeat split; auto 10; try discriminate.
    intros _. left; lia.
  - split; [auto|]. rewrite Hst. cbn [In]. split; [auto 10|]. split; [discriminate|]. intros _. left. eauto.
  - split; [auto|]. split; [right; eauto|]. split; intros Hst'; right; rewrite Hst' in Hn; eauto.
Qed.

Lemma sqp_nan : any_nan (nlp_res s) = true -> status s = ACADOS_NAN_DETECTED.
Proof.
  intros Ha. destruct (run_post _ _ _ _ _ _ Hm Hcall) as (new & _ & _ & _ & _ & _ & _ & X).
  destruct X as [ck ev older Hn Hck Hit Hev H|st qi ck older Hn Hqq Hck Hst Hit Hnan|x a st qi ck older Hn Hck Hqq Hst Hit Hnan]; try congruence.
  destruct H as [[_ H]|[H _]]; [exact H|congruence].
Qed.

(** no step is taken from a NaN residual *)
Lemma sqp_timeout : exists new, trace s = new ++ trace s0 /\
  (forall a x st qi b, new = a ++ EvQP x st qi :: b -> fgt (timeout_max_time opts) f0 = true ->
     exists t r, clocks b = t :: r /\
       fle (timeout_max_time opts)
           (fadd t (estimate_of (timeout_heuristic opts) (call_estimate opts (estimate s0)) (durations (t :: r)))) = false) /\
  (status s = ACADOS_TIMEOUT ->
     (fgt (timeout_max_time opts) f0 = true /\
      exists t r, clocks new = t :: r /\
       fle (timeout_max_time opts)
           (fadd t (estimate_of (timeout_heuristic opts) (call_estimate opts (estimate s0)) (durations (t :: r)))) = true)
     \/ exists x a older, new = EvGlob x (nlp_out s) ACADOS_TIMEOUT a :: older).
Proof.
  destruct (run_post _ _ _ _ _ _ Hm Hcall) as (new & Htr & _ & _ & _ & He & Hg & X).
  exists new. split; [exact Htr|]. split; [exact Hg|]. intros Hst.
  destruct X as [ck ev older Hn Hck Hit Hev H|st qi ck older Hn Hqq Hck Hst' Hit Hnan|x a st qi ck older Hn Hck Hqq Hst' Hit Hnan].
  - left. destruct H as [[_ H]|[_ H]]; [rewrite H in Hst; discriminate|].
    destruct H as [[H _]|[[H _]|[H|[H|(_ & Ht & t & r & Hc & Hf)]]]]; try (rewrite H in Hst; discriminate).
    split; [exact Ht|]. exists t, r. split; [exact Hc|]. unfold est_ok in He. rewrite Ht, Hc in He. rewrite <- He. exact Hf.
  - rewrite Hst' in Hst; discriminate.
  - right. rewrite Hst in Hn. eauto.
Qed.

Lemma sqp_estimate : fgt (timeout_max_time opts) f0 = true -> exists new, trace s = new ++ trace s0 /\
  estimate s = estimate_of (timeout_heuristic opts) (call_estimate opts (estimate s0)) (durations (clocks new)).
Proof.
  intros Ht. destruct (run_post _ _ _ _ _ _ Hm Hcall) as (new & Htr & _ & _ & _ & He & _ & _).
  exists new. split; [exact Htr|]. unfold est_ok in He. rewrite Ht in He. exact He.
Qed.

(** driver failure leaves the iterate of the last linearisation *)
Lemma sqp_qp_failure : status s = ACADOS_QP_FAILURE ->
  (exists st qi ck older, trace s = EvQP (nlp_out s) st qi :: ck ++ EvRes (nlp_out s) (nlp_res s) :: older /\
     qp_ok st = false /\ forallb is_clock ck = true) \/
  (exists x a older, trace s = EvGlob x (nlp_out s) ACADOS_QP_FAILURE a :: older).
Proof.
  intros Hst. destruct (run_post _ _ _ _ _ _ Hm Hcall) as (new & Htr & _ & _ & _ & _ & _ & X).
  destruct X as [ck ev older Hn Hck Hit Hev H|st qi ck older Hn Hqq Hck Hst' Hit Hnan|x a st qi ck older Hn Hck Hqq Hst' Hit Hnan].
  - destruct H as [[_ H]|[_ H]]; [rewrite H in Hst; discriminate|].
    destruct H as [[H _]|[[H _]|[H|[H|[H _]]]]]; rewrite H in Hst; discriminate.
  - left. exists st, qi, ck, (older ++ trace s0). repeat split; auto. rewrite Htr, Hn. cbn [app]. rewrite <- app_assoc. reflexivity.
  - right. rewrite Hst in Hn. rewrite Htr, Hn. cbn [app]. eauto.
Qed.

(** C06 *)
Lemma sqp_report : logs_allocated opts s0 -> exists new, trace s = new ++ trace s0 /\
  stat_rows s = iter s + 1 /\
  iter s <= Z.of_nat (length (residuals new)) /\ iter s <= Z.of_nat (length (qp_results new)) /\
  (forall k r, nth_error (residuals new) k = Some r -> Z.of_nat k <= iter s ->
     report s (Z.of_nat k) 0 = Some (r_stat r) /\ report s (Z.of_nat k) 1 = Some (r_eq r) /\
     report s (Z.of_nat k) 2 = Some (r_ineq r) /\ report s (Z.of_nat k) 3 = Some (r_comp r)) /\
  (forall k st qi, nth_error (qp_results new) k = Some (st, qi) -> Z.of_nat k < iter s ->
     report s (Z.of_nat k + 1) 4 = Some (z2f st) /\ report s (Z.of_nat k + 1) 5 = Some (z2f qi)) /\
  (forall k a, nth_error (step_lengths new) k = Some a -> Z.of_nat k < iter s ->
     report s (Z.of_nat k + 1) 6 = Some a) /\
  (status s <> ACADOS_QP_FAILURE ->
     report s (iter s) 0 = Some (r_stat (nlp_res s)) /\ report s (iter s) 1 = Some (r_eq (nlp_res s)) /\
     report s (iter s) 2 = Some (r_ineq (nlp_res s)) /\ report s (iter s) 3 = Some (r_comp (nlp_res s))).
Proof.
  intros HA. destruct (run_post6 _ _ _ _ _ _ Hm HA Hcall) as (HA' & Hi & new & Htr & (L1 & L2 & L3) & N1 & N2 & L4).
  assert (Hn7 : 7 <= stat_n s) by (destruct HA' as (_ & A2 & _); rewrite A2; destruct (ext_qp_res opts); lia).
  exists new. split; [exact Htr|].
  split. { unfold stat_rows. destruct HA' as (A1 & _). destruct (Z.ltb_spec (stat_m s) (iter s + 1)); lia. }
  split; [lia|]. split; [lia|].
  split. { intros k r Hk Hle. rewrite !(report_cell _ _ opts) by (assumption || lia). apply L1, Hk. }
  split. { intros k st qi Hk Hle. rewrite !(report_cell _ _ opts) by (assumption || lia). apply L2, Hk. }
  split. { intros k a Hk Hle. rewrite !(report_cell _ _ opts) by (assumption || lia). apply L3; assumption. }
  intros Hs. rewrite !(report_cell _ _ opts) by (assumption || lia). apply L4, Hs.
Qed.
End P.

(** maxima *)
Lemma estimate_max h e0 ds : h = MAX_CALL \/ h = MAX_OVERALL -> isnan e0 = false -> 
  is_max (estimate_of h e0 ds) (ds ++ [e0]) /\ isnan (estimate_of h e0 ds) = false.
Proof.
  intros Hh He. induction ds as [|d r [[IH1 IH2] IH3]].
  - cbn. split; [split; [left; reflexivity|]|exact He]. intros d [<-|[]] Hn. apply fle_refl, Hn.
  - assert (E : estimate_of h e0 (d :: r) = (if fgt d (estimate_of h e0 r) then d else estimate_of h e0 r)) by (destruct Hh as [-> | ->]; reflexivity).
    rewrite E. set (e := estimate_of h e0 r) in *. destruct (fgt d e) eqn:G.
    + unfold fgt in G. pose proof (flt_nn _ _ G) as [Ge Gd].
      split; [split; [left; reflexivity|]|exact Gd]. intros d' [<-|Hd] Hn; [apply fle_refl, Hn|].
      eapply fle_trans; [apply IH2; [exact Hd|exact Hn]|]. apply flt_fle, G.
    + split; [split; [right; exact IH1|]|exact IH3]. intros d' [<-|Hd] Hn; [|apply IH2; assumption].
      apply nlt_le; [exact IH3|exact Hn|exact G].
Qed.

Lemma is_max_app m l l' m' : is_max m (l ++ [m']) -> is_max m' l' -> is_max m (l ++ l') \/ isnan m' = true.
Proof.
  intros [H1 H2] [H3 H4]. destruct (isnan m') eqn:N; [right; reflexivity|left].
  split.
  - apply in_app_or in H1. apply in_or_app. destruct H1 as [H1|[->|[]]]; auto.
  - intros d Hd Hn. apply in_app_or in Hd. destruct Hd as [Hd|Hd].
    + apply H2; [apply in_or_app; left; exact Hd|exact Hn].
    + eapply fle_trans; [apply H4; [exact Hd|exact Hn]|]. apply H2; [apply in_or_app; right; left; reflexivity|exact N].
Qed.

Lemma history_max {iterate world} (Or : oracles iterate world) opts s0 ds s :
  0 <= max_iter opts -> fgt (timeout_max_time opts) f0 = true -> timeout_heuristic opts = MAX_OVERALL ->
  isnan (estimate s0) = false ->
  history Or opts s0 ds s -> is_max (estimate s) (ds ++ [estimate s0]) /\ isnan (estimate s) = false.
Proof.
  intros Hm Ht Hh Hn H. induction H as [s|s0 ds s s' s'' new H IH He Hc Htr].
  - split; [|exact Hn]. split; [left; reflexivity|]. intros d [<-|[]] Hd. apply fle_refl, Hd.
  - specialize (IH Hn). destruct IH as [IH1 IH2].
    destruct (sqp_estimate _ _ _ _ _ _ Hm Hc Ht) as (new' & Htr' & Hest).
    rewrite Htr in Htr'. apply app_inv_tail in Htr'. subst new'.
    unfold call_estimate in Hest. rewrite Hh in Hest. rewrite He in Hest.
    destruct (estimate_max MAX_OVERALL (estimate s) (durations (clocks new)) (or_intror eq_refl) IH2) as [M N].
    rewrite <- Hest in *. split; [|exact N].
    destruct (is_max_app _ _ _ _ M IH1) as [G|G]; [rewrite <- app_assoc; exact G|congruence].
Qed.

Lemma nan_never_below x tol : isnan x = true -> flt x tol = false /\ fle x tol = false.
Proof. intros H. split; [apply flt_nan_l, H|apply fle_nan_l, H]. Qed.

Section E.
Variables iterate world : Type.
Variable Or : oracles iterate world.
Variable opts : sqp_opts.
Variables s0 s : mem iterate world.
Hypothesis Hm : 0 <= max_iter opts.
Hypothesis Hcall : sqp_call Or opts s0 = Some s.
Hypothesis Ht : fgt (timeout_max_time opts) f0 = true.
Lemma sqp_last : timeout_heuristic opts = LAST -> exists new, trace s = new ++ trace s0 /\
  estimate s = hd f0 (durations (clocks new)).
Proof.
  intros Hh. destruct (sqp_estimate _ _ _ _ _ _ Hm Hcall Ht) as (new & A & B). exists new. split; [exact A|].
  rewrite B. unfold call_estimate. rewrite Hh. destruct (durations (clocks new)); reflexivity.
Qed.
Lemma sqp_zero : timeout_heuristic opts = ZERO -> estimate s = f0.
Proof.
  intros Hh. destruct (sqp_estimate _ _ _ _ _ _ Hm Hcall Ht) as (new & A & B).
  rewrite B. unfold call_estimate. rewrite Hh. destruct (durations (clocks new)); reflexivity.
Qed.
Lemma sqp_max_call : timeout_heuristic opts = MAX_CALL -> exists new, trace s = new ++ trace s0 /\
  is_max (estimate s) (durations (clocks new) ++ [f0]).
Proof.
  intros Hh. destruct (sqp_estimate _ _ _ _ _ _ Hm Hcall Ht) as (new & A & B). exists new. split; [exact A|].
  rewrite B. unfold call_estimate. rewrite Hh. apply estimate_max; [left; reflexivity|reflexivity].
Qed.
End E.
Lemma sqp_max_overall iterate world (Or : oracles iterate world) opts s0 ds s :
  0 <= max_iter opts -> fgt (timeout_max_time opts) f0 = true -> timeout_heuristic opts = MAX_OVERALL ->
  isnan (estimate s0) = false ->
  history Or opts s0 ds s -> is_max (estimate s) (ds ++ [estimate s0]).
Proof. intros A B C D E. apply (history_max Or opts s0 ds s A B C D E). Qed.
