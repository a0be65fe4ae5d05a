(** Top-level facts about an SQP call. *)
From Coq Require Import ZArith List Bool Lia.
From Verif Require Import FP FPProofs SqpModel SqpSpec SqpProofs.
Import ListNotations.
Open Scope Z_scope.

Section P.
Variables iterate world : Type.
Notation mem := (mem iterate world).
Notation event := (event iterate).
Variable Or : oracles iterate world.
Variable opts : sqp_opts.
Notation body := (body Or opts).
Notation loop := (loop Or opts).
Notation check := (check_termination Or opts).
Notation frame_logs := (frame_logs iterate world).
Notation cell := (cell iterate world).
Notation evaluates := (evaluates iterate world opts).

(** ** check_termination *)
Lemma check_some n s st : check n s = Some st -> 0 <= n <= max_iter opts ->
  (any_nan (nlp_res s) = true /\ st = ACADOS_NAN_DETECTED) \/
  (any_nan (nlp_res s) = false /\
   ((st = ACADOS_MAXITER /\ n = max_iter opts) \/
    (st = ACADOS_SUCCESS /\ flt (r_stat (nlp_res s)) (tol_stat opts) = true /\
       flt (r_eq (nlp_res s)) (tol_eq opts) = true /\ flt (r_ineq (nlp_res s)) (tol_ineq opts) = true /\
       flt (r_comp (nlp_res s)) (tol_comp opts) = true /\
       (eval_residual_at_max_iter opts = false -> n < max_iter opts)) \/
    st = ACADOS_MINSTEP \/ st = ACADOS_UNBOUNDED \/
    (st = ACADOS_TIMEOUT /\ fgt (timeout_max_time opts) f0 = true /\
       fle (timeout_max_time opts) (fadd (time_tot s) (estimate s)) = true))).
Proof.
  unfold check_termination. fold (any_nan (nlp_res s)).
  destruct (any_nan (nlp_res s)); [intros H; injection H as <-; auto|].
  intros H Hn. right. split; [reflexivity|].
  destruct (negb (eval_residual_at_max_iter opts) && (max_iter opts <=? n)) eqn:E1.
  { injection H as <-. apply andb_prop in E1. destruct E1 as [_ E1]. apply Z.leb_le in E1. left; split; [reflexivity|lia]. }
  destruct (flt (r_stat (nlp_res s)) (tol_stat opts)) eqn:F1; cbn [andb] in H.
  1: destruct (flt (r_eq (nlp_res s)) (tol_eq opts)) eqn:F2; cbn [andb] in H.
  1: destruct (flt (r_ineq (nlp_res s)) (tol_ineq opts)) eqn:F3; cbn [andb] in H.
  1: destruct (flt (r_comp (nlp_res s)) (tol_comp opts)) eqn:F4; cbn [andb] in H.
  1: { injection H as <-. right; left. repeat split; auto. intros He. rewrite He in E1. cbn in E1.
       apply Z.leb_gt in E1. exact E1. }
  all: destruct (fgt (tol_min_step_norm opts) f0 && (0 <? n) && flt (step_norm s) (tol_min_step_norm opts));
    [injection H as <-; auto|];
    destruct (fle (o_cost Or (wd s)) (tol_unbounded opts)); [injection H as <-; auto 8|];
    destruct (Z.leb_spec (max_iter opts) n); [injection H as <-; left; split; [reflexivity|lia]|];
    destruct (fgt (timeout_max_time opts) f0 && fle (timeout_max_time opts) (fadd (time_tot s) (estimate s))) eqn:E2;
    [injection H as <-; apply andb_prop in E2; destruct E2; auto 10|discriminate H].
Qed.

Lemma check_none n s : check n s = None ->
  any_nan (nlp_res s) = false /\ n < max_iter opts /\
  (fgt (timeout_max_time opts) f0 = true -> fle (timeout_max_time opts) (fadd (time_tot s) (estimate s)) = false).
Proof.
  unfold check_termination. fold (any_nan (nlp_res s)).
  destruct (any_nan (nlp_res s)); [discriminate|].
  destruct (negb _ && _); [discriminate|].
  destruct (_ && _ && _ && _); [discriminate|].
  destruct (_ && _ && _); [discriminate|].
  destruct (fle (o_cost Or (wd s)) _); [discriminate|].
  destruct (Z.leb_spec (max_iter opts) n); [discriminate|].
  destruct (fgt (timeout_max_time opts) f0); cbn; [|intros _; repeat split; try lia; try discriminate].
  destruct (fle _ _); [discriminate|]. intros _. repeat split; lia.
Qed.

(** ** absence of undefined behaviour *)
Lemma alloc_frame s s' : logs_allocated opts s -> frame_logs s s' -> logs_allocated opts s'.
Proof. unfold logs_allocated, SqpProofs.frame_logs. intros (A&B&C&D&E&F) (G&H&I&J&K&L).
  rewrite G, H, I, J, K, L. auto 10. Qed.

Lemma body_some s : logs_allocated opts s -> 0 <= iter s <= max_iter opts -> body s <> None.
Proof.
  intros HA Hi. unfold SqpModel.body.
  destruct (evaluate_some iterate world Or opts s Hi ltac:(apply HA)) as [s1 E1]. rewrite E1. cbn [bind].
  apply evaluate_spec in E1. destruct E1 as (F1&X1&I1&_).
  pose proof (alloc_frame _ _ HA F1) as HA1.
  assert (E2 : exists s2, save_res_stats Or s1 = Some s2).
  { unfold save_res_stats. set (s' := if iter s1 =? 0 then _ else s1).
    assert (Hs' : stat_m s' = stat_m s1 /\ stat_n s' = stat_n s1 /\ stat s' = stat s1 /\ iter s' = iter s1).
    { unfold s'; destruct (iter s1 =? 0); cbn; repeat split. }
    clearbody s'. destruct Hs' as (M&N&T&It). destruct HA1 as (A1&A2&A3&_).
    destruct (Z.ltb_spec (iter s') (stat_m s')); [|eexists; reflexivity].
    assert (Hr : forall c, 0 <= c < 4 -> 0 <= stat_n s' * iter s' + c < Z.of_nat (length (stat s'))).
    { intros c Hc. rewrite T, A3, N, It in *. rewrite M in *. destruct (ext_qp_res opts); rewrite A2 in *; nia. }
    destruct (put_ok (stat s') (stat_n s' * iter s' + 0) (r_stat (nlp_res s'))) as (l0&->&L0&_); [apply Hr; lia|]. cbn [bind].
    destruct (put_ok l0 (stat_n s' * iter s' + 1) (r_eq (nlp_res s'))) as (l1&->&L1&_); [rewrite L0; apply Hr; lia|]. cbn [bind].
    destruct (put_ok l1 (stat_n s' * iter s' + 2) (r_ineq (nlp_res s'))) as (l2&->&L2&_); [rewrite L1, L0; apply Hr; lia|]. cbn [bind].
    destruct (put_ok l2 (stat_n s' * iter s' + 3) (r_comp (nlp_res s'))) as (l3&->&L3&_); [rewrite L2, L1, L0; apply Hr; lia|]. cbn [bind].
    eexists; reflexivity. }
  destruct E2 as [s2 E2]. rewrite E2. cbn [bind]. apply save_spec in E2. destruct E2 as (F2&X2&I2&_).
  pose proof (alloc_frame _ _ HA1 F2) as HA2.
  pose proof (timeout_spec iterate world Or opts s2) as H3. set (s3 := update_timeout Or opts s2) in *. clearbody s3.
  destruct H3 as (F3&X3&I3&_). pose proof (alloc_frame _ _ HA2 F3) as HA3.
  assert (Hi3 : iter s3 = iter s) by congruence. rewrite <- Hi3 in Hi.
  destruct (check (iter s3) s3) as [st|] eqn:Ec; [discriminate|].
  apply check_none in Ec. destruct Ec as (_ & Hlt & _).
  assert (E4 : exists r, solve_qp Or opts s3 = Some r).
  { unfold solve_qp. destruct (o_qp Or (nlp_out s3) (wd s3)) as [[w st] qi].
    cbn [stat stat_m stat_n iter log set_wd wd].
    destruct HA3 as (A1&A2&A3&_).
    assert (Hr : forall c, 0 <= c < stat_n s3 -> 0 <= stat_n s3 * (iter s3 + 1) + c < Z.of_nat (length (stat s3))).
    { intros c Hc. rewrite A3. nia. }
    assert (Hn : 7 <= stat_n s3 /\ (ext_qp_res opts = true -> stat_n s3 = 11)).
    { rewrite A2. destruct (ext_qp_res opts); split; lia || discriminate. }
    destruct (Z.ltb_spec (iter s3 + 1) (stat_m s3)) as [_|Hx]; [|lia].
    destruct (put_ok (stat s3) (stat_n s3 * (iter s3 + 1) + 4) (z2f st)) as (l0&->&L0&_); [apply Hr; lia|]. cbn [bind].
    destruct (put_ok l0 (stat_n s3 * (iter s3 + 1) + 5) (z2f qi)) as (l1&->&L1&_); [rewrite L0; apply Hr; lia|]. cbn [bind].
    cbn [stat stat_m stat_n iter set_stat wd].
    destruct (Z.ltb_spec (iter s3 + 1) (stat_m s3)) as [_|Hx]; [|lia].
    destruct (ext_qp_res opts); cbn [andb].
    - destruct Hn as [_ Hn]. specialize (Hn eq_refl).
      destruct (o_qp_res Or _) as [[[a0 a1] a2] a3].
      destruct (put_ok l1 (stat_n s3 * (iter s3 + 1) + 7) a0) as (l2&->&L2&_); [rewrite L1, L0; apply Hr; lia|]. cbn [bind].
      destruct (put_ok l2 (stat_n s3 * (iter s3 + 1) + 8) a1) as (l3&->&L3&_); [rewrite L2, L1, L0; apply Hr; lia|]. cbn [bind].
      destruct (put_ok l3 (stat_n s3 * (iter s3 + 1) + 9) a2) as (l4&->&L4&_); [rewrite L3, L2, L1, L0; apply Hr; lia|]. cbn [bind].
      destruct (put_ok l4 (stat_n s3 * (iter s3 + 1) + 10) a3) as (l5&->&L5&_); [rewrite L4, L3, L2, L1, L0; apply Hr; lia|]. cbn [bind].
      destruct (_ <? _); cbn [bind]; destruct (qp_ok st); eexists; reflexivity.
    - cbn [bind]. destruct (qp_ok st); eexists; reflexivity. }
  destruct E4 as [r E4]. rewrite E4. cbn [bind].
  apply solve_qp_spec in E4. destruct E4 as (st&qi&s4&F4&X4&R4&T4&P4&Es4&I4&_&_&_&_&Hr).
  pose proof (alloc_frame _ _ HA3 F4) as HA4.
  destruct Hr as [[_ ->]|[_ ->]]; [|discriminate].
  assert (E5 : exists s5, step_norms Or opts s4 = Some s5).
  { unfold step_norms. destruct HA4 as (_&_&_&_&A5&A6).
    destruct (_ || (0 <? print_level opts)); [destruct (log_primal_step_norm opts)|]; cbn [psn set_step_norm iter bind].
    - destruct (put_ok (psn s4) (iter s4) (o_step_norm Or (wd s4))) as (l&Hl&_); [rewrite A5 by reflexivity; lia|].
      cbn [step_norm set_step_norm]. rewrite Hl. cbn [bind dsn set_psn iter set_step_norm].
      destruct (log_dual_step_norm opts); cbn [andb]; [|eexists; reflexivity].
      destruct (negb (with_anderson opts)); [|eexists; reflexivity].
      match goal with |- context [put ?l2 ?i ?v] => destruct (put_ok l2 i v) as (l'&->&_); [rewrite A6 by reflexivity; lia|] end.
      eexists; reflexivity.
    - destruct (log_dual_step_norm opts); cbn [andb]; [|eexists; reflexivity].
      destruct (negb (with_anderson opts)); [|eexists; reflexivity].
      match goal with |- context [put ?l2 ?i ?v] => destruct (put_ok l2 i v) as (l'&->&_); [cbn; rewrite A6 by reflexivity; lia|] end.
      eexists; reflexivity.
    - destruct (log_dual_step_norm opts); cbn [andb]; [|eexists; reflexivity].
      destruct (negb (with_anderson opts)); [|eexists; reflexivity].
      match goal with |- context [put ?l2 ?i ?v] => destruct (put_ok l2 i v) as (l'&->&_); [cbn; rewrite A6 by reflexivity; lia|] end.
      eexists; reflexivity. }
  destruct E5 as [s5 E5]. rewrite E5. cbn [bind]. apply step_norms_spec in E5. destruct E5 as (F5&X5&I5&_).
  destruct (alloc_frame _ _ HA4 F5) as (A1&A2&A3&_).
  unfold globalize. destruct (o_glob Or (nlp_out s5) (wd s5) (alpha s5)) as [[[w x] gst] a].
  destruct (gst =? ACADOS_SUCCESS); [|discriminate]. cbn [stat stat_m stat_n iter log set_wd set_out set_alpha alpha].
  destruct (Z.ltb_spec (iter s5 + 1) (stat_m s5)) as [Hx|Hx]; [|discriminate].
  match goal with |- context [put ?l2 ?i ?v] => destruct (put_ok l2 i v) as (l'&->&_) end; [|discriminate].
  rewrite A3. destruct (ext_qp_res opts); rewrite A2; nia.
Qed.


(** ** The whole call *)
Section RUN.
Variable s0 : mem.
Let x0 := nlp_out s0.
Let e0 := call_estimate opts (estimate s0).
Let h := timeout_heuristic opts.

Definition est_ok (new : list event) (e : double) : Prop :=
  e = (if fgt (timeout_max_time opts) f0 then estimate_of h e0 (durations (clocks new)) else e0).

(** every QP in [new] was preceded by a timeout test that passed *)
Definition guarded (new : list event) : Prop := forall a x st qi b,
  new = a ++ EvQP x st qi :: b -> fgt (timeout_max_time opts) f0 = true ->
  exists t r, clocks b = t :: r /\
    fle (timeout_max_time opts) (fadd t (estimate_of h e0 (durations (t :: r)))) = false.

Definition head (s : mem) : Prop := exists new,
  trace s = new ++ trace s0 /\ 0 <= iter s /\ iter s = qp_count new /\
  nlp_out s = last_iterate x0 new /\ status s = ACADOS_SUCCESS /\
  (0 < iter s -> any_nan (nlp_res s) = false) /\
  est_ok new (estimate s) /\
  (fgt (timeout_max_time opts) f0 = true ->
     (iter s = 0 /\ clocks new = []) \/ (0 < iter s /\ exists r, clocks new = prev_time_tot s :: r)) /\
  guarded new.

Inductive exit_kind (s : mem) (new : list event) : Prop :=
| X_check ck ev older : new = ck ++ ev ++ older ->
    forallb is_clock ck = true -> iter s = qp_count new ->
    (ev = [] /\ iter s = max_iter opts /\ eval_residual_at_max_iter opts = false \/
     ev = [EvRes (nlp_out s) (nlp_res s)]) ->
    ((any_nan (nlp_res s) = true /\ status s = ACADOS_NAN_DETECTED) \/
     (any_nan (nlp_res s) = false /\
      ((status s = ACADOS_MAXITER /\ iter s = max_iter opts) \/
       (status s = ACADOS_SUCCESS /\ ev = [EvRes (nlp_out s) (nlp_res s)] /\
          flt (r_stat (nlp_res s)) (tol_stat opts) = true /\
          flt (r_eq (nlp_res s)) (tol_eq opts) = true /\ flt (r_ineq (nlp_res s)) (tol_ineq opts) = true /\
          flt (r_comp (nlp_res s)) (tol_comp opts) = true) \/
       status s = ACADOS_MINSTEP \/ status s = ACADOS_UNBOUNDED \/
       (status s = ACADOS_TIMEOUT /\ fgt (timeout_max_time opts) f0 = true /\
          exists t r, clocks new = t :: r /\
          fle (timeout_max_time opts) (fadd t (estimate s)) = true)))) ->
    exit_kind s new
| X_qp st qi ck older : new = EvQP (nlp_out s) st qi :: ck ++ EvRes (nlp_out s) (nlp_res s) :: older -> qp_ok st = false ->
    forallb is_clock ck = true ->
    status s = ACADOS_QP_FAILURE -> iter s = qp_count new -> any_nan (nlp_res s) = false ->
    exit_kind s new
| X_glob x a st qi ck older : new = EvGlob x (nlp_out s) (status s) a :: EvQP x st qi :: ck ++ EvRes x (nlp_res s) :: older ->
    forallb is_clock ck = true -> qp_ok st = true ->
    status s <> ACADOS_SUCCESS -> iter s + 1 = qp_count new -> any_nan (nlp_res s) = false ->
    exit_kind s new.

Definition post (s : mem) : Prop := exists new,
  trace s = new ++ trace s0 /\ nlp_out s = last_iterate x0 new /\
  0 <= iter s <= max_iter opts /\ qp_count new <= max_iter opts /\
  est_ok new (estimate s) /\ guarded new /\ exit_kind s new.

Lemma qp_count_app a b : qp_count (iterate:=iterate) (a ++ b) = qp_count a + qp_count b.
Proof. unfold qp_count. rewrite filter_app, app_length. lia. Qed.
Lemma qp_count_nn (a : list event) : 0 <= qp_count a. Proof. unfold qp_count; lia. Qed.
Lemma clocks_app a b : clocks (iterate:=iterate) (a ++ b) = clocks a ++ clocks b.
Proof. unfold clocks. apply flat_map_app. Qed.

Lemma guarded_app a b : guarded b -> (forall x st qi, ~ In (EvQP x st qi) a) -> guarded (a ++ b).
Proof.
  intros G. induction a as [|e a IH]; intros Hn; [exact G|].
  intros c x st qi d Hc Ht. destruct c as [|e' c].
  - exfalso. cbn in Hc. injection Hc as Hc _. apply (Hn x st qi). left; auto.
  - cbn in Hc. injection Hc as _ Hc. assert (IH' : guarded (a ++ b)) by (apply IH; intros x' s' q' Hi; apply (Hn x' s' q'); right; exact Hi).
    eapply IH'; eassumption.
Qed.

Lemma guarded_qp x st qi b :
  guarded b -> (fgt (timeout_max_time opts) f0 = true ->
    exists t r, clocks b = t :: r /\ fle (timeout_max_time opts) (fadd t (estimate_of h e0 (durations (t :: r)))) = false) ->
  guarded (EvQP x st qi :: b).
Proof.
  intros G H c x' st' qi' d Hc Ht. destruct c as [|e' c].
  - cbn in Hc. injection Hc as _ _ _ <-. apply H, Ht.
  - cbn in Hc. injection Hc as _ Hc. eapply G; eassumption.
Qed.

Lemma new_estimate_of it e ds d : 0 < it -> e = estimate_of h e0 ds ->
  new_estimate opts it e d = estimate_of h e0 (d :: ds).
Proof.
  intros Hi ->. unfold new_estimate. fold h. cbn [estimate_of]. destruct (Z.eqb_spec it 0); [lia|].
  destruct h eqn:Eh; try reflexivity.
  clear. induction ds as [|a r IH]; cbn; auto.
Qed.

Lemma body_post s : head s -> iter s <= max_iter opts -> match body s with
   | None => True | Some (inl s') => post s' | Some (inr s') => head s' /\ iter s' = iter s + 1 end.
Proof.
  intros (new & Htr & Hi0 & Hi & Hx & Hst & Hnan & He & Hck & Hg) Him.
  destruct (body s) as [r|] eqn:Hb; [|exact I].
  apply body_cases in Hb.
  destruct Hb as (s3 & ck & F3 & X3 & I3 & St3 & Ck & Tr3 & R3 & _ & _ & Hm).
  set (ev := if evaluates s then [EvRes (nlp_out s) (nlp_res s3)] else []) in *.
  set (new3 := ck ++ ev ++ new).
  assert (Tr3' : trace s3 = new3 ++ trace s0) by (unfold new3; rewrite Tr3, Htr, !app_assoc; reflexivity).
  assert (Hcc : forallb is_clock ck = true).
  { unfold clock_step in Ck. destruct (fgt _ _); [destruct Ck as (t & -> & _)|destruct Ck as (-> & _)]; reflexivity. }
  assert (Hnoqp : forall l, forallb is_clock l = true -> qp_count (iterate:=iterate) l = 0 /\ forall y, last_iterate y (l ++ ev ++ new) = last_iterate y (ev ++ new)).
  { induction l as [|e l IH]; cbn; [split; reflexivity|]. destruct e; cbn; try discriminate. exact IH. }
  destruct (Hnoqp ck Hcc) as [Hq0 Hl0].
  assert (Hqe : qp_count ev = 0) by (unfold ev; destruct (evaluates s); reflexivity).
  assert (Hle : forall y, last_iterate y (ev ++ new) = last_iterate y new) by (intros; unfold ev; destruct (evaluates s); reflexivity).
  assert (Hq3 : qp_count new3 = iter s) by (unfold new3; rewrite !qp_count_app; lia).
  assert (Hl3 : last_iterate x0 new3 = nlp_out s) by (unfold new3; rewrite Hl0, Hle; auto).
  assert (Hce : clocks new3 = clocks ck ++ clocks new).
  { unfold new3. rewrite !clocks_app. unfold ev; destruct (evaluates s); reflexivity. }
  assert (Hg3 : guarded new3).
  { unfold new3. rewrite app_assoc. apply guarded_app; [exact Hg|]. intros x st qi Hin.
    assert (Z0 : qp_count (ck ++ ev) = 0) by (rewrite qp_count_app; lia).
    apply in_split in Hin. destruct Hin as (l1 & l2 & Hl). rewrite Hl, qp_count_app in Z0.
    unfold qp_count at 2 in Z0. cbn in Z0. pose proof (qp_count_nn l1). lia. }
  assert (He3 : est_ok new3 (estimate s3) /\ (fgt (timeout_max_time opts) f0 = true -> exists r, clocks new3 = time_tot s3 :: r /\ prev_time_tot s3 = time_tot s3)).
  { unfold est_ok in *. rewrite Hce. unfold clock_step in Ck. destruct (fgt (timeout_max_time opts) f0) eqn:Eto.
    - destruct Ck as (t & -> & Ht & Hp & Hest). cbn [clocks flat_map app].
      specialize (Hck eq_refl). rewrite Hest. split.
      + destruct Hck as [[Hz Hc]|[Hp0 (r' & Hc)]].
        * rewrite Hz. cbn [Z.ltb Z.compare]. rewrite Hc in He |- *. exact He.
        * destruct (Z.ltb_spec 0 (iter s)); [|lia]. rewrite Hc. change (durations (t :: prev_time_tot s :: r')) with (fsub t (prev_time_tot s) :: durations (prev_time_tot s :: r')).
          apply new_estimate_of; [lia|]. rewrite He, Hc. reflexivity.
      + intros _. exists (clocks new). split; congruence.
    - destruct Ck as (-> & Ht & Hp & Hest). split; [congruence|discriminate]. }
  destruct He3 as [He3 Hck3].
  destruct (check (iter s) s3) as [st|] eqn:Ec.
  - (* termination *)
    subst r. set (s' := set_status _ _ s3 st).
    destruct (final_clock_spec iterate world Or s') as (Ff & Xf & If & Stf & Rf & _ & _ & Trf & Ef).
    set (sf := final_clock Or s') in *. clearbody sf. subst s'. cbn [nlp_out iter status nlp_res trace estimate set_status] in *.
    exists new3. split; [congruence|]. split; [congruence|]. split; [lia|]. split; [lia|].
    split; [rewrite Ef; exact He3|]. split; [exact Hg3|].
    apply check_some in Ec; [|lia].
    apply (X_check _ _ ck ev new); [reflexivity|exact Hcc|lia| |].
    + unfold ev. unfold SqpProofs.evaluates. rewrite Rf, Xf, X3, If, I3.
      destruct (Z.eqb_spec (iter s) (max_iter opts)) as [E|E]; cbn [negb orb]; [|right; reflexivity].
      destruct (eval_residual_at_max_iter opts); [right; reflexivity|left; auto].
    + rewrite Rf, Stf, If, I3, Ef, Xf, X3. destruct Ec as [Ec|[En Ec]]; [left; exact Ec|right; split; [exact En|]].
      destruct Ec as [Ec|[Ec|[Ec|[Ec|Ec]]]]; auto 10.
      * right; left. destruct Ec as (A & B & C & D & E & F). repeat split; auto.
        unfold ev, SqpProofs.evaluates. destruct (eval_residual_at_max_iter opts); [rewrite orb_true_r; reflexivity|].
        specialize (F eq_refl). destruct (Z.eqb_spec (iter s) (max_iter opts)); [lia|reflexivity].
      * right; right; right; right. destruct Ec as (A & B & C). repeat split; auto.
        destruct (Hck3 B) as (r & Hc & _). exists (time_tot s3), r. split; [exact Hc|exact C].
  - apply check_none in Ec. destruct Ec as (En & Hlt & Hto).
    destruct Hm as (st & qi & s4 & F4 & X4 & R4 & T4 & P4 & Es4 & I4 & St4 & Tr4 & _ & _ & Hr).
    set (new4 := EvQP (nlp_out s) st qi :: new3).
    assert (Hev : new3 = ck ++ EvRes (nlp_out s) (nlp_res s3) :: new).
    { unfold new3, ev, SqpProofs.evaluates. destruct (Z.eqb_spec (iter s) (max_iter opts)); [lia|reflexivity]. }
    assert (Hg4 : guarded new4).
    { apply guarded_qp; [exact Hg3|]. intros Ht. destruct (Hck3 Ht) as (r' & Hc & _). exists (time_tot s3), r'.
      split; [exact Hc|]. unfold est_ok in He3. rewrite Ht, Hc in He3. rewrite <- He3. apply Hto, Ht. }
    assert (Hq4 : qp_count new4 = iter s + 1).
    { change new4 with ([EvQP (nlp_out s) st qi] ++ new3). rewrite qp_count_app, Hq3. change (qp_count [EvQP (nlp_out s) st qi]) with 1. lia. }
    destruct Hr as [[Hq ->]|[Hq Hr]].
    + set (s' := set_status _ _ _ _).
      destruct (final_clock_spec iterate world Or s') as (Ff & Xf & If & Stf & Rf & _ & _ & Trf & Ef).
      set (sf := final_clock Or s') in *. clearbody sf. subst s'. cbn [nlp_out iter status nlp_res trace estimate set_status set_iter] in *.
      exists new4. split; [rewrite Trf, Tr4, Tr3'; reflexivity|]. split; [cbn [new4 last_iterate]; congruence|].
      split; [lia|]. split; [lia|]. split; [rewrite Ef, Es4; exact He3|]. split; [exact Hg4|].
      apply (X_qp _ _ st qi ck new); auto; [unfold new4; rewrite Hev; congruence|lia|congruence].
    + destruct Hr as (x & gst & a & s6 & F6 & X6 & I6 & St6 & R6 & T6 & Es6 & P6 & Tr6 & _ & _ & Hr).
      set (new6 := EvGlob (nlp_out s) x gst a :: new4).
      assert (Hg6 : guarded new6) by (apply (guarded_app [_] new4 Hg4); intros ? ? ? [Hin|[]]; discriminate Hin).
      destruct Hr as [[Hgs ->]|[Hgs ->]].
      * cbn [iter set_iter]. split; [|lia].
        exists new6. cbn [trace iter nlp_out status nlp_res estimate prev_time_tot set_iter].
        split; [rewrite Tr6, Tr4, Tr3'; reflexivity|]. split; [lia|].
        split; [symmetry; exact Hq4|]. split; [exact X6|]. split; [congruence|].
        split; [intros _; congruence|]. split; [rewrite Es6, Es4; exact He3|].
        split; [|exact Hg6]. intros Ht. right. split; [lia|]. destruct (Hck3 Ht) as (r' & Hc & Hp). exists r'.
        change (clocks new6) with (clocks new3). congruence.
      * set (s' := set_status _ _ _ _).
        destruct (final_clock_spec iterate world Or s') as (Ff & Xf & If & Stf & Rf & _ & _ & Trf & Ef).
        set (sf := final_clock Or s') in *. clearbody sf. subst s'. cbn [nlp_out iter status nlp_res trace estimate set_status set_iter] in *.
        exists new6. split; [rewrite Trf, Tr6, Tr4, Tr3'; reflexivity|]. split; [cbn [new6 last_iterate]; congruence|].
        split; [lia|]. split; [change (qp_count new6) with (qp_count new4); lia|]. split; [rewrite Ef, Es6, Es4; exact He3|]. split; [exact Hg6|].
        apply (X_glob _ _ (nlp_out s) a st qi ck new); auto; [unfold new6, new4; rewrite Hev; congruence|congruence|change (qp_count new6) with (qp_count new4); lia|congruence].
Qed.

(** a state satisfying [head] with iter beyond the limit does not arise for max_iter >= 0, because
    the termination test fires at iter = max_iter. *)
Lemma body_lt s s' : body s = Some (inr s') -> iter s < max_iter opts.
Proof.
  intros Hb. apply body_cases in Hb. destruct Hb as (s3 & ck & F3 & X3 & I3 & St3 & Ck & Tr3 & R3 & _ & _ & Hm).
  destruct (check (iter s) s3) eqn:Ec; [discriminate Hm|]. apply check_none in Ec. lia.
Qed.

Theorem run_post s : 0 <= max_iter opts -> sqp_call Or opts s0 = Some s -> post s.
Proof.
  intros Hm H.
  assert (R : post s \/ ((head s /\ iter s <= max_iter opts) /\ iter s = max_iter opts + 1)).
  { eapply loop_rule with (I := fun s => head s /\ iter s <= max_iter opts); [| | |exact H].
    - intros s1 [Hh Hle] _. pose proof (body_post s1 Hh Hle) as B. destruct (body s1) as [[s2|s2]|] eqn:E; auto.
      apply body_lt in E. destruct B. repeat split; auto; lia.
    - split; [|cbn; lia]. exists []. cbn. repeat split; auto; try lia.
      + unfold est_ok, e0, call_estimate. cbn. destruct (fgt _ _); reflexivity.
      + intros a x st qi b Hn. destruct a; discriminate Hn.
    - cbn. lia. }
  destruct R as [R|[[_ R1] R2]]; [exact R|lia].
Qed.
End RUN.

Theorem run_some s0 : 0 <= max_iter opts -> logs_allocated opts s0 -> exists s, sqp_call Or opts s0 = Some s.
Proof.
  intros Hm HA.
  eapply loop_some with (I := fun s => logs_allocated opts s /\ 0 <= iter s <= max_iter opts).
  - intros s [HA' Hi] _. pose proof (body_some s HA' Hi) as B. destruct (body s) as [[s1|s1]|] eqn:E; [exact I| |congruence].
    pose proof (body_lt _ _ E) as Hlt. apply body_cases in E.
    destruct E as (s3 & ck & F3 & X3 & I3 & St3 & Ck & Tr3 & R3 & _ & _ & Hmm).
    destruct (check (iter s) s3); [discriminate Hmm|].
    destruct Hmm as (st & qi & s4 & F4 & X4 & R4 & T4 & P4 & Es4 & I4 & St4 & Tr4 & _ & _ & Hr).
    destruct Hr as [[_ Hr]|[Hq Hr]]; [discriminate Hr|].
    destruct Hr as (x & gst & a & s6 & F6 & X6 & I6 & St6 & R6 & T6 & Es6 & P6 & Tr6 & _ & _ & [[_ Hr]|[_ Hr]]); [|discriminate Hr].
    injection Hr as ->. cbn [iter set_iter]. split; [split; [|lia]|lia].
    apply (alloc_frame s6); [|unfold SqpProofs.frame_logs; cbn; repeat split].
    apply (alloc_frame s); [exact HA'|]. eapply frame_trans; [exact F3|eapply frame_trans; [exact F4|exact F6]].
  - split; [|cbn; lia]. revert HA. unfold logs_allocated. cbn. auto.
  - cbn. lia.
Qed.
End P.
