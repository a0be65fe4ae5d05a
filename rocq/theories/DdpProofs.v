(** Proofs about the DDP driver model. *)
From Coq Require Import ZArith List Bool Lia.
From Verif Require Import FP FPProofs SqpModel SqpProofs DdpModel.
Import ListNotations.
Open Scope Z_scope.

Definition dqps {I} (tr : list (dev I)) : Z := Z.of_nat (length (filter (fun e => match e with DQP _ _ _ => true | _ => false end) tr)).
(** residuals evaluated, oldest first *)
Definition dresiduals {I} (tr : list (dev I)) : list res4 := rev (flat_map (fun e => match e with DRes _ r => [r] | _ => [] end) tr).
(** steps taken or attempted, oldest first; true for the forward simulation *)
Definition dsteps {I} (tr : list (dev I)) : list bool := rev (flat_map (fun e => match e with DSim _ _ => [true] | DGlob _ _ _ _ => [false] | _ => [] end) tr).

Section P.
Variables iterate world : Type.
Variable Or : ddp_oracles iterate world.
Variable o : ddp_opts.
Notation dmem := (dmem iterate world).

Definition devaluates (it : Z) : bool := negb (it =? d_max_iter o) || d_eval_at_max_iter o.
Definition head_trace (it : Z) (s : dmem) (r : res4) : list (dev iterate) := if devaluates it then DRes (dm_out s) r :: dm_trace s else dm_trace s.
Definition dframe (s s1 : dmem) : Prop :=
  dm_stat_m s1 = dm_stat_m s /\ dm_stat_n s1 = dm_stat_n s /\ length (dm_stat s1) = length (dm_stat s) /\ length (dm_iterates s1) = length (dm_iterates s).

Lemma ddp_evaluate_spec it s s1 : ddp_evaluate Or o it s = Some s1 ->
  dframe s s1 /\ dm_out s1 = dm_out s /\ dm_step_norm s1 = dm_step_norm s /\ dm_infeasible s1 = dm_infeasible s /\
  dm_trace s1 = head_trace it s (dm_res s1) /\ (devaluates it = false -> dm_res s1 = dm_res s).
Proof.
  unfold ddp_evaluate, head_trace, devaluates. intros H.
  assert (exists l, length l = length (dm_iterates s) /\ (if d_store_iterates o then put (dm_iterates s) it (dm_out s) else Some (dm_iterates s)) = Some l) as (l & Hl & E).
  { destruct (d_store_iterates o).
    - destruct (put _ _ _) as [l|] eqn:E; [|discriminate H]. exists l. split; [|reflexivity]. apply put_inv in E. tauto.
    - eexists; split; reflexivity. }
  rewrite E in H. cbn [bind] in H. destruct (negb _ || _); injection H as <-; unfold dframe; cbn; repeat split; auto. discriminate.
Qed.
Lemma ddp_stats_spec it s s1 : ddp_stats Or o it s = Some s1 ->
  dframe s s1 /\ dm_out s1 = dm_out s /\ dm_step_norm s1 = dm_step_norm s /\ dm_infeasible s1 = dm_infeasible s && fgt (r_eq (dm_res s)) (d_tol_eq o) /\
  dm_trace s1 = dm_trace s /\ dm_res s1 = dm_res s.
Proof.
  unfold ddp_stats. intros H.
  match type of H with bind ?e _ = _ => destruct e as [st|] eqn:E; [|discriminate H] end. cbn [bind] in H. injection H as <-.
  assert (length st = length (dm_stat s)).
  { destruct (_ && _) in E; [|injection E as <-; reflexivity].
    repeat match type of E with bind ?x _ = _ => let F := fresh "F" in destruct x eqn:F; cbn [bind] in E; [apply put_inv in F|discriminate E] end.
    apply put_inv in E. intuition congruence. }
  unfold dframe; cbn; repeat split; auto.
Qed.
Lemma ddp_qp_spec it s r : ddp_qp Or o it s = Some r ->
  let s1 := match r with inl a => a | inr a => a end in
  dframe s s1 /\ dm_out s1 = dm_out s /\ dm_infeasible s1 = dm_infeasible s /\ dm_res s1 = dm_res s /\
  (exists st qi, dm_trace s1 = DQP (dm_out s) st qi :: dm_trace s) /\
  match r with inl s1 => dm_status s1 = ACADOS_QP_FAILURE /\ dm_iter s1 = it + 1 | inr _ => True end.
Proof.
  unfold ddp_qp. destruct (d_qp Or (dm_out s) (dm_wd s)) as [[w st] qi]. intros H.
  match type of H with bind ?e _ = _ => destruct e as [l|] eqn:E; [|discriminate H] end. cbn [bind] in H.
  match type of H with bind ?e _ = _ => destruct e eqn:E1; [|discriminate H] end. cbn [bind] in H.
  assert (length l = length (dm_stat s)).
  { destruct (_ <? _) in E; [|injection E as <-; reflexivity].
    match type of E with bind ?x _ = _ => destruct x eqn:F; cbn [bind] in E; [apply put_inv in F|discriminate E] end.
    apply put_inv in E. intuition congruence. }
  destruct (_ || _); injection H as <-; unfold dframe, ddp_return; cbn; repeat split; eauto.
Qed.
Lemma ddp_globalize_spec it s : let r := ddp_globalize Or it s in let s1 := match r with inl a => a | inr a => a end in
  dframe s s1 /\ dm_res s1 = dm_res s /\
  match r with
  | inl s1 => dm_infeasible s = false /\ dm_status s1 = ACADOS_QP_FAILURE /\ dm_iter s1 = it /\ exists x a st, dm_trace s1 = DGlob (dm_out s) x st a :: dm_trace s
  | inr s1 => dm_infeasible s1 = false /\ exists e, dm_trace s1 = e :: dm_trace s /\
      (if dm_infeasible s then e = DSim (dm_out s) (dm_out s1) else exists a, e = DGlob (dm_out s) (dm_out s1) ACADOS_SUCCESS a) end.
Proof.
  unfold ddp_globalize. destruct (dm_infeasible s) eqn:Hi.
  - destruct (d_trial Or _ _) as [w x]. unfold dframe; cbn. repeat split; eauto.
  - destruct (d_glob Or _ _ _) as [[[w x] st] a]. destruct (Z.eqb_spec st ACADOS_SUCCESS) as [->|Hn]; unfold dframe, ddp_return; cbn; repeat split; eauto 6.
Qed.

(** one pass *)
Inductive pass (it : Z) (s : dmem) : dmem + dmem -> Prop :=
| pass_stop s1 st : dframe s s1 -> dm_out s1 = dm_out s -> (devaluates it = false -> dm_res s1 = dm_res s) ->
    dm_trace s1 = head_trace it s (dm_res s1) ->
    (exists step, (ddp_check o it (dm_res s1) (d_cost Or (dm_wd s1)) step = Some st)) -> dm_status s1 = st -> dm_iter s1 = it -> pass it s (inl s1)
| pass_qp s1 st qi c step : dframe s s1 -> dm_out s1 = dm_out s -> (devaluates it = false -> dm_res s1 = dm_res s) ->
    dm_trace s1 = DQP (dm_out s) st qi :: head_trace it s (dm_res s1) ->
    ddp_check o it (dm_res s1) c step = None -> dm_status s1 = ACADOS_QP_FAILURE -> dm_iter s1 = it + 1 -> pass it s (inl s1)
| pass_glob s1 x a stg st qi c step : dframe s s1 -> (devaluates it = false -> dm_res s1 = dm_res s) ->
    dm_infeasible s && fgt (r_eq (dm_res s1)) (d_tol_eq o) = false ->
    dm_trace s1 = DGlob (dm_out s) x stg a :: DQP (dm_out s) st qi :: head_trace it s (dm_res s1) ->
    ddp_check o it (dm_res s1) c step = None -> dm_status s1 = ACADOS_QP_FAILURE -> dm_iter s1 = it -> pass it s (inl s1)
| pass_next s1 e st qi c step : dframe s s1 -> (devaluates it = false -> dm_res s1 = dm_res s) -> dm_infeasible s1 = false ->
    dm_trace s1 = e :: DQP (dm_out s) st qi :: head_trace it s (dm_res s1) ->
    (if dm_infeasible s && fgt (r_eq (dm_res s1)) (d_tol_eq o) then e = DSim (dm_out s) (dm_out s1) else exists a, e = DGlob (dm_out s) (dm_out s1) ACADOS_SUCCESS a) ->
    ddp_check o it (dm_res s1) c step = None -> pass it s (inr s1).
Lemma dframe_trans a b c : dframe a b -> dframe b c -> dframe a c.
Proof. unfold dframe. intuition congruence. Qed.
Lemma ddp_body_spec it s r : ddp_body Or o it s = Some r -> pass it s r.
Proof.
  unfold ddp_body. intros H.
  destruct (ddp_evaluate Or o it s) as [s1|] eqn:E1; [|discriminate H]. cbn [bind] in H. apply ddp_evaluate_spec in E1.
  destruct (ddp_stats Or o it s1) as [s2|] eqn:E2; [|discriminate H]. cbn [bind] in H. apply ddp_stats_spec in E2.
  destruct E1 as (F1 & O1 & N1 & I1 & T1 & R1). destruct E2 as (F2 & O2 & N2 & I2 & T2 & R2).
  assert (F : dframe s s2) by (eapply dframe_trans; eassumption).
  assert (T : dm_trace s2 = head_trace it s (dm_res s2)) by (rewrite T2, T1, R2; reflexivity).
  assert (R : devaluates it = false -> dm_res s2 = dm_res s) by (intros Hd; rewrite R2; auto).
  assert (I : dm_infeasible s2 = dm_infeasible s && fgt (r_eq (dm_res s2)) (d_tol_eq o)) by (rewrite I2, I1, R2; reflexivity).
  assert (O : dm_out s2 = dm_out s) by congruence.
  clear - H F T R I O.
  destruct (ddp_check o it (dm_res s2) _ _) as [st|] eqn:EC.
  - injection H as <-. eapply pass_stop with (st := st); try eassumption; cbn; try reflexivity. eexists; eassumption.
  - destruct (ddp_qp Or o it s2) as [[s3|s3]|] eqn:E3; cbn [bind] in H; [| |discriminate H]; apply ddp_qp_spec in E3; cbn in E3;
      destruct E3 as (F3 & O3 & I3 & R3 & (st & qi & T3) & S3).
    + injection H as <-. destruct S3. assert (T' : dm_trace s3 = DQP (dm_out s) st qi :: head_trace it s (dm_res s3)) by (rewrite T3, T, O, R3; reflexivity).
      eapply pass_qp; try eassumption; [eapply dframe_trans; eassumption|congruence|rewrite R3; exact R|rewrite R3; eassumption].
    + injection H as <-. pose proof (ddp_globalize_spec it s3) as G. destruct (ddp_globalize Or it s3) as [s4|s4]; cbn in G.
      * destruct G as (F4 & R4 & I4 & S4 & J4 & x & a & stg & T4).
        eapply (pass_glob it s s4 x a stg st qi); try eassumption.
        -- eapply dframe_trans; [exact F|eapply dframe_trans; eassumption].
        -- rewrite R4, R3; exact R.
        -- rewrite R4, R3, <- I, <- I3. exact I4.
        -- rewrite T4, T3, T, O3, O, R4, R3. reflexivity.
        -- rewrite R4, R3. eassumption.
      * destruct G as (F4 & R4 & I4 & e & T4 & G4).
        eapply (pass_next it s s4 e st qi); try eassumption.
        -- eapply dframe_trans; [exact F|eapply dframe_trans; eassumption].
        -- rewrite R4, R3; exact R.
        -- rewrite T4, T3, T, O, R4, R3. reflexivity.
        -- rewrite R4, R3, <- I, <- I3. rewrite O3, O in G4. exact G4.
        -- rewrite R4, R3. eassumption.
Qed.

(** loop rule *)
Lemma ddp_loop_rule (I : Z -> dmem -> Prop) (Q : dmem -> Prop) :
  (forall it s r, 0 <= it <= d_max_iter o -> I it s -> pass it s r -> match r with inl s' => Q s' | inr s' => it < d_max_iter o -> I (it + 1) s' end) ->
  forall n it s s', 0 <= it <= d_max_iter o -> I it s -> Z.of_nat n = d_max_iter o + 1 - it -> ddp_loop Or o n it s = Some s' -> Q s'.
Proof.
  intros HB. induction n as [|n IH]; intros it s s' Hit HI Hn Hl; [lia|]. cbn [ddp_loop] in Hl.
  destruct (ddp_body Or o it s) as [r|] eqn:E; [|discriminate Hl]. cbn [bind] in Hl. apply ddp_body_spec in E.
  specialize (HB it s r Hit HI E). destruct r as [s1|s1]; [injection Hl as <-; exact HB|].
  destruct (Z.eq_dec it (d_max_iter o)) as [He|He].
  - exfalso. inversion E as [| | |? ? ? ? ? ? ? ? ? ? ? C]; subst.
    unfold ddp_check in C. repeat match type of C with (if ?b then _ else _) = None => destruct b eqn:?; [discriminate C|] end.
    match goal with H : (_ <=? _) = false |- _ => apply Z.leb_gt in H; lia end.
  - apply (IH (it + 1) s1 s'); [lia|apply HB; lia|lia|exact Hl].
Qed.

Definition new_trace (s0 s : dmem) (new : list (dev iterate)) : Prop := dm_trace s = new ++ dm_trace s0.

Lemma check_none it r c step : ddp_check o it r c step = None ->
  isnan (r_stat r) = false /\ isnan (r_eq r) = false /\ isnan (r_ineq r) = false /\ flt (r_eq r) (d_tol_eq o) && flt (r_stat r) (d_tol_stat o) = false.
Proof.
  unfold ddp_check. destruct (isnan (r_stat r)), (isnan (r_eq r)), (isnan (r_ineq r)); cbn [orb]; try discriminate.
  destruct (flt _ _ && flt _ _); [discriminate|]. auto.
Qed.
Lemma check_success it r c step : ddp_check o it r c step = Some ACADOS_SUCCESS ->
  flt (r_eq r) (d_tol_eq o) = true /\ (flt (r_stat r) (d_tol_stat o) = true \/ (d_adaptive_lm o = true /\ flt c (d_tol_zero_res o) = true)).
Proof.
  unfold ddp_check. destruct (_ || _); [discriminate|].
  destruct (flt (r_eq r) (d_tol_eq o)), (flt (r_stat r) (d_tol_stat o)), (d_adaptive_lm o), (flt c (d_tol_zero_res o)); cbn [andb]; auto;
   destruct (_ && _); try discriminate; destruct (_ <=? _); discriminate.
Qed.

Definition s_inv (it : Z) (s : dmem) : Prop := 0 < it -> flt (r_eq (dm_res s)) (d_tol_eq o) && flt (r_stat (dm_res s)) (d_tol_stat o) = false.
Lemma ddp_success s0 s : 0 <= d_max_iter o -> ddp_call Or o s0 = Some s -> dm_status s = ACADOS_SUCCESS ->
  flt (r_eq (dm_res s)) (d_tol_eq o) = true /\
  (flt (r_stat (dm_res s)) (d_tol_stat o) = true \/ (d_adaptive_lm o = true /\ flt (d_cost Or (dm_wd s)) (d_tol_zero_res o) = true)) /\
  (d_eval_at_max_iter o = true \/ dm_iter s < d_max_iter o \/ (d_adaptive_lm o = false /\ 0 < d_max_iter o) ->
   exists older, dm_trace s = DRes (dm_out s) (dm_res s) :: older).
Proof.
  intros Hm H. unfold ddp_call in H. pattern s.
  refine (ddp_loop_rule (s_inv) _ _ _ 0 _ s _ _ _ H); [|lia|intros ?; lia|lia].
  clear. intros it s r Hit HI HP. destruct HP as [s1 st F O R T [step C] S J|s1 st qi c step F O R T C S J|s1 x a stg st qi c step F R I T C S J|s1 e st qi c step F R I T E C].
  - intros Hs. rewrite Hs in S. subst st. destruct (check_success _ _ _ _ C) as [C1 C2]. split; [exact C1|]. split; [exact C2|].
    intros Hc. destruct (devaluates it) eqn:D; [|pose proof (R eq_refl) as R'].
    + exists (dm_trace s). rewrite T. unfold head_trace. rewrite D, O. reflexivity.
    + exfalso. unfold devaluates in D. apply orb_false_iff in D. destruct D as [D1 D2]. apply negb_false_iff, Z.eqb_eq in D1.
      destruct Hc as [Hc|[Hc|[Hc1 Hc2]]]; [congruence|lia|].
      assert (Hi : 0 < it) by lia. specialize (HI Hi). rewrite <- R' in HI.
      rewrite C1 in HI. cbn [andb] in HI. destruct C2 as [C2|[C2 _]]; [|congruence]. congruence.
  - rewrite S. discriminate.
  - rewrite S. discriminate.
  - intros _ _. apply (check_none _ _ _ _ C).
Qed.

Lemma check_status it r c step st : ddp_check o it r c step = Some st ->
  In st [ACADOS_SUCCESS; ACADOS_NAN_DETECTED; ACADOS_MINSTEP; ACADOS_MAXITER].
Proof.
  unfold ddp_check. intros H. repeat match type of H with (if ?b then _ else _) = _ => destruct b end; try (injection H as <-; cbn; auto 6); discriminate H.
Qed.
Lemma dqps_cons (e : dev iterate) l : dqps (e :: l) = (match e with DQP _ _ _ => 1 | _ => 0 end) + dqps l.
Proof. unfold dqps. destruct e; cbn [filter length]; lia. Qed.
Lemma dqps_head it s r l : dqps (DQP (dm_out s) 0 0 :: nil) = 1 -> dm_trace s = l -> dqps (head_trace it s r) = dqps l.
Proof. intros _ <-. unfold head_trace. destruct (devaluates it); [rewrite dqps_cons|]; reflexivity. Qed.

Lemma ddp_bounded s0 s : 0 <= d_max_iter o -> ddp_call Or o s0 = Some s ->
  exists new, dm_trace s = new ++ dm_trace s0 /\ dqps new <= d_max_iter o /\ 0 <= dm_iter s <= d_max_iter o /\
  (dm_iter s = dqps new \/ dm_iter s + 1 = dqps new /\ dm_status s = ACADOS_QP_FAILURE) /\
  In (dm_status s) [ACADOS_SUCCESS; ACADOS_NAN_DETECTED; ACADOS_MINSTEP; ACADOS_MAXITER; ACADOS_QP_FAILURE].
Proof.
  intros Hm H. unfold ddp_call in H. pattern s.
  refine (ddp_loop_rule ((fun it s => exists new, dm_trace s = new ++ dm_trace s0 /\ dqps new = it)) _ _ _ 0 _ s _ _ _ H); [|lia|exists []; split; reflexivity|lia].
  clear. intros it s r Hit [new [HT HN]] HP.
  assert (HD : forall r, exists n1, head_trace it s r = n1 ++ dm_trace s0 /\ dqps n1 = it).
  { intros r1. unfold head_trace. rewrite HT. destruct (devaluates it); [exists (DRes (dm_out s) r1 :: new); split; [reflexivity|rewrite dqps_cons; lia]|exists new; auto]. }
  destruct HP as [s1 st F O R T [step C] S J|s1 st qi c step F O R T C S J|s1 x a stg st qi c step F R I T C S J|s1 e st qi c step F R I T E C];
    destruct (HD (dm_res s1)) as (n1 & H1 & H2); rewrite H1 in T.
  - exists n1. split; [exact T|]. repeat split; try lia. rewrite S. apply check_status in C. cbn in *; tauto.
  - assert (it < d_max_iter o). { unfold ddp_check in C. repeat match type of C with (if ?b then _ else _) = None => destruct b eqn:?; [discriminate C|] end. match goal with H : (_ <=? _) = false |- _ => apply Z.leb_gt in H; lia end. }
    exists (DQP (dm_out s) st qi :: n1). split; [exact T|]. rewrite dqps_cons, H2, J, S. repeat split; try lia. cbn; auto 6.
  - assert (it < d_max_iter o). { unfold ddp_check in C. repeat match type of C with (if ?b then _ else _) = None => destruct b eqn:?; [discriminate C|] end. match goal with H : (_ <=? _) = false |- _ => apply Z.leb_gt in H; lia end. }
    exists (DGlob (dm_out s) x stg a :: DQP (dm_out s) st qi :: n1). split; [exact T|]. rewrite !dqps_cons, H2, J, S. repeat split; try lia. cbn; auto 6.
  - intros _. exists (e :: DQP (dm_out s) st qi :: n1). split; [exact T|]. rewrite !dqps_cons, H2. destruct (_ && _) in E; [subst e; lia|destruct E as [a ->]; lia].
Qed.

Lemma ddp_nan s0 s : 0 <= d_max_iter o -> ddp_call Or o s0 = Some s ->
  isnan (r_stat (dm_res s)) || isnan (r_eq (dm_res s)) || isnan (r_ineq (dm_res s)) = true -> dm_status s = ACADOS_NAN_DETECTED.
Proof.
  intros Hm H. unfold ddp_call in H. pattern s.
  refine (ddp_loop_rule ((fun _ _ => True)) _ _ _ 0 _ s _ _ _ H); [|lia|exact I|lia].
  clear. intros it s r Hit _ HP.
  destruct HP as [s1 st F O R T [step C] S J|s1 st qi c step F O R T C S J|s1 x a stg st qi c step F R I T C S J|s1 e st qi c step F R I T E C]; [| | |exact (fun _ => Logic.I)].
  - intros Hn. unfold ddp_check in C. rewrite Hn in C. injection C as <-. exact S.
  - apply check_none in C. destruct C as (-> & -> & -> & _). discriminate.
  - apply check_none in C. destruct C as (-> & -> & -> & _). discriminate.
Qed.

(** the forward simulation *)
Lemma dresiduals_cons e (l : list (dev iterate)) : dresiduals (e :: l) = dresiduals l ++ match e with DRes _ r => [r] | _ => [] end.
Proof. unfold dresiduals. destruct e; cbn; rewrite ?app_nil_r; reflexivity. Qed.
Lemma dsteps_cons e (l : list (dev iterate)) : dsteps (e :: l) = dsteps l ++ match e with DSim _ _ => [true] | DGlob _ _ _ _ => [false] | _ => [] end.
Proof. unfold dsteps. destruct e; cbn; rewrite ?app_nil_r; reflexivity. Qed.
Lemma hd_error_app {A} (l m : list A) : hd_error (l ++ m) = match hd_error l with Some a => Some a | None => hd_error m end.
Proof. destruct l; reflexivity. Qed.
Definition sim_first (new : list (dev iterate)) : Prop :=
  dsteps new = [] \/ exists r n, hd_error (dresiduals new) = Some r /\ dsteps new = fgt (r_eq r) (d_tol_eq o) :: repeat false n.
Definition f_inv (s0 : dmem) (it : Z) (s : dmem) : Prop := exists new, dm_trace s = new ++ dm_trace s0 /\
  (it = 0 -> new = [] /\ dm_infeasible s = true) /\
  (0 < it -> dm_infeasible s = false /\ exists r n, hd_error (dresiduals new) = Some r /\ dsteps new = fgt (r_eq r) (d_tol_eq o) :: repeat false n).
Lemma repeat_snoc {A} (a : A) n : repeat a n ++ [a] = repeat a (S n).
Proof. induction n; cbn; [reflexivity|]. rewrite IHn. reflexivity. Qed.
Lemma ddp_simulation s0 s : 0 <= d_max_iter o -> ddp_call Or o s0 = Some s ->
  exists new, dm_trace s = new ++ dm_trace s0 /\ sim_first new.
Proof.
  intros Hm H. unfold ddp_call in H. pattern s.
  refine (ddp_loop_rule ((f_inv s0)) _ _ _ 0 _ s _ _ _ H); [|lia|exists []; cbn; repeat split; lia|lia].
  clear. intros it s r Hit (new & HT & H0 & H1) HP.
  assert (HD : forall r, it < d_max_iter o -> exists n1, head_trace it s r = n1 ++ dm_trace s0 /\
     (it = 0 -> dresiduals n1 = [r] /\ dsteps n1 = [] /\ dm_infeasible s = true) /\
     (0 < it -> dm_infeasible s = false /\ exists r n, hd_error (dresiduals n1) = Some r /\ dsteps n1 = fgt (r_eq r) (d_tol_eq o) :: repeat false n)).
  { intros r1 Hlt. unfold head_trace, devaluates. rewrite (proj2 (Z.eqb_neq _ _)) by lia. cbn [negb orb]. rewrite HT.
    exists (DRes (dm_out s) r1 :: new). split; [reflexivity|]. split.
    - intros Hz. destruct (H0 Hz) as [-> ?]. auto.
    - intros Hp. destruct (H1 Hp) as [? (r2 & n & E1 & E2)]. split; [assumption|]. exists r2, n.
      rewrite dresiduals_cons, dsteps_cons, hd_error_app, E1, E2. rewrite app_nil_r. auto. }
  assert (HL : forall c step r, ddp_check o it r c step = None -> it < d_max_iter o).
  { intros c step r0 C. unfold ddp_check in C. repeat match type of C with (if ?b then _ else _) = None => destruct b eqn:?; [discriminate C|] end. match goal with H : (_ <=? _) = false |- _ => apply Z.leb_gt in H; lia end. }
  destruct HP as [s1 st F O R T [step C] S J|s1 st qi c step F O R T C S J|s1 x a stg st qi c step F R I T C S J|s1 e st qi c step F R I T E C].
  - unfold head_trace in T. rewrite HT in T. unfold sim_first. destruct (devaluates it).
    + exists (DRes (dm_out s) (dm_res s1) :: new). split; [exact T|]. rewrite dsteps_cons, app_nil_r.
      destruct (Z.eq_dec it 0) as [Hz|Hz]; [destruct (H0 Hz) as [-> _]; left; reflexivity|right].
      destruct (H1 ltac:(lia)) as [_ (r & n & E1 & E2)]. exists r, n. rewrite dresiduals_cons, hd_error_app, E1. auto.
    + exists new. split; [exact T|]. destruct (Z.eq_dec it 0) as [Hz|Hz]; [destruct (H0 Hz) as [-> _]; left; reflexivity|right].
      destruct (H1 ltac:(lia)) as [_ (r & n & E1 & E2)]. eauto.
  - destruct (HD (dm_res s1) (HL _ _ _ C)) as (n1 & E1 & E2 & E3). rewrite E1 in T. exists (DQP (dm_out s) st qi :: n1). split; [exact T|].
    unfold sim_first. rewrite dsteps_cons, dresiduals_cons, !app_nil_r. destruct (Z.eq_dec it 0) as [Hz|Hz].
    + left. apply (E2 Hz).
    + right. apply E3; lia.
  - destruct (HD (dm_res s1) (HL _ _ _ C)) as (n1 & E1 & E2 & E3). rewrite E1 in T. exists (DGlob (dm_out s) x stg a :: DQP (dm_out s) st qi :: n1). split; [exact T|].
    unfold sim_first. rewrite !dsteps_cons, !dresiduals_cons, !app_nil_r. right. destruct (Z.eq_dec it 0) as [Hz|Hz].
    + destruct (E2 Hz) as (E4 & E5 & E6). rewrite E4, E5. cbn [hd_error app]. exists (dm_res s1), 0%nat. split; [reflexivity|]. rewrite E6 in I. cbn [andb] in I. rewrite I. reflexivity.
    + destruct (E3 ltac:(lia)) as [_ (r & n & E4 & E5)]. exists r, (Datatypes.S n). rewrite E4, E5. split; [reflexivity|]. cbn [app]. rewrite repeat_snoc. reflexivity.
  - intros Hlt. destruct (HD (dm_res s1) Hlt) as (n1 & E1 & E2 & E3). rewrite E1 in T. exists (e :: DQP (dm_out s) st qi :: n1). split; [exact T|]. split; [lia|]. intros _.
    split; [exact I|]. rewrite !dsteps_cons, !dresiduals_cons, !app_nil_r. destruct (Z.eq_dec it 0) as [Hz|Hz].
    + destruct (E2 Hz) as (E4 & E5 & E6). rewrite E4, E5. exists (dm_res s1), 0%nat. rewrite E6 in E. cbn [andb] in E. cbn [hd_error app].
      destruct (fgt _ _); [subst e|destruct E as [a ->]]; cbn; auto.
    + destruct (E3 ltac:(lia)) as [E6 (r & n & E4 & E5)]. rewrite E6 in E. cbn [andb] in E. destruct E as [a ->]. exists r, (Datatypes.S n). rewrite E5, hd_error_app, E4. split; [reflexivity|]. cbn [app]. rewrite repeat_snoc. reflexivity.
Qed.
Lemma ddp_negative_limit s0 : d_max_iter o < 0 -> exists s, ddp_call Or o s0 = Some s /\ dm_status s = dm_status s0 /\ dm_trace s = dm_trace s0.
Proof. intros H. unfold ddp_call. replace (Z.to_nat (d_max_iter o + 1)) with 0%nat by lia. cbn. eauto. Qed.

(** no undefined behaviour when the logs have the size given at creation and external QP residuals are off *)
Lemma ddp_body_some it s : d_ext_qp_res o = false -> 0 <= it <= d_max_iter o -> ddp_allocated o s -> exists r, ddp_body Or o it s = Some r.
Proof.
  intros Hx Hit (A1 & A2 & A3 & A4). rewrite Hx in A2.
  assert (P1 : exists s1, ddp_evaluate Or o it s = Some s1).
  { unfold ddp_evaluate. destruct (d_store_iterates o) eqn:Es.
    - destruct (put_ok (dm_iterates s) it (dm_out s)) as (l & -> & _); [specialize (A4 eq_refl); lia|]. cbn [bind]. destruct (_ || _); eauto.
    - cbn [bind]. destruct (_ || _); eauto. }
  destruct P1 as [s1 E1]. pose proof (ddp_evaluate_spec _ _ _ E1) as (F1 & O1 & _).
  unfold ddp_body. rewrite E1. cbn [bind].
  assert (P2 : exists s2, ddp_stats Or o it s1 = Some s2).
  { unfold ddp_stats. destruct F1 as (M1 & N1 & L1 & _). destruct ((it <? dm_stat_m s1) && (0 <=? it)) eqn:Eb; [|eexists; reflexivity].
    rewrite N1, A2.
    destruct (put_ok (dm_stat s1) (7 * it + 0) (r_stat (dm_res s1))) as (l1 & -> & B1 & _); [lia|]. cbn [bind].
    destruct (put_ok l1 (7 * it + 1) (r_eq (dm_res s1))) as (l2 & -> & B2 & _); [lia|]. cbn [bind].
    destruct (put_ok l2 (7 * it + 2) (d_cost Or (dm_wd s1))) as (l3 & -> & B3 & _); [lia|]. cbn [bind].
    destruct (put_ok l3 (7 * it + 3) (dm_reg s1)) as (l4 & -> & B4 & _); [lia|]. eexists; reflexivity. }
  destruct P2 as [s2 E2]. rewrite E2. cbn [bind]. pose proof (ddp_stats_spec _ _ _ E2) as (F2 & _).
  destruct (ddp_check o it (dm_res s2) _ _) as [st|]; [eauto|].
  destruct (dframe_trans _ _ _ F1 F2) as (M2 & N2 & L2 & _).
  unfold ddp_qp. destruct (d_qp Or (dm_out s2) (dm_wd s2)) as [[w st] qi]. rewrite Hx. cbn [andb bind].
  destruct (it + 1 <? dm_stat_m s2) eqn:Eb.
  - apply Z.ltb_lt in Eb. rewrite N2, A2.
    destruct (put_ok (dm_stat s2) (7 * (it + 1) + 4) (z2f st)) as (l1 & -> & B1 & _); [lia|]. cbn [bind].
    destruct (put_ok l1 (7 * (it + 1) + 5) (z2f qi)) as (l2 & -> & B2 & _); [lia|]. cbn [bind]. destruct (_ || _); cbn [bind]; eauto.
  - cbn [bind]. destruct (_ || _); cbn [bind]; eauto.
Qed.
Lemma ddp_no_oob s0 : d_ext_qp_res o = false -> ddp_allocated o s0 -> exists s, ddp_call Or o s0 = Some s.
Proof.
  intros Hx HA. unfold ddp_call.
  assert (G : forall n it s, 0 <= it -> Z.of_nat n <= d_max_iter o + 1 - it \/ n = 0%nat -> ddp_allocated o s -> exists s', ddp_loop Or o n it s = Some s').
  { induction n as [|n IH]; intros it s Hi Hn A; cbn [ddp_loop]; [eauto|].
    destruct (ddp_body_some it s Hx ltac:(lia) A) as [r E]. rewrite E. cbn [bind]. destruct r as [s1|s1]; [eauto|].
    apply IH; [lia|lia|]. apply ddp_body_spec in E. inversion E as [| | |? ? ? ? ? ? (M & N & L & L2)]; subst.
    unfold ddp_allocated in *. rewrite M, N, L, L2. exact A. }
  apply G; [lia|lia|]. exact HA.
Qed.
End P.
