(** The iterate log after an SQP call, and the rows of the statistics matrix a call leaves alone. *)
From Coq Require Import ZArith List Bool Lia.
From Verif Require Import FP FPProofs SqpModel SqpSpec SqpProofs SqpTop SqpLogs.
Import ListNotations.
Open Scope Z_scope.

Section P.
Variables iterate world : Type.
Notation mem := (mem iterate world).
Notation event := (event iterate).
Variable Or : oracles iterate world.
Variable opts : sqp_opts.
Notation body := (body Or opts).
Notation check := (check_termination Or opts).
Notation cell := (cell iterate world).
Notation evaluates := (evaluates iterate world opts).
Variable s0 : mem.

Definition of_sum (r : mem + mem) : mem := match r with inl s => s | inr s => s end.

Lemma save_iterates s s1 : save_res_stats Or s = Some s1 -> iterates s1 = iterates s.
Proof.
  unfold save_res_stats. intros H.
  set (t := if iter s =? 0 then set_wd _ _ s (o_glob_init Or (wd s)) else s) in *.
  assert (T : iterates t = iterates s) by (unfold t; destruct (iter s =? 0); reflexivity).
  clearbody t. destruct (iter t <? stat_m t); [|apply (f_equal (fun o => match o with Some x => iterates x | None => iterates t end)) in H; cbn in H; congruence].
  repeat match type of H with (let* _ := put ?l ?i ?v in _) = _ => destruct (put l i v); cbn [bind] in H; [|discriminate H] end.
  injection H as <-. exact T.
Qed.
Lemma timeout_iterates s : iterates (update_timeout Or opts s) = iterates s.
Proof.
  unfold update_timeout. cbv zeta. destruct (fgt _ _); [|reflexivity].
  destruct (o_clock Or (wd (set_wd _ _ s (o_prepare Or (wd s))))). reflexivity.
Qed.
Lemma clock_iterates s : iterates (final_clock Or s) = iterates s.
Proof. unfold final_clock. destruct (o_clock Or (wd s)). reflexivity. Qed.
Lemma qp_iterates s r : solve_qp Or opts s = Some r -> iterates (of_sum r) = iterates s.
Proof.
  unfold solve_qp. destruct (o_qp Or (nlp_out s) (wd s)) as [[w st] qi]. cbv zeta. cbn [iter log set_wd stat_m stat_n stat]. intros H.
  destruct (iter s + 1 <? stat_m s).
  - repeat match type of H with context [put ?l ?i ?v] => destruct (put l i v); cbn [bind] in H; [|try discriminate H] end.
    cbn [ext_qp_res iter stat_m set_stat log set_wd] in H.
    rewrite ?andb_true_r in H. cbn [wd set_stat log set_wd] in H. destruct (_ && _).
    + destruct (o_qp_res Or w) as [[[a0 a1] a2] a3].
      repeat match type of H with context [put ?l ?i ?v] => destruct (put l i v); cbn [bind] in H; [|discriminate H] end.
      destruct (qp_ok st); injection H as <-; cbn [of_sum]; rewrite ?clock_iterates; reflexivity.
    + cbn [bind] in H. destruct (qp_ok st); injection H as <-; cbn [of_sum]; rewrite ?clock_iterates; reflexivity.
  - cbn [bind iter stat_m log set_wd wd] in H. destruct (_ && _).
    + destruct (o_qp_res Or w) as [[[a0 a1] a2] a3].
      repeat match type of H with context [put ?l ?i ?v] => destruct (put l i v); cbn [bind] in H; [|discriminate H] end.
      destruct (qp_ok st); injection H as <-; cbn [of_sum]; rewrite ?clock_iterates; reflexivity.
    + cbn [bind] in H. destruct (qp_ok st); injection H as <-; cbn [of_sum]; rewrite ?clock_iterates; reflexivity.
Qed.
Lemma norms_iterates s s1 : step_norms Or opts s = Some s1 -> iterates s1 = iterates s.
Proof.
  unfold step_norms. intros H.
  match type of H with bind ?a _ = _ => destruct a as [t|] eqn:E; cbn [bind] in H; [|discriminate H] end.
  assert (T : iterates t = iterates s).
  { destruct (_ || _ || _); [|injection E as <-; reflexivity]. cbv zeta in E.
    destruct (log_primal_step_norm opts); [|injection E as <-; reflexivity].
    match type of E with context [put ?l ?i ?v] => destruct (put l i v); cbn [bind] in E; [|discriminate E] end.
    injection E as <-; reflexivity. }
  destruct (_ && _); [|injection H as <-; exact T].
  match type of H with context [put ?l ?i ?v] => destruct (put l i v); cbn [bind] in H; [|discriminate H] end.
  injection H as <-; exact T.
Qed.
Lemma glob_iterates s r : globalize Or s = Some r -> iterates (of_sum r) = iterates s.
Proof.
  unfold globalize. destruct (o_glob Or (nlp_out s) (wd s) (alpha s)) as [[[w x] st] a]. cbv zeta. intros H.
  destruct (st =? ACADOS_SUCCESS); [|injection H as <-; cbn [of_sum]; rewrite clock_iterates; reflexivity].
  destruct (_ <? _); [|injection H as <-; reflexivity].
  match type of H with context [put ?l ?i ?v] => destruct (put l i v); cbn [bind] in H; [|discriminate H] end.
  injection H as <-; reflexivity.
Qed.
Lemma evaluate_iterates s s1 : evaluate Or opts s = Some s1 ->
  if evaluates s && store_iterates opts then put (iterates s) (iter s) (nlp_out s) = Some (iterates s1)
  else iterates s1 = iterates s.
Proof.
  unfold evaluate, SqpProofs.evaluates. destruct (_ || _); cbn [andb]; intros H.
  - destruct (store_iterates opts).
    + destruct (put (iterates s) (iter s) (nlp_out s)) as [l|]; cbn [bind] in H; [|discriminate H].
      injection H as <-. reflexivity.
    + cbn [bind] in H. injection H as <-. reflexivity.
  - injection H as <-. reflexivity.
Qed.
Lemma body_iterates s r : body s = Some r ->
  if evaluates s && store_iterates opts then put (iterates s) (iter s) (nlp_out s) = Some (iterates (of_sum r))
  else iterates (of_sum r) = iterates s.
Proof.
  unfold SqpModel.body. intros H.
  destruct (evaluate Or opts s) as [s1|] eqn:E1; cbn [bind] in H; [|discriminate H].
  destruct (save_res_stats Or s1) as [s2|] eqn:E2; cbn [bind] in H; [|discriminate H].
  pose proof (timeout_iterates s2) as E3. set (s3 := update_timeout Or opts s2) in *. clearbody s3.
  apply save_iterates in E2. apply evaluate_iterates in E1.
  assert (X : iterates (of_sum r) = iterates s1).
  { destruct (check (iter s3) s3) as [st|].
    - injection H as <-. cbn [of_sum]. rewrite clock_iterates. cbn [iterates set_status]. congruence.
    - destruct (solve_qp Or opts s3) as [[s4|s4]|] eqn:E4; cbn [bind] in H; [| |discriminate H]; apply qp_iterates in E4; cbn [of_sum] in E4.
      + injection H as <-. cbn [of_sum]. congruence.
      + destruct (step_norms Or opts s4) as [s5|] eqn:E5; cbn [bind] in H; [|discriminate H].
        apply norms_iterates in E5. apply glob_iterates in H. congruence. }
  rewrite X. exact E1.
Qed.

Definition log_ok (s : mem) (new : list event) : Prop :=
  store_iterates opts = true -> forall k x, nth_error (points new) k = Some x -> nth_error (iterates s) k = Some x.

Lemma points_cons e (l : list event) : points (e :: l) = points l ++ match e with EvRes x _ => [x] | _ => [] end.
Proof. unfold points. cbn. rewrite rev_app_distr. f_equal. destruct e; reflexivity. Qed.

Definition headI (s : mem) : Prop := logs_allocated opts s /\ stat_n s = stat_n s0 /\ 0 <= iter s /\ exists new,
  trace s = new ++ trace s0 /\ Z.of_nat (length (points new)) = iter s /\ log_ok s new /\
  (forall ii jj, 0 <= jj < 4 -> iter s <= ii -> cell s ii jj = cell s0 ii jj).
Definition postI (s : mem) : Prop := logs_allocated opts s /\ stat_n s = stat_n s0 /\ 0 <= iter s <= max_iter opts /\ exists new,
  trace s = new ++ trace s0 /\ iter s <= Z.of_nat (length (points new)) <= iter s + 1 /\ log_ok s new /\
  (forall ii jj, 0 <= jj < 4 -> iter s < ii \/ (ii = iter s /\ Z.of_nat (length (points new)) = iter s /\ status s = ACADOS_QP_FAILURE) ->
     cell s ii jj = cell s0 ii jj).

Lemma body_postI s : headI s -> iter s <= max_iter opts -> match body s with
   | None => True | Some (inl s') => postI s' | Some (inr s') => headI s' /\ iter s' = iter s + 1 end.
Proof.
  intros (HA & HN & Hi0 & new & Htr & Np & Lo & Ce) Him.
  destruct (body s) as [r|] eqn:Hb; [|exact I].
  pose proof (body_iterates _ _ Hb) as Hit.
  apply body_cases in Hb.
  destruct Hb as (s3 & ck & F3 & X3 & I3 & St3 & Ck & Tr3 & R3 & C3 & C3' & Hm).
  destruct (HA) as (A1 & A2 & A3 & A4 & _).
  assert (Hn7 : 7 <= stat_n s) by (rewrite A2; destruct (ext_qp_res opts); lia).
  assert (Hne : ext_qp_res opts = true -> 11 <= stat_n s) by (intros E; rewrite A2, E; lia).
  clear C3. assert (C3n := fun ii jj => C3' ii jj Hn7). clear C3'. rename C3n into C3'. cbn beta in C3'.
  set (ev := if evaluates s then [EvRes (nlp_out s) (nlp_res s3)] else []) in *.
  set (new3 := ck ++ ev ++ new).
  assert (Tr3' : trace s3 = new3 ++ trace s0) by (unfold new3; rewrite Tr3, Htr, !app_assoc; reflexivity).
  assert (Q1 : points new3 = points new ++ (if evaluates s then [nlp_out s] else [])).
  { assert (Hcc : ck = [] \/ exists t, ck = [EvClock t]).
    { unfold clock_step in Ck. destruct (fgt _ _); [destruct Ck as (t & -> & _)|destruct Ck as (-> & _)]; eauto. }
    unfold new3, ev. destruct Hcc as [->|[t ->]]; destruct (evaluates s); cbn [app];
      rewrite ?points_cons, ?app_nil_r; auto. }
  assert (N3 : Z.of_nat (length (points new3)) = iter s + (if evaluates s then 1 else 0)).
  { rewrite Q1, app_length, Nat2Z.inj_add, Np. destruct (evaluates s); reflexivity. }
  (* the log of the final state covers new3 *)
  assert (L3 : log_ok (of_sum r) new3).
  { intros Hs k x Hk. rewrite Q1 in Hk. rewrite Hs, andb_true_r in Hit. destruct (evaluates s).
    - apply put_inv in Hit. destruct Hit as (_ & _ & G1 & G2).
      apply nth_app_last in Hk. unfold get in G1, G2.
      destruct Hk as [Hk|[-> ->]].
      + pose proof (nth_lt _ _ _ Hk) as Hl. specialize (G2 (Z.of_nat k) ltac:(lia)).
        rewrite (proj2 (Z.leb_le 0 _)), Nat2Z.id in G2 by lia. rewrite G2. apply Lo; assumption.
      + rewrite (proj2 (Z.leb_le 0 _)) in G1 by lia. rewrite <- Np, Nat2Z.id in G1. exact G1.
    - rewrite app_nil_r in Hk. rewrite Hit. apply Lo; assumption. }
  assert (Ce3 : forall ii jj, 0 <= jj < 4 -> iter s < ii -> cell s3 ii jj = cell s0 ii jj).
  { intros ii jj Hj Hii. rewrite C3' by lia. apply Ce; lia. }
  assert (HN3 : stat_n s3 = stat_n s0) by (destruct F3 as (_ & -> & _); exact HN).
  destruct (check (iter s) s3) as [st|] eqn:Ec.
  - subst r. cbn [of_sum] in L3. set (s' := set_status _ _ s3 st) in *.
    destruct (final_clock_spec iterate world Or s') as (Ff & Xf & If & Stf & Rf & _ & Sf & Trf & Ef).
    set (sf := final_clock Or s') in *. clearbody sf. subst s'. cbn [nlp_out iter status nlp_res trace estimate stat set_status] in *.
    assert (Cf : forall i j, cell sf i j = cell s3 i j).
    { intros i j. unfold SqpProofs.cell. rewrite Sf. destruct Ff as (_ & -> & _). reflexivity. }
    assert (HAf : logs_allocated opts sf).
    { apply (alloc_frame _ _ opts s3); [apply (alloc_frame _ _ opts s); assumption|exact Ff]. }
    split; [exact HAf|]. split; [destruct Ff as (_ & -> & _); exact HN3|]. split; [lia|].
    exists new3. split; [congruence|]. split; [destruct (evaluates s); lia|]. split; [exact L3|].
    intros ii jj Hj Hc. rewrite Cf. apply Ce3; [exact Hj|].
    destruct Hc as [Hc|(_ & _ & Hc)]; [lia|]. exfalso. rewrite Stf in Hc. rewrite Hc in Ec. clear -Ec. revert Ec. unfold check_termination.
    repeat match goal with |- (if ?b then _ else _) = _ -> _ => destruct b; [intros Ec; unfold ACADOS_NAN_DETECTED, ACADOS_MAXITER, ACADOS_SUCCESS, ACADOS_MINSTEP, ACADOS_UNBOUNDED, ACADOS_TIMEOUT, ACADOS_QP_FAILURE in Ec; discriminate Ec|] end. intros Ec; discriminate Ec.
  - apply check_none in Ec. destruct Ec as (En & Hlt & Hto).
    assert (Hev : evaluates s = true).
    { unfold SqpProofs.evaluates. destruct (Z.eqb_spec (iter s) (max_iter opts)); [lia|reflexivity]. }
    rewrite Hev in N3.
    destruct Hm as (st & qi & s4 & F4 & X4 & R4 & T4 & P4 & Es4 & I4 & St4 & Tr4 & C4 & C4' & Hr).
    set (new4 := EvQP (nlp_out s) st qi :: new3).
    assert (Q4 : points new4 = points new3) by (unfold new4; rewrite points_cons, app_nil_r; reflexivity).
    assert (Ce4 : forall ii jj, 0 <= jj < 4 -> iter s < ii -> cell s4 ii jj = cell s0 ii jj).
    { intros ii jj Hj Hii. rewrite C4' by (auto; lia). apply Ce3; lia. }
    assert (HN4 : stat_n s4 = stat_n s0) by (destruct F4 as (_ & -> & _); exact HN3).
    assert (HA4 : logs_allocated opts s4).
    { apply (alloc_frame _ _ opts s3); [apply (alloc_frame _ _ opts s); assumption|exact F4]. }
    destruct Hr as [[Hq ->]|[Hq Hr]].
    + cbn [of_sum] in L3. set (s' := set_status _ _ _ _) in *.
      destruct (final_clock_spec iterate world Or s') as (Ff & Xf & If & Stf & Rf & _ & Sf & Trf & Ef).
      set (sf := final_clock Or s') in *. clearbody sf. subst s'. cbn [nlp_out iter status nlp_res trace estimate stat set_status set_iter] in *.
      assert (Cf : forall i j, cell sf i j = cell s4 i j).
      { intros i j. unfold SqpProofs.cell. rewrite Sf. destruct Ff as (_ & -> & _). reflexivity. }
      split; [apply (alloc_frame _ _ opts s4); [exact HA4|exact Ff]|]. split; [destruct Ff as (_ & -> & _); exact HN4|]. split; [lia|].
      exists new4. split; [rewrite Trf, Tr4, Tr3'; reflexivity|]. split; [rewrite Q4; lia|].
      split; [unfold log_ok; rewrite Q4; exact L3|].
      intros ii jj Hj Hc. rewrite Cf. apply Ce4; [exact Hj|lia].
    + destruct Hr as (x & gst & a & s6 & F6 & X6 & I6 & St6 & R6 & T6 & Es6 & P6 & Tr6 & C6 & C6' & Hr).
      set (new6 := EvGlob (nlp_out s) x gst a :: new4).
      assert (Q6 : points new6 = points new3) by (unfold new6; rewrite points_cons, app_nil_r; exact Q4).
      assert (Ce6 : forall ii jj, 0 <= jj < 4 -> iter s < ii -> cell s6 ii jj = cell s0 ii jj).
      { intros ii jj Hj Hii. rewrite C6' by lia. apply Ce4; lia. }
      assert (HN6 : stat_n s6 = stat_n s0) by (destruct F6 as (_ & -> & _); exact HN4).
      assert (HA6 : logs_allocated opts s6) by (apply (alloc_frame _ _ opts s4); assumption).
      destruct Hr as [[Hgs ->]|[Hgs ->]].
      * cbn [of_sum] in L3. cbn [iter set_iter]. split; [|lia]. split; [exact HA6|]. split; [exact HN6|]. cbn [iter set_iter]. split; [lia|].
        exists new6. split; [cbn; rewrite Tr6, Tr4, Tr3'; reflexivity|]. split; [rewrite Q6; lia|].
        split; [unfold log_ok; rewrite Q6; exact L3|].
        intros ii jj Hj Hii. change (cell s6 ii jj = cell s0 ii jj). apply Ce6; lia.
      * cbn [of_sum] in L3. set (s' := set_status _ _ _ _) in *.
        destruct (final_clock_spec iterate world Or s') as (Ff & Xf & If & Stf & Rf & _ & Sf & Trf & Ef).
        set (sf := final_clock Or s') in *. clearbody sf. subst s'. cbn [nlp_out iter status nlp_res trace estimate stat set_status set_iter] in *.
        assert (Cf : forall i j, cell sf i j = cell s6 i j).
        { intros i j. unfold SqpProofs.cell. rewrite Sf. destruct Ff as (_ & -> & _). reflexivity. }
        split; [apply (alloc_frame _ _ opts s6); [exact HA6|exact Ff]|]. split; [destruct Ff as (_ & -> & _); exact HN6|]. split; [lia|].
        exists new6. split; [rewrite Trf, Tr6, Tr4, Tr3'; reflexivity|]. split; [rewrite Q6; lia|].
        split; [unfold log_ok; rewrite Q6; exact L3|].
        intros ii jj Hj Hc. rewrite Cf. apply Ce6; [exact Hj|]. rewrite Q6 in Hc. lia.
Qed.

Theorem run_postI s : 0 <= max_iter opts -> logs_allocated opts s0 -> sqp_call Or opts s0 = Some s -> postI s.
Proof.
  intros Hm HA H.
  assert (R : (postI s) \/ ((headI s /\ iter s <= max_iter opts) /\ iter s = max_iter opts + 1)).
  { eapply loop_rule with (I := fun s => headI s /\ iter s <= max_iter opts); [| | |exact H].
    - intros s1 [Hh Hle] _. pose proof (body_postI s1 Hh Hle) as B. destruct (body s1) as [[s2|s2]|] eqn:E; auto.
      apply body_lt in E. destruct B as [B1 B2]. split; [split; [exact B1|lia]|exact B2].
    - split; [|cbn; lia]. split; [revert HA; unfold logs_allocated; cbn; auto|]. split; [reflexivity|]. split; [cbn; lia|].
      exists []. split; [reflexivity|]. split; [reflexivity|]. split; [intros _ k; destruct k; cbn; discriminate|].
      intros ii jj _ _. reflexivity.
    - cbn. lia. }
  destruct R as [R|[[_ R1] R2]]; [exact R|lia].
Qed.

Theorem sqp_iterate_log s : 0 <= max_iter opts -> sqp_call Or opts s0 = Some s -> logs_allocated opts s0 ->
  store_iterates opts = true -> exists new, trace s = new ++ trace s0 /\
  iter s <= Z.of_nat (length (points new)) <= iter s + 1 /\
  forall k x, nth_error (points new) k = Some x -> nth_error (iterates s) k = Some x.
Proof.
  intros Hm H HA Hs. destruct (run_postI s Hm HA H) as (_ & _ & _ & new & T & L & O & _).
  exists new. split; [exact T|]. split; [exact L|]. apply O, Hs.
Qed.
Theorem sqp_untouched s : 0 <= max_iter opts -> sqp_call Or opts s0 = Some s -> logs_allocated opts s0 ->
  exists new, trace s = new ++ trace s0 /\
  forall ii jj, 0 <= jj < 4 -> 0 <= ii ->
    iter s < ii \/ (ii = iter s /\ Z.of_nat (length (points new)) = iter s /\ status s = ACADOS_QP_FAILURE) ->
    nth_error (stat s) (Z.to_nat (jj + ii * stat_n s)) = nth_error (stat s0) (Z.to_nat (jj + ii * stat_n s0)).
Proof.
  intros Hm H HA. destruct (run_postI s Hm HA H) as (_ & HN & Hi & new & T & L & _ & C).
  exists new. split; [exact T|]. intros ii jj Hj Hi0 Hc. specialize (C ii jj Hj Hc).
  assert (0 <= stat_n s0) by (destruct HA as (_ & -> & _); destruct (ext_qp_res opts); lia).
  unfold SqpProofs.cell, get in C. rewrite HN in C |- *. rewrite (proj2 (Z.leb_le 0 _)) in C by nia. exact C.
Qed.
End P.
