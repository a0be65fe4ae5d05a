(** What the statistics matrix contains after an SQP call. *)
From Coq Require Import ZArith List Bool Lia.
From Verif Require Import FP FPProofs SqpModel SqpSpec SqpProofs SqpTop.
Import ListNotations.
Open Scope Z_scope.

Section P.
Variables iterate world : Type.
Notation mem := (mem iterate world).
Notation event := (event iterate).
Variable Or : oracles iterate world.
Variable opts : sqp_opts.
Notation body := (body Or opts).
Notation loop := (loop Or opts).
Notation check := (check_termination Or opts).
Notation frame_logs := (frame_logs iterate world).
Notation cell := (cell iterate world).
Notation evaluates := (evaluates iterate world opts).
Variable s0 : mem.

Definition res_at (s : mem) (k : Z) (r : res4) : Prop :=
  cell s k 0 = Some (r_stat r) /\ cell s k 1 = Some (r_eq r) /\ cell s k 2 = Some (r_ineq r) /\ cell s k 3 = Some (r_comp r).

Definition logged (s : mem) (new : list event) : Prop :=
  (forall k r, nth_error (residuals new) k = Some r -> res_at s (Z.of_nat k) r) /\
  (forall k st qi, nth_error (qp_results new) k = Some (st, qi) ->
     cell s (Z.of_nat k + 1) 4 = Some (z2f st) /\ cell s (Z.of_nat k + 1) 5 = Some (z2f qi)) /\
  (forall k a, nth_error (step_lengths new) k = Some a -> Z.of_nat k < iter s -> cell s (Z.of_nat k + 1) 6 = Some a).

Definition head6 (s : mem) : Prop := logs_allocated opts s /\ 0 <= iter s /\ exists new,
  trace s = new ++ trace s0 /\
  Z.of_nat (length (residuals new)) = iter s /\ Z.of_nat (length (qp_results new)) = iter s /\
  Z.of_nat (length (step_lengths new)) = iter s /\ logged s new.

Definition post6 (s : mem) : Prop := logs_allocated opts s /\ 0 <= iter s <= max_iter opts /\ exists new,
  trace s = new ++ trace s0 /\ logged s new /\
  iter s <= Z.of_nat (length (residuals new)) <= iter s + 1 /\
  iter s <= Z.of_nat (length (qp_results new)) /\
  (status s <> ACADOS_QP_FAILURE -> res_at s (iter s) (nlp_res s)).

Lemma nth_app_last {A} (l : list A) a k x : nth_error (l ++ [a]) k = Some x ->
  nth_error l k = Some x \/ (k = length l /\ x = a).
Proof.
  intros H. destruct (Nat.lt_ge_cases k (length l)) as [L|L].
  - left. rewrite nth_error_app1 in H; auto.
  - right. rewrite nth_error_app2 in H by lia. destruct (k - length l)%nat as [|n] eqn:E; cbn in H.
    + split; [lia|congruence].
    + destruct n; discriminate H.
Qed.
Lemma nth_lt {A} (l : list A) k x : nth_error l k = Some x -> (k < length l)%nat.
Proof. intros H. apply nth_error_Some. congruence. Qed.

Lemma residuals_cons e (l : list event) : residuals (e :: l) =
  residuals l ++ match e with EvRes _ r => [r] | _ => [] end.
Proof. unfold residuals. cbn. rewrite rev_app_distr. f_equal. destruct e; reflexivity. Qed.
Lemma qp_results_cons e (l : list event) : qp_results (e :: l) =
  qp_results l ++ match e with EvQP _ st qi => [(st,qi)] | _ => [] end.
Proof. unfold qp_results. cbn. rewrite rev_app_distr. f_equal. destruct e; reflexivity. Qed.
Lemma step_lengths_cons e (l : list event) : step_lengths (e :: l) =
  step_lengths l ++ match e with EvGlob _ _ _ a => [a] | _ => [] end.
Proof. unfold step_lengths. cbn. rewrite rev_app_distr. f_equal. destruct e; reflexivity. Qed.

Lemma body_post6 s : head6 s -> iter s <= max_iter opts -> match body s with
   | None => True | Some (inl s') => post6 s' \/ status s' = ACADOS_QP_FAILURE /\ post6 s' | Some (inr s') => head6 s' /\ iter s' = iter s + 1 end.
Proof.
  intros (HA & Hi0 & new & Htr & Nr & Nq & Ns & L1 & L2 & L3) Him.
  destruct (body s) as [r|] eqn:Hb; [|exact I].
  apply body_cases in Hb.
  destruct Hb as (s3 & ck & F3 & X3 & I3 & St3 & Ck & Tr3 & R3 & C3 & C3' & Hm).
  destruct (HA) as (A1 & A2 & A3 & _).
  assert (Hn7 : 7 <= stat_n s) by (rewrite A2; destruct (ext_qp_res opts); lia).
  assert (Hne : ext_qp_res opts = true -> 11 <= stat_n s) by (intros E; rewrite A2, E; lia).
  specialize (C3 ltac:(lia)). assert (C3n := fun ii jj => C3' ii jj Hn7). clear C3'. rename C3n into C3'. cbn beta in C3'.
  set (ev := if evaluates s then [EvRes (nlp_out s) (nlp_res s3)] else []) in *.
  set (new3 := ck ++ ev ++ new).
  assert (Tr3' : trace s3 = new3 ++ trace s0) by (unfold new3; rewrite Tr3, Htr, !app_assoc; reflexivity).
  assert (Hnew3 : (residuals new3 = residuals new ++ (if evaluates s then [nlp_res s3] else [])) /\ qp_results new3 = qp_results new /\ step_lengths new3 = step_lengths new).
  { assert (Hcc : ck = [] \/ exists t, ck = [EvClock t]).
    { unfold clock_step in Ck. destruct (fgt _ _); [destruct Ck as (t & -> & _)|destruct Ck as (-> & _)]; eauto. }
    unfold new3, ev. destruct Hcc as [->|[t ->]]; destruct (evaluates s); cbn [app];
      rewrite ?residuals_cons, ?qp_results_cons, ?step_lengths_cons, ?app_nil_r; auto. }
  destruct Hnew3 as (Q1 & Q2 & Q3).
  assert (K1 : forall k r, nth_error (residuals new3) k = Some r -> res_at s3 (Z.of_nat k) r).
  { intros k r' Hk. rewrite Q1 in Hk. assert (Hk' : nth_error (residuals new) k = Some r' \/ (Z.of_nat k = iter s /\ r' = nlp_res s3)).
    { destruct (evaluates s); [apply nth_app_last in Hk; destruct Hk as [Hk|[-> ->]]; [auto|right; split; [exact Nr|reflexivity]]|rewrite app_nil_r in Hk; auto]. }
    destruct Hk' as [Hk'|[-> ->]]; [|exact C3].
    pose proof (nth_lt _ _ _ Hk'). destruct (L1 _ _ Hk') as (a & b & c & d).
    unfold res_at. rewrite !C3' by lia. auto. }
  assert (K2 : forall k st qi, nth_error (qp_results new3) k = Some (st, qi) ->
     cell s3 (Z.of_nat k + 1) 4 = Some (z2f st) /\ cell s3 (Z.of_nat k + 1) 5 = Some (z2f qi)).
  { intros k st qi Hk. rewrite Q2 in Hk. rewrite !C3' by lia. apply L2, Hk. }
  assert (K3 : forall k a, nth_error (step_lengths new3) k = Some a -> cell s3 (Z.of_nat k + 1) 6 = Some a).
  { intros k a Hk. rewrite Q3 in Hk. rewrite !C3' by lia. apply L3; [exact Hk|]. apply nth_lt in Hk. lia. }
  assert (Nr3 : Z.of_nat (length (residuals new3)) = iter s + (if evaluates s then 1 else 0)).
  { rewrite Q1, app_length, Nat2Z.inj_add, Nr. destruct (evaluates s); reflexivity. }
  destruct (check (iter s) s3) as [st|] eqn:Ec.
  - subst r. left. set (s' := set_status _ _ s3 st).
    destruct (final_clock_spec iterate world Or s') as (Ff & Xf & If & Stf & Rf & _ & Sf & Trf & Ef).
    set (sf := final_clock Or s') in *. clearbody sf. subst s'. cbn [nlp_out iter status nlp_res trace estimate stat set_status] in *.
    assert (Cf : forall i j, cell sf i j = cell s3 i j).
    { intros i j. unfold SqpProofs.cell. rewrite Sf. destruct Ff as (_ & -> & _). reflexivity. }
    assert (HAf : logs_allocated opts sf).
    { apply (alloc_frame _ _ opts s3); [apply (alloc_frame _ _ opts s); assumption|exact Ff]. }
    split; [exact HAf|]. split; [lia|].
    exists new3. split; [congruence|]. split.
    { unfold logged, res_at. split; [|split]; intros; rewrite !Cf; [apply K1|apply K2|apply K3]; assumption. }
    split; [destruct (evaluates s); lia|]. split; [rewrite Q2; lia|].
    intros _. unfold res_at. rewrite !Cf, If, I3, Rf. exact C3.
  - apply check_none in Ec. destruct Ec as (En & Hlt & Hto).
    assert (Hev : evaluates s = true).
    { unfold SqpProofs.evaluates. destruct (Z.eqb_spec (iter s) (max_iter opts)); [lia|reflexivity]. }
    rewrite Hev in Nr3.
    destruct Hm as (st & qi & s4 & F4 & X4 & R4 & T4 & P4 & Es4 & I4 & St4 & Tr4 & C4 & C4' & Hr).
    specialize (C4 ltac:(lia)).
    assert (C4'' : forall ii jj, 0 <= jj < stat_n s -> ii <> iter s + 1 \/ jj < 4 \/ jj = 6 -> cell s4 ii jj = cell s3 ii jj) by (intros; apply C4'; auto).
    set (new4 := EvQP (nlp_out s) st qi :: new3).
    assert (M1 : forall k r, nth_error (residuals new4) k = Some r -> res_at s4 (Z.of_nat k) r).
    { intros k r' Hk. unfold new4 in Hk. rewrite residuals_cons, app_nil_r in Hk. destruct (K1 _ _ Hk) as (a & b & c & d).
      unfold res_at. rewrite !C4'' by lia. auto. }
    assert (M2 : forall k st qi, nth_error (qp_results new4) k = Some (st, qi) ->
       cell s4 (Z.of_nat k + 1) 4 = Some (z2f st) /\ cell s4 (Z.of_nat k + 1) 5 = Some (z2f qi)).
    { intros k st' qi' Hk. unfold new4 in Hk. rewrite qp_results_cons in Hk. apply nth_app_last in Hk.
      destruct Hk as [Hk|[-> E]].
      - pose proof (nth_lt _ _ _ Hk) as Hl. rewrite Q2 in Hl. rewrite !C4'' by lia. apply K2, Hk.
      - injection E as -> ->. rewrite Q2, Nq. exact C4. }
    assert (M3 : forall k a, nth_error (step_lengths new4) k = Some a -> cell s4 (Z.of_nat k + 1) 6 = Some a).
    { intros k a Hk. unfold new4 in Hk. rewrite step_lengths_cons, app_nil_r in Hk. rewrite C4'' by lia. apply K3, Hk. }
    assert (Nr4 : length (residuals new4) = length (residuals new3)) by (unfold new4; rewrite residuals_cons, app_nil_r; reflexivity).
    assert (Nq4 : Z.of_nat (length (qp_results new4)) = iter s + 1).
    { unfold new4. rewrite qp_results_cons, app_length, Q2. cbn [length]. lia. }
    assert (HA4 : logs_allocated opts s4).
    { apply (alloc_frame _ _ opts s3); [apply (alloc_frame _ _ opts s); assumption|exact F4]. }
    destruct Hr as [[Hq ->]|[Hq Hr]].
    + right. set (s' := set_status _ _ _ _).
      destruct (final_clock_spec iterate world Or s') as (Ff & Xf & If & Stf & Rf & _ & Sf & Trf & Ef).
      set (sf := final_clock Or s') in *. clearbody sf. subst s'. cbn [nlp_out iter status nlp_res trace estimate stat set_status set_iter] in *.
      assert (Cf : forall i j, cell sf i j = cell s4 i j).
      { intros i j. unfold SqpProofs.cell. rewrite Sf. destruct Ff as (_ & -> & _). reflexivity. }
      split; [exact Stf|].
      split; [apply (alloc_frame _ _ opts s4); [exact HA4|exact Ff]|]. split; [lia|].
      exists new4. split; [rewrite Trf, Tr4, Tr3'; reflexivity|]. split.
      { unfold logged, res_at. split; [|split]; intros; rewrite !Cf; [apply M1|apply M2|apply M3]; assumption. }
      split; [lia|]. split; [lia|]. intros []; exact Stf.
    + destruct Hr as (x & gst & a & s6 & F6 & X6 & I6 & St6 & R6 & T6 & Es6 & P6 & Tr6 & C6 & C6' & Hr).
      specialize (C6 ltac:(lia)). assert (C6n := fun ii jj => C6' ii jj Hn7). clear C6'. rename C6n into C6'. cbn beta in C6'.
      set (new6 := EvGlob (nlp_out s) x gst a :: new4).
      assert (O1 : forall k r, nth_error (residuals new6) k = Some r -> res_at s6 (Z.of_nat k) r).
      { intros k r' Hk. unfold new6 in Hk. rewrite residuals_cons, app_nil_r in Hk. destruct (M1 _ _ Hk) as (a' & b & c & d).
        unfold res_at. rewrite !C6' by lia. auto. }
      assert (O2 : forall k st qi, nth_error (qp_results new6) k = Some (st, qi) ->
         cell s6 (Z.of_nat k + 1) 4 = Some (z2f st) /\ cell s6 (Z.of_nat k + 1) 5 = Some (z2f qi)).
      { intros k st' qi' Hk. unfold new6 in Hk. rewrite qp_results_cons, app_nil_r in Hk.
        rewrite !C6' by lia. apply M2, Hk. }
      assert (O3 : forall k a, nth_error (step_lengths new6) k = Some a -> (gst = ACADOS_SUCCESS \/ Z.of_nat k < iter s) -> cell s6 (Z.of_nat k + 1) 6 = Some a).
      { intros k a' Hk Hor. unfold new6 in Hk. rewrite step_lengths_cons in Hk. apply nth_app_last in Hk.
        assert (Hsl : step_lengths new4 = step_lengths new) by (unfold new4; rewrite step_lengths_cons, app_nil_r; exact Q3).
        destruct Hk as [Hk|[-> ->]].
        - pose proof (nth_lt _ _ _ Hk) as Hl. rewrite Hsl in Hl. rewrite C6' by lia. apply M3, Hk.
        - rewrite Hsl in *. rewrite Ns in *. destruct Hor as [Hor|Hor]; [apply C6, Hor|lia]. }
      assert (HA6 : logs_allocated opts s6) by (apply (alloc_frame _ _ opts s4); assumption).
      assert (Nr6 : length (residuals new6) = length (residuals new3)) by (unfold new6; rewrite residuals_cons, app_nil_r; exact Nr4).
      assert (Nq6 : Z.of_nat (length (qp_results new6)) = iter s + 1) by (unfold new6; rewrite qp_results_cons, app_nil_r; exact Nq4).
      destruct Hr as [[Hgs ->]|[Hgs ->]].
      * cbn [iter set_iter]. split; [|lia]. split; [exact HA6|]. cbn [iter set_iter]. split; [lia|].
        exists new6. split; [cbn; rewrite Tr6, Tr4, Tr3'; reflexivity|]. split; [lia|]. split; [lia|].
        split. { unfold new6, new4. rewrite !step_lengths_cons, !app_length, Q3. cbn [length]. lia. }
        split; [exact O1|]. split; [exact O2|]. intros k a' Hk _. apply O3; auto.
      * left. set (s' := set_status _ _ _ _).
        destruct (final_clock_spec iterate world Or s') as (Ff & Xf & If & Stf & Rf & _ & Sf & Trf & Ef).
        set (sf := final_clock Or s') in *. clearbody sf. subst s'. cbn [nlp_out iter status nlp_res trace estimate stat set_status set_iter] in *.
        assert (Cf : forall i j, cell sf i j = cell s6 i j).
        { intros i j. unfold SqpProofs.cell. rewrite Sf. destruct Ff as (_ & -> & _). reflexivity. }
        split; [apply (alloc_frame _ _ opts s6); [exact HA6|exact Ff]|]. split; [lia|].
        exists new6. split; [rewrite Trf, Tr6, Tr4, Tr3'; reflexivity|]. split.
        { unfold logged, res_at. split; [|split]; intros; rewrite !Cf; [apply O1|apply O2|apply O3; [|right; lia]]; assumption. }
        split; [lia|]. split; [lia|].
        intros _. unfold res_at. rewrite !Cf, If, I6, I4, I3, Rf, R6, R4. rewrite !C6' by lia. rewrite !C4'' by lia. exact C3.
Qed.

Theorem run_post6 s : 0 <= max_iter opts -> logs_allocated opts s0 -> sqp_call Or opts s0 = Some s -> post6 s.
Proof.
  intros Hm HA H.
  assert (R : (post6 s) \/ ((head6 s /\ iter s <= max_iter opts) /\ iter s = max_iter opts + 1)).
  { eapply loop_rule with (I := fun s => head6 s /\ iter s <= max_iter opts); [| | |exact H].
    - intros s1 [Hh Hle] _. pose proof (body_post6 s1 Hh Hle) as B. destruct (body s1) as [[s2|s2]|] eqn:E; auto.
      + tauto.
      + apply body_lt in E. destruct B as [B1 B2]. split; [split; [exact B1|lia]|exact B2].
    - split; [|cbn; lia]. split; [revert HA; unfold logs_allocated; cbn; auto|]. split; [cbn; lia|].
      exists []. split; [reflexivity|]. do 3 (split; [reflexivity|]). unfold logged; split; [|split]; intros k; destruct k; cbn; discriminate.
    - cbn. lia. }
  destruct R as [R|[[_ R1] R2]]; [exact R|lia].
Qed.

(** report is cell, inside the reported rows *)
Lemma report_cell s ii jj : logs_allocated opts s -> 0 <= iter s <= max_iter opts ->
  0 <= ii <= iter s -> 0 <= jj < stat_n s -> report s ii jj = cell s ii jj.
Proof.
  intros (A1 & A2 & A3 & _) Hi Hii Hj. unfold report, stat_rows, SqpProofs.cell, get.
  destruct (Z.ltb_spec (stat_m s) (iter s + 1)); [lia|].
  destruct (Z.leb_spec 0 ii); [|lia]. destruct (Z.ltb_spec ii (iter s + 1)); [|lia].
  destruct (Z.leb_spec 0 jj); [|lia]. destruct (Z.ltb_spec jj (stat_n s)); [|lia]. cbn [andb].
  destruct (Z.leb_spec 0 (jj + ii * stat_n s)); [reflexivity|nia].
Qed.
End P.
