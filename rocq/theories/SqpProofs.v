(** Proofs about the SQP driver model. *)
From Coq Require Import ZArith List Bool Lia.
From Verif Require Import FP FPProofs SqpModel SqpSpec.
Import ListNotations.
Open Scope Z_scope.

(** ** array stores *)
Definition get {A} (l : list A) (i : Z) : option A := if 0 <=? i then nth_error l (Z.to_nat i) else None.

Lemma put_none {A} (l : list A) i v : put l i v = None <-> ~ (0 <= i < Z.of_nat (length l)).
Proof. unfold put. destruct (Z.leb_spec 0 i), (Z.ltb_spec i (Z.of_nat (length l))); cbn; split; try lia; try discriminate; reflexivity. Qed.

Lemma put_ok {A} (l : list A) i v : 0 <= i < Z.of_nat (length l) ->
  exists l', put l i v = Some l' /\ length l' = length l /\ get l' i = Some v /\
             forall j, j <> i -> get l' j = get l j.
Proof.
  intros Hi. unfold put. destruct (Z.leb_spec 0 i); [|lia]. destruct (Z.ltb_spec i (Z.of_nat (length l))); [|lia].
  cbn [andb]. eexists. split; [reflexivity|].
  assert (Hn : (Z.to_nat i < length l)%nat) by lia.
  assert (Hf : length (firstn (Z.to_nat i) l) = Z.to_nat i) by (rewrite firstn_length; lia).
  split; [rewrite app_length; cbn [length]; rewrite skipn_length, Hf; lia|]. split.
  - unfold get. destruct (Z.leb_spec 0 i); [|lia]. rewrite nth_error_app2 by lia. rewrite Hf, Nat.sub_diag. reflexivity.
  - intros j Hj. unfold get. destruct (Z.leb_spec 0 j); [|reflexivity].
    assert (Hne : Z.to_nat j <> Z.to_nat i) by lia.
    destruct (lt_dec (Z.to_nat j) (Z.to_nat i)) as [Hlt|Hge].
    + rewrite nth_error_app1 by lia. 
      rewrite <- (firstn_skipn (Z.to_nat i) l) at 2. rewrite nth_error_app1 by lia. reflexivity.
    + rewrite nth_error_app2 by lia. rewrite Hf.
      destruct (Z.to_nat j - Z.to_nat i)%nat as [|m] eqn:Hm; [lia|]. cbn [nth_error].
      rewrite <- (firstn_skipn (S (Z.to_nat i)) l) at 2. rewrite nth_error_app2 by (rewrite firstn_length; lia).
      rewrite firstn_length. f_equal. lia.
Qed.
Lemma put_inv {A} (l l' : list A) i v : put l i v = Some l' ->
  0 <= i < Z.of_nat (length l) /\ length l' = length l /\ get l' i = Some v /\ forall j, j <> i -> get l' j = get l j.
Proof.
  intros H. assert (Hi : 0 <= i < Z.of_nat (length l)).
  { destruct (Z_le_dec 0 i), (Z_lt_dec i (Z.of_nat (length l))); try lia; 
    exfalso; rewrite (proj2 (put_none l i v)) in H by lia; discriminate. }
  split; [exact Hi|]. destruct (put_ok l i v Hi) as (l2 & H2 & Hr). rewrite H in H2. injection H2 as <-. exact Hr.
Qed.

Section P.
Variables iterate world : Type.
Notation mem := (mem iterate world).
Notation event := (event iterate).
Variable Or : oracles iterate world.
Variable opts : sqp_opts.
Notation body := (body Or opts).
Notation loop := (loop Or opts).
Notation check := (check_termination Or opts).

(** ** a generic rule for the loop: head invariant + exit postcondition *)
Lemma loop_rule (I Q : mem -> Prop) :
  (forall s, I s -> iter s <= max_iter opts -> match body s with
     | None => True | Some (inl s') => Q s' | Some (inr s') => I s' /\ iter s' = iter s + 1 end) ->
  forall n s s', I s -> Z.of_nat n = max_iter opts + 1 - iter s -> loop n s = Some s' ->
    Q s' \/ (I s' /\ iter s' = max_iter opts + 1).
Proof.
  intros HB. induction n as [|n IH]; intros s s' HI Hn Hl; cbn in Hl.
  - injection Hl as <-. right; split; [exact HI|lia].
  - specialize (HB s HI ltac:(lia)). destruct (body s) as [[s1|s1]|]; cbn in Hl.
    + injection Hl as <-. left; exact HB.
    + destruct HB as [HI1 Hi]. apply (IH s1 s'); [exact HI1|lia|exact Hl].
    + discriminate.
Qed.
(** absence of undefined behaviour *)
Lemma loop_some (I : mem -> Prop) :
  (forall s, I s -> iter s <= max_iter opts -> match body s with
     | None => False | Some (inl s') => True | Some (inr s') => I s' /\ iter s' = iter s + 1 end) ->
  forall n s, I s -> Z.of_nat n = max_iter opts + 1 - iter s -> exists s', loop n s = Some s'.
Proof.
  intros HB. induction n as [|n IH]; intros s HI Hn; cbn.
  - eexists; reflexivity.
  - specialize (HB s HI ltac:(lia)). destruct (body s) as [[s1|s1]|]; cbn.
    + eexists; reflexivity.
    + destruct HB as [HI1 Hi]. apply IH; [exact HI1|lia].
    + destruct HB.
Qed.
(** ** phases *)
Ltac inv_some H := apply (f_equal (fun o => o)) in H; injection H as <-.
Ltac binds H := repeat match type of H with
  | bind ?x _ = Some _ => let E := fresh "E" in destruct x eqn:E; cbn [bind] in H; [|discriminate H]
  end.

Definition frame_logs (s s1 : mem) : Prop :=
  stat_m s1 = stat_m s /\ stat_n s1 = stat_n s /\ length (stat s1) = length (stat s) /\
  length (iterates s1) = length (iterates s) /\ length (psn s1) = length (psn s) /\
  length (dsn s1) = length (dsn s).

Definition evaluates (s : mem) : bool := negb (iter s =? max_iter opts) || eval_residual_at_max_iter opts.

Lemma evaluate_spec s s1 : evaluate Or opts s = Some s1 ->
  frame_logs s s1 /\ nlp_out s1 = nlp_out s /\ iter s1 = iter s /\ status s1 = status s /\
  step_norm s1 = step_norm s /\ time_tot s1 = time_tot s /\ estimate s1 = estimate s /\
  prev_time_tot s1 = prev_time_tot s /\ stat s1 = stat s /\
  (if evaluates s then trace s1 = EvRes (nlp_out s) (nlp_res s1) :: trace s
   else s1 = s).
Proof.
  unfold evaluate, evaluates. destruct (negb (iter s =? max_iter opts) || eval_residual_at_max_iter opts).
  - intros H. destruct (store_iterates opts).
    + unfold bind in H at 2. destruct (put (iterates s) (iter s) (nlp_out s)) as [l|] eqn:E; [|discriminate H].
      apply put_inv in E. destruct E as (_ & E & _). cbn [bind] in H. injection H as <-.
      unfold frame_logs; cbn; repeat split; auto.
    + cbn [bind] in H. injection H as <-. unfold frame_logs; cbn; repeat split; auto.
  - intros H; injection H as <-. unfold frame_logs; repeat split.
Qed.

Lemma evaluate_some s : 0 <= iter s <= max_iter opts ->
  (store_iterates opts = true -> Z.of_nat (length (iterates s)) = max_iter opts + 1) ->
  exists s1, evaluate Or opts s = Some s1.
Proof.
  intros Hi Ha. unfold evaluate. destruct (negb _ || _); [|eexists; reflexivity].
  destruct (store_iterates opts) eqn:Es; [|eexists; reflexivity].
  destruct (put_ok (iterates s) (iter s) (nlp_out s)) as (l & -> & _); [specialize (Ha eq_refl); lia|].
  eexists; reflexivity.
Qed.

(** cell (row, column) of the statistics table *)
Definition cell (s : mem) (ii jj : Z) : option double := get (stat s) (jj + ii * stat_n s).

Lemma save_spec s s1 : save_res_stats Or s = Some s1 ->
  frame_logs s s1 /\ nlp_out s1 = nlp_out s /\ iter s1 = iter s /\ status s1 = status s /\
  nlp_res s1 = nlp_res s /\
  step_norm s1 = step_norm s /\ time_tot s1 = time_tot s /\ estimate s1 = estimate s /\
  prev_time_tot s1 = prev_time_tot s /\ trace s1 = trace s /\
  (iter s < stat_m s ->
     cell s1 (iter s) 0 = Some (r_stat (nlp_res s)) /\ cell s1 (iter s) 1 = Some (r_eq (nlp_res s)) /\
     cell s1 (iter s) 2 = Some (r_ineq (nlp_res s)) /\ cell s1 (iter s) 3 = Some (r_comp (nlp_res s))) /\
  (forall ii jj, 7 <= stat_n s -> 0 <= jj < stat_n s -> ii <> iter s \/ 4 <= jj -> cell s1 ii jj = cell s ii jj).
Proof.
  unfold save_res_stats. 
  set (s' := if iter s =? 0 then _ else s).
  assert (Hs' : stat_m s' = stat_m s /\ stat_n s' = stat_n s /\ stat s' = stat s /\ iterates s' = iterates s /\ psn s' = psn s /\ dsn s' = dsn s /\
     nlp_out s' = nlp_out s /\ iter s' = iter s /\ status s' = status s /\ nlp_res s' = nlp_res s /\
     step_norm s' = step_norm s /\ time_tot s' = time_tot s /\ estimate s' = estimate s /\
     prev_time_tot s' = prev_time_tot s /\ trace s' = trace s).
  { unfold s'; destruct (iter s =? 0); cbn; repeat split. }
  destruct Hs' as (M&N&T&I&Pn&D&X&It&S&R&St&Tt&Es&Pt&Tr). clearbody s'.
  destruct (Z.ltb_spec (iter s') (stat_m s')) as [Hlt|Hge]; intros H.
  - repeat match type of H with bind ?x _ = Some _ =>
      let l := fresh "l" in let E := fresh "E" in
      destruct x as [l|] eqn:E; cbn [bind] in H; [apply put_inv in E; destruct E as (? & ? & ? & ?)|discriminate H] end.
    injection H as <-. unfold frame_logs, cell. cbn [stat_m stat_n stat iterates psn dsn nlp_out iter status nlp_res step_norm time_tot estimate prev_time_tot trace set_stat].
    rewrite M, N, T, I, Pn, D, It, R in *.
    set (b := stat_n s * iter s) in *.
    replace (0 + iter s * stat_n s) with (b + 0) by (unfold b; ring).
    replace (1 + iter s * stat_n s) with (b + 1) by (unfold b; ring).
    replace (2 + iter s * stat_n s) with (b + 2) by (unfold b; ring).
    replace (3 + iter s * stat_n s) with (b + 3) by (unfold b; ring).
    repeat (match goal with |- _ /\ _ => split end); try congruence.
    + intros _. repeat split; repeat (first [assumption | match goal with
        | H : forall j, j <> _ -> get ?l j = _ |- get ?l ?k = _ => rewrite H by lia end]).
    + intros ii jj Hn7 Hjj Hor.
      assert (Hk : jj + ii * stat_n s < b \/ b + 3 < jj + ii * stat_n s).
      { unfold b. destruct (Z.lt_trichotomy ii (iter s)) as [Hl|[->|Hg]].
        - left. nia. 
        - right. nia.
        - right. nia. }
      repeat match goal with
        | H : forall j, j <> _ -> get ?l j = _ |- get ?l ?k = _ => rewrite H by lia end. reflexivity.
  - injection H as <-. unfold frame_logs, cell. rewrite M, N, T, I, Pn, D, It in *. repeat split; try congruence; intros; lia.
Qed.
Lemma timeout_spec s :
  let s1 := update_timeout Or opts s in
  frame_logs s s1 /\ nlp_out s1 = nlp_out s /\ iter s1 = iter s /\ status s1 = status s /\
  nlp_res s1 = nlp_res s /\ step_norm s1 = step_norm s /\ stat s1 = stat s /\
  (if fgt (timeout_max_time opts) f0 then
     exists t, trace s1 = EvClock t :: trace s /\ time_tot s1 = t /\ prev_time_tot s1 = t /\
       estimate s1 = (if 0 <? iter s then new_estimate opts (iter s) (estimate s) (fsub t (prev_time_tot s))
                      else estimate s)
   else trace s1 = trace s /\ time_tot s1 = time_tot s /\ prev_time_tot s1 = prev_time_tot s /\ estimate s1 = estimate s).
Proof.
  unfold update_timeout. destruct (fgt (timeout_max_time opts) f0).
  - cbn. destruct (o_clock Or (o_prepare Or (wd s))) as [w t]. unfold frame_logs; cbn. repeat split. exists t. repeat split.
  - unfold frame_logs; cbn; repeat split.
Qed.

Lemma final_clock_spec s : let s1 := final_clock Or s in
  frame_logs s s1 /\ nlp_out s1 = nlp_out s /\ iter s1 = iter s /\ status s1 = status s /\
  nlp_res s1 = nlp_res s /\ step_norm s1 = step_norm s /\ stat s1 = stat s /\ trace s1 = trace s /\
  estimate s1 = estimate s.
Proof. unfold final_clock. destruct (o_clock Or (wd s)) as [w t]. unfold frame_logs; cbn; repeat split. Qed.

Ltac puts H := repeat match type of H with bind ?x _ = Some _ =>
      let l := fresh "l" in let E := fresh "E" in
      destruct x as [l|] eqn:E; cbn [bind] in H; [apply put_inv in E; destruct E as (? & ? & ? & ?)|discriminate H] end.
Ltac reads := repeat (first [assumption | match goal with
        | H : forall j, j <> _ -> get ?l j = _ |- get ?l ?k = _ => rewrite H by lia end]).

Lemma solve_qp_spec s r : solve_qp Or opts s = Some r ->
  exists st qi s1, frame_logs s s1 /\ nlp_out s1 = nlp_out s /\ nlp_res s1 = nlp_res s /\
    time_tot s1 = time_tot s /\ prev_time_tot s1 = prev_time_tot s /\ estimate s1 = estimate s /\ iter s1 = iter s /\ status s1 = status s /\
    trace s1 = EvQP (nlp_out s) st qi :: trace s /\
    (iter s + 1 < stat_m s -> cell s1 (iter s + 1) 4 = Some (z2f st) /\ cell s1 (iter s + 1) 5 = Some (z2f qi)) /\
    (forall ii jj, 7 <= stat_n s -> 0 <= jj < stat_n s -> (ext_qp_res opts = true -> 11 <= stat_n s) ->
       ii <> iter s + 1 \/ jj < 4 \/ jj = 6 -> cell s1 ii jj = cell s ii jj) /\
    ((qp_ok st = true /\ r = inr s1) \/
     (qp_ok st = false /\ r = inl (final_clock Or (set_status _ _ (set_iter _ _ s1 (iter s + 1)) ACADOS_QP_FAILURE)))).
Proof.
  unfold solve_qp. destruct (o_qp Or (nlp_out s) (wd s)) as [[w st] qi].
  set (s0 := log _ _ (set_wd _ _ s w) _).
  intros H. exists st, qi.
  (* first block of writes *)
  match type of H with bind ?x _ = _ => destruct x as [s2|] eqn:E2; cbn [bind] in H; [|discriminate H] end.
  assert (H2 : frame_logs s s2 /\ nlp_out s2 = nlp_out s /\ nlp_res s2 = nlp_res s /\
    time_tot s2 = time_tot s /\ prev_time_tot s2 = prev_time_tot s /\ estimate s2 = estimate s /\ iter s2 = iter s /\ status s2 = status s /\
    trace s2 = EvQP (nlp_out s) st qi :: trace s /\
    (iter s + 1 < stat_m s -> cell s2 (iter s + 1) 4 = Some (z2f st) /\ cell s2 (iter s + 1) 5 = Some (z2f qi)) /\
    (forall ii jj, 7 <= stat_n s -> 0 <= jj < stat_n s -> 
       ii <> iter s + 1 \/ jj < 4 \/ 5 < jj -> cell s2 ii jj = cell s ii jj)).
  { change (iter s0) with (iter s) in *. change (stat_m s0) with (stat_m s) in *. change (stat_n s0) with (stat_n s) in *.
    change (stat s0) with (stat s) in *.
    destruct (Z.ltb_spec (iter s + 1) (stat_m s)) as [Hlt|Hge].
    - puts E2. injection E2 as <-. unfold frame_logs, cell, s0. cbn [stat_m stat_n stat iterates psn dsn nlp_out iter status nlp_res step_norm time_tot estimate prev_time_tot trace set_stat log set_wd].
      set (b := stat_n s * (iter s + 1)) in *.
      replace (4 + (iter s + 1) * stat_n s) with (b + 4) by (unfold b; ring).
      replace (5 + (iter s + 1) * stat_n s) with (b + 5) by (unfold b; ring).
      repeat (match goal with |- _ /\ _ => split end); try congruence.
      + intros _. split; reads.
      + intros ii jj Hn7 Hjj Hor.
        assert (Hk : jj + ii * stat_n s < b + 4 \/ b + 5 < jj + ii * stat_n s).
        { unfold b. destruct (Z.lt_trichotomy ii (iter s + 1)) as [Hl|[->|Hg]];
          [left; nia | destruct Hor as [?|[?|?]]; [lia|left; nia|right; nia] | right; nia]. }
        reads. reflexivity.
    - injection E2 as <-. unfold frame_logs, cell, s0. cbn. repeat split; try lia. }
  clear E2. change (stat_n s0 * (iter s0 + 1)) with (stat_n s * (iter s + 1)) in H. clearbody s0.
  match type of H with bind ?x _ = _ => destruct x as [s3|] eqn:E3; cbn [bind] in H; [|discriminate H] end.
  destruct H2 as ((F1&F2&F3&F4&F5&F6)&X&R&T1&T2&T3&It&S&Tr&C1&C2).
  assert (H3 : frame_logs s s3 /\ nlp_out s3 = nlp_out s /\ nlp_res s3 = nlp_res s /\
    time_tot s3 = time_tot s /\ prev_time_tot s3 = prev_time_tot s /\ estimate s3 = estimate s /\ iter s3 = iter s /\ status s3 = status s /\
    trace s3 = EvQP (nlp_out s) st qi :: trace s /\
    (iter s + 1 < stat_m s -> cell s3 (iter s + 1) 4 = Some (z2f st) /\ cell s3 (iter s + 1) 5 = Some (z2f qi)) /\
    (forall ii jj, 7 <= stat_n s -> 0 <= jj < stat_n s -> (ext_qp_res opts = true -> 11 <= stat_n s) ->
       ii <> iter s + 1 \/ jj < 4 \/ jj = 6 -> cell s3 ii jj = cell s ii jj)).
  { destruct (ext_qp_res opts && (iter s2 + 1 <? stat_m s2)) eqn:Ex.
    - apply andb_prop in Ex. destruct Ex as [Hext _].
      destruct (o_qp_res Or (wd s2)) as [[[a0 a1] a2] a3].
      puts E3. injection E3 as <-. unfold frame_logs, cell in *. cbn [stat_m stat_n stat iterates psn dsn nlp_out iter status nlp_res step_norm time_tot estimate prev_time_tot trace set_stat log set_wd].
      set (b := stat_n s * (iter s + 1)) in *.
      repeat (match goal with |- _ /\ _ => split end); try congruence.
      + intros Hlt. destruct (C1 Hlt) as [C4 C5]. rewrite F2 in *.
        replace (4 + (iter s + 1) * stat_n s) with (b + 4) in * by (unfold b; ring).
        replace (5 + (iter s + 1) * stat_n s) with (b + 5) in * by (unfold b; ring).
        split; reads.
      + intros ii jj Hn7 Hjj Hn11 Hor. specialize (Hn11 Hext). rewrite F2 in *. rewrite <- C2 by lia.
        assert (Hk : jj + ii * stat_n s < b + 7 \/ b + 10 < jj + ii * stat_n s).
        { unfold b. destruct (Z.lt_trichotomy ii (iter s + 1)) as [Hl|[->|Hg]];
          [left; nia | left; nia | right; nia]. }
        reads. reflexivity.
    - injection E3 as <-. unfold frame_logs. repeat (match goal with |- _ /\ _ => split end); auto.
      intros ii jj Hn7 Hjj _ Hor. apply C2; lia. }
  clear C1 C2. destruct H3 as (F&X3&R3&T13&T23&T33&It3&S3&Tr3&C13&C23).
  exists s3. repeat (match goal with |- _ /\ _ => split end); auto.
  destruct (qp_ok st); injection H as <-; [left|right]; split; auto. rewrite It3. reflexivity.
Qed.

Lemma step_norms_spec s s1 : step_norms Or opts s = Some s1 ->
  frame_logs s s1 /\ nlp_out s1 = nlp_out s /\ iter s1 = iter s /\ status s1 = status s /\ nlp_res s1 = nlp_res s /\
  time_tot s1 = time_tot s /\ estimate s1 = estimate s /\ prev_time_tot s1 = prev_time_tot s /\ stat s1 = stat s /\
  trace s1 = trace s.
Proof.
  unfold step_norms. intros H.
  match type of H with bind ?x _ = _ => destruct x as [s2|] eqn:E2; cbn [bind] in H; [|discriminate H] end.
  assert (H2 : frame_logs s s2 /\ nlp_out s2 = nlp_out s /\ iter s2 = iter s /\ status s2 = status s /\ nlp_res s2 = nlp_res s /\
  time_tot s2 = time_tot s /\ estimate s2 = estimate s /\ prev_time_tot s2 = prev_time_tot s /\ stat s2 = stat s /\
  trace s2 = trace s).
  { destruct (_ || (0 <? print_level opts)).
    - destruct (log_primal_step_norm opts).
      + puts E2. injection E2 as <-. unfold frame_logs. cbn in *. repeat split; auto.
      + injection E2 as <-. unfold frame_logs. cbn in *. repeat split; auto.
    - injection E2 as <-. unfold frame_logs; repeat split. }
  destruct H2 as ((F1&F2&F3&F4&F5&F6)&H2).
  destruct (log_dual_step_norm opts && negb (with_anderson opts)).
  - puts H. injection H as <-. unfold frame_logs in *. cbn in *. intuition congruence.
  - injection H as <-. unfold frame_logs. intuition.
Qed.

Lemma globalize_spec s r : globalize Or s = Some r ->
  exists x st a s1, frame_logs s s1 /\ nlp_out s1 = x /\ iter s1 = iter s /\ status s1 = status s /\ nlp_res s1 = nlp_res s /\
  time_tot s1 = time_tot s /\ estimate s1 = estimate s /\ prev_time_tot s1 = prev_time_tot s /\
  trace s1 = EvGlob (nlp_out s) x st a :: trace s /\
  (iter s + 1 < stat_m s -> st = ACADOS_SUCCESS -> cell s1 (iter s + 1) 6 = Some a) /\
  (forall ii jj, 7 <= stat_n s -> 0 <= jj < stat_n s -> ii <> iter s + 1 \/ jj <> 6 -> cell s1 ii jj = cell s ii jj) /\
  ((st = ACADOS_SUCCESS /\ r = inr (set_iter _ _ s1 (iter s + 1))) \/
   (st <> ACADOS_SUCCESS /\ r = inl (final_clock Or (set_status _ _ s1 st)))).
Proof.
  unfold globalize. destruct (o_glob Or (nlp_out s) (wd s) (alpha s)) as [[[w x] st] a].
  set (s0 := log _ _ _ _). intros H. exists x, st, a.
  assert (H0 : frame_logs s s0 /\ nlp_out s0 = x /\ iter s0 = iter s /\ status s0 = status s /\ nlp_res s0 = nlp_res s /\
   time_tot s0 = time_tot s /\ estimate s0 = estimate s /\ prev_time_tot s0 = prev_time_tot s /\
   trace s0 = EvGlob (nlp_out s) x st a :: trace s /\ stat s0 = stat s /\ alpha s0 = a) by (unfold frame_logs, s0; cbn; repeat split).
  clearbody s0. destruct H0 as ((F1&F2&F3&F4&F5&F6)&X&It&S&R&T1&T2&T3&Tr&Sa&A).
  destruct (Z.eqb_spec st ACADOS_SUCCESS) as [Hst|Hst].
  - destruct (Z.ltb_spec (iter s0 + 1) (stat_m s0)) as [Hlt|Hge].
    + puts H. injection H as <-. exists (set_stat _ _ s0 l). unfold frame_logs, cell in *.
      cbn [stat_m stat_n stat iterates psn dsn nlp_out iter status nlp_res step_norm time_tot estimate prev_time_tot trace set_stat set_iter].
      rewrite It, F1, F2, Sa, A in *.
      repeat (match goal with |- _ /\ _ => split end); auto; try congruence.
      * intros _ _. replace (6 + (iter s + 1) * stat_n s) with (stat_n s * (iter s + 1) + 6) by ring. assumption.
      * intros ii jj Hn7 Hjj Hor.
        assert (Hk : jj + ii * stat_n s <> stat_n s * (iter s + 1) + 6).
        { destruct (Z.lt_trichotomy ii (iter s + 1)) as [Hl|[->|Hg]]; nia. }
        reads. reflexivity.
    + injection H as <-. exists s0. unfold frame_logs, cell. rewrite It, F1, F2, Sa in *. repeat (match goal with |- _ /\ _ => split end); auto; try lia.
  - injection H as <-. exists s0. unfold frame_logs, cell. rewrite F2, Sa. repeat (match goal with |- _ /\ _ => split end); auto; try lia.
Qed.
(** ** one pass through the body *)
Definition clock_step (s s3 : mem) (ck : list event) : Prop :=
  if fgt (timeout_max_time opts) f0 then
     exists t, ck = [EvClock t] /\ time_tot s3 = t /\ prev_time_tot s3 = t /\
       estimate s3 = (if 0 <? iter s then new_estimate opts (iter s) (estimate s) (fsub t (prev_time_tot s))
                      else estimate s)
   else ck = [] /\ time_tot s3 = time_tot s /\ prev_time_tot s3 = prev_time_tot s /\ estimate s3 = estimate s.

Lemma frame_refl s : frame_logs s s. Proof. unfold frame_logs; repeat split. Qed.
Lemma frame_trans a b c : frame_logs a b -> frame_logs b c -> frame_logs a c.
Proof. unfold frame_logs; intuition congruence. Qed.

Lemma body_cases s r : body s = Some r ->
  exists s3 ck, frame_logs s s3 /\ nlp_out s3 = nlp_out s /\ iter s3 = iter s /\ status s3 = status s /\
    clock_step s s3 ck /\
    trace s3 = ck ++ (if evaluates s then [EvRes (nlp_out s) (nlp_res s3)] else []) ++ trace s /\
    (evaluates s = false -> nlp_res s3 = nlp_res s) /\
    (iter s < stat_m s ->
      cell s3 (iter s) 0 = Some (r_stat (nlp_res s3)) /\ cell s3 (iter s) 1 = Some (r_eq (nlp_res s3)) /\
      cell s3 (iter s) 2 = Some (r_ineq (nlp_res s3)) /\ cell s3 (iter s) 3 = Some (r_comp (nlp_res s3))) /\
    (forall ii jj, 7 <= stat_n s -> 0 <= jj < stat_n s -> ii <> iter s \/ 4 <= jj -> cell s3 ii jj = cell s ii jj) /\
    match check (iter s) s3 with
    | Some st => r = inl (final_clock Or (set_status _ _ s3 st))
    | None => exists st qi s4, frame_logs s3 s4 /\ nlp_out s4 = nlp_out s3 /\ nlp_res s4 = nlp_res s3 /\
        time_tot s4 = time_tot s3 /\ prev_time_tot s4 = prev_time_tot s3 /\ estimate s4 = estimate s3 /\ iter s4 = iter s3 /\ status s4 = status s3 /\
        trace s4 = EvQP (nlp_out s) st qi :: trace s3 /\
        (iter s + 1 < stat_m s -> cell s4 (iter s + 1) 4 = Some (z2f st) /\ cell s4 (iter s + 1) 5 = Some (z2f qi)) /\
        (forall ii jj, 7 <= stat_n s -> 0 <= jj < stat_n s -> (ext_qp_res opts = true -> 11 <= stat_n s) ->
           ii <> iter s + 1 \/ jj < 4 \/ jj = 6 -> cell s4 ii jj = cell s3 ii jj) /\
        ((qp_ok st = false /\ r = inl (final_clock Or (set_status _ _ (set_iter _ _ s4 (iter s + 1)) ACADOS_QP_FAILURE)))
         \/
         (qp_ok st = true /\ exists x gst a s6, frame_logs s4 s6 /\ nlp_out s6 = x /\ iter s6 = iter s4 /\ status s6 = status s4 /\ nlp_res s6 = nlp_res s4 /\
            time_tot s6 = time_tot s4 /\ estimate s6 = estimate s4 /\ prev_time_tot s6 = prev_time_tot s4 /\
            trace s6 = EvGlob (nlp_out s) x gst a :: trace s4 /\
            (iter s + 1 < stat_m s -> gst = ACADOS_SUCCESS -> cell s6 (iter s + 1) 6 = Some a) /\
            (forall ii jj, 7 <= stat_n s -> 0 <= jj < stat_n s -> ii <> iter s + 1 \/ jj <> 6 -> cell s6 ii jj = cell s4 ii jj) /\
            ((gst = ACADOS_SUCCESS /\ r = inr (set_iter _ _ s6 (iter s + 1))) \/
             (gst <> ACADOS_SUCCESS /\ r = inl (final_clock Or (set_status _ _ s6 gst))))))
    end.
Proof.
  unfold SqpModel.body. intros H.
  destruct (evaluate Or opts s) as [s1|] eqn:E1; cbn [bind] in H; [|discriminate H].
  destruct (save_res_stats Or s1) as [s2|] eqn:E2; cbn [bind] in H; [|discriminate H].
  apply evaluate_spec in E1. destruct E1 as (F1&X1&I1&St1&Sn1&T1&Es1&P1&Sa1&Ev1).
  apply save_spec in E2. destruct E2 as (F2&X2&I2&St2&R2&Sn2&T2&Es2&P2&Tr2&C2&C2').
  pose proof (timeout_spec s2) as H3. set (s3 := update_timeout Or opts s2) in *. clearbody s3.
  destruct H3 as (F3&X3&I3&St3&R3&Sn3&Sa3&Ck3).
  assert (FF : frame_logs s s3) by (eapply frame_trans; [exact F1|eapply frame_trans; [exact F2|exact F3]]).
  assert (Fm : stat_m s1 = stat_m s /\ stat_n s1 = stat_n s /\ stat_n s2 = stat_n s /\ stat_n s3 = stat_n s).
  { unfold frame_logs in *. intuition congruence. }
  destruct Fm as (Fm1&Fn1&Fn2&Fn3).
  assert (Hck : exists ck, clock_step s s3 ck /\ trace s3 = ck ++ trace s2).
  { unfold clock_step. destruct (fgt (timeout_max_time opts) f0).
    - destruct Ck3 as (t & A & B & C & D). exists [EvClock t]. split; [|exact A]. exists t. repeat split; auto.
      rewrite D. rewrite I2, I1, Es2, Es1, P2, P1. reflexivity.
    - destruct Ck3 as (A & B & C & D). exists []. split; [|exact A]. repeat split; congruence. }
  destruct Hck as (ck & Hck & Htr).
  exists s3, ck. split; [exact FF|]. split; [congruence|]. split; [congruence|]. split; [congruence|].
  split; [exact Hck|].
  assert (R3s : nlp_res s3 = nlp_res s1) by congruence.
  split.
  { rewrite Htr, Tr2. destruct (evaluates s); rewrite Ev1; [rewrite <- R3s|]; reflexivity. }
  split. { intros Hf. rewrite Hf in Ev1. rewrite Ev1 in R3s. exact R3s. }
  assert (Cs : forall ii jj, cell s3 ii jj = cell s2 ii jj) by (intros; unfold cell; rewrite Sa3, Fn3, Fn2; reflexivity).
  assert (Cs1 : forall ii jj, cell s1 ii jj = cell s ii jj) by (intros; unfold cell; rewrite Sa1, Fn1; reflexivity).
  split. { intros Hl. rewrite !Cs, R3s, <- I1. apply C2. congruence. }
  split. { intros ii jj H7 Hj Hor. rewrite Cs, <- Cs1. apply C2'; lia. }
  assert (Hi3 : iter s3 = iter s) by congruence. rewrite <- Hi3.
  destruct (check (iter s3) s3) as [st|]; [injection H as <-; reflexivity|].
  destruct (solve_qp Or opts s3) as [r'|] eqn:E4; cbn [bind] in H; [|discriminate H].
  apply solve_qp_spec in E4. destruct E4 as (st&qi&s4&F4&X4&R4&T4&P4&Es4&I4&St4&Tr4&C4&C4'&Hr).
  exists st, qi, s4. rewrite <- (proj1 FF) in *. 
  assert (Hxs : nlp_out s3 = nlp_out s) by congruence.
  split; [exact F4|]. split; [exact X4|]. split; [exact R4|]. split; [exact T4|]. split; [exact P4|]. split; [exact Es4|].
  split; [exact I4|]. split; [exact St4|]. split; [rewrite Tr4, Hxs; reflexivity|]. split; [exact C4|].
  split. { rewrite <- Fn3. exact C4'. }
  destruct Hr as [[Hq ->]|[Hq ->]].
  2:{ left. split; [exact Hq|]. injection H as <-. reflexivity. }
  right. split; [exact Hq|].
  destruct (step_norms Or opts s4) as [s5|] eqn:E5; cbn [bind] in H; [|discriminate H].
  apply step_norms_spec in E5. destruct E5 as (F5&X5&I5&St5&R5&T5&Es5&P5&Sa5&Tr5).
  apply globalize_spec in H. destruct H as (x&gst&a&s6&F6&X6&I6&St6&R6&T6&Es6&P6&Tr6&C6&C6'&Hr).
  assert (Fm : stat_m s5 = stat_m s3 /\ stat_n s5 = stat_n s3 /\ stat_n s4 = stat_n s3).
  { unfold frame_logs in *. intuition congruence. }
  destruct Fm as (Fm5&Fn5&Fn4).
  exists x, gst, a, s6. split; [eapply frame_trans; [exact F5|exact F6]|].
  split; [exact X6|]. split; [congruence|]. split; [congruence|]. split; [congruence|]. split; [congruence|].
  split; [congruence|]. split; [congruence|]. split; [rewrite Tr6, X5, X4, Hxs, Tr5; reflexivity|].
  rewrite <- I4, <- I5.
  split; [rewrite <- Fm5; exact C6|].
  split. { intros ii jj H7 Hj Hor. rewrite C6'; [unfold cell; rewrite Sa5, Fn5, Fn4; reflexivity|lia|lia|exact Hor]. }
  exact Hr.
Qed.
End P.
