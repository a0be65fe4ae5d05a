(** Property-level lemmas about the RTI solver model. *)
From Coq Require Import ZArith List Bool Lia.
From Verif Require Import FP SqpModel SqpProofs SqpEval RtiModel RtiProofs.
Import ListNotations.
Open Scope Z_scope.

(** number of feedback solves since the last preparation, starting from n *)
Definition since1 (n : Z) (a : act) : Z :=
  match a with
  | Call PREPARATION => 0 | Call PREPARATION_AND_FEEDBACK => 1 | Call FEEDBACK => n + 1 | ResetQp => n
  end.
Definition feedbacks_since (l : list act) : Z := fold_left since1 l 0.

Section P.
Variables iterate world : Type.
Notation rmem := (rmem iterate world).
Variable Or : rti_oracles iterate world.
Variable opts : rti_opts.
Notation alloc := (alloc iterate world opts).

Lemma reset_alloc s : alloc s -> alloc (rti_reset s). Proof. auto. Qed.

(** exact characterisation for standard RTI *)
Lemma rti_calls_exact : as_level opts = STANDARD_RTI -> 0 <= as_rti_iter opts ->
  forall l s, alloc s -> 0 <= m_iter s <= as_rti_iter opts + 1 ->
  ((exists s', rti_calls Or opts l s = Ok s') <->
     forall p q, l = p ++ q -> fold_left since1 p (m_iter s) <= as_rti_iter opts + 1) /\
  (rti_calls Or opts l s <> Exit).
Proof.
  intros Hl Hn. induction l as [|a l IH]; intros s A Hi.
  - cbn. split; [|discriminate]. split; [|eauto]. intros _ p q H. destruct p; [|discriminate H]. cbn. lia.
  - assert (Step : forall s1, alloc s1 -> m_iter s1 = since1 (m_iter s) a -> 0 <= m_iter s1 <= as_rti_iter opts + 1 ->
       rti_calls Or opts (a :: l) s = rti_calls Or opts l s1 ->
       ((exists s', rti_calls Or opts (a :: l) s = Ok s') <->
         forall p q, a :: l = p ++ q -> fold_left since1 p (m_iter s) <= as_rti_iter opts + 1) /\
       rti_calls Or opts (a :: l) s <> Exit).
    { intros s1 A1 I1 Hi1 E. rewrite E. destruct (IH s1 A1 Hi1) as [[IH1 IH2] IH3]. split; [|exact IH3].
      split.
      - intros H p q Hpq. destruct p as [|a' p]; [cbn; lia|]. injection Hpq as <- ->. cbn [fold_left]. rewrite <- I1.
        apply (IH1 H p q eq_refl).
      - intros H. apply IH2. intros p q ->. rewrite I1. exact (H (a :: p) q eq_refl). }
    assert (Bad : as_rti_iter opts + 1 < since1 (m_iter s) a -> rti_calls Or opts (a :: l) s = UB ->
       ((exists s', rti_calls Or opts (a :: l) s = Ok s') <->
         forall p q, a :: l = p ++ q -> fold_left since1 p (m_iter s) <= as_rti_iter opts + 1) /\
       rti_calls Or opts (a :: l) s <> Exit).
    { intros Hb E. rewrite E. split; [|discriminate]. split; [intros [s' H]; discriminate H|].
      intros H. specialize (H [a] l eq_refl). cbn in H. lia. }
    assert (M : m_stat_m s = 2 + as_rti_iter opts) by apply A.
    destruct a as [ph|].
    + destruct ph; cbn [rti_calls rti_call] in Step, Bad |- *; rewrite ?Hl in *; cbn [level_eqb] in *.
      * destruct (prep_spec _ _ Or opts PREPARATION_AND_FEEDBACK s A) as (s1 & E1 & A1 & I1 & _).
        rewrite E1 in *. cbn [obind] in *.
        pose proof (feedback_spec _ _ Or opts PREPARATION_AND_FEEDBACK s1 A1 ltac:(lia) Hn) as F.
        assert (M1 : m_stat_m s1 = 2 + as_rti_iter opts) by apply A1.
        destruct (Z.ltb_spec (m_iter s1 + 1) (m_stat_m s1)); [|lia].
        destruct F as (s2 & st & tr & E2 & A2 & I2 & _). rewrite E2 in *. cbn [obind] in *.
        apply (Step s2 A2); [cbn; lia|lia|reflexivity].
      * destruct (prep_spec _ _ Or opts PREPARATION s A) as (s1 & E1 & A1 & I1 & _).
        rewrite E1 in *. cbn [obind] in *. apply (Step s1 A1); [cbn; lia|lia|reflexivity].
      * pose proof (feedback_spec _ _ Or opts FEEDBACK s A ltac:(lia) Hn) as F.
        destruct (Z.ltb_spec (m_iter s + 1) (m_stat_m s)).
        -- destruct F as (s2 & st & tr & E2 & A2 & I2 & _). rewrite E2 in *. cbn [obind] in *.
           apply (Step s2 A2); [cbn; lia|lia|reflexivity].
        -- rewrite F in *. cbn [obind] in *. apply Bad; [cbn; lia|reflexivity].
    + cbn [rti_calls] in *. apply (Step (rti_reset s)); auto.
Qed.

Lemma created_alloc s : rti_created opts s -> alloc s.
Proof. unfold rti_created, RtiProofs.alloc. intuition. Qed.

Lemma rti_standard s l : as_level opts = STANDARD_RTI -> 0 <= as_rti_iter opts -> rti_created opts s ->
  (exists s', rti_calls Or opts l s = Ok s') <->
  (forall p q, l = p ++ q -> feedbacks_since p <= as_rti_iter opts + 1).
Proof.
  intros Hl Hn Hc. pose proof (created_alloc _ Hc) as A. assert (I : m_iter s = 0) by apply Hc.
  destruct (rti_calls_exact Hl Hn l s A ltac:(lia)) as [H _]. rewrite I in H. exact H.
Qed.

(** advanced-step levels: preparation, then at most one feedback before the next preparation *)
Lemma rti_advanced_gen : as_level opts <> STANDARD_RTI -> 0 <= as_rti_iter opts ->
  (as_level opts = LEVEL_A -> 1 <= as_rti_iter opts) ->
  forall l s n, alloc s -> 0 <= m_iter s -> 0 <= n -> m_iter s <= as_rti_iter opts + n ->
  (forall p q, l = p ++ q -> fold_left since1 p n <= 1) ->
  rti_calls Or opts l s <> UB.
Proof.
  intros Hl Hn HA. induction l as [|a l IH]; intros s n A Hi Hn0 Hin Hp; [discriminate|].
  assert (Hp1 : forall p q, l = p ++ q -> fold_left since1 p (since1 n a) <= 1).
  { intros p q ->. apply (Hp (a :: p) q eq_refl). }
  assert (M : m_stat_m s = 2 + as_rti_iter opts) by apply A.
  destruct a as [[| |]|]; cbn [rti_calls rti_call].
  - destruct (as_level opts); cbn; try discriminate. congruence.
  - destruct (level_eqb (as_level opts) STANDARD_RTI) eqn:E; [destruct (as_level opts); discriminate || congruence|].
    destruct (prep_adv_ok _ _ Or opts s A Hn HA) as [->|(s1 & -> & A1 & I1)]; cbn [obind]; [discriminate|].
    apply (IH s1 0); auto; lia.
  - pose proof (feedback_spec _ _ Or opts FEEDBACK s A Hi Hn) as F.
    pose proof (Hp [Call FEEDBACK] l eq_refl) as H1. cbn in H1.
    destruct (Z.ltb_spec (m_iter s + 1) (m_stat_m s)); [|lia].
    destruct F as (s2 & st & tr & E2 & A2 & I2 & _). rewrite E2. cbn [obind].
    apply (IH s2 (n + 1)); auto; lia.
  - apply (IH (rti_reset s) n); auto.
Qed.
Lemma rti_advanced s l : as_level opts <> STANDARD_RTI -> 0 <= as_rti_iter opts ->
  (as_level opts = LEVEL_A -> 1 <= as_rti_iter opts) -> rti_created opts s ->
  (forall p q, l = p ++ q -> feedbacks_since p <= 1) -> rti_calls Or opts l s <> UB.
Proof.
  intros Hl Hn HA Hc Hp. pose proof (created_alloc _ Hc) as A. assert (I : m_iter s = 0) by apply Hc.
  apply (rti_advanced_gen Hl Hn HA l s 0 A); auto; lia.
Qed.

(** C15 *)
Lemma rti_status s ph s' : rti_created opts s \/ True -> 0 <= as_rti_iter opts -> alloc s -> 0 <= m_iter s ->
  ph = FEEDBACK \/ ph = PREPARATION_AND_FEEDBACK ->
  rti_call Or opts ph s = Ok s' ->
  exists st tr, m_tr s' = tr ++ RQp st :: m_tr s /\ (tr = [] \/ exists g, tr = [RGlob g]) /\
   (m_status s' = ACADOS_SUCCESS <-> qp_ok st = true) /\ (m_status s' = ACADOS_QP_FAILURE <-> qp_ok st = false).
Proof.
  intros _ Hn A Hi Hph H.
  assert (G : forall s1, alloc s1 -> 0 <= m_iter s1 -> m_tr s1 = m_tr s -> feedback_step Or opts ph s1 = Ok s' ->
     exists st tr, m_tr s' = tr ++ RQp st :: m_tr s /\ (tr = [] \/ exists g, tr = [RGlob g]) /\
     (m_status s' = ACADOS_SUCCESS <-> qp_ok st = true) /\ (m_status s' = ACADOS_QP_FAILURE <-> qp_ok st = false)).
  { intros s1 A1 I1 T1 F. pose proof (feedback_spec _ _ Or opts ph s1 A1 I1 Hn) as FS. rewrite F in FS.
    destruct (m_iter s1 + 1 <? m_stat_m s1); [|discriminate FS].
    destruct FS as (s2 & st & tr & E & _ & _ & _ & S2 & T2 & R). injection E as <-.
    exists st, tr. rewrite T2, T1. split; [reflexivity|]. rewrite S2.
    destruct (qp_ok st); (split; [|split; split; intros HH; (reflexivity || discriminate HH)]);
      [right; apply R|left; apply R]. }
  destruct Hph as [-> | ->]; cbn [rti_call] in H.
  - apply (G s); auto.
  - destruct (level_eqb (as_level opts) STANDARD_RTI); [|discriminate H].
    destruct (prep_spec _ _ Or opts PREPARATION_AND_FEEDBACK s A) as (s1 & E1 & A1 & I1 & St1 & T1 & F1).
    rewrite E1 in H. cbn [obind] in H. apply (G s1); auto; lia.
Qed.

(** alloc and iteration counter are preserved by every call that returns *)
Lemma rti_call_alloc s ph s' : 0 <= as_rti_iter opts -> alloc s -> 0 <= m_iter s ->
  rti_call Or opts ph s = Ok s' -> alloc s' /\ 0 <= m_iter s'.
Proof.
  intros Hn A Hi H. destruct ph; cbn [rti_call] in H.
  - destruct (level_eqb (as_level opts) STANDARD_RTI); [|discriminate H].
    destruct (prep_spec _ _ Or opts PREPARATION_AND_FEEDBACK s A) as (s1 & E1 & A1 & I1 & _).
    rewrite E1 in H. cbn [obind] in H.
    pose proof (feedback_spec _ _ Or opts PREPARATION_AND_FEEDBACK s1 A1 ltac:(lia) Hn) as F. rewrite H in F.
    destruct (_ <? _); [|discriminate F]. destruct F as (s2 & st & tr & E2 & A2 & I2 & _). injection E2 as <-. split; [auto|lia].
  - destruct (level_eqb (as_level opts) STANDARD_RTI) eqn:El.
    + destruct (prep_spec _ _ Or opts PREPARATION s A) as (s1 & E1 & A1 & I1 & _). rewrite E1 in H. injection H as <-. split; [auto|lia].
    + revert H. unfold preparation_advanced_step.
      set (s1 := s_wd _ _ (s_iter _ _ s 0) _). assert (A1 : alloc s1) by exact A. assert (I1 : m_iter s1 = 0) by reflexivity.
      clearbody s1. 
      match goal with |- obind ?e _ = _ -> _ => assert (E2 : e = Exit \/ exists s2, e = Ok s2 /\ alloc s2 /\ m_iter s2 = 0) end.
      { destruct (m_first s1); [destruct (r_sane Or (m_wd s1)); [|left; reflexivity]|]; right; eexists; (split; [reflexivity|]); (split; [exact A1|exact I1]). }
      destruct E2 as [->|(s2 & -> & A2 & I2)]; [discriminate|]. cbn [obind].
      match goal with |- obind ?e _ = _ -> _ => assert (E3 : exists r, e = Ok r /\ match r with inl s' | inr s' => alloc s' /\ 0 <= m_iter s' end) end.
      { assert (Triv : exists r : rmem + rmem, Ok (inr s2) = Ok r /\ match r with inl s' | inr s' => alloc s' /\ 0 <= m_iter s' end).
        { exists (inr s2). split; [reflexivity|]. split; [exact A2|lia]. }
        assert (L : exists r, inner_loop Or opts (Z.to_nat (as_rti_iter opts - m_iter s2)) s2 = Ok r /\ match r with inl s' | inr s' => alloc s' /\ 0 <= m_iter s' end).
        { destruct (inner_loop_ok _ _ Or opts (Z.to_nat (as_rti_iter opts - m_iter s2)) s2 A2 ltac:(lia) ltac:(lia)) as (r & E & Hr).
          exists r. split; [exact E|]. destruct r; intuition. }
        destruct (as_level opts); destruct (m_first s2); try exact Triv; try exact L.
        destruct (level_a_ok _ _ Or opts s2 A2 I2 Hn) as (r & E & Hr). exists r. split; [exact E|].
        destruct r; destruct Hr; split; auto; lia. }
      destruct E3 as (r & -> & Hr). cbn [obind]. destruct r as [s3|s3]; destruct Hr as [A3 I3]; intros H; injection H as <-; [auto|].
      destruct (as_level opts); split; assumption.
  - pose proof (feedback_spec _ _ Or opts FEEDBACK s A Hi Hn) as F. rewrite H in F.
    destruct (_ <? _); [|discriminate F]. destruct F as (s2 & st & tr & E2 & A2 & I2 & _). injection E2 as <-. split; [auto|lia].
Qed.

Lemma rti_calls_alloc l : 0 <= as_rti_iter opts -> forall s s', alloc s -> 0 <= m_iter s ->
  rti_calls Or opts l s = Ok s' -> alloc s' /\ 0 <= m_iter s'.
Proof.
  intros Hn. induction l as [|a l IH]; intros s s' A Hi H; cbn [rti_calls] in H; [injection H as <-; auto|].
  destruct a as [ph|].
  - destruct (rti_call Or opts ph s) as [s1| |] eqn:E; cbn in H; try discriminate H.
    destruct (rti_call_alloc s ph s1 Hn A Hi E). apply (IH s1); auto.
  - apply (IH (rti_reset s)); auto.
Qed.

Lemma rti_status_history s0 l s ph s' : 0 <= as_rti_iter opts -> rti_created opts s0 ->
  rti_calls Or opts l s0 = Ok s -> ph = FEEDBACK \/ ph = PREPARATION_AND_FEEDBACK ->
  rti_call Or opts ph s = Ok s' ->
  exists st tr, m_tr s' = tr ++ RQp st :: m_tr s /\ (tr = [] \/ exists g, tr = [RGlob g]) /\
   (m_status s' = ACADOS_SUCCESS <-> st = ACADOS_SUCCESS \/ st = ACADOS_MAXITER) /\
   (m_status s' = ACADOS_QP_FAILURE <-> st <> ACADOS_SUCCESS /\ st <> ACADOS_MAXITER).
Proof.
  setoid_rewrite <- qp_ok_true. setoid_rewrite <- qp_ok_false.
  intros Hn Hc Hl Hph H. assert (I : m_iter s0 = 0) by apply Hc.
  destruct (rti_calls_alloc l Hn s0 s (created_alloc _ Hc) ltac:(lia) Hl) as [A Hi].
  apply (rti_status s ph s'); auto.
Qed.

(** C16 *)
Section SPLIT.
Definition split_laws : Prop :=
  (forall x w, r_res Or x (r_vectors Or x (r_condense Or (r_reg_lhs Or w))) = r_res Or x (r_vectors Or x w)) /\
  (forall x w, r_reg_rhs Or (r_vectors Or x (r_condense Or (r_reg_lhs Or w))) =
               r_condense Or (r_reg Or (r_vectors Or x w))) /\
  (forall b x w, r_warm Or b x (r_condense Or w) = r_condense Or (r_warm Or b x w)) /\
  (forall x w, r_qp Or true x (r_condense Or w) = r_qp Or false x w).

Lemma rti_split s : as_level opts = STANDARD_RTI -> split_laws ->
  rti_calls Or opts [Call PREPARATION; Call FEEDBACK] s = rti_calls Or opts [Call PREPARATION_AND_FEEDBACK] s.
Proof.
  intros Hl (L1 & L2 & L3 & L4). cbn [rti_calls rti_call]. rewrite Hl. cbn [level_eqb].
  unfold preparation_step. cbn [obind].
  set (s1 := s_wd _ _ (s_wd _ _ (s_iter _ _ s 0) _) _).
  set (s1p := s_wd _ _ s1 _).
  assert (F : feedback_step Or opts FEEDBACK s1p = feedback_step Or opts PREPARATION_AND_FEEDBACK s1); [|rewrite F; reflexivity].
  unfold feedback_step.
  assert (B : exists l, (if log_res opts then store_res Or opts (s_wd iterate world s1p (r_vectors Or (m_out s1p) (m_wd s1p))) else Ok (s_wd iterate world s1p (r_vectors Or (m_out s1p) (m_wd s1p)))) =
      match l with Some l => Ok (s_stat _ _ (s_wd iterate world s1p (r_vectors Or (m_out s1p) (m_wd s1p))) l) | None => UB end /\
     (if log_res opts then store_res Or opts (s_wd iterate world s1 (r_vectors Or (m_out s1) (m_wd s1))) else Ok (s_wd iterate world s1 (r_vectors Or (m_out s1) (m_wd s1)))) =
      match l with Some l => Ok (s_stat _ _ (s_wd iterate world s1 (r_vectors Or (m_out s1) (m_wd s1))) l) | None => UB end).
  { destruct (log_res opts).
    2:{ exists (Some (m_stat s1)). unfold s1p. destruct s1; cbn. split; reflexivity. }
    unfold store_res. cbn [m_iter m_stat_m m_out m_wd s_wd]. unfold s1p; cbn [m_iter m_stat_m m_out m_wd s_wd].
    rewrite L1. destruct (m_iter s1 <? m_stat_m s1).
    2:{ exists (Some (m_stat s1)). destruct s1; cbn. split; reflexivity. }
    generalize (r_res Or (m_out s1) (r_vectors Or (m_out s1) (m_wd s1))). intros r. unfold put_stat. cbn [m_stat m_stat_n m_iter s_wd].
    destruct (put (m_stat s1) _ (r_stat r)) as [l1|]; cbn; [|exists None; split; reflexivity].
    destruct (put l1 _ (r_eq r)) as [l2|]; cbn; [|exists None; split; reflexivity].
    destruct (put l2 _ (r_ineq r)) as [l3|]; cbn; [|exists None; split; reflexivity].
    destruct (put l3 _ (r_comp r)) as [l4|]; cbn; [|exists None; split; reflexivity].
    exists (Some l4). split; reflexivity. }
  destruct B as (l & -> & ->). destruct l as [l|]; cbn [obind]; [|reflexivity].
  unfold s1p. cbn [m_out m_wd m_iter m_first s_wd s_stat s_iter].
  rewrite L2, L3, L4. destruct (r_qp Or false _ _) as [[w st] qi]. reflexivity.
Qed.
End SPLIT.
End P.
