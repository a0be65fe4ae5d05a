(** Exact condition for the statistics writes of the advanced-step levels: which histories can leave the
    table when the submodules behave in the least favourable way. *)
From Coq Require Import ZArith List Bool Lia.
From Verif Require Import FP SqpModel SqpProofs SqpEval RtiModel RtiSpec RtiProofs RtiTop.
Import ListNotations.
Open Scope Z_scope.

Section P.
Variables iterate world : Type.
Notation rmem := (rmem iterate world).
Variable Or : rti_oracles iterate world.
Variable opts : rti_opts.
Notation alloc := (alloc iterate world opts).

Definition happy : Prop :=
  (forall pre x w, qp_ok (snd (fst (r_qp Or pre x w))) = true) /\
  (forall x w, snd (r_glob Or x w) = ACADOS_SUCCESS) /\ (forall w, r_sane Or w = true).

Lemma qp_more pre s : alloc s -> 0 <= m_iter s < m_stat_m s ->
  exists s' st, qp_and_stat Or pre s = Ok (s', st) /\ alloc s' /\ m_iter s' = m_iter s /\ m_first s' = m_first s /\
    (happy -> qp_ok st = true).
Proof.
  intros A Hi. destruct (qp_and_stat_ok _ _ Or opts pre s A Hi) as (s' & st & E & A' & I' & S' & F').
  exists s', st. repeat (split; [assumption|]). intros (H & _). specialize (H pre (m_out s) (m_wd s)).
  unfold qp_and_stat in E. destruct (r_qp Or pre (m_out s) (m_wd s)) as [[w st'] qi]. cbn [fst snd] in H.
  destruct (put_stat _ _ _ _) as [t| |] in E; try discriminate E. cbn [obind] in E.
  destruct (put_stat _ _ _ _) as [t'| |] in E; try discriminate E. cbn [obind] in E.
  assert (st' = st) as <- by congruence. exact H.
Qed.

Lemma inner_more s : alloc s -> 0 <= m_iter s < as_rti_iter opts ->
  exists r, inner Or opts s = Ok r /\ match r with
   | inl s' => alloc s' /\ m_iter s' = m_iter s /\ m_first s' = m_first s /\ ~ happy
   | inr s' => alloc s' /\ m_iter s' = m_iter s + 1 /\ m_first s' = m_first s end.
Proof.
  intros A Hi. unfold inner.
  assert (M : m_stat_m s = 2 + as_rti_iter opts) by apply A.
  match goal with |- context [obind ?e _] => assert (E1 : exists s1, e = Ok s1 /\ alloc s1 /\ m_iter s1 = m_iter s /\ m_first s1 = m_first s) end.
  { destruct (as_level opts).
    2:{ set (t := s_wd _ _ s _). destruct (store_if _ _ Or opts (log_res opts && negb (log_only_available opts)) (s_wd _ _ t (r_full Or (m_out t) (m_wd t)))) as (s2 & E2 & A2 & K2); [exact A|cbn; lia|intros H; apply andb_prop in H; apply H|].
        destruct (_ && _); [rewrite E2|injection E2 as <-]; cbn [obind]; eexists; (split; [reflexivity|]); (split; [first [exact A2|exact A]|]); split; try apply K2; reflexivity. }
    2:{ set (t := s_wd _ _ s _). destruct (store_if _ _ Or opts (log_res opts && negb (log_only_available opts)) (s_wd _ _ t (r_level_c_full _ _ Or (m_out t) (m_wd t)))) as (s2 & E2 & A2 & K2); [exact A|cbn; lia|intros H; apply andb_prop in H; apply H|].
        destruct (_ && _); [rewrite E2|injection E2 as <-]; cbn [obind]; eexists; (split; [reflexivity|]); (split; [first [exact A2|exact A]|]); split; try apply K2; reflexivity. }
    all: set (t := s_wd _ _ (s_wd _ _ s _) _);
      destruct (store_if _ _ Or opts (log_res opts) t) as (s2 & -> & A2 & K2); [exact A|cbn; lia|auto|]; cbn [obind];
      eexists; split; [reflexivity|]; split; [exact A2|]; destruct K2 as (k & _ & k' & _); exact (conj k k'). }
  destruct E1 as (s1 & -> & A1 & I1 & F1). cbn [obind].
  assert (M1 : m_stat_m s1 = 2 + as_rti_iter opts) by apply A1.
  destruct (qp_more (match as_level opts with LEVEL_D => false | _ => true end) s1 A1) as (s2 & st & -> & A2 & I2 & F2 & H2); [lia|]. cbn [obind].
  set (s3 := match as_level opts with LEVEL_B => s_wd _ _ s2 _ | _ => s2 end).
  assert (K3 : alloc s3 /\ m_iter s3 = m_iter s /\ m_first s3 = m_first s).
  { unfold s3; destruct (as_level opts); (split; [exact A2|]); cbn; split; congruence. }
  clearbody s3. destruct K3 as (A3 & I3 & F3).
  destruct (qp_ok st); [|eexists; split; [reflexivity|]; (split; [exact A3|]); (split; [exact I3|]); split; [exact F3|]].
  2:{ intros Hh. specialize (H2 Hh). discriminate H2. }
  unfold glob_step. destruct (r_glob Or (m_out s3) (m_wd s3)) as [[w x] g] eqn:Eg.
  destruct (g =? ACADOS_SUCCESS) eqn:Eq; eexists; (split; [reflexivity|]); (split; [exact A3|]); cbn; (split; [lia|]); [exact F3|split; [exact F3|]].
  intros (_ & Hg & _). specialize (Hg (m_out s3) (m_wd s3)). rewrite Eg in Hg. cbn in Hg. rewrite Hg in Eq. discriminate Eq.
Qed.

Lemma inner_loop_more n s : alloc s -> 0 <= m_iter s -> m_iter s + Z.of_nat n <= as_rti_iter opts ->
  exists r, inner_loop Or opts n s = Ok r /\ match r with
   | inl s' => alloc s' /\ 0 <= m_iter s' <= m_iter s + Z.of_nat n /\ m_first s' = m_first s /\ ~ happy
   | inr s' => alloc s' /\ m_iter s' = m_iter s + Z.of_nat n /\ m_first s' = m_first s end.
Proof.
  revert s. induction n as [|n IH]; intros s A Hi Hn; cbn [inner_loop].
  - eexists; split; [reflexivity|]. split; [exact A|]. split; [lia|reflexivity].
  - destruct (inner_more s A) as (r & -> & Hr); [lia|]. cbn [obind]. destruct r as [s1|s1].
    + eexists; split; [reflexivity|]. destruct Hr as (A1 & -> & F1 & Hh). split; [exact A1|]. split; [lia|auto].
    + destruct Hr as (A1 & I1 & F1). destruct (IH s1 A1 ltac:(lia) ltac:(lia)) as (r & E & Hr). exists r. split; [exact E|].
      destruct r as [s2|s2].
      * destruct Hr as (A2 & I2 & F2 & Hh). split; [exact A2|]. split; [lia|]. split; [congruence|exact Hh].
      * destruct Hr as (A2 & I2 & F2). split; [exact A2|]. split; [lia|congruence].
Qed.

Lemma level_a_more s : alloc s -> m_iter s = 0 -> 0 <= as_rti_iter opts ->
  exists r, level_a Or opts s = Ok r /\ match r with
   | inl s' | inr s' => alloc s' /\ m_iter s' = 1 /\ m_first s' = m_first s end.
Proof.
  intros A Hi Hn. unfold level_a. assert (M : m_stat_m s = 2 + as_rti_iter opts) by apply A.
  match goal with |- context [store_res Or opts ?t] => set (s1 := t) end.
  assert (K1 : alloc s1 /\ m_iter s1 = 0 /\ m_first s1 = m_first s) by (unfold s1; destruct (_ && _); (split; [exact A|]); split; try exact Hi; reflexivity).
  destruct (store_if _ _ Or opts (log_res opts) s1 (proj1 K1)) as (s2 & E2 & A2 & K2); [lia|auto|].
  rewrite E2. cbn [obind].
  set (s3 := s_wd _ _ (s_iter _ _ s2 _) _).
  assert (I3 : m_iter s3 = 1) by (unfold s3; cbn; destruct K2 as (k & _); rewrite k; lia).
  assert (F3 : m_first s3 = m_first s) by (unfold s3; cbn; destruct K2 as (_ & _ & k & _); destruct K1 as (_ & _ & k1); congruence).
  assert (A3 : alloc s3) by exact A2. clearbody s3.
  assert (M3 : m_stat_m s3 = 2 + as_rti_iter opts) by apply A3.
  destruct (qp_more true s3 A3) as (s4 & st & -> & A4 & I4 & F4 & _); [lia|]. cbn [obind].
  unfold glob_step. destruct (r_glob Or (m_out s4) (m_wd s4)) as [[w x] g].
  destruct (g =? ACADOS_SUCCESS); eexists; (split; [reflexivity|]); (split; [exact A4|]); cbn; (split; [lia|congruence]).
Qed.

Lemma prep_adv_more s : alloc s -> 0 <= as_rti_iter opts -> as_level opts <> STANDARD_RTI ->
  (preparation_advanced_step Or opts s = Exit /\ ~ happy) \/
  exists s', preparation_advanced_step Or opts s = Ok s' /\ alloc s' /\ m_first s' = m_first s /\
    0 <= m_iter s' <= prep_rows opts (negb (m_first s)) /\
    (happy -> m_iter s' = prep_rows opts (negb (m_first s))).
Proof.
  intros A Hn Hl. unfold preparation_advanced_step.
  set (s1 := s_wd _ _ (s_iter _ _ s 0) _). assert (A1 : alloc s1) by exact A. assert (I1 : m_iter s1 = 0) by reflexivity.
  assert (F1 : m_first s1 = m_first s) by reflexivity. clearbody s1. rewrite <- F1. clear F1.
  match goal with |- context [obind ?e _] => assert (E2 : (e = Exit /\ ~ happy) \/ exists s2, e = Ok s2 /\ alloc s2 /\ m_iter s2 = 0 /\ m_first s2 = m_first s1) end.
  { destruct (m_first s1) eqn:Ef; [destruct (r_sane Or (m_wd s1)) eqn:Es|].
    - right; eexists; (split; [reflexivity|]); (split; [exact A1|]). split; [exact I1|exact Ef].
    - left. split; [reflexivity|]. intros (_ & _ & Hs). rewrite Hs in Es. discriminate Es.
    - right; eexists; (split; [reflexivity|]); (split; [exact A1|]). split; [exact I1|exact Ef]. }
  destruct E2 as [[-> Hh]|(s2 & -> & A2 & I2 & F2)]; [left; split; [reflexivity|exact Hh]|]. cbn [obind]. rewrite <- F2.
  match goal with |- context [obind ?e _] => assert (E3 : exists r, e = Ok r /\ match r with
     | inl s' => alloc s' /\ m_first s' = m_first s2 /\ 0 <= m_iter s' <= prep_rows opts (negb (m_first s2)) /\ (happy -> m_iter s' = prep_rows opts (negb (m_first s2)))
     | inr s' => alloc s' /\ m_first s' = m_first s2 /\ 0 <= m_iter s' <= prep_rows opts (negb (m_first s2)) /\ (happy -> m_iter s' = prep_rows opts (negb (m_first s2))) end) end.
  { assert (L : exists r, inner_loop Or opts (Z.to_nat (as_rti_iter opts - m_iter s2)) s2 = Ok r /\ match r with
       | inl s' => alloc s' /\ m_first s' = m_first s2 /\ 0 <= m_iter s' <= as_rti_iter opts /\ (happy -> m_iter s' = as_rti_iter opts)
       | inr s' => alloc s' /\ m_first s' = m_first s2 /\ 0 <= m_iter s' <= as_rti_iter opts /\ (happy -> m_iter s' = as_rti_iter opts) end).
    { destruct (inner_loop_more (Z.to_nat (as_rti_iter opts - m_iter s2)) s2 A2) as (r & E & Hr); [lia|lia|].
      exists r. split; [exact E|]. destruct r; [destruct Hr as (a & b & c & h)|destruct Hr as (a & b & c)].
      - split; [exact a|]. split; [exact c|]. split; [lia|]. intros Hh. destruct (h Hh).
      - split; [exact a|]. split; [exact c|]. split; [lia|]. intros _. lia. }
    assert (Tr : 0 <= m_iter s2 <= 0) by lia.
    unfold prep_rows. destruct (as_level opts) eqn:El.
    - destruct (m_first s2) eqn:Ef; cbn [negb].
      + exists (inr s2). split; [reflexivity|]. split; [exact A2|]. split; [exact Ef|]. split; [lia|]. intros _. lia.
      + destruct (level_a_more s2 A2 I2 Hn) as (r & E & Hr). exists r. split; [exact E|].
        destruct r; destruct Hr as (a & b & c); (split; [exact a|]); (split; [congruence|]); (split; [lia|]); intros _; lia.
    - destruct (m_first s2) eqn:Ef; cbn [negb]; [|exact L].
      exists (inr s2). split; [reflexivity|]. split; [exact A2|]. split; [exact Ef|]. split; [lia|]. intros _. lia.
    - destruct (m_first s2) eqn:Ef; cbn [negb]; [|exact L].
      exists (inr s2). split; [reflexivity|]. split; [exact A2|]. split; [exact Ef|]. split; [lia|]. intros _. lia.
    - exact L.
    - congruence. }
  destruct E3 as (r & -> & Hr). cbn [obind]. right. destruct r as [s3|s3]; destruct Hr as (A3 & F3 & I3 & H3).
  - eexists; split; [reflexivity|]. auto.
  - eexists; split; [reflexivity|]. destruct (as_level opts); cbn; auto.
Qed.

Lemma prep_rows_mono : forall b c, (b = true -> c = true) -> 0 <= as_rti_iter opts -> prep_rows opts b <= prep_rows opts c.
Proof. intros b c H Hn. unfold prep_rows. destruct (as_level opts), b, c; try lia; specialize (H eq_refl); discriminate H. Qed.

(** no out-of-bounds write if the worst case fits *)
Lemma adv_sound : as_level opts <> STANDARD_RTI -> 0 <= as_rti_iter opts ->
  forall l s n warm, alloc s -> 0 <= m_iter s <= n -> (m_first s = false -> warm = true) ->
  (forall p q, l = p ++ q -> ~ In (Call PREPARATION_AND_FEEDBACK) p -> fst (fold_left (row1 opts) p (n, warm)) <= as_rti_iter opts + 1) ->
  rti_calls Or opts l s <> UB.
Proof.
  intros Hl Hn. assert (El : level_eqb (as_level opts) STANDARD_RTI = false) by (destruct (as_level opts); try reflexivity; congruence).
  induction l as [|a l IH]; intros s n warm A Hi Hw Hp; [discriminate|].
  assert (M : m_stat_m s = 2 + as_rti_iter opts) by apply A.
  assert (Hp1 : a <> Call PREPARATION_AND_FEEDBACK -> forall p q, l = p ++ q -> ~ In (Call PREPARATION_AND_FEEDBACK) p ->
     fst (fold_left (row1 opts) p (row1 opts (n, warm) a)) <= as_rti_iter opts + 1).
  { intros Ha p q -> Hin. apply (Hp (a :: p) q eq_refl). intros [H|H]; [exact (Ha H)|exact (Hin H)]. }
  destruct a as [[| |]|]; cbn [rti_calls rti_call]; rewrite ?El.
  - discriminate.
  - specialize (Hp1 ltac:(discriminate)). cbn [row1] in Hp1.
    destruct (prep_adv_more s A Hn Hl) as [[-> _]|(s1 & -> & A1 & F1 & I1 & _)]; cbn [obind]; [discriminate|].
    apply (IH s1 (prep_rows opts warm) warm A1); [|rewrite F1; exact Hw|exact Hp1].
    pose proof (prep_rows_mono (negb (m_first s)) warm ltac:(destruct (m_first s); cbn; [discriminate|auto]) Hn). lia.
  - specialize (Hp1 ltac:(discriminate)). cbn [row1] in Hp1.
    pose proof (Hp1 [] l eq_refl ltac:(cbn; auto)) as H1. cbn in H1.
    pose proof (feedback_spec _ _ Or opts FEEDBACK s A ltac:(lia) Hn) as F.
    destruct (Z.ltb_spec (m_iter s + 1) (m_stat_m s)); [|lia].
    destruct F as (s2 & st & tr & E2 & A2 & I2 & _). rewrite E2. cbn [obind].
    apply (IH s2 (n + 1) true A2); [lia|auto|exact Hp1].
  - specialize (Hp1 ltac:(discriminate)). cbn [row1] in Hp1.
    apply (IH (rti_reset s) n false); auto.
Qed.

(** and with submodules that always succeed the worst case happens *)
Lemma adv_complete : happy -> as_level opts <> STANDARD_RTI -> 0 <= as_rti_iter opts ->
  forall l s n warm, alloc s -> m_iter s = n -> 0 <= n <= as_rti_iter opts + 1 -> m_first s = negb warm ->
  forall p q, l = p ++ q -> ~ In (Call PREPARATION_AND_FEEDBACK) p -> as_rti_iter opts + 1 < fst (fold_left (row1 opts) p (n, warm)) ->
  rti_calls Or opts l s = UB.
Proof.
  intros Hh Hl Hn. assert (El : level_eqb (as_level opts) STANDARD_RTI = false) by (destruct (as_level opts); try reflexivity; congruence).
  induction l as [|a l IH]; intros s n warm A Hi Hr Hw p q Epq Hin Hbig.
  { destruct p; [|discriminate Epq]. cbn in Hbig. lia. }
  destruct p as [|b p]; [cbn in Hbig; lia|]. injection Epq as <- Epq. cbn [fold_left] in Hbig.
  assert (Hin' : ~ In (Call PREPARATION_AND_FEEDBACK) p) by (intros H; apply Hin; right; exact H).
  assert (M : m_stat_m s = 2 + as_rti_iter opts) by apply A.
  assert (PR : 0 <= prep_rows opts warm <= as_rti_iter opts + 1) by (unfold prep_rows; destruct (as_level opts), warm; lia).
  destruct a as [[| |]|]; cbn [rti_calls rti_call row1] in *; rewrite ?El.
  - exfalso. apply Hin. left. reflexivity.
  - destruct (prep_adv_more s A Hn Hl) as [[_ H]|(s1 & -> & A1 & F1 & I1 & E1)]; [destruct (H Hh)|]. cbn [obind].
    specialize (E1 Hh). rewrite Hw, negb_involutive in E1.
    apply (IH s1 (prep_rows opts warm) warm A1 E1 PR ltac:(congruence) p q Epq Hin' Hbig).
  - pose proof (feedback_spec _ _ Or opts FEEDBACK s A ltac:(lia) Hn) as F.
    destruct (Z.ltb_spec (m_iter s + 1) (m_stat_m s)); [|rewrite F; reflexivity].
    destruct (feedback_step Or opts FEEDBACK s) as [s2| |] eqn:EF; [|destruct F as (? & ? & ? & E & _); discriminate E|reflexivity].
    cbn [obind]. destruct F as (s2' & st & tr & E2 & A2 & I2 & Q2 & S2 & T2 & R2). assert (s2' = s2) as -> by congruence.
    assert (Hq : qp_ok st = true).
    { destruct Q2 as (pre & x & w & ->). apply (proj1 Hh). }
    rewrite Hq in R2. destruct R2 as [F2 _].
    apply (IH s2 (n + 1) true A2 ltac:(lia) ltac:(lia) ltac:(exact F2) p q Epq Hin' Hbig).
  - apply (IH (rti_reset s) n false A Hi Hr eq_refl p q Epq Hin' Hbig).
Qed.
End P.

(** submodules that always succeed *)
Definition calm : rti_oracles unit unit := mkRtiOracles unit unit
  (fun _ w => w) (fun _ w => w) (fun _ w => w) (fun _ _ => mkRes f0 f0 f0 f0) (fun _ w => w)
  (fun w => w) (fun w => w) (fun w => w) (fun w => w) (fun _ _ w => w) (fun _ w => w)
  (fun _ _ w => (w, ACADOS_SUCCESS, 1)) (fun _ => (f0, f0, f0, f0)) (fun x w => (w, x, ACADOS_SUCCESS))
  (fun _ => true) (fun _ w => w) (fun _ w => w) (fun _ w => w) (fun _ w => w) (fun w => w).
Definition calm_mem (o : rti_opts) : rmem unit unit :=
  mkRmem unit unit tt tt tt 0 ACADOS_READY true (2 + as_rti_iter o) (rti_stat_n o)
    (repeat f0 (Z.to_nat ((2 + as_rti_iter o) * rti_stat_n o))) [].
Lemma calm_created o : 0 <= as_rti_iter o -> rti_created o (calm_mem o).
Proof.
  intros H. unfold rti_created, calm_mem; cbn [m_stat_m m_stat_n m_stat m_iter m_first m_status]. rewrite repeat_length, Z2Nat.id; [auto 10|].
  apply Z.mul_nonneg_nonneg; [lia|]. unfold rti_stat_n. destruct (log_res o), (rti_ext_qp_res o); lia.
Qed.

Lemma rti_advanced_exact opts l : as_level opts <> STANDARD_RTI -> 0 <= as_rti_iter opts ->
  (forall (iterate world : Type) (Or : rti_oracles iterate world) s, rti_created opts s -> rti_calls Or opts l s <> UB) <->
  (forall p q, l = p ++ q -> ~ In (Call PREPARATION_AND_FEEDBACK) p -> rows_used opts p <= as_rti_iter opts + 1).
Proof.
  intros Hl Hn. split.
  - intros H p q E Hin. destruct (Z.le_gt_cases (rows_used opts p) (as_rti_iter opts + 1)) as [L|G]; [exact L|exfalso].
    pose proof (calm_created opts Hn) as C.
    apply (H unit unit calm (calm_mem opts) C).
    apply (adv_complete unit unit calm opts ltac:(repeat split) Hl Hn l (calm_mem opts) 0 false (created_alloc _ _ _ _ C) eq_refl ltac:(lia) eq_refl p q E Hin).
    unfold rows_used in G. lia.
  - intros H iterate world Or s C. pose proof (created_alloc _ _ _ _ C) as A.
    assert (I : m_iter s = 0) by apply C. assert (F : m_first s = true) by apply C.
    apply (adv_sound _ _ Or opts Hl Hn l s 0 false A); [lia|rewrite F; discriminate|exact H].
Qed.
