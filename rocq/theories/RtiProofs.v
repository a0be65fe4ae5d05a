(** Proofs about the RTI solver model. *)
From Coq Require Import ZArith List Bool Lia.
From Verif Require Import FP SqpModel SqpProofs RtiModel.
Import ListNotations.
Open Scope Z_scope.

Section P.
Variables iterate world : Type.
Notation rmem := (rmem iterate world).
Variable Or : rti_oracles iterate world.
Variable opts : rti_opts.

Definition alloc (s : rmem) : Prop :=
  m_stat_m s = 2 + as_rti_iter opts /\ m_stat_n s = rti_stat_n opts /\
  Z.of_nat (length (m_stat s)) = m_stat_m s * m_stat_n s.

(** [keeps s s']: everything but the statistics contents, world and iterates is unchanged *)
Definition keeps (s s' : rmem) : Prop :=
  m_iter s' = m_iter s /\ m_status s' = m_status s /\ m_first s' = m_first s /\ m_tr s' = m_tr s /\
  m_out s' = m_out s /\ m_tmp s' = m_tmp s /\ m_wd s' = m_wd s.

Lemma stat_n_pos : 2 <= rti_stat_n opts.
Proof. unfold rti_stat_n. destruct (log_res opts), (rti_ext_qp_res opts); lia. Qed.

Lemma put_stat_ok s row c v : alloc s -> 0 <= row < m_stat_m s -> 0 <= c < rti_stat_n opts ->
  exists s', put_stat s row c v = Ok s' /\ alloc s' /\ keeps s s'.
Proof.
  intros (A & B & C) Hr Hc. unfold put_stat.
  destruct (put_ok (m_stat s) (m_stat_n s * row + c) v) as (l & -> & Hl & _); [rewrite C, B; nia|].
  cbn. eexists; split; [reflexivity|]. unfold alloc, keeps; cbn. rewrite Hl. repeat split; auto.
Qed.
Lemma put_stat_ub s row c v : alloc s -> m_stat_m s <= row -> 0 <= c -> put_stat s row c v = UB.
Proof.
  intros (A & B & C) Hr Hc. unfold put_stat.
  pose proof stat_n_pos. destruct (put (m_stat s) (m_stat_n s * row + c) v) eqn:E; [|reflexivity].
  exfalso. apply put_inv in E. destruct E as (R & _). rewrite C, B in R. nia.
Qed.
Lemma keeps_trans a b c : keeps a b -> keeps b c -> keeps a c.
Proof. unfold keeps. intuition congruence. Qed.

Lemma store_ok s : alloc s -> 0 <= m_iter s -> log_res opts = true ->
  exists s', store_res Or opts s = Ok s' /\ alloc s' /\ keeps s s'.
Proof.
  intros A Hi Hl. unfold store_res. destruct (Z.ltb_spec (m_iter s) (m_stat_m s)) as [H|H].
  2:{ exists s. unfold keeps; repeat split; auto; apply A. }
  set (off := 2 + _).
  assert (Ho : forall c, 0 <= c < 4 -> 0 <= c + off < rti_stat_n opts).
  { intros c Hc. unfold off, rti_stat_n. rewrite Hl. destruct (rti_ext_qp_res opts); lia. }
  assert (M : m_stat_m s = 2 + as_rti_iter opts) by apply A.
  destruct (put_stat_ok s (m_iter s) (0 + off) (r_stat (r_res Or (m_out s) (m_wd s))) A) as (s1 & -> & A1 & K1); [lia|apply Ho; lia|]. cbn [obind].
  assert (M1 : m_stat_m s1 = 2 + as_rti_iter opts) by apply A1. assert (I1 : m_iter s1 = m_iter s) by apply K1.
  destruct (put_stat_ok s1 (m_iter s1) (1 + off) (r_eq (r_res Or (m_out s) (m_wd s))) A1) as (s2 & -> & A2 & K2); [lia|apply Ho; lia|]. cbn [obind].
  assert (M2 : m_stat_m s2 = 2 + as_rti_iter opts) by apply A2. assert (I2 : m_iter s2 = m_iter s1) by apply K2.
  destruct (put_stat_ok s2 (m_iter s2) (2 + off) (r_ineq (r_res Or (m_out s) (m_wd s))) A2) as (s3 & -> & A3 & K3); [lia|apply Ho; lia|]. cbn [obind].
  assert (M3 : m_stat_m s3 = 2 + as_rti_iter opts) by apply A3. assert (I3 : m_iter s3 = m_iter s2) by apply K3.
  destruct (put_stat_ok s3 (m_iter s3) (3 + off) (r_comp (r_res Or (m_out s) (m_wd s))) A3) as (s4 & -> & A4 & K4); [lia|apply Ho; lia|].
  exists s4. split; [reflexivity|]. split; [exact A4|]. eauto using keeps_trans.
Qed.
(** guarded version used in all the "if (log) store" places *)
Lemma store_if b s : alloc s -> 0 <= m_iter s -> (b = true -> log_res opts = true) ->
  exists s', (if b then store_res Or opts s else Ok s) = Ok s' /\ alloc s' /\ keeps s s'.
Proof.
  intros A Hi Hb. destruct b; [apply store_ok; auto|]. exists s. split; [reflexivity|]. split; [exact A|]. unfold keeps; auto 10.
Qed.

Lemma alloc_wd s w : alloc (s_wd _ _ s w) <-> alloc s. Proof. reflexivity. Qed.
Lemma alloc_iter s w : alloc (s_iter _ _ s w) <-> alloc s. Proof. reflexivity. Qed.

Lemma store_res_shape s : (exists s', store_res Or opts s = Ok s' /\ keeps s s') \/ store_res Or opts s = UB.
Proof.
  assert (P : forall s row c v, (exists s', put_stat s row c v = Ok s' /\ keeps s s') \/ put_stat (iterate:=iterate) (world:=world) s row c v = UB).
  { intros t row c v. unfold put_stat. destruct (put _ _ _); cbn; [left|right; reflexivity]. eexists; split; [reflexivity|]. unfold keeps; cbn; auto 10. }
  unfold store_res. destruct (_ <? _); [|left; exists s; unfold keeps; auto 10].
  destruct (P s (m_iter s) (0 + (2 + (if rti_ext_qp_res opts then 4 else 0))) (r_stat (r_res Or (m_out s) (m_wd s)))) as [(s1 & -> & K1)| ->]; [|right; reflexivity]; cbn [obind].
  match goal with |- context [put_stat s1 ?r ?c ?v] => destruct (P s1 r c v) as [(s2 & -> & K2)| ->] end; [|right; reflexivity]; cbn [obind].
  match goal with |- context [put_stat s2 ?r ?c ?v] => destruct (P s2 r c v) as [(s3 & -> & K3)| ->] end; [|right; reflexivity]; cbn [obind].
  match goal with |- context [put_stat s3 ?r ?c ?v] => destruct (P s3 r c v) as [(s4 & -> & K4)| ->] end; [|right; reflexivity].
  left. exists s4. split; [reflexivity|]. eauto using keeps_trans.
Qed.

(** ** feedback step *)
Lemma feedback_spec ph s : alloc s -> 0 <= m_iter s -> 0 <= as_rti_iter opts ->
  if m_iter s + 1 <? m_stat_m s then
    exists s' st tr, feedback_step Or opts ph s = Ok s' /\ alloc s' /\ m_iter s' = m_iter s + 1 /\
      (exists pre x w, st = snd (fst (r_qp Or pre x w))) /\
      m_status s' = (if qp_ok st then ACADOS_SUCCESS else ACADOS_QP_FAILURE) /\
      m_tr s' = tr ++ RQp st :: m_tr s /\
      (if qp_ok st then m_first s' = false /\ exists g, tr = [RGlob g]
       else m_first s' = m_first s /\ tr = [] /\ m_out s' = m_out s)
  else feedback_step Or opts ph s = UB.
Proof.
  intros A Hi Hn. unfold feedback_step.
  set (s1 := s_wd _ _ s _).
  destruct (store_if (log_res opts) s1 A Hi (fun x => x)) as (s2 & E2 & A2 & K2). rewrite E2. cbn [obind].
  set (s3 := s_iter _ _ s2 (m_iter s2 + 1)).
  set (s4 := match ph with PREPARATION_AND_FEEDBACK => s_wd _ _ s3 _ | PREPARATION => s3 | FEEDBACK => s_wd _ _ s3 _ end).
  assert (K4 : m_iter s4 = m_iter s + 1 /\ m_status s4 = m_status s /\ m_first s4 = m_first s /\ m_tr s4 = m_tr s /\ m_out s4 = m_out s /\ alloc s4).
  { destruct K2 as (a & b & c & d & e & f & g). unfold s4. destruct ph; cbn; unfold s1 in *; cbn in *; repeat split; try congruence; apply A2. }
  clearbody s4. clear s3 s2 E2 A2 K2 s1.
  set (s5 := s_wd _ _ s4 _).
  assert (K5 : m_iter s5 = m_iter s + 1 /\ m_status s5 = m_status s /\ m_first s5 = m_first s /\ m_tr s5 = m_tr s /\ m_out s5 = m_out s /\ alloc s5) by exact K4.
  clearbody s5. clear K4 s4.
  match goal with |- context [r_qp Or ?a (m_out s5) (m_wd s5)] => pose proof (eq_refl (snd (fst (r_qp Or a (m_out s5) (m_wd s5))))) as Q;
    assert (Q' : exists pre x w, snd (fst (r_qp Or a (m_out s5) (m_wd s5))) = snd (fst (r_qp Or pre x w))) by (do 3 eexists; reflexivity) end.
  clear Q. destruct (r_qp Or _ (m_out s5) (m_wd s5)) as [[w st] qi]. cbn [fst snd] in Q'.
  set (s6 := s_wd _ _ (s_ev _ _ _ _) _).
  assert (K6 : m_iter s6 = m_iter s + 1 /\ m_status s6 = m_status s /\ m_first s6 = m_first s /\ m_tr s6 = RQp st :: m_tr s /\ m_out s6 = m_out s /\ alloc s6).
  { unfold s6; cbn. destruct K5 as (a & b & c & d & e & f). repeat split; try congruence; apply f. }
  clearbody s6. clear K5 s5. destruct K6 as (I6 & St6 & F6 & T6 & O6 & A6).
  assert (M6 : m_stat_m s6 = 2 + as_rti_iter opts) by apply A6.
  assert (M : m_stat_m s = 2 + as_rti_iter opts) by apply A.
  match goal with |- context [obind ?e _] => assert (E7 : exists s7, e = Ok s7 /\ alloc s7 /\ keeps s6 s7) end.
  { destruct (rti_ext_qp_res opts) eqn:Ex.
    - destruct (r_qp_res Or (m_wd s6)) as [[[a0 a1] a2] a3].
      assert (Ho : forall c, 2 <= c < 6 -> 0 <= c < rti_stat_n opts) by (intros; unfold rti_stat_n; rewrite Ex; destruct (log_res opts); lia).
      destruct (put_stat_ok s6 1 2 a0 A6) as (t1 & -> & B1 & L1); [lia|apply Ho; lia|]. cbn [obind].
      assert (N1 : m_stat_m t1 = 2 + as_rti_iter opts) by apply B1.
      destruct (put_stat_ok t1 1 3 a1 B1) as (t2 & -> & B2 & L2); [lia|apply Ho; lia|]. cbn [obind].
      assert (N2 : m_stat_m t2 = 2 + as_rti_iter opts) by apply B2.
      destruct (put_stat_ok t2 1 4 a2 B2) as (t3 & -> & B3 & L3); [lia|apply Ho; lia|]. cbn [obind].
      assert (N3 : m_stat_m t3 = 2 + as_rti_iter opts) by apply B3.
      destruct (put_stat_ok t3 1 5 a3 B3) as (t4 & -> & B4 & L4); [lia|apply Ho; lia|].
      exists t4. split; [reflexivity|]. split; [exact B4|]. eauto using keeps_trans.
    - exists s6. split; [reflexivity|]. split; [exact A6|]. unfold keeps; auto 10. }
  destruct E7 as (s7 & -> & A7 & K7). cbn [obind].
  assert (M7 : m_stat_m s7 = 2 + as_rti_iter opts) by apply A7.
  assert (I7 : m_iter s7 = m_iter s + 1) by (destruct K7; congruence).
  destruct (Z.ltb_spec (m_iter s + 1) (m_stat_m s)) as [Hlt|Hge].
  2:{ rewrite put_stat_ub; [reflexivity|exact A7|lia|lia]. }
  pose proof stat_n_pos as Hp.
  destruct (put_stat_ok s7 (m_iter s7) 0 (z2f st) A7) as (s8 & -> & A8 & K8); [lia|lia|]. cbn [obind].
  assert (I8 : m_iter s8 = m_iter s7) by apply K8. assert (M8 : m_stat_m s8 = 2 + as_rti_iter opts) by apply A8.
  destruct (put_stat_ok s8 (m_iter s8) 1 (z2f qi) A8) as (s9 & -> & A9 & K9); [lia|lia|]. cbn [obind].
  assert (KK : keeps s6 s9) by eauto using keeps_trans.
  destruct KK as (a & b & c & d & e & f & g).
  destruct (qp_ok st) eqn:Hq.
  - unfold glob_step. destruct (r_glob Or (m_out s9) (m_wd s9)) as [[w' x'] gst]. cbn [fst snd].
    set (s10 := s_first _ _ _ _).
    assert (A10 : alloc s10) by exact A9.
    assert (K10 : m_iter s10 = m_iter s + 1 /\ m_status s10 = ACADOS_SUCCESS /\ m_first s10 = false /\ m_tr s10 = [RGlob gst] ++ RQp st :: m_tr s) by (unfold s10; cbn; repeat split; congruence).
    clearbody s10. destruct K10 as (I10 & St10 & F10 & T10).
    destruct (log_res opts && negb (log_only_available opts)) eqn:El.
    + apply andb_prop in El. destruct El as [El _].
      destruct (store_ok (s_wd _ _ s10 (r_full Or (m_out s10) (m_wd s10)))) as (s11 & E11 & A11 & K11); [exact A10|cbn; lia|exact El|].
      destruct K11 as (k1 & k2 & k3 & k4 & _). cbn in k1, k2, k3, k4.
      exists s11, st, [RGlob gst]. rewrite Hq. split; [exact E11|]. split; [exact A11|]. split; [congruence|]. split; [exact Q'|]. do 3 (split; [congruence|]). eauto.
    + exists s10, st, [RGlob gst]. rewrite Hq. split; [reflexivity|]. split; [exact A10|]. split; [congruence|]. split; [exact Q'|]. do 3 (split; [congruence|]). eauto.
  - exists (s_status _ _ s9 ACADOS_QP_FAILURE), st, []. rewrite Hq. split; [reflexivity|]. split; [exact A9|]. split; [cbn; congruence|]. split; [exact Q'|]. cbn. repeat (split; [congruence|]). congruence.
Qed.

(** ** preparation steps *)
Lemma prep_spec ph s : alloc s -> exists s', preparation_step Or ph s = Ok s' /\ alloc s' /\ m_iter s' = 0 /\
  m_status s' = m_status s /\ m_tr s' = m_tr s /\ m_first s' = m_first s.
Proof. intros A. unfold preparation_step. eexists; split; [reflexivity|]. destruct ph; cbn; repeat split; apply A. Qed.

Lemma qp_and_stat_ok pre s : alloc s -> 0 <= m_iter s < m_stat_m s ->
  exists s' st, qp_and_stat Or pre s = Ok (s', st) /\ alloc s' /\ m_iter s' = m_iter s /\ m_status s' = m_status s /\ m_first s' = m_first s.
Proof.
  intros A Hi. unfold qp_and_stat. destruct (r_qp Or pre (m_out s) (m_wd s)) as [[w st] qi].
  set (s1 := s_ev _ _ _ _). assert (A1 : alloc s1) by exact A.
  pose proof stat_n_pos as Hp.
  destruct (put_stat_ok s1 (m_iter s1) 0 (z2f st) A1) as (s2 & -> & A2 & K2); [exact Hi|lia|]. cbn [obind].
  assert (I2 : m_iter s2 = m_iter s1) by apply K2. assert (M2 : m_stat_m s2 = 2 + as_rti_iter opts) by apply A2.
  assert (M : m_stat_m s = 2 + as_rti_iter opts) by apply A.
  assert (I1 : m_iter s1 = m_iter s) by reflexivity.
  destruct (put_stat_ok s2 (m_iter s2) 1 (z2f qi) A2) as (s3 & -> & A3 & K3); [lia|lia|]. cbn [obind].
  exists s3, st. split; [reflexivity|]. split; [exact A3|]. pose proof (keeps_trans _ _ _ K2 K3) as (a & b & c & _).
  cbn in a, b, c. auto.
Qed.

Lemma inner_ok s : alloc s -> 0 <= m_iter s < as_rti_iter opts ->
  exists r, inner Or opts s = Ok r /\ match r with
   | inl s' => alloc s' /\ m_iter s' = m_iter s
   | inr s' => alloc s' /\ m_iter s' = m_iter s + 1 end.
Proof.
  intros A Hi. unfold inner.
  assert (M : m_stat_m s = 2 + as_rti_iter opts) by apply A.
  match goal with |- context [obind ?e _] => assert (E1 : exists s1, e = Ok s1 /\ alloc s1 /\ m_iter s1 = m_iter s) end.
  { destruct (as_level opts).
    2:{ set (t := s_wd _ _ s _). destruct (store_if (log_res opts && negb (log_only_available opts)) (s_wd _ _ t (r_full Or (m_out t) (m_wd t)))) as (s2 & E2 & A2 & K2); [exact A|cbn; lia|intros H; apply andb_prop in H; apply H|].
        destruct (_ && _); [rewrite E2|injection E2 as <-]; cbn [obind]; eexists; split; try reflexivity; split; try exact A2; try apply K2; try exact A; reflexivity. }
    2:{ set (t := s_wd _ _ s _). destruct (store_if (log_res opts && negb (log_only_available opts)) (s_wd _ _ t (r_level_c_full _ _ Or (m_out t) (m_wd t)))) as (s2 & E2 & A2 & K2); [exact A|cbn; lia|intros H; apply andb_prop in H; apply H|].
        destruct (_ && _); [rewrite E2|injection E2 as <-]; cbn [obind]; eexists; split; try reflexivity; split; try exact A2; try apply K2; try exact A; reflexivity. }
    all: set (t := s_wd _ _ (s_wd _ _ s _) _);
      destruct (store_if (log_res opts) t) as (s2 & -> & A2 & K2); [exact A|cbn; lia|auto|]; cbn [obind];
      eexists; split; [reflexivity|]; split; [exact A2|]; destruct K2 as (k & _); exact k. }
  destruct E1 as (s1 & -> & A1 & I1). cbn [obind].
  assert (M1 : m_stat_m s1 = 2 + as_rti_iter opts) by apply A1.
  destruct (qp_and_stat_ok (match as_level opts with LEVEL_D => false | _ => true end) s1 A1) as (s2 & st & -> & A2 & I2 & S2 & F2); [lia|]. cbn [obind].
  set (s3 := match as_level opts with LEVEL_B => s_wd _ _ s2 _ | _ => s2 end).
  assert (K3 : alloc s3 /\ m_iter s3 = m_iter s) by (unfold s3; destruct (as_level opts); split; try exact A2; cbn; congruence).
  clearbody s3. destruct K3 as [A3 I3].
  destruct (qp_ok st); [|eexists; split; [reflexivity|]; split; [exact A3|exact I3]].
  unfold glob_step. destruct (r_glob Or (m_out s3) (m_wd s3)) as [[w x] g].
  destruct (g =? ACADOS_SUCCESS); eexists; split; try reflexivity; split; try exact A3; cbn; lia.
Qed.

Lemma inner_loop_ok n s : alloc s -> 0 <= m_iter s -> m_iter s + Z.of_nat n <= as_rti_iter opts ->
  exists r, inner_loop Or opts n s = Ok r /\ match r with
   | inl s' | inr s' => alloc s' /\ 0 <= m_iter s' <= as_rti_iter opts end.
Proof.
  revert s. induction n as [|n IH]; intros s A Hi Hn; cbn [inner_loop].
  - eexists; split; [reflexivity|]. split; [exact A|lia].
  - destruct (inner_ok s A) as (r & -> & Hr); [lia|]. cbn [obind]. destruct r as [s1|s1].
    + eexists; split; [reflexivity|]. destruct Hr as [A1 ->]. split; [exact A1|lia].
    + destruct Hr as [A1 I1]. apply IH; [exact A1|lia|lia].
Qed.

Lemma level_a_ok s : alloc s -> m_iter s = 0 -> 0 <= as_rti_iter opts ->
  exists r, level_a Or opts s = Ok r /\ match r with
   | inl s' | inr s' => alloc s' /\ m_iter s' = 1 end.
Proof.
  intros A Hi Hn. unfold level_a. assert (M : m_stat_m s = 2 + as_rti_iter opts) by apply A.
  match goal with |- context [store_res Or opts ?t] => set (s1 := t) end.
  assert (K1 : alloc s1 /\ m_iter s1 = 0) by (unfold s1; destruct (_ && _); split; try exact A; exact Hi).
  destruct (store_if (log_res opts) s1 (proj1 K1)) as (s2 & E2 & A2 & K2); [lia|auto|].
  rewrite E2. cbn [obind].
  set (s3 := s_wd _ _ (s_iter _ _ s2 _) _).
  assert (I3 : m_iter s3 = 1) by (unfold s3; cbn; destruct K2 as (k & _); rewrite k; lia).
  assert (A3 : alloc s3) by exact A2. clearbody s3.
  assert (M3 : m_stat_m s3 = 2 + as_rti_iter opts) by apply A3.
  destruct (qp_and_stat_ok true s3 A3) as (s4 & st & -> & A4 & I4 & _); [lia|]. cbn [obind].
  unfold glob_step. destruct (r_glob Or (m_out s4) (m_wd s4)) as [[w x] g].
  destruct (g =? ACADOS_SUCCESS); eexists; split; try reflexivity; split; try exact A4; cbn; lia.
Qed.

Lemma prep_adv_ok s : alloc s -> 0 <= as_rti_iter opts -> (as_level opts = LEVEL_A -> 1 <= as_rti_iter opts) ->
  preparation_advanced_step Or opts s = Exit \/
  exists s', preparation_advanced_step Or opts s = Ok s' /\ alloc s' /\ 0 <= m_iter s' <= as_rti_iter opts.
Proof.
  intros A Hn HA. unfold preparation_advanced_step.
  set (s1 := s_wd _ _ (s_iter _ _ s 0) _). assert (A1 : alloc s1) by exact A. assert (I1 : m_iter s1 = 0) by reflexivity.
  clearbody s1.
  match goal with |- context [obind ?e _] => assert (E2 : e = Exit \/ exists s2, e = Ok s2 /\ alloc s2 /\ m_iter s2 = 0) end.
  { destruct (m_first s1); [destruct (r_sane Or (m_wd s1)); [|left; reflexivity]|]; right; eexists; (split; [reflexivity|]); (split; [exact A1|exact I1]). }
  destruct E2 as [->|(s2 & -> & A2 & I2)]; [left; reflexivity|]. cbn [obind].
  match goal with |- context [obind ?e _] => assert (E3 : exists r, e = Ok r /\ match r with inl s' | inr s' => alloc s' /\ 0 <= m_iter s' <= as_rti_iter opts end) end.
  { assert (Triv : exists r : rmem + rmem, Ok (inr s2) = Ok r /\ match r with inl s' | inr s' => alloc s' /\ 0 <= m_iter s' <= as_rti_iter opts end).
    { exists (inr s2). split; [reflexivity|]. split; [exact A2|lia]. }
    assert (L : exists r, inner_loop Or opts (Z.to_nat (as_rti_iter opts - m_iter s2)) s2 = Ok r /\ match r with inl s' | inr s' => alloc s' /\ 0 <= m_iter s' <= as_rti_iter opts end) by (apply inner_loop_ok; [exact A2|lia|lia]).
    destruct (as_level opts) eqn:El; destruct (m_first s2); try exact Triv; try exact L.
    destruct (level_a_ok s2 A2 I2 Hn) as (r & E & Hr). exists r. split; [exact E|]. specialize (HA eq_refl).
    destruct r; destruct Hr; split; auto; lia. }
  destruct E3 as (r & -> & Hr). cbn [obind]. right. destruct r as [s3|s3]; destruct Hr as [A3 I3].
  - eexists; split; [reflexivity|]. split; assumption.
  - eexists; split; [reflexivity|]. destruct (as_level opts); split; assumption.
Qed.
End P.
