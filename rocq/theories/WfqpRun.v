(** Proofs about the feasible-QP driver and its search direction modes. *)
From Coq Require Import ZArith List Bool Lia.
From Verif Require Import FP FPProofs SqpModel SqpProofs SqpSpec WfqpModel WfqpDriver.
Import ListNotations.
Open Scope Z_scope.

(** ** mode switching *)
Definition byrd_type (t : sd_type) : bool := match t with TypeFN | TypeNFN => true | _ => false end.
Definition nominal_tried (t : sd_type) : bool := match t with TypeN | TypeNFN => true | _ => false end.
Definition typ (x : sd_mem * sd_input * sd_type) : sd_type := snd x.
Definition inp (x : sd_mem * sd_input * sd_type) : sd_input := snd (fst x).
Definition zeros (l : list (sd_mem * sd_input * sd_type)) : Z := Z.of_nat (length (filter (fun x => slacks_zero (inp x)) l)).

Lemma zeros_cons x l : zeros (x :: l) = (if slacks_zero (inp x) then 1 else 0) + zeros l.
Proof. unfold zeros. cbn [filter]. destruct (slacks_zero (inp x)); cbn [length]; lia. Qed.
Lemma zeros_nonneg l : 0 <= zeros l. Proof. unfold zeros; lia. Qed.
Lemma zeros_app a b : zeros (a ++ b) = zeros a + zeros b.
Proof. unfold zeros. rewrite filter_app, app_length. lia. Qed.

(** a log is a run *)
Fixpoint is_run (allow : bool) (wmax : Z) (m : sd_mem) (l : list (sd_mem * sd_input * sd_type)) (m' : sd_mem) (alive : bool) : Prop :=
  match l with
  | [] => m' = m /\ alive = true
  | (m0, i, t) :: r => m0 = m /\ exists ok m1, search_direction allow wmax i m = (m1, ok, t) /\ (if ok then is_run allow wmax m1 r m' alive else r = [] /\ m' = m1 /\ alive = false)
  end.
Lemma is_run_snoc allow wmax l m m1 i m2 ok t : is_run allow wmax m l m1 true -> search_direction allow wmax i m1 = (m2, ok, t) -> is_run allow wmax m (l ++ [(m1, i, t)]) m2 ok.
Proof.
  revert m. induction l as [|[[m0 i0] t0] l IH]; intros m H Hs; cbn in *.
  - destruct H as [-> _]. split; [reflexivity|]. exists ok, m2. split; [exact Hs|]. destruct ok; auto.
  - destruct H as (-> & ok0 & m3 & H1 & H2). split; [reflexivity|]. exists ok0, m3. split; [exact H1|]. destruct ok0; [apply IH; assumption|]. destruct H2 as (_ & _ & H2). discriminate H2.
Qed.

Section M.
Variables (allow : bool) (wmax : Z).
Hypothesis Hw : 0 < wmax.
(** what a memory looks like in a run *)
Definition good (m : sd_mem) : Prop := match sd_md m with NOMINAL_QP => sd_counter m = 0 | BYRD_OMOJOKUN => 0 <= sd_counter m /\ (allow = true -> sd_counter m < wmax) | FEASIBILITY_QP => True end.
Lemma step_good i m m1 ok t : good m -> search_direction allow wmax i m = (m1, ok, t) -> good m1 /\
  match t with
  | TypeN => sd_md m = NOMINAL_QP /\ nominal_ok i = true /\ sd_md m1 = NOMINAL_QP
  | TypeF => sd_md m = FEASIBILITY_QP /\ ok = false
  | _ => (if match t with TypeNFN => true | _ => false end then sd_md m = NOMINAL_QP /\ nominal_ok i = false else sd_md m = BYRD_OMOJOKUN) /\ ok = byrd_ok i /\
         let c := sd_counter m + (if slacks_zero i then 1 else 0) in
         (sd_md m1 = NOMINAL_QP /\ allow = true /\ c = wmax \/ sd_md m1 = BYRD_OMOJOKUN /\ sd_counter m1 = c /\ (allow = true -> c < wmax))
  end.
Proof.
  unfold good, search_direction, byrd_part. intros G.
  destruct (sd_md m) eqn:E.
  - destruct (nominal_ok i) eqn:En.
    + intros H; injection H as <- <- <-. rewrite E. auto.
    + cbn [sd_counter]. destruct allow; cbn [andb].
      * destruct (Z.eqb_spec (if slacks_zero i then sd_counter m + 1 else sd_counter m) wmax) as [Ec|Ec]; intros H; injection H as <- <- <-; cbn; rewrite ?G in *.
        -- split; [reflexivity|]. split; [auto|]. split; [reflexivity|]. left. destruct (slacks_zero i); auto; lia.
        -- split; [destruct (slacks_zero i); split; lia|]. split; [auto|]. split; [reflexivity|]. right. destruct (slacks_zero i); repeat split; lia.
      * intros H; injection H as <- <- <-; cbn. rewrite ?G in *. split; [destruct (slacks_zero i); split; try lia; discriminate|]. split; [auto|]. split; [reflexivity|]. right. destruct (slacks_zero i); repeat split; try lia; discriminate.
  - destruct G as [G1 G2]. destruct allow; cbn [andb].
    + specialize (G2 eq_refl). destruct (Z.eqb_spec (if slacks_zero i then sd_counter m + 1 else sd_counter m) wmax) as [Ec|Ec]; intros H; injection H as <- <- <-; cbn.
      * split; [reflexivity|]. split; [reflexivity|]. split; [reflexivity|]. left. destruct (slacks_zero i); auto; lia.
      * split; [destruct (slacks_zero i); split; lia|]. split; [reflexivity|]. split; [reflexivity|]. right. destruct (slacks_zero i); repeat split; lia.
    + intros H; injection H as <- <- <-; cbn. split; [destruct (slacks_zero i); split; try lia; discriminate|]. split; [reflexivity|]. split; [reflexivity|]. right. destruct (slacks_zero i); repeat split; try lia; discriminate.
  - intros H; injection H as <- <- <-. rewrite E. auto.
Qed.
Lemma run_split a b m m' al : is_run allow wmax m (a ++ b) m' al -> b <> [] -> exists m1, is_run allow wmax m a m1 true /\ is_run allow wmax m1 b m' al.
Proof.
  revert m. induction a as [|[[m0 i] t] a IH]; intros m H Hb; cbn in *.
  - exists m. auto.
  - destruct H as (-> & ok & m1 & H1 & H2). destruct ok; [|destruct H2 as [H2 _]; destruct a; [contradiction|discriminate H2]].
    destruct (IH m1 H2 Hb) as (m2 & R1 & R2). exists m2. split; [|exact R2]. split; [reflexivity|]. exists true, m1. auto.
Qed.
Lemma run_good a m m' al : good m -> is_run allow wmax m a m' al -> good m'.
Proof.
  revert m. induction a as [|[[m0 i] t] a IH]; intros m G H; cbn in *; [destruct H as [-> _]; exact G|].
  destruct H as (-> & ok & m1 & H1 & H2). apply step_good in H1; [|exact G]. destruct ok; [apply (IH m1); tauto|]. destruct H2 as (_ & -> & _). tauto.
Qed.
(** inside a relaxed phase *)
Lemma phase b : forall m m' al, good m -> sd_md m = BYRD_OMOJOKUN -> is_run allow wmax m b m' al -> Forall (fun x => typ x = TypeFN) b ->
  (forall b1 x, b = b1 ++ [x] -> allow = true -> sd_counter m + zeros b1 < wmax) /\
  (sd_md m' = NOMINAL_QP /\ allow = true /\ sd_counter m + zeros b = wmax \/ sd_md m' = BYRD_OMOJOKUN /\ sd_counter m' = sd_counter m + zeros b /\ (allow = true -> sd_counter m + zeros b < wmax)).
Proof.
  induction b as [|[[m0 i] t] b IH]; intros m m' al G E R F.
  - cbn in R. destruct R as [-> _]. split; [intros b1 x H; destruct b1; discriminate H|]. right. unfold zeros; cbn. unfold good in G. rewrite E in G. repeat split; try tauto; try lia. intros Ha. destruct G as [_ G]. specialize (G Ha). lia.
  - inversion F as [|? ? Ft F']; subst. cbn in Ft. subst t. cbn in R. destruct R as (-> & ok & m1 & H1 & H2).
    destruct (step_good i m m1 ok TypeFN G H1) as (G1 & S). cbn in S. destruct S as (_ & _ & S).
    rewrite !zeros_cons; unfold inp; cbn [fst snd].
    assert (Hm : allow = true -> sd_counter m < wmax) by (unfold good in G; rewrite E in G; tauto).
    destruct S as [(S1 & S2 & S3)|(S1 & S2 & S3)].
    + (* back to the nominal mode: the phase is over *)
      assert (b = [] /\ m' = m1) as [-> ->].
      { destruct ok; [|tauto]. destruct b as [|[[m2 i2] t2] b]; [cbn in H2; tauto|]. exfalso. cbn in H2. destruct H2 as (-> & ok2 & m3 & H3 & _). inversion F' as [|? ? Ft2 _]; subst. cbn in Ft2. subst t2.
        destruct (step_good i2 m1 m3 ok2 TypeFN G1 H3) as (_ & Hx & _). cbn in Hx. congruence. }
      split. { intros b1 x Hb Ha. destruct b1 as [|? [|? ?]]; try discriminate Hb. unfold zeros; cbn. specialize (Hm Ha). lia. }
      left. change (zeros []) with 0. cbv zeta in S3. repeat split; auto. destruct (slacks_zero i); lia.
    + assert (HR : exists al2, is_run allow wmax m1 b m' al2). { destruct ok; [eauto|]. destruct H2 as (-> & -> & _). exists true. cbn; auto. }
      destruct HR as (al2 & HR). destruct (IH m1 m' al2 G1 S1 HR F') as [P1 P2]. rewrite S2 in P1, P2. split.
      * intros b1 x Hb Ha. destruct b1 as [|y b1]; [unfold zeros; cbn; specialize (Hm Ha); lia|]. injection Hb as <- Hb. rewrite !zeros_cons; unfold inp; cbn [fst snd]. specialize (P1 b1 x Hb Ha). lia.
      * destruct P2 as [(P3 & P4 & P5)|(P3 & P4 & P5)]; [left; repeat split; auto; lia|right]. repeat split; auto; [lia|]. intros Ha. specialize (P5 Ha). lia.
Qed.
(** the relaxed phase that starts with a failed nominal QP ends exactly when wmax of its iterations had zero slacks *)
Lemma watchdog m l m' al a x b y c : good m -> is_run allow wmax m l m' al -> l = a ++ (x :: b) ++ y :: c -> typ x = TypeNFN -> Forall (fun z => typ z = TypeFN) b ->
  nominal_ok (inp x) = false /\ zeros (removelast (x :: b)) < wmax \/ allow = false /\ nominal_ok (inp x) = false.
Proof.
  intros G R -> Ht F. destruct (run_split a ((x :: b) ++ y :: c) m m' al R ltac:(discriminate)) as (m1 & R1 & R2).
  pose proof (run_good _ _ _ _ G R1) as G1.
  destruct x as [[mx ix] tx]. cbn in Ht. subst tx. cbn in R2. destruct R2 as (-> & ok & m2 & H1 & H2).
  destruct (step_good ix m1 m2 ok TypeNFN G1 H1) as (G2 & (E1 & E2) & E3 & E4). cbn [inp fst snd].
  assert (Hal : allow = true \/ allow = false) by (destruct allow; auto). destruct Hal as [Ha|Ha]; [left|right; auto]. split; [exact E2|].
  destruct b as [|z b]; [unfold zeros; cbn; exact Hw|].
  destruct ok; [|destruct H2 as [H2 _]; discriminate H2].
  assert (C0 : sd_counter m1 = 0) by (unfold good in G1; rewrite E1 in G1; exact G1). cbv zeta in E4. rewrite C0 in E4.
  destruct E4 as [(S1 & S2 & S3)|(S1 & S2 & S3)].
  - exfalso. destruct z as [[mz iz] tz]. cbn in H2. destruct H2 as (-> & ok2 & m3 & H3 & _). inversion F as [|? ? Ft _]; subst. cbn in Ft. subst tz.
    destruct (step_good iz m2 m3 ok2 TypeFN G2 H3) as (_ & Hx & _). cbn in Hx. congruence.
  - destruct (run_split (z :: b) (y :: c) m2 m' al) as (m4 & R3 & R4); [exact H2|discriminate|].
    destruct (phase (z :: b) m2 m4 true G2 S1 R3 F) as [P1 _].
    destruct (exists_last (l := z :: b) ltac:(discriminate)) as (b1 & w & Hb). specialize (P1 b1 w Hb Ha). rewrite Hb.
    change ((m1, ix, TypeNFN) :: b1 ++ [w]) with (((m1, ix, TypeNFN) :: b1) ++ [w]). rewrite removelast_last, zeros_cons; unfold inp; cbn [fst snd]. lia.
Qed.
Lemma watchdog_return m l m' al a x b y c : good m -> is_run allow wmax m l m' al -> l = a ++ (x :: b) ++ y :: c -> typ x = TypeNFN -> Forall (fun z => typ z = TypeFN) b ->
  nominal_tried (typ y) = true <-> allow = true /\ zeros (x :: b) = wmax.
Proof.
  intros G R -> Ht F. destruct (run_split a ((x :: b) ++ y :: c) m m' al R ltac:(discriminate)) as (m1 & R1 & R2).
  pose proof (run_good _ _ _ _ G R1) as G1.
  destruct x as [[mx ix] tx]. cbn in Ht. subst tx. cbn in R2. destruct R2 as (-> & ok & m2 & H1 & H2).
  destruct (step_good ix m1 m2 ok TypeNFN G1 H1) as (G2 & (E1 & E2) & E3 & E4).
  destruct ok; [|destruct H2 as [H2 _]; destruct b; discriminate H2].
  assert (C0 : sd_counter m1 = 0) by (unfold good in G1; rewrite E1 in G1; exact G1). cbv zeta in E4. rewrite C0 in E4.
  rewrite !zeros_cons; unfold inp; cbn [fst snd].
  assert (HY : forall m4 al4, good m4 -> is_run allow wmax m4 (y :: c) m' al4 -> (sd_md m4 = NOMINAL_QP -> nominal_tried (typ y) = true) /\ (sd_md m4 = BYRD_OMOJOKUN -> nominal_tried (typ y) = false)).
  { clear - Hw. intros m4 al4 G4 R4. destruct y as [[my iy] ty]. cbn in R4. destruct R4 as (-> & ok2 & m3 & H3 & _). destruct (step_good iy m4 m3 ok2 ty G4 H3) as (_ & Hx). unfold typ. cbn [snd]. destruct ty; cbn in *; split; intros E; try reflexivity; exfalso; destruct Hx as (Hx & _); try destruct Hx as (Hx & _); congruence. }
  destruct E4 as [(S1 & S2 & S3)|(S1 & S2 & S3)].
  - assert (b = []) as ->. { destruct b as [|z b]; [reflexivity|]. exfalso. destruct z as [[mz iz] tz]. cbn in H2. destruct H2 as (-> & ok2 & m3 & H3 & _). inversion F as [|? ? Ft _]; subst. cbn in Ft. subst tz.
      destruct (step_good iz m2 m3 ok2 TypeFN G2 H3) as (_ & Hx & _). cbn in Hx. congruence. }
    destruct (HY m2 al G2 H2) as [HY1 _]. rewrite (HY1 S1). unfold zeros; cbn [filter length]. split; [intros _; split; [exact S2|lia]|reflexivity].
  - destruct (run_split b (y :: c) m2 m' al H2 ltac:(discriminate)) as (m4 & R3 & R4).
    destruct (phase b m2 m4 true G2 S1 R3 F) as [_ P2]. pose proof (run_good _ _ _ _ G2 R3) as G4. destruct (HY m4 al G4 R4) as [HY1 HY2]. rewrite S2 in P2.
    destruct P2 as [(P3 & P4 & P5)|(P3 & P4 & P5)].
    + rewrite (HY1 P3). split; [intros _; split; [exact P4|lia]|reflexivity].
    + rewrite (HY2 P3). split; [discriminate|]. intros [Ha Hz]. specialize (P5 Ha). lia.
Qed.
(** the nominal QP is tried first and the relaxed QPs exactly after it failed *)
Lemma nominal_first m l m' al : good m -> sd_md m = NOMINAL_QP -> is_run allow wmax m l m' al ->
  (forall x r, l = x :: r -> nominal_tried (typ x) = true) /\
  (forall a x y r, l = a ++ x :: y :: r -> typ x = TypeN -> nominal_tried (typ y) = true) /\
  (forall x, In x l -> (typ x = TypeN -> nominal_ok (inp x) = true) /\ (typ x = TypeNFN -> nominal_ok (inp x) = false) /\ typ x <> TypeF).
Proof.
  intros G E R. 
  assert (HY : forall m4 al4 y c, good m4 -> is_run allow wmax m4 (y :: c) m' al4 -> (sd_md m4 = NOMINAL_QP -> nominal_tried (typ y) = true)).
  { clear - Hw. intros m4 al4 y c G4 R4. destruct y as [[my iy] ty]. cbn in R4. destruct R4 as (-> & ok2 & m3 & H3 & _). destruct (step_good iy m4 m3 ok2 ty G4 H3) as (_ & Hx). unfold typ. cbn [snd]. destruct ty; cbn in *; intros E; try reflexivity; exfalso; destruct Hx as (Hx & _); try destruct Hx as (Hx & _); congruence. }
  split; [intros x r ->; apply (HY m al x r); assumption|]. split.
  - intros a x y r -> Ht. destruct (run_split a (x :: y :: r) m m' al R ltac:(discriminate)) as (m1 & R1 & R2). pose proof (run_good _ _ _ _ G R1) as G1.
    destruct x as [[mx ix] tx]. cbn in Ht. subst tx. cbn [is_run] in R2. destruct R2 as (-> & ok & m2 & H1 & H2). destruct (step_good ix m1 m2 ok TypeN G1 H1) as (G2 & _ & _ & E2).
    destruct ok; [|destruct H2 as [H2 _]; discriminate H2]. apply (HY m2 al y r G2 H2 E2).
  - assert (NF : sd_md m <> FEASIBILITY_QP) by congruence. clear E. revert m G R NF. induction l as [|[[m0 i] t] l IH]; intros m G R NF x Hin; [destruct Hin|].
    cbn in R. destruct R as (-> & ok & m1 & H1 & H2). destruct (step_good i m m1 ok t G H1) as (G1 & Hx).
    destruct Hin as [<-|Hin].
    + unfold typ, inp; cbn [fst snd]. destruct t; cbn in Hx; repeat split; intros Heq; try discriminate Heq; try tauto.
    + destruct ok; [|destruct H2 as [-> _]; destruct Hin]. apply (IH m1 G1 H2); [|exact Hin]. destruct t; cbn in Hx; [destruct Hx as (_ & _ & Hx); congruence|destruct Hx as (_ & _ & [[Hx _]|[Hx _]]); congruence|destruct Hx as (_ & _ & [[Hx _]|[Hx _]]); congruence|destruct Hx; congruence].
Qed.
End M.

(** ** the driver *)
Section D.
Variables iterate world : Type.
Variable Or : woracles iterate world.
Variable o : wopts.
Notation mem := (mem iterate world).
Notation wmem := (wmem iterate world).
Notation B := (wb_opts o).
Notation frame := (frame_logs iterate world).

Definition same (s s1 : mem) : Prop := frame s s1 /\ nlp_out s1 = nlp_out s /\ iter s1 = iter s /\ nlp_res s1 = nlp_res s.
Lemma same_refl s : same s s. Proof. unfold same. split; [apply frame_refl|auto]. Qed.
Lemma same_trans a b c : same a b -> same b c -> same a c.
Proof. unfold same. intros (F1 & H1) (F2 & H2). split; [eapply frame_trans; eassumption|]. intuition congruence. Qed.
Ltac puts H := repeat match type of H with bind ?x _ = Some _ =>
      let l := fresh "l" in let E := fresh "E" in destruct x as [l|] eqn:E; cbn [bind] in H; [apply put_inv in E; destruct E as (? & ? & ? & ?)|discriminate H] end.
Ltac same_auto := unfold same, frame_logs; cbn; repeat split; auto; try congruence.
Lemma log_norms_spec s s1 : log_norms Or o s = Some s1 -> same s s1 /\ status s1 = status s /\ trace s1 = trace s.
Proof.
  unfold log_norms. intros H.
  match type of H with bind ?x _ = _ => destruct x as [s2|] eqn:E; cbn [bind] in H; [|discriminate H] end.
  assert (H2 : same s s2 /\ status s2 = status s /\ trace s2 = trace s).
  { destruct (w_log_pi o); [puts E|]; injection E as <-; same_auto. }
  destruct H2 as (S & St & Tr). destruct (w_log_lam o); [puts H|]; injection H as <-; [|auto].
  split; [|auto]. eapply same_trans; [exact S|]. same_auto.
Qed.
Lemma log_qp_spec col st qi s s1 : log_qp_stats col st qi s = Some s1 -> same s s1 /\ status s1 = status s /\ trace s1 = trace s.
Proof.
  unfold log_qp_stats. intros H. destruct (_ <? _); [puts H|]; injection H as <-; same_auto.
Qed.
Lemma solve_spec qp col s s1 ok : solve qp col s = Some (s1, ok) -> same s s1 /\ (status s1 = if ok then status s else ACADOS_QP_FAILURE) /\
  exists st qi, trace s1 = EvQP (nlp_out s) st qi :: trace s.
Proof.
  unfold solve. destruct (qp (nlp_out s) (wd s)) as [[w st] qi]. intros H. cbv zeta in H.
  match type of H with bind ?x _ = _ => destruct x as [s2|] eqn:E; cbn [bind] in H; [|discriminate H] end. injection H as <- <-.
  apply log_qp_spec in E. destruct E as (S & St & Tr). destruct (st =? ACADOS_SUCCESS).
  - split; [eapply same_trans; [|exact S]; same_auto|]. split; [exact St|]. exists st, qi. rewrite Tr. reflexivity.
  - split; [eapply same_trans; [|exact S]; same_auto|]. split; [exact St|]. exists st, qi. rewrite Tr. reflexivity.
Qed.
Definition only_qps (l : list (event iterate)) : Prop := Forall (fun e => is_qp e = true) l.
Lemma byrd_spec s s1 ok : byrd Or s = Some (s1, ok) -> same s s1 /\ (status s1 = if ok then status s else ACADOS_QP_FAILURE) /\
  exists q, trace s1 = q ++ trace s /\ only_qps q /\ (0 < length q <= 2)%nat.
Proof.
  unfold byrd. intros H. destruct (solve (wo_fqp Or) 6 s) as [[s2 ok2]|] eqn:E; cbn [bind] in H; [|discriminate H].
  apply solve_spec in E. destruct E as (S1 & T1 & st1 & qi1 & Tr1). destruct ok2.
  - apply solve_spec in H. destruct H as (S2 & T2 & st2 & qi2 & Tr2). split; [eapply same_trans; eassumption|]. split; [rewrite T2, T1; reflexivity|].
    exists [EvQP (nlp_out s2) st2 qi2; EvQP (nlp_out s) st1 qi1]. split; [rewrite Tr2, Tr1; reflexivity|]. split; [repeat constructor|cbn; lia].
  - injection H as <- <-. split; [exact S1|]. split; [exact T1|]. exists [EvQP (nlp_out s) st1 qi1]. split; [rewrite Tr1; reflexivity|]. split; [repeat constructor|cbn; lia].
Qed.
Lemma direction_spec s s1 ok : direction Or o s = Some (s1, ok) -> same (w_b s) (w_b s1) /\
  (exists q, trace (w_b s1) = q ++ trace (w_b s) /\ only_qps q /\ (length q <= 3)%nat /\ (sd_md (w_sd s) = FEASIBILITY_QP -> q = [])) /\
  (ok = false -> status (w_b s1) = (if match sd_md (w_sd s) with FEASIBILITY_QP => true | _ => false end then status (w_b s) else ACADOS_QP_FAILURE)) /\
  exists i t, search_direction (w_allow o) (w_max o) i (w_sd s) = (w_sd s1, ok, t) /\ w_log s1 = (w_sd s, i, t) :: w_log s.
Proof.
  unfold direction. destruct (sd_md (w_sd s)) eqn:E; intros H.
  - destruct (solve (o_qp (wo Or)) 4 (w_b s)) as [[b okn]|] eqn:E1; cbn [bind] in H; [|discriminate H]. apply solve_spec in E1. destruct E1 as (S1 & T1 & st1 & qi1 & Tr1). destruct okn.
    + destruct (search_direction _ _ _ _) as [[sd' ok'] t] eqn:ES in H. injection H as <- <-. cbn [w_b w_sd w_log]. split; [exact S1|]. split.
      { exists [EvQP (nlp_out (w_b s)) st1 qi1]. split; [rewrite Tr1; reflexivity|]. split; [repeat constructor|]. split; [cbn; lia|discriminate]. }
      split; [|eauto]. intros ->. unfold search_direction in ES. rewrite E in ES. cbn in ES. discriminate ES.
    + destruct (byrd Or b) as [[b2 ok2]|] eqn:E2; cbn [bind] in H; [|discriminate H]. apply byrd_spec in E2. destruct E2 as (S2 & T2 & q & Tr2 & Q & L).
      destruct (search_direction _ _ _ _) as [[sd' ok'] t] eqn:ES in H. injection H as <- <-. cbn [w_b w_sd w_log]. split; [eapply same_trans; eassumption|]. split.
      { exists (q ++ [EvQP (nlp_out (w_b s)) st1 qi1]). split; [rewrite Tr2, Tr1, <- app_assoc; reflexivity|]. split; [apply Forall_app; split; [exact Q|repeat constructor]|]. rewrite app_length. cbn [length]. split; [lia|discriminate]. }
      split; [|eauto]. intros ->. rewrite T2. destruct ok2; [|reflexivity]. unfold search_direction in ES. rewrite E in ES. cbn in ES. unfold byrd_part in ES. destruct (_ && _) in ES; cbn in ES; discriminate ES.
  - destruct (byrd Or (w_b s)) as [[b2 ok2]|] eqn:E2; cbn [bind] in H; [|discriminate H]. apply byrd_spec in E2. destruct E2 as (S2 & T2 & q & Tr2 & Q & L).
    destruct (search_direction _ _ _ _) as [[sd' ok'] t] eqn:ES in H. injection H as <- <-. cbn [w_b w_sd w_log]. split; [exact S2|]. split.
    { exists q. split; [exact Tr2|]. split; [exact Q|]. split; [lia|discriminate]. }
    split; [|eauto]. intros ->. rewrite T2. destruct ok2; [|reflexivity]. unfold search_direction in ES. rewrite E in ES. unfold byrd_part in ES. destruct (_ && _) in ES; cbn in ES; discriminate ES.
  - destruct (search_direction _ _ _ _) as [[sd' ok'] t] eqn:ES in H. injection H as <- <-. cbn [w_b w_sd w_log]. split; [apply same_refl|]. split.
    { exists []. split; [reflexivity|]. split; [constructor|]. split; [cbn; lia|reflexivity]. }
    split; [reflexivity|eauto].
Qed.
Lemma w_step_spec s s1 : w_step_norms Or o s = Some s1 -> same s s1 /\ status s1 = status s /\ trace s1 = trace s.
Proof.
  unfold w_step_norms. intros H.
  match type of H with bind ?x _ = _ => destruct x as [s2|] eqn:E; cbn [bind] in H; [|discriminate H] end.
  assert (H2 : same s s2 /\ status s2 = status s /\ trace s2 = trace s).
  { destruct (_ || _); [destruct (log_primal_step_norm B); [puts E|]|]; injection E as <-; same_auto. }
  destruct H2 as (S & St & Tr). destruct (_ && _); [puts H|]; injection H as <-; [|auto].
  split; [|auto]. eapply same_trans; [exact S|]. same_auto.
Qed.
Lemma w_glob_spec s r : w_globalize Or s = Some r -> exists x st a,
  match r with
  | inl s1 => frame s s1 /\ st <> ACADOS_SUCCESS /\ status s1 = st /\ iter s1 = iter s /\ nlp_out s1 = x /\ nlp_res s1 = nlp_res s /\ trace s1 = EvGlob (nlp_out s) x st a :: trace s
  | inr s1 => frame s s1 /\ st = ACADOS_SUCCESS /\ status s1 = status s /\ iter s1 = iter s + 1 /\ nlp_out s1 = x /\ nlp_res s1 = nlp_res s /\ trace s1 = EvGlob (nlp_out s) x st a :: trace s
  end.
Proof.
  unfold w_globalize. destruct (o_glob (wo Or) (nlp_out s) (wd s) (alpha s)) as [[[w x] st] a]. intros H. cbv zeta in H. exists x, st, a.
  destruct (Z.eqb_spec st ACADOS_SUCCESS) as [Hs|Hs].
  - puts H. injection H as <-. unfold frame_logs; cbn in *; repeat split; auto.
  - injection H as <-. destruct (final_clock_spec iterate world (wo Or) (set_status iterate world (log iterate world (set_alpha iterate world (set_out iterate world (set_wd iterate world s w) x) a) (EvGlob (nlp_out s) x st a)) st)) as (F & O & I & St & R & _ & _ & T & _).
    cbn in *. split; [exact F|]. repeat split; assumption.
Qed.

(** the part of a pass before the termination test *)
Definition wev (s : mem) : bool := evaluates iterate world B s.
Lemma head_spec s b1 b2 b3 : evaluate (wo Or) B s = Some b1 -> save_res_stats (wo Or) b1 = Some b2 -> log_norms Or o b2 = Some b3 ->
  let b := update_timeout (wo Or) B b3 in
  frame s b /\ nlp_out b = nlp_out s /\ iter b = iter s /\ status b = status s /\
  (wev s = false -> nlp_res b = nlp_res s) /\
  exists ck, Forall (fun e => is_clock e = true) ck /\ trace b = ck ++ (if wev s then [EvRes (nlp_out s) (nlp_res b)] else []) ++ trace s.
Proof.
  intros H1 H2 H3 b. apply evaluate_spec in H1. apply save_spec in H2. apply log_norms_spec in H3. pose proof (timeout_spec _ _ (wo Or) B b3) as H4. cbv zeta in H4. fold b in H4. clearbody b.
  destruct H1 as (F1 & O1 & I1 & S1 & _ & _ & _ & _ & _ & T1). destruct H2 as (F2 & O2 & I2 & S2 & R2 & _ & _ & _ & _ & T2 & _).
  destruct H3 as ((F3 & O3 & I3 & R3) & S3 & T3). destruct H4 as (F4 & O4 & I4 & S4 & R4 & _ & _ & C4).
  split; [eapply frame_trans; [exact F1|]; eapply frame_trans; [exact F2|]; eapply frame_trans; eassumption|].
  split; [congruence|]. split; [congruence|]. split; [congruence|].
  assert (T : exists ck, Forall (fun e => is_clock e = true) ck /\ trace b = ck ++ trace b3).
  { destruct (fgt _ _); [destruct C4 as (t & C4 & _); exists [EvClock t]; split; [repeat constructor|exact C4]|destruct C4 as (C4 & _); exists []; split; [constructor|exact C4]]. }
  destruct T as (ck & Hck & T). fold (wev s) in T1.
  split.
  - intros E. rewrite E in T1. subst b1. congruence.
  - exists ck. split; [exact Hck|]. rewrite T, T3, T2. destruct (wev s); [rewrite T1; rewrite R4, R3, R2; reflexivity|subst b1; reflexivity].
Qed.

Inductive wpass (s : wmem) : wmem + wmem -> Prop :=
| wp_stop s1 ck st : frame (w_b s) (w_b s1) -> nlp_out (w_b s1) = nlp_out (w_b s) -> iter (w_b s1) = iter (w_b s) ->
    (wev (w_b s) = false -> nlp_res (w_b s1) = nlp_res (w_b s)) -> Forall (fun e => is_clock e = true) ck ->
    trace (w_b s1) = ck ++ (if wev (w_b s) then [EvRes (nlp_out (w_b s)) (nlp_res (w_b s1))] else []) ++ trace (w_b s) ->
    (exists b, check_termination (wo Or) B (iter (w_b s)) b = Some st /\ nlp_res b = nlp_res (w_b s1)) -> status (w_b s1) = st -> w_sd s1 = w_sd s -> w_log s1 = w_log s -> wpass s (inl s1)
| wp_dir s1 ck q b i t : frame (w_b s) (w_b s1) -> nlp_out (w_b s1) = nlp_out (w_b s) -> iter (w_b s1) = iter (w_b s) ->
    (wev (w_b s) = false -> nlp_res (w_b s1) = nlp_res (w_b s)) -> Forall (fun e => is_clock e = true) ck -> only_qps q -> (length q <= 3)%nat -> (sd_md (w_sd s) = FEASIBILITY_QP -> q = []) ->
    trace (w_b s1) = q ++ ck ++ (if wev (w_b s) then [EvRes (nlp_out (w_b s)) (nlp_res (w_b s1))] else []) ++ trace (w_b s) ->
    check_termination (wo Or) B (iter (w_b s)) b = None -> nlp_res b = nlp_res (w_b s1) ->
    status (w_b s1) = (if match sd_md (w_sd s) with FEASIBILITY_QP => true | _ => false end then status (w_b s) else ACADOS_QP_FAILURE) ->
    search_direction (w_allow o) (w_max o) i (w_sd s) = (w_sd s1, false, t) -> w_log s1 = (w_sd s, i, t) :: w_log s -> wpass s (inl s1)
| wp_glob s1 r x st a ck q b i t : frame (w_b s) (w_b s1) -> nlp_out (w_b s1) = x ->
    (wev (w_b s) = false -> nlp_res (w_b s1) = nlp_res (w_b s)) -> Forall (fun e => is_clock e = true) ck -> only_qps q -> (length q <= 3)%nat -> (sd_md (w_sd s) = FEASIBILITY_QP -> q = []) ->
    trace (w_b s1) = EvGlob (nlp_out (w_b s)) x st a :: q ++ ck ++ (if wev (w_b s) then [EvRes (nlp_out (w_b s)) (nlp_res (w_b s1))] else []) ++ trace (w_b s) ->
    check_termination (wo Or) B (iter (w_b s)) b = None -> nlp_res b = nlp_res (w_b s1) ->
    search_direction (w_allow o) (w_max o) i (w_sd s) = (w_sd s1, true, t) -> w_log s1 = (w_sd s, i, t) :: w_log s ->
    (r = inl s1 /\ st <> ACADOS_SUCCESS /\ status (w_b s1) = st /\ iter (w_b s1) = iter (w_b s) \/ r = inr s1 /\ st = ACADOS_SUCCESS /\ iter (w_b s1) = iter (w_b s) + 1) -> wpass s r.
Lemma w_body_spec s r : w_body Or o s = Some r -> wpass s r.
Proof.
  unfold w_body. intros H.
  destruct (evaluate (wo Or) B (w_b s)) as [b1|] eqn:E1; cbn [bind] in H; [|discriminate H].
  destruct (save_res_stats (wo Or) b1) as [b2|] eqn:E2; cbn [bind] in H; [|discriminate H].
  destruct (log_norms Or o b2) as [b3|] eqn:E3; cbn [bind] in H; [|discriminate H].
  destruct (head_spec (w_b s) b1 b2 b3 E1 E2 E3) as (F & O & I & S & R & ck & Hck & T). set (b := update_timeout (wo Or) B b3) in *. clearbody b. clear E1 E2 E3.
  rewrite I in H. destruct (check_termination (wo Or) B (iter (w_b s)) b) as [st|] eqn:EC.
  - injection H as <-. destruct (final_clock_spec iterate world (wo Or) (set_status iterate world b st)) as (F5 & O5 & I5 & S5 & R5 & _ & _ & T5 & _). cbn in F5, O5, I5, S5, R5, T5.
    apply (wp_stop s (mkWmem (final_clock (wo Or) (set_status iterate world b st)) (w_sd s) (w_log s)) ck st); cbn [w_b w_sd w_log]; try reflexivity; try exact Hck; try congruence.
    + eapply frame_trans; [exact F|]. exact F5.
    + intros Hv. rewrite R5. auto.
    + rewrite T5, R5. exact T.
    + exists b. split; [exact EC|]. congruence.
  - destruct (direction Or o (mkWmem b (w_sd s) (w_log s))) as [[s2 ok]|] eqn:ED; cbn [bind] in H; [|discriminate H].
    apply direction_spec in ED. cbn [w_b w_sd w_log] in ED. destruct ED as ((F6 & O6 & I6 & R6) & (q & T6 & Q6 & L6 & N6) & S6 & i & t & D6 & G6).
    destruct ok.
    + destruct (w_step_norms Or o (w_b s2)) as [b4|] eqn:E4; cbn [bind] in H; [|discriminate H]. apply w_step_spec in E4. destruct E4 as ((F7 & O7 & I7 & R7) & S7 & T7).
      destruct (w_globalize Or b4) as [r8|] eqn:E8; cbn [bind] in H; [|discriminate H]. apply w_glob_spec in E8. destruct E8 as (x & st & a & G8).
      destruct r8 as [b8|b8]; injection H as <-; destruct G8 as (F8 & St8 & S8 & I8 & O8 & R8 & T8).
      * apply (wp_glob s (mkWmem b8 (w_sd s2) (w_log s2)) _ x st a ck q b i t); cbn [w_b w_sd w_log]; try eassumption; try congruence.
        -- eapply frame_trans; [exact F|]. eapply frame_trans; [exact F6|]. eapply frame_trans; eassumption.
        -- intros Hv. rewrite R8, R7, R6. auto.
        -- rewrite T8, T7, T6, T, R8, R7, R6, O7, O6, O. reflexivity.
        -- left. split; [reflexivity|]. repeat split; try assumption. congruence.
      * apply (wp_glob s (mkWmem b8 (w_sd s2) (w_log s2)) _ x st a ck q b i t); cbn [w_b w_sd w_log]; try eassumption; try congruence.
        -- eapply frame_trans; [exact F|]. eapply frame_trans; [exact F6|]. eapply frame_trans; eassumption.
        -- intros Hv. rewrite R8, R7, R6. auto.
        -- rewrite T8, T7, T6, T, R8, R7, R6, O7, O6, O. reflexivity.
        -- right. split; [reflexivity|]. split; [assumption|]. congruence.
    + injection H as <-. apply (wp_dir s s2 ck q b i t); try eassumption; try congruence.
      * eapply frame_trans; eassumption.
      * intros Hv. rewrite R6. auto.
      * rewrite T6, T, R6. reflexivity.
      * rewrite (S6 eq_refl), S. reflexivity.
Qed.
Lemma w_loop_rule (I Q : wmem -> Prop) :
  (forall s r, I s -> 0 <= iter (w_b s) <= max_iter B -> wpass s r -> match r with inl s' => Q s' | inr s' => I s' end) ->
  forall n s s', I s -> 0 <= iter (w_b s) -> Z.of_nat n = max_iter B + 1 - iter (w_b s) -> w_loop Or o n s = Some s' -> Q s' \/ (I s' /\ iter (w_b s') = max_iter B + 1).
Proof.
  intros HB. induction n as [|n IH]; intros s s' HI H0 Hn Hl; cbn in Hl.
  - injection Hl as <-. right; split; [exact HI|lia].
  - destruct (w_body Or o s) as [r|] eqn:E; cbn [bind] in Hl; [|discriminate Hl]. apply w_body_spec in E. pose proof (HB s r HI ltac:(lia) E) as HQ.
    destruct r as [s1|s1]; [injection Hl as <-; left; exact HQ|]. inversion E as [| |s2 r' x st a ck q b i t F O R C QQ L N T Hc Hb D G HG]; subst.
    destruct HG as [(Hx & _)|(Hx & _ & Hi)]; [discriminate Hx|]. injection Hx as <-.
    apply (IH s1 s'); [exact HQ|lia|lia|exact Hl].
Qed.
(** the termination test always fires at the limit, so the loop is never left through its condition *)
Lemma check_at_limit it b : max_iter B <= it -> check_termination (wo Or) B it b <> None.
Proof.
  intros H Hc. unfold check_termination in Hc. rewrite (proj2 (Z.leb_le _ _) H) in Hc.
  repeat match type of Hc with (if ?c then _ else _) = _ => destruct c; [discriminate Hc|] end. discriminate Hc.
Qed.
Lemma w_loop_exit (I Q : wmem -> Prop) :
  (forall s r, I s -> 0 <= iter (w_b s) <= max_iter B -> wpass s r -> match r with inl s' => Q s' | inr s' => I s' end) ->
  0 <= max_iter B -> forall s0 s', I (w_start Or o s0) -> wfqp_call Or o s0 = Some s' -> Q s'.
Proof.
  intros HB Hm s0 s' HI H. unfold wfqp_call in H.
  destruct (w_loop_rule (fun s => I s /\ iter (w_b s) <= max_iter B) Q) with (n := Z.to_nat (max_iter B + 1)) (s := w_start Or o s0) (s' := s') as [HQ|[[_ HQ] Hi]]; try assumption.
  - intros s r [Is Hs] Hr Hp. specialize (HB s r Is Hr Hp). destruct r; [exact HB|]. split; [exact HB|]. inversion Hp as [| |s2 r' x st a ck q b i t F O R C QQ L N T Hc Hb D G HG]; subst.
    destruct HG as [(Hx & _)|(Hx & _ & Hi)]; [discriminate Hx|]. injection Hx as <-.
    destruct (Z_lt_le_dec (iter (w_b s)) (max_iter B)) as [|Hge]; [lia|]. exfalso. eapply (check_at_limit _ _ Hge); eassumption.
  - split; [exact HI|]. cbn. exact Hm.
  - cbn; lia.
  - cbn; lia.
  - lia.
Qed.

Lemma dir_mode i sd sd' t : search_direction (w_allow o) (w_max o) i sd = (sd', true, t) -> sd_md sd <> FEASIBILITY_QP /\ sd_md sd' <> FEASIBILITY_QP.
Proof.
  unfold search_direction, byrd_part. destruct (sd_md sd) eqn:E; [destruct (nominal_ok i)| |]; try (destruct (_ && _)); intros H; try discriminate H; injection H as <-; cbn; split; try congruence; discriminate.
Qed.
Definition head_inv (s0 s : wmem) : Prop := sd_md (w_sd s) = FEASIBILITY_QP -> status (w_b s) = ACADOS_READY /\ trace (w_b s) = trace (w_b s0) /\ w_mode o = FEASIBILITY_QP.
Lemma head_start s0 : head_inv s0 (w_start Or o s0).
Proof. unfold head_inv. cbn. auto. Qed.
Lemma head_next s0 s s1 : wpass s (inr s1) -> head_inv s0 s1.
Proof.
  intros HP. inversion HP as [| |s' r x st a ck q b i t F O R C Q L N T Hc Hb D G HG]; subst. destruct HG as [(E & _)|(E & _)]; [discriminate E|]. injection E as <-.
  apply dir_mode in D. unfold head_inv. tauto.
Qed.
Theorem wfqp_success s0 s : 0 <= max_iter B -> wfqp_call Or o s0 = Some s -> status (w_b s) = ACADOS_SUCCESS ->
  flt (r_stat (nlp_res (w_b s))) (tol_stat B) = true /\ flt (r_eq (nlp_res (w_b s))) (tol_eq B) = true /\
  flt (r_ineq (nlp_res (w_b s))) (tol_ineq B) = true /\ flt (r_comp (nlp_res (w_b s))) (tol_comp B) = true /\
  exists ck older, trace (w_b s) = ck ++ EvRes (nlp_out (w_b s)) (nlp_res (w_b s)) :: older /\ Forall (fun e => is_clock e = true) ck.
Proof.
  intros Hm H. pattern s. refine (w_loop_exit (head_inv s0) _ _ Hm s0 s (head_start s0) H). clear.
  intros s r HI Hi HP. destruct r as [s1|s1]; [|eapply head_next, HP]. intros Hs. inversion HP as [s' ck st F O I R C T (b & Hc & Hb) S | s' ck q b i t F O I R C Q L N T Hc Hb S |s' r x st a ck q b i t F O R C Q L N T Hc Hb D G HG]; subst.
  - rewrite Hs in Hc. unfold check_termination in Hc. rewrite Hb in Hc.
    destruct (_ || isnan (r_comp (nlp_res (w_b s1)))) in Hc; [discriminate Hc|].
    destruct (negb (eval_residual_at_max_iter B) && (max_iter B <=? iter (w_b s))) eqn:EV; [discriminate Hc|].
    destruct (flt (r_stat _) (tol_stat B) && flt (r_eq _) (tol_eq B) && flt (r_ineq _) (tol_ineq B) && flt (r_comp _) (tol_comp B)) eqn:EF in Hc.
    + apply andb_prop in EF. destruct EF as [EF F4]. apply andb_prop in EF. destruct EF as [EF F3]. apply andb_prop in EF. destruct EF as [F1 F2]. repeat split; try assumption.
      assert (Ev : wev (w_b s) = true). { unfold wev, evaluates. destruct (eval_residual_at_max_iter B); [apply orb_true_r|]. cbn in EV. apply Z.leb_gt in EV. rewrite (proj2 (Z.eqb_neq _ _)) by lia. reflexivity. }
      rewrite Ev in T. exists ck, (trace (w_b s)). split; [rewrite T, O; reflexivity|exact C].
    + repeat match type of Hc with (if ?c then _ else _) = _ => destruct c; [discriminate Hc|] end. discriminate Hc.
  - exfalso. rewrite Hs in S. unfold head_inv in HI. destruct (sd_md (w_sd s)); [discriminate S|discriminate S|]. destruct (HI eq_refl) as [HI' _]. rewrite HI' in S. discriminate S.
  - destruct HG as [(E & HG & St & _)|(E & _)]; [|discriminate E]. injection E as <-. congruence.
Qed.
Lemma check_nan it b st : check_termination (wo Or) B it b = st -> any_nan (nlp_res b) = true -> st = Some ACADOS_NAN_DETECTED.
Proof. unfold check_termination, any_nan. intros <- ->. reflexivity. Qed.
Theorem wfqp_nan s0 s : 0 <= max_iter B -> wfqp_call Or o s0 = Some s -> any_nan (nlp_res (w_b s)) = true -> status (w_b s) = ACADOS_NAN_DETECTED.
Proof.
  intros Hm H. pattern s. refine (w_loop_exit (fun s => w_b s = w_b s) _ _ Hm s0 s eq_refl H). clear.
  intros s r _ Hi HP. destruct r as [s1|s1]; [|reflexivity]. intros Hn. inversion HP as [s' ck st F O I R C T (b & Hc & Hb) S | s' ck q b i t F O I R C Q L N T Hc Hb S |s' r x st a ck q b i t F O R C Q L N T Hc Hb D G HG]; subst.
  - rewrite <- Hb in Hn. apply check_nan in Hc; [|exact Hn]. congruence.
  - rewrite <- Hb in Hn. apply check_nan in Hc; [|exact Hn]. discriminate Hc.
  - destruct HG as [(E & _)|(E & _)]; [|discriminate E]. injection E as <-. rewrite <- Hb in Hn. apply check_nan in Hc; [|exact Hn]. discriminate Hc.
Qed.
(** bounds *)
Lemma qp_count_app {I} (a b : list (event I)) : qp_count (a ++ b) = qp_count a + qp_count b.
Proof. unfold qp_count. rewrite filter_app, app_length. lia. Qed.
Lemma qp_count_clock (ck : list (event iterate)) : Forall (fun e => is_clock e = true) ck -> qp_count ck = 0.
Proof. induction 1 as [|e l He Hl IH]; [reflexivity|]. unfold qp_count in *. cbn [filter]. destruct e; cbn in He |- *; try discriminate He; exact IH. Qed.
Lemma qp_count_len (q : list (event iterate)) : qp_count q <= Z.of_nat (length q).
Proof. unfold qp_count. induction q as [|e q IH]; cbn; [lia|]. destruct (is_qp e); cbn [length]; lia. Qed.
Lemma qp_count_res (v : bool) x r : qp_count (if v then [EvRes x r : event iterate] else []) = 0.
Proof. destruct v; reflexivity. Qed.
Definition count_inv (s0 s : wmem) : Prop := head_inv s0 s /\ exists new, trace (w_b s) = new ++ trace (w_b s0) /\ qp_count new <= 3 * iter (w_b s).
Theorem wfqp_bounded s0 s : 0 <= max_iter B -> wfqp_call Or o s0 = Some s ->
  exists new, trace (w_b s) = new ++ trace (w_b s0) /\ qp_count new <= 3 * max_iter B /\ 0 <= iter (w_b s) <= max_iter B /\
  (In (status (w_b s)) [ACADOS_SUCCESS; ACADOS_NAN_DETECTED; ACADOS_MAXITER; ACADOS_MINSTEP; ACADOS_QP_FAILURE; ACADOS_UNBOUNDED; ACADOS_TIMEOUT] \/
   (exists x a older, new = EvGlob x (nlp_out (w_b s)) (status (w_b s)) a :: older /\ status (w_b s) <> ACADOS_SUCCESS) \/
   (w_mode o = FEASIBILITY_QP /\ status (w_b s) = ACADOS_READY /\ qp_count new = 0)).
Proof.
  intros Hm H. pattern s. refine (w_loop_exit (count_inv s0) _ _ Hm s0 s _ H).
  2:{ split; [apply head_start|]. exists []. cbn. split; [reflexivity|]. unfold qp_count; cbn; lia. }
  clear. intros s r (HI & new & HT & HC) Hi HP. set (res := fun s1 : wmem => if wev (w_b s) then [EvRes (nlp_out (w_b s)) (nlp_res (w_b s1)) : event iterate] else []).
  inversion HP as [s1 ck st F O I R C T (b & Hc & Hb) S | s1 ck q b i t F O I R C Q L N T Hc Hb S |s1 r' x st a ck q b i t F O R C Q L N T Hc Hb D G HG]; subst.
  - exists (ck ++ res s1 ++ new). split; [rewrite T, HT; unfold res; rewrite <- !app_assoc; reflexivity|]. rewrite !qp_count_app, (qp_count_clock _ C). unfold res; rewrite qp_count_res.
    split; [lia|]. split; [lia|]. left. clear - Hc. unfold check_termination in Hc.
    repeat match type of Hc with (if ?c then _ else _) = _ => destruct c; [injection Hc as <-; cbn; tauto|] end. discriminate Hc.
  - assert (Hlt : iter (w_b s) < max_iter B). { destruct (Z_lt_le_dec (iter (w_b s)) (max_iter B)) as [|Hge]; [assumption|]. exfalso. exact (check_at_limit _ _ Hge Hc). }
    exists (q ++ ck ++ res s1 ++ new). split; [rewrite T, HT; unfold res; rewrite <- !app_assoc; reflexivity|]. rewrite !qp_count_app, (qp_count_clock _ C). unfold res; rewrite qp_count_res.
    pose proof (qp_count_len q). split; [lia|]. split; [lia|]. unfold head_inv in HI. destruct (sd_md (w_sd s)); [left; rewrite S; cbn; tauto|left; rewrite S; cbn; tauto|].
    right; right. destruct (HI eq_refl) as (K1 & K2 & K3). rewrite S, K1. rewrite (N eq_refl). split; [exact K3|]. split; [reflexivity|].
    assert (new = []) as -> by (apply (app_inv_tail (trace (w_b s0))); rewrite <- HT; exact K2). reflexivity.
  - assert (Hlt : iter (w_b s) < max_iter B). { destruct (Z_lt_le_dec (iter (w_b s)) (max_iter B)) as [|Hge]; [assumption|]. exfalso. exact (check_at_limit _ _ Hge Hc). }
    pose proof (qp_count_len q).
    assert (HE : exists n2, trace (w_b s1) = n2 ++ trace (w_b s0) /\ qp_count n2 <= 3 * (iter (w_b s) + 1) /\ exists o2, n2 = EvGlob (nlp_out (w_b s)) (nlp_out (w_b s1)) st a :: o2).
    { exists (EvGlob (nlp_out (w_b s)) (nlp_out (w_b s1)) st a :: q ++ ck ++ res s1 ++ new). split; [rewrite T, HT; unfold res; cbn [app]; rewrite <- !app_assoc; reflexivity|]. split; [|eauto].
      change (EvGlob (nlp_out (w_b s)) (nlp_out (w_b s1)) st a :: q ++ ck ++ res s1 ++ new) with ([EvGlob (nlp_out (w_b s)) (nlp_out (w_b s1)) st a] ++ q ++ ck ++ res s1 ++ new).
      rewrite !qp_count_app, (qp_count_clock _ C). unfold res; rewrite qp_count_res. unfold qp_count at 1; cbn [filter is_qp length]. lia. }
    destruct HE as (n2 & E1 & E2 & o2 & E3). destruct HG as [(-> & HG & St & It)|(-> & _ & It)].
    + exists n2. split; [exact E1|]. split; [lia|]. split; [lia|]. right; left. exists (nlp_out (w_b s)), a, o2. split; [rewrite St; exact E3|congruence].
    + split; [eapply head_next, HP|]. exists n2. split; [exact E1|]. rewrite It. exact E2.
Qed.
(** no store outside the arrays *)
Ltac okput := match goal with |- context [put ?l ?i ?v] => let l' := fresh "l" in let E := fresh "E" in destruct (put_ok l i v) as (l' & E & ?); [|rewrite E; cbn [bind]] end.
Definition alloc_b (s : mem) : Prop := w_allocated o (mkWmem s (w_sd (w_start Or o (mkWmem s (sd_start NOMINAL_QP) []))) []).
Lemma alloc_frame a b : frame (w_b a) (w_b b) -> w_allocated o a -> w_allocated o b.
Proof. unfold frame_logs, w_allocated. intros (F1 & F2 & F3 & F4 & F5 & F6). rewrite F1, F2, F3, F4, F5, F6. tauto. Qed.
Section Alloc.
Variable s : wmem.
Hypothesis HA : w_allocated o s.
Hypothesis Hit : 0 <= iter (w_b s).
Lemma log_norms_some b : frame (w_b s) b -> 0 <= iter b <= max_iter B -> exists b1, log_norms Or o b = Some b1.
Proof.
  intros F Hi. pose proof (alloc_frame s (mkWmem b (w_sd s) []) F HA) as A. clear HA F. destruct A as (A1 & A2 & A3 & _). cbn in A1, A2, A3.
  unfold log_norms. destruct (w_log_pi o).
  - okput; [rewrite A3, A1, A2; nia|]. destruct (w_log_lam o); [|eexists; reflexivity]. cbn [set_stat stat stat_n iter].
    okput; [destruct H as (Hl & _); rewrite Hl, A3, A1, A2; nia|eexists; reflexivity].
  - cbn [bind]. destruct (w_log_lam o); [|eexists; reflexivity]. okput; [rewrite A3, A1, A2; nia|eexists; reflexivity].
Qed.
Lemma solve_some qp col b : frame (w_b s) b -> 0 <= iter b <= max_iter B -> 0 <= col <= 11 -> exists b1 ok, solve qp col b = Some (b1, ok).
Proof.
  intros F Hi Hc. pose proof (alloc_frame s (mkWmem b (w_sd s) []) F HA) as A. clear HA F. destruct A as (A1 & A2 & A3 & _). cbn in A1, A2, A3.
  unfold solve. destruct (qp (nlp_out b) (wd b)) as [[w st] qi]. cbv zeta.
  match goal with |- context [log_qp_stats _ _ _ ?x] => set (b1 := x) end.
  assert (HB1 : stat_m b1 = stat_m b /\ stat_n b1 = stat_n b /\ stat b1 = stat b /\ iter b1 = iter b) by (unfold b1; destruct (_ =? _); cbn; auto).
  destruct HB1 as (B1 & B2 & B3 & B4). clearbody b1. unfold log_qp_stats. rewrite B1, B2, B3, B4, A1, A2.
  destruct (_ <? _) eqn:El; [|cbn [bind]; eauto]. okput; [rewrite A3, A1, A2; nia|]. okput; [destruct H as (Hl & _); rewrite Hl, A3, A1, A2; nia|]. eauto.
Qed.
Lemma byrd_some b : frame (w_b s) b -> 0 <= iter b <= max_iter B -> exists b1 ok, byrd Or b = Some (b1, ok).
Proof.
  intros F Hi. unfold byrd. destruct (solve_some (wo_fqp Or) 6 b F Hi ltac:(lia)) as (b1 & ok & E). rewrite E. cbn [bind]. apply solve_spec in E. destruct E as ((F1 & _ & I1 & _) & _).
  destruct ok; [|eauto]. apply solve_some; [eapply frame_trans; eassumption|lia|lia].
Qed.
Lemma direction_some s1 : frame (w_b s) (w_b s1) -> 0 <= iter (w_b s1) <= max_iter B -> exists s2 ok, direction Or o s1 = Some (s2, ok).
Proof.
  intros F Hi. unfold direction. destruct (sd_md (w_sd s1)).
  - destruct (solve_some (o_qp (wo Or)) 4 (w_b s1) F Hi ltac:(lia)) as (b1 & ok & E). rewrite E. cbn [bind]. apply solve_spec in E. destruct E as ((F1 & _ & I1 & _) & _). destruct ok.
    + destruct (search_direction _ _ _ _) as [[? ?] ?]. eauto.
    + destruct (byrd_some b1) as (b2 & ok2 & E2); [eapply frame_trans; eassumption|lia|]. rewrite E2. cbn [bind]. destruct (search_direction _ _ _ _) as [[? ?] ?]. eauto.
  - destruct (byrd_some (w_b s1) F Hi) as (b2 & ok2 & E2). rewrite E2. cbn [bind]. destruct (search_direction _ _ _ _) as [[? ?] ?]. eauto.
  - destruct (search_direction _ _ _ _) as [[? ?] ?]. eauto.
Qed.
Lemma step_some b : frame (w_b s) b -> 0 <= iter b < max_iter B -> exists b1, w_step_norms Or o b = Some b1.
Proof.
  intros F Hi. pose proof (alloc_frame s (mkWmem b (w_sd s) []) F HA) as A. clear HA F. destruct A as (_ & _ & _ & _ & A5 & A6). cbn in A5, A6.
  unfold w_step_norms.
  assert (H1 : exists b1, (if fgt (tol_min_step_norm B) f0 || log_primal_step_norm B
             then let s := set_step_norm _ _ b (o_step_norm (wo Or) (wd b)) in
                  if log_primal_step_norm B then let* l := put (psn s) (iter s) (step_norm s) in Some (set_psn _ _ s l) else Some s
             else Some b) = Some b1 /\ dsn b1 = dsn b /\ iter b1 = iter b).
  { destruct (_ || _); [|eauto]. cbv zeta. cbn [set_step_norm psn iter step_norm]. destruct (log_primal_step_norm B); [|eexists; split; [reflexivity|cbn; auto]].
    okput; [rewrite (A5 eq_refl); lia|]. eexists; split; [reflexivity|cbn; auto]. }
  destruct H1 as (b1 & E1 & D1 & I1). cbv zeta in E1 |- *. rewrite E1. cbn [bind]. rewrite D1, I1. destruct (log_dual_step_norm B); cbn [andb]; [|eauto]. destruct (negb _); [|eauto].
  okput; [rewrite (A6 eq_refl); lia|]. eauto.
Qed.
Lemma glob_some b : frame (w_b s) b -> 0 <= iter b < max_iter B -> exists r, w_globalize Or b = Some r.
Proof.
  intros F Hi. pose proof (alloc_frame s (mkWmem b (w_sd s) []) F HA) as A. clear HA F. destruct A as (A1 & A2 & A3 & _). cbn in A1, A2, A3.
  unfold w_globalize. destruct (o_glob _ _ _ _) as [[[w x] st] a]. cbv zeta. destruct (_ =? _); [|eauto]. cbn [set_alpha set_out set_wd log stat stat_n iter alpha]. okput; [rewrite A3, A1, A2; nia|]. eauto.
Qed.
Lemma save_some b : frame (w_b s) b -> 0 <= iter b <= max_iter B -> exists b1, save_res_stats (wo Or) b = Some b1.
Proof.
  intros F Hi. pose proof (alloc_frame s (mkWmem b (w_sd s) []) F HA) as A. clear HA F. destruct A as (A1 & A2 & A3 & _). cbn in A1, A2, A3.
  unfold save_res_stats. set (b1 := if iter b =? 0 then _ else b).
  assert (HB1 : stat_m b1 = stat_m b /\ stat_n b1 = stat_n b /\ stat b1 = stat b /\ iter b1 = iter b) by (unfold b1; destruct (_ =? _); cbn; auto).
  destruct HB1 as (B1 & B2 & B3 & B4). clearbody b1. rewrite B1, B2, B3, B4. destruct (_ <? _) eqn:El; [|eauto].
  okput; [rewrite A3, A1, A2; nia|]. okput; [destruct H as (Hl & _); rewrite Hl, A3, A1, A2; nia|]. okput; [destruct H, H0; congruence || (rewrite H0, H, A3, A1, A2; nia)|]. okput; [destruct H, H0, H1; rewrite H1, H0, H, A3, A1, A2; nia|]. eauto.
Qed.
Lemma body_some : iter (w_b s) <= max_iter B -> exists r, w_body Or o s = Some r.
Proof.
  intros Hi. unfold w_body.
  destruct (evaluate_some iterate world (wo Or) B (w_b s)) as (b1 & E1); [lia|apply HA|]. rewrite E1. cbn [bind]. pose proof (evaluate_spec _ _ _ _ _ _ E1) as (F1 & _ & I1 & _).
  destruct (save_some b1 F1 ltac:(lia)) as (b2 & E2). rewrite E2. cbn [bind]. pose proof (save_spec _ _ _ _ _ E2) as (F2 & _ & I2 & _).
  assert (F02 : frame (w_b s) b2) by (eapply frame_trans; eassumption).
  destruct (log_norms_some b2 F02 ltac:(lia)) as (b3 & E3). rewrite E3. cbn [bind].
  destruct (head_spec (w_b s) b1 b2 b3 E1 E2 E3) as (F & O & I & S & R & ck & Hck & T). set (b := update_timeout (wo Or) B b3) in *. clearbody b.
  destruct (check_termination (wo Or) B (iter b) b) eqn:EC; [eauto|].
  assert (Hlt : iter b < max_iter B). { destruct (Z_lt_le_dec (iter b) (max_iter B)) as [|Hge]; [assumption|]. exfalso. exact (check_at_limit _ _ Hge EC). }
  destruct (direction_some (mkWmem b (w_sd s) (w_log s)) F ltac:(cbn; lia)) as (s2 & ok & E4). rewrite E4. cbn [bind]. apply direction_spec in E4. destruct E4 as ((F4 & _ & I4 & _) & _). cbn in F4, I4.
  destruct ok; [|eauto]. destruct (step_some (w_b s2)) as (b5 & E5); [eapply frame_trans; eassumption|lia|]. rewrite E5. cbn [bind]. apply w_step_spec in E5. destruct E5 as ((F5 & _ & I5 & _) & _).
  destruct (glob_some b5) as (r & E6); [eapply frame_trans; [exact F|]; eapply frame_trans; eassumption|lia|]. rewrite E6. cbn [bind]. destruct r; eauto.
Qed.
End Alloc.
Theorem wfqp_no_oob s0 : w_allocated o s0 -> exists s, wfqp_call Or o s0 = Some s.
Proof.
  intros HA. unfold wfqp_call. assert (HS : w_allocated o (w_start Or o s0) /\ iter (w_b (w_start Or o s0)) = 0) by (split; [exact HA|reflexivity]).
  destruct HS as [H1 H2]. set (s := w_start Or o s0) in *. clearbody s. clear HA.
  assert (HN : Z.of_nat (Z.to_nat (max_iter B + 1)) = max_iter B + 1 - iter (w_b s) \/ max_iter B < 0) by lia.
  destruct HN as [HN|HN]; [|replace (Z.to_nat (max_iter B + 1)) with 0%nat by lia; cbn; eauto].
  assert (H0 : 0 <= iter (w_b s)) by lia. clear H2. revert s H1 HN H0. induction (Z.to_nat (max_iter B + 1)) as [|n IH]; intros s HA Hn Hp; cbn; [eauto|].
  destruct (body_some s HA Hp ltac:(lia)) as (r & E). rewrite E. cbn [bind]. apply w_body_spec in E. destruct r as [s1|s1]; [eauto|].
  inversion E as [| |s' r x st a ck q b i t F O R C Q L N T Hc Hb D G HG]; subst. destruct HG as [(Ex & _)|(Ex & _ & Hi)]; [discriminate Ex|]. injection Ex as <-.
  apply IH; [eapply alloc_frame; eassumption|lia|lia].
Qed.
(** the log of search directions is a run of the mode automaton *)
Theorem wfqp_log s0 s : 0 <= max_iter B -> wfqp_call Or o s0 = Some s -> exists m al, is_run (w_allow o) (w_max o) (sd_start (w_mode o)) (rev (w_log s)) m al.
Proof.
  intros Hm H. pattern s. refine (w_loop_exit (fun s => is_run (w_allow o) (w_max o) (sd_start (w_mode o)) (rev (w_log s)) (w_sd s) true) _ _ Hm s0 s _ H).
  2:{ cbn. auto. }
  clear. intros s r HR Hi HP. inversion HP as [s1 ck st F O I R C T (b & Hc & Hb) S SD SL | s1 ck q b i t F O I R C Q L N T Hc Hb S D G |s1 r' x st a ck q b i t F O R C Q L N T Hc Hb D G HG]; subst.
  - exists (w_sd s), true. rewrite SL. exact HR.
  - exists (w_sd s1), false. rewrite G. cbn [rev]. eapply is_run_snoc; eassumption.
  - destruct HG as [(-> & _)|(-> & _)]; [exists (w_sd s1), true|]; rewrite G; cbn [rev]; eapply is_run_snoc; eassumption.
Qed.
End D.
