From Coq Require Import ZArith List Bool Reals Lia Lra.
From Verif Require Import Arr Arith OptsModel OptsSpec OptsProofs.
Import ListNotations.
Open Scope Z_scope.

Section S.
Variable N : nat.
Variable K : nat -> kinds.
(** ** which calls are accepted *)
Lemma at_ok fn i v o : (exists x, fn (K i) v (o i) = Done x) -> exists o', at_stage K fn i v o = Done o'.
Proof. intros [x H]. unfold at_stage. rewrite H. cbn. eauto. Qed.
Lemma exact_ok i v f : match ck (K i) with CONL => false | _ => true end = true -> exists x, cost_exact (K i) v f = Done x.
Proof. unfold cost_exact. destruct (ck (K i)); intros H; [eauto|eauto|discriminate H|eauto]. Qed.
Lemma known_ok c o : known N K c = true -> exists o', opts_set N K c o = Done o'.
Proof.
  intros H. destruct c as [v|v|v|v|v|j fd v]; unfold opts_set; cbn [known] in H.
  - unfold all_stages in H. rewrite forallb_forall in H.
    destruct (stages_ok (fun i => at_stage K cost_exact i v) (N + 1)) with (f := fl o) as [f1 ->].
    { intros i f Hi. apply at_ok, exact_ok. apply H. apply in_seq. lia. }
    cbn [ebind]. destruct (stages_ok (fun i f => let+ f := at_stage K dyn_hess i v f in at_stage K cost_add i (if v =? 0 then 0 else 1) f) N) with (f := f1) as [f2 ->].
    { intros i f Hi. unfold at_stage, dyn_hess, cost_add. cbn. eauto. }
    cbn [ebind]. destruct (stages_ok (fun i => at_stage K constr_hess i v) (N + 1)) with (f := f2) as [f3 ->]; [|cbn; eauto].
    intros i f Hi. apply at_ok. unfold constr_hess. eauto.
  - unfold all_stages in H. rewrite forallb_forall in H.
    destruct (stages_ok (fun i => at_stage K cost_exact i v) (N + 1)) with (f := fl o) as [f1 ->]; [|cbn; eauto].
    intros i f Hi. apply at_ok, exact_ok. apply H. apply in_seq. lia.
  - destruct (stages_ok (fun i f => let+ f := at_stage K dyn_hess i v f in if v =? 0 then at_stage K cost_add i 0 f else Done f) N) with (f := fl o) as [f1 ->]; [|cbn; eauto].
    intros i f Hi. unfold at_stage, dyn_hess, cost_add. cbn. destruct (v =? 0); cbn; eauto.
  - destruct (stages_ok (fun i => at_stage K constr_hess i v) (N + 1)) with (f := fl o) as [f1 ->]; [|cbn; eauto].
    intros i f Hi. apply at_ok. unfold constr_hess. eauto.
  - eauto.
  - destruct fd; try (apply andb_true_iff in H; destruct H as [H Hk]); rewrite H; unfold at_stage.
    + destruct (exact_ok j v (fl o j) Hk) as [x ->]. cbn. eauto.
    + cbn. eauto.
    + unfold cost_comp. destruct (ck (K j)); try discriminate Hk. cbn. eauto.
    + unfold cost_integ. destruct (ck (K j)); try discriminate Hk; cbn; eauto.
    + cbn. eauto.
    + unfold dyn_cost. destruct (dk (K j)); try discriminate Hk; cbn; eauto.
    + cbn. eauto.
Qed.
Lemma exact_known i v f f' : cost_exact (K i) v f = Done f' -> match ck (K i) with CONL => false | _ => true end = true.
Proof. unfold cost_exact. destruct (ck (K i)); intros H; [reflexivity|reflexivity|discriminate H|reflexivity]. Qed.
Lemma ok_known c o o' : opts_set N K c o = Done o' -> known N K c = true.
Proof.
  intros H. destruct c as [v|v|v|v|v|j fd v]; unfold opts_set in H; cbn [known]; try reflexivity.
  - elim_e H. elim_e E. destruct (stages_pt _ (fun i f => cost_exact (K i) v f) (at_stage_pt K cost_exact v) _ _ _ E0) as [P1 _].
    unfold all_stages. apply forallb_forall. intros i Hi. apply in_seq in Hi. eapply exact_known, P1. lia.
  - elim_e H. destruct (stages_pt _ (fun i f => cost_exact (K i) v f) (at_stage_pt K cost_exact v) _ _ _ E) as [P1 _].
    unfold all_stages. apply forallb_forall. intros i Hi. apply in_seq in Hi. eapply exact_known, P1. lia.
  - destruct fd; (match type of H with (if ?b then _ else _) = _ => destruct b; [|discriminate H] end); elim_e H; unfold at_stage in E; elim_e E; cbn [andb]; try reflexivity.
    + eapply exact_known, E0.
    + unfold cost_comp in E0. destruct (ck (K j)); [reflexivity|discriminate E0..].
    + unfold cost_integ in E0. destruct (ck (K j)); [discriminate E0|reflexivity|reflexivity|discriminate E0].
    + unfold dyn_cost in E0. destruct (dk (K j)); [reflexivity|discriminate E0].
Qed.
(** a history of calls is carried out exactly if every call is known *)
Fixpoint set_all (h : list call) (o : opts) : outcome opts := match h with [] => Done o | c :: h => let+ o := opts_set N K c o in set_all h o end.
Lemma set_all_known h : forall o, (exists o', set_all h o = Done o') <-> forallb (known N K) h = true.
Proof.
  induction h as [|c h IH]; intros o; cbn; [split; eauto|]. split.
  - intros [o' H]. elim_e H. rewrite (ok_known _ _ _ E). cbn. apply (IH x). eauto.
  - intros H. apply andb_true_iff in H. destruct H as [H1 H2]. destruct (known_ok c o H1) as [x ->]. cbn. apply IH, H2.
Qed.

(** ** the options after a history *)
Definition opts_are (h : list call) (o : opts) : Prop :=
  (forall i, (i <= N)%nat -> says N K h i (fl o i)) /\ fixed o = last_set (fun c => match c with Fixed v => Some v | _ => None end) 0 h.
Lemma opts_created : opts_are [] created.
Proof. split; [intros; apply says_created|reflexivity]. Qed.
Lemma opts_step h c o o' : opts_are h o -> opts_set N K c o = Done o' -> opts_are (h ++ [c]) o'.
Proof.
  intros [G1 G2] H. destruct (opts_set_pt _ _ _ _ _ H) as [H1 H2]. split.
  - intros i Hi. rewrite H1 by assumption. apply says_upd, G1, Hi.
  - rewrite last_snoc, H2. destruct c; try exact G2. reflexivity.
Qed.
Lemma set_all_are h : forall h0 o o', opts_are h0 o -> set_all h o = Done o' -> opts_are (h0 ++ h) o'.
Proof.
  induction h as [|c h IH]; intros h0 o o' G H; cbn in H; [injection H as <-; rewrite app_nil_r; exact G|].
  elim_e H. replace (h0 ++ c :: h) with ((h0 ++ [c]) ++ h) by (rewrite <- app_assoc; reflexivity). eapply IH; [eapply opts_step; eassumption|exact H].
Qed.
Lemma comp_step h c o o' i : (i <= N)%nat -> c_comp (fl o i) = last_set (says_comp i) 1 h -> opts_set N K c o = Done o' -> c_comp (fl o' i) = last_set (says_comp i) 1 (h ++ [c]).
Proof. intros Hi G H. destruct (opts_set_pt _ _ _ _ _ H) as [H1 _]. rewrite H1 by assumption. apply says_comp_upd, G. Qed.

(** ** assembly *)
Section A.
Variable A : arith.
Definition stage_hess (x : contrib A) (i : nat) (f : flags) (Q : mat A) : outcome (mat A) :=
  let+ Q := cost_update K A x i f (if (i <? N)%nat then dyn_update K A x i f Q else Q) in constr_update K A x i f Q.
Lemma approximate_pt x f q q' : approximate N K A x f q = Done q' -> (forall i, (i <= N)%nat -> stage_hess x i (f i) (q i) = Done (q' i)) /\ forall i, (N < i)%nat -> q' i = q i.
Proof.
  intros H. unfold approximate in H. eapply stages_pt with (fn := fun i Q => stage_hess x i (f i) Q) in H.
  - destruct H as [H1 H2]. split; intros i Hi; [apply H1; lia|apply H2; lia].
  - clear. intros i q q' H. cbv zeta in H. unfold stage_hess. elim_e H. elim_e H. injection H as <-. cbn [ebind]. unfold put_mat. rewrite Nat.eqb_refl. split; [exact E0|].
    intros j Hj. apply Nat.eqb_neq in Hj. rewrite Hj. reflexivity.
Qed.
(** the state after a run without fixed_hess *)
Definition inv (h : list call) (s : st A) : Prop := opts_are h (op s) /\ mcomp s = 1 /\ forall i, (i <= N)%nat -> c_comp (fl (op s) i) = last_set (says_comp i) 1 h.
Definition unfixed (h : list call) : Prop := forall v, In (Fixed v) h -> v = 0.
Lemma unfixed_last h : unfixed h -> last_set (fun c => match c with Fixed v => Some v | _ => None end) 0 h = 0.
Proof.
  induction h as [|c h IH] using rev_ind; intros U; [reflexivity|]. rewrite last_snoc. destruct c; try (apply IH; intros v0 H; apply U; apply in_or_app; left; exact H).
  apply U. apply in_or_app. right. left. reflexivity.
Qed.
Lemma run_inv es : forall h s s', inv h s -> unfixed (h ++ calls es) -> run N K A es s = Done s' -> inv (h ++ calls es) s'.
Proof.
  induction es as [|e es IH]; intros h s s' G U H; cbn [run calls] in *; [injection H as <-; rewrite app_nil_r; exact G|].
  elim_e H. destruct e as [c|k|k]; cbn [step] in E.
  - elim_e E. injection E as <-. replace (h ++ c :: calls es) with ((h ++ [c]) ++ calls es) in * by (rewrite <- app_assoc; reflexivity).
    eapply IH; [|exact U|exact H]. destruct G as (G1 & G2 & G3). split; [eapply opts_step; eassumption|]. split; [exact G2|].
    intros i Hi. eapply comp_step; eauto.
  - unfold precompute in E. destruct G as (G1 & G2 & G3). assert (F : fixed (op s) = 0).
    { rewrite (proj2 G1). apply unfixed_last. intros v Hv. apply U, in_or_app. left. exact Hv. }
    rewrite F in E. change (0 =? 0) with true in E. cbv iota in E. injection E as <-. eapply IH; [|exact U|exact H]. split; [exact G1|split; assumption].
  - unfold iterate in E. elim_e E. injection E as <-. eapply IH; [|exact U|exact H]. exact G.
Qed.
Lemma start_inv q0 : inv [] (start A q0).
Proof. split; [exact opts_created|]. split; reflexivity. Qed.
End A.

(** ** the sum *)
Local Open Scope R_scope.
Lemma combine_real (a : Z) (Q P : mat real) r c : combine real a Q P r c = on a (Q r c) + P r c.
Proof. unfold combine, on, plus. destruct (a =? 0)%Z; [symmetry; apply Rplus_0_l|reflexivity]. Qed.
Definition cost_ok (i : nat) (f : flags) : Prop := match ck (K i) with LS => c_comp f <> 0%Z | _ => True end.
Ltac rg := change (num real) with R in *; match goal with |- @eq _ ?a ?b => change (@eq R a b) end; ring.
(** what the dynamics leave, if the cost adds; cost; constraints *)
Lemma stage_gen h (x : contrib real) i f (Q Q' : mat real) : (i <= N)%nat -> says N K h i f -> cost_ok i f -> integ_ok N K h -> (i = N -> d_hess f = 0%Z) ->
  stage_hess real x i f Q = Done Q' ->
  forall r c, Q' r c = on (c_add f) (if (d_hess f =? 0)%Z then Q r c else kD x i r c) + cost_part K h x i r c + constr_part K h x i r c.
Proof.
  intros Hi Sf Co Io Hn H r c. specialize (Io i Hi). destruct Sf as [S1 S2 S3 S4 S5 S6]. rewrite <- S3, <- S5 in Io.
  unfold stage_hess in H. elim_e H. rename x0 into P.
  assert (HP : P r c = on (c_add f) (if (d_hess f =? 0)%Z then Q r c else kD x i r c) + cost_part K h x i r c).
  { assert (W : on (c_add f) (if (d_hess f =? 0)%Z then Q r c else kD x i r c) = on (c_add f) ((if (i <? N)%nat then dyn_write real x i f Q else Q) r c)).
    { unfold dyn_write. destruct (Nat.ltb_spec i N) as [L|L]; [destruct (d_hess f =? 0)%Z; reflexivity|]. rewrite Hn by lia. reflexivity. }
    rewrite W.
    unfold cost_part. rewrite <- S3. clear W. unfold cost_update in E. unfold cost_ok in Co.
    destruct (ck (K i)) eqn:Ek.
    - destruct (Z.eqb_spec (c_comp f) 0) as [Z0|Z0]; [contradiction|]. injection E as <-. rewrite combine_real.
      destruct (Nat.ltb_spec i N) as [L|L]; [|rg]. unfold dyn_update. destruct (dk (K i)) eqn:Ed; [|rg].
      destruct (0 <? d_cost f)%Z eqn:E0; [|rg]. exfalso. apply Z.ltb_lt in E0. destruct Io as [_ Io]. apply Io; auto.
    - destruct (Z.eqb_spec (c_integ f) 0) as [I0|I0]; cbn [negb].
      + assert (U : (if (i <? N)%nat then dyn_update K real x i f Q else Q) = (if (i <? N)%nat then dyn_write real x i f Q else Q)).
        { destruct (Nat.ltb_spec i N) as [L|L]; [|reflexivity]. unfold dyn_update. destruct (dk (K i)) eqn:Ed; [|reflexivity].
          destruct (0 <? d_cost f)%Z eqn:E0; [|reflexivity]. exfalso. apply Z.ltb_lt in E0. destruct Io as [_ Io]. apply Io; auto. }
        rewrite U in E. clear U. destruct (Z.eqb_spec (c_gn f) 0) as [G0|G0].
        * destruct (nzpos (K i)); [discriminate E|]. injection E as <-. unfold plus.
          change (combine real (c_add f) (if (i <? N)%nat then dyn_write real x i f Q else Q) (kG x i) r c + kE x i r c = on (c_add f) ((if (i <? N)%nat then dyn_write real x i f Q else Q) r c) +
            (kG x i r c + on (last_set (says_cost i) 0 h) (kE x i r c))).
          rewrite combine_real. unfold on at 3. destruct (last_set (says_cost i) 0 h =? 0)%Z; [rewrite S1 in G0; discriminate G0|]. rg.
        * injection E as <-. rewrite combine_real. unfold on at 3. destruct (last_set (says_cost i) 0 h =? 0)%Z; [rg|]. rewrite S1 in G0. contradiction.
      + injection E as <-. destruct (proj1 Io I0) as (L & Ed & D0). apply Z.ltb_lt in D0. apply Nat.ltb_lt in L. rewrite L. unfold dyn_update. rewrite Ed, D0. apply combine_real.
    - destruct (Z.eqb_spec (c_integ f) 0) as [I0|I0]; cbn [negb].
      + assert (U : (if (i <? N)%nat then dyn_update K real x i f Q else Q) = (if (i <? N)%nat then dyn_write real x i f Q else Q)).
        { destruct (Nat.ltb_spec i N) as [L|L]; [|reflexivity]. unfold dyn_update. destruct (dk (K i)) eqn:Ed; [|reflexivity].
          destruct (0 <? d_cost f)%Z eqn:E0; [|reflexivity]. exfalso. apply Z.ltb_lt in E0. destruct Io as [_ Io]. apply Io; auto. }
        rewrite U in E. clear U. injection E as <-. rewrite combine_real. rg.
      + injection E as <-. destruct (proj1 Io I0) as (L & Ed & D0). apply Z.ltb_lt in D0. apply Nat.ltb_lt in L. rewrite L. unfold dyn_update. rewrite Ed, D0. apply combine_real.
    - injection E as <-. rewrite combine_real.
      destruct (Nat.ltb_spec i N) as [L|L]; [|rg]. unfold dyn_update. destruct (dk (K i)) eqn:Ed; [|rg].
      destruct (0 <? d_cost f)%Z eqn:E0; [|rg]. exfalso. apply Z.ltb_lt in E0. destruct Io as [_ Io]. apply Io; auto. }
  rewrite <- HP. clear HP E. unfold constr_update in H. unfold constr_part. rewrite <- S6. unfold on.
  destruct (k_hess f =? 0)%Z; [injection H as <-; destruct (has_h (K i)); symmetry; apply Rplus_0_r|]. destruct (kk (K i)); [|discriminate H]. injection H as <-.
  destruct (has_h (K i)); [reflexivity|symmetry; apply Rplus_0_r].
Qed.
Lemma on_step h x i f (Q : mat real) r c : says N K h i f -> in_step N h i -> on (c_add f) (if (d_hess f =? 0)%Z then Q r c else kD x i r c) = dyn_part N h x i r c.
Proof.
  intros [_ S2 _ S4 _ _] Is. unfold in_step in Is. rewrite <- S2, <- S4 in Is. unfold dyn_part. rewrite <- S4. unfold on.
  destruct (Z.eqb_spec (d_hess f) 0) as [E|E]; destruct (Z.eqb_spec (c_add f) 0) as [E'|E']; try reflexivity; tauto.
Qed.
Lemma lm_real (x : contrib real) (q : nat -> mat real) i r c : (i <= N)%nat -> lm N real x q i r c = q i r c + lm_part x i r c.
Proof.
  intros Hi. unfold lm, lm_part. apply Nat.leb_le in Hi. rewrite Hi. cbn [andb]. destruct (r =? c)%nat; cbn [andb]; [|symmetry; apply Rplus_0_r].
  change (nltb n0 (kL x i)) with (Rltb 0 (kL x i)). destruct (Rltb_spec 0 (kL x i)) as [L|L].
  - change (q i r c + kL x i = q i r c + Rmax 0 (kL x i)). rewrite Rmax_right by lra. reflexivity.
  - rewrite Rmax_left by (change (kL x i <= 0); lra). symmetry; apply Rplus_0_r.
Qed.
Lemma dyn_last h : (forall c, In c h -> known N K c = true) -> last_set (says_dyn N N) 0 h = 0%Z.
Proof.
  induction h as [|c h IH] using rev_ind; intros U; [reflexivity|]. rewrite last_snoc.
  assert (I : last_set (says_dyn N N) 0 h = 0%Z) by (apply IH; intros; apply U, in_or_app; left; assumption).
  specialize (U c ltac:(apply in_or_app; right; left; reflexivity)).
  destruct c as [v|v|v|v|v|j fd v]; cbn [says_dyn]; rewrite ?Nat.ltb_irrefl; try exact I. destruct fd; try exact I.
  cbn in U. apply Nat.ltb_lt in U. unfold here. destruct (Nat.eqb_spec N j); [lia|exact I].
Qed.
Lemma run_known A es : forall s s', run N K A es s = Done s' -> forall c, In c (calls es) -> known N K c = true.
Proof.
  induction es as [|e es IH]; intros s s' H c Hc; cbn [run calls] in *; [contradiction|]. elim_e H. destruct e as [d|k|k]; try (eapply IH; eassumption).
  destruct Hc as [->|Hc]; [|eapply IH; eassumption]. cbn [step] in E. elim_e E. eapply ok_known, E0.
Qed.

Lemma comp_on h i : (forall j v, In (At j CostComp v) h -> v <> 0%Z) -> last_set (says_comp i) 1 h <> 0%Z.
Proof.
  induction h as [|c h IH] using rev_ind; intros Cm; [cbn; lia|].
  rewrite last_snoc. assert (I : last_set (says_comp i) 1 h <> 0%Z) by (apply IH; intros j v Hj; apply (Cm j v), in_or_app; left; exact Hj).
  destruct c as [v|v|v|v|v|j fd v]; cbn [says_comp]; try exact I. destruct fd; try exact I. unfold here. destruct (i =? j)%nat; [|exact I].
  apply (Cm j v), in_or_app. right. left. reflexivity.
Qed.
(** the assembled Hessian after any history *)
Theorem whole (es : list (event real)) q0 x s s' : unfixed (calls es) -> (forall i v, In (At i CostComp v) (calls es) -> v <> 0%Z) ->
  run N K real es (start real q0) = Done s -> iterate N K real x s = Done s' -> integ_ok N K (calls es) ->
  forall i, (i <= N)%nat -> says N K (calls es) i (fl (op s) i) /\
  forall r c, rsq s' i r c = on (c_add (fl (op s) i)) (if (d_hess (fl (op s) i) =? 0)%Z then rsq s i r c else kD x i r c) + cost_part K (calls es) x i r c + constr_part K (calls es) x i r c + lm_part x i r c.
Proof.
  intros U Cm H H' Io i Hi. pose proof (run_known _ _ _ _ H) as Kn. apply run_inv with (h := []) in H; [|apply start_inv|exact U]. cbn [app] in H.
  destruct H as (G1 & G2 & G3). unfold iterate in H'. elim_e H'. injection H' as <-. cbn [rsq]. rewrite G2. change (1 =? 0)%Z with false. cbv iota.
  split; [apply G1; exact Hi|]. intros r c.
  rewrite lm_real by assumption. f_equal. destruct (approximate_pt _ _ _ _ _ E) as [P _].
  eapply stage_gen; [exact Hi|apply G1; exact Hi| |exact Io| |apply P; exact Hi].
  - unfold cost_ok. destruct (ck (K i)); auto. rewrite G3 by assumption. apply comp_on, Cm.
  - intros ->. destruct (proj1 G1 N (le_n N)) as [_ _ _ S4 _ _]. rewrite S4. apply dyn_last, Kn.
Qed.
Theorem sum_of_parts (es : list (event real)) q0 x s s' : unfixed (calls es) -> (forall i v, In (At i CostComp v) (calls es) -> v <> 0%Z) ->
  run N K real es (start real q0) = Done s -> iterate N K real x s = Done s' -> integ_ok N K (calls es) ->
  forall i, (i <= N)%nat -> in_step N (calls es) i -> forall r c, rsq s' i r c = asked N K (calls es) x i r c + lm_part x i r c.
Proof.
  intros U Cm H H' Io i Hi Is r c. destruct (whole _ _ _ _ _ U Cm H H' Io i Hi) as [Sf ->]. rewrite (on_step (calls es)) by assumption. reflexivity.
Qed.
(** exact_hess_dyn on, the cost not told to add: the Hessian of the dynamics is overwritten *)
Theorem dynamics_lost (es : list (event real)) q0 x s s' : unfixed (calls es) -> (forall i v, In (At i CostComp v) (calls es) -> v <> 0%Z) ->
  run N K real es (start real q0) = Done s -> iterate N K real x s = Done s' -> integ_ok N K (calls es) ->
  forall i, (i <= N)%nat -> last_set (says_add N i) 0 (calls es) = 0%Z -> forall r c, rsq s' i r c = cost_part K (calls es) x i r c + constr_part K (calls es) x i r c + lm_part x i r c.
Proof.
  intros U Cm H H' Io i Hi Is r c. destruct (whole _ _ _ _ _ U Cm H H' Io i Hi) as [Sf ->]. rewrite (s_add _ _ _ _ _ Sf), Is. unfold on at 1. change (0 =? 0)%Z with true. cbv iota. rewrite Rplus_0_l. reflexivity.
Qed.
(** the cost told to add, the dynamics off: the Hessian of the previous iteration stays in the sum *)
Theorem accumulates (es : list (event real)) q0 x s s' : unfixed (calls es) -> (forall i v, In (At i CostComp v) (calls es) -> v <> 0%Z) ->
  run N K real es (start real q0) = Done s -> iterate N K real x s = Done s' -> integ_ok N K (calls es) ->
  forall i, (i <= N)%nat -> last_set (says_add N i) 0 (calls es) <> 0%Z -> last_set (says_dyn N i) 0 (calls es) = 0%Z ->
  forall r c, rsq s' i r c = rsq s i r c + cost_part K (calls es) x i r c + constr_part K (calls es) x i r c + lm_part x i r c.
Proof.
  intros U Cm H H' Io i Hi Is Id r c. destruct (whole _ _ _ _ _ U Cm H H' Io i Hi) as [Sf ->]. rewrite (s_add _ _ _ _ _ Sf), (s_dyn _ _ _ _ _ Sf), Id. unfold on at 1.
  apply Z.eqb_neq in Is. rewrite Is. reflexivity.
Qed.

(** ** orderly use of the options keeps the two in step *)
Lemma orderly_step h : (forall c, In c h -> global c = true) -> orderly h -> forall i, (i <= N)%nat -> in_step N h i.
Proof. clear K.
  intros G O i Hi. destruct (Nat.eq_dec i N) as [->|Hn].
  { unfold in_step. assert (Z0 : forall h, (forall c, In c h -> global c = true) -> last_set (says_dyn N N) 0 h = 0%Z /\ last_set (says_add N N) 0 h = 0%Z).
    { clear. induction h as [|c h IH] using rev_ind; intros G; [split; reflexivity|]. rewrite !last_snoc. specialize (IH (fun d Hd => G d ltac:(apply in_or_app; left; exact Hd))).
      specialize (G c ltac:(apply in_or_app; right; left; reflexivity)). destruct c as [v|v|v|v|v|j fd v]; cbn [says_dyn says_add]; rewrite ?Nat.ltb_irrefl; try exact IH.
      destruct fd; try discriminate G; exact IH. }
    destruct (Z0 h G) as [-> ->]. tauto. }
  assert (L : (i < N)%nat) by lia. clear Hi Hn.
  assert (J : in_step N h i /\ last_set (says_dyn N i) 0 h = last_set (fun c => match c with Exact v | ExactDyn v => Some v | _ => None end) 0 h); [|apply J].
  revert G O. induction h as [|c h IH] using rev_ind; intros G O; [split; [split; reflexivity|reflexivity]|].
  assert (O' : orderly h). { intros h1 v h2 E V. apply (O h1 v (h2 ++ [c])); [rewrite E, <- app_assoc; reflexivity|exact V]. }
  specialize (IH (fun d Hd => G d ltac:(apply in_or_app; left; exact Hd)) O'). destruct IH as [I1 I2].
  specialize (G c ltac:(apply in_or_app; right; left; reflexivity)). unfold in_step. rewrite !last_snoc. apply Nat.ltb_lt in L.
  destruct c as [v|v|v|v|v|j fd v]; cbn [says_dyn says_add]; rewrite ?L; cbn [andb]; try (split; [exact I1|exact I2]).
  - split; [|reflexivity]. destruct (Z.eqb_spec v 0); split; intros; [reflexivity|assumption|contradiction|discriminate].
  - split; [|reflexivity]. destruct (Z.eqb_spec v 0) as [V|V]; [split; auto|]. specialize (O h v [] eq_refl V). rewrite <- I2 in O. unfold in_step in I1. tauto.
  - destruct fd; try discriminate G; split; first [exact I1|exact I2].
Qed.

(** ** the Hessian does not depend on how the options came about, over any arithmetic *)
Lemma flags_eq h i f1 f2 : says N K h i f1 -> says N K h i f2 -> c_comp f1 = c_comp f2 -> f1 = f2.
Proof. intros [A1 A2 A3 A4 A5 A6] [B1 B2 B3 B4 B5 B6] Hc. destruct f1, f2. cbn in *. congruence. Qed.
End S.
