From Coq Require Import ZArith List Bool Reals Lia Lra.
From Verif Require Import Arr Arith OptsModel OptsSpec OptsProofs OptsTop.
Import ListNotations.
Open Scope Z_scope.

Section S.
Variable N : nat.
Variable K : nat -> kinds.
(** ** fixed_hess *)
Lemma unfixed_iters (es : list (event real)) : forall (s s' : st real),
  (forall e, In e es -> exists x, e = Iter x) ->
  mcomp s = 0 -> (forall i, (i <= N)%nat -> ck (K i) = LS /\ c_comp (fl (op s) i) = 0 /\ d_hess (fl (op s) i) = 0 /\ k_hess (fl (op s) i) = 0 /\ d_cost (fl (op s) i) = 0) ->
  run N K real es s = Done s' -> forall i, (i <= N)%nat -> rsq s' i = rsq s i.
Proof.
  induction es as [|e es IH]; intros s s' Ev M F H i Hi; cbn [run] in H; [injection H as <-; reflexivity|].
  elim_e H. rename x into s1. destruct (Ev e (or_introl eq_refl)) as [x ->]. cbn [step] in E. unfold iterate in E. elim_e E. injection E as <-. rewrite M in H. change (0 =? 0) with true in H. cbv iota in H.
  rewrite (IH (mkS (op s) 0 x0) s' (fun e He => Ev e (or_intror He)) eq_refl F H i Hi). cbn [rsq].
  destruct (approximate_pt _ _ _ _ _ _ _ E0) as [Q _]. specialize (Q i Hi). destruct (F i Hi) as (F1 & F2 & F3 & F4 & F5).
  unfold stage_hess, cost_update, constr_update in Q. rewrite F1, F2, F4 in Q. change (0 =? 0) with true in Q. cbv iota in Q. cbn [ebind] in Q. injection Q as Q. rewrite <- Q.
  destruct (i <? N)%nat; [|reflexivity]. unfold dyn_update, dyn_write. rewrite F3, F5. change (0 =? 0) with true. change (0 <? 0) with false. cbv iota. destruct (dk (K i)); reflexivity.
Qed.
Theorem fixed_hessian (h : list call) o q0 m0 x0 (es : list (event real)) s1 s' : set_all N K h created = Done o ->
  last_set (fun c => match c with Fixed v => Some v | _ => None end) 0 h <> 0 -> (forall i v, In (At i CostComp v) h -> v <> 0) ->
  (forall i, (i <= N)%nat -> last_set (says_dyn N i) 0 h = 0 /\ last_set (says_constr i) 0 h = 0 /\ last_set (says_dcost i) 0 h = 0 /\ last_set (says_add N i) 0 h = 0) ->
  (forall e, In e es -> exists x, e = Iter x) ->
  precompute N K real x0 (mkS o m0 q0) = Done s1 -> run N K real es s1 = Done s' ->
  forall i, (i <= N)%nat -> forall r c, rsq s' i r c = kG x0 i r c.
Proof.
  intros So Fx Cm Off Ev Hp H i Hi r c. pose proof (set_all_are N K h [] created o (opts_created N K) So) as [A1 A2]. cbn [app] in A1, A2.
  assert (C0 : forall i, (i <= N)%nat -> c_comp (fl o i) = last_set (says_comp i) 1 h).
  { clear - So. assert (G : forall h h0 o o', (forall i, (i <= N)%nat -> c_comp (fl o i) = last_set (says_comp i) 1 h0) -> set_all N K h o = Done o' -> forall i, (i <= N)%nat -> c_comp (fl o' i) = last_set (says_comp i) 1 (h0 ++ h)).
    { clear. induction h as [|c h IH]; intros h0 o o' G H; cbn in H; [injection H as <-; rewrite app_nil_r; exact G|]. elim_e H.
      replace (h0 ++ c :: h) with ((h0 ++ [c]) ++ h) by (rewrite <- app_assoc; reflexivity). eapply IH; [|exact H]. intros i Hi. eapply comp_step; eauto. }
    apply (G h [] created o); [reflexivity|exact So]. }
  unfold precompute in Hp. cbn [op] in Hp. rewrite A2 in Hp. apply Z.eqb_neq in Fx. rewrite Fx in Hp. elim_e Hp. rename x into q. elim_e Hp. rename x into f. injection Hp as <-. cbn [rsq op put_fl] in *.
  destruct (stages_pt _ (fun i f => cost_comp (K i) 0 f) (at_stage_pt K cost_comp 0) _ _ _ E0) as [P _].
  assert (L : forall i, (i <= N)%nat -> ck (K i) = LS /\ f i = put_comp 0 (fl o i)).
  { intros j Hj. specialize (P j ltac:(lia)). split; [unfold cost_comp in P; destruct (ck (K j)); [reflexivity|discriminate P..]|eapply is_cost_comp, P]. }
  rewrite (unfixed_iters es (mkS (put_fl o f) 0 q) s' Ev eq_refl) with (i := i); [|clear i Hi|exact H|exact Hi].
  - cbn [rsq]. destruct (approximate_pt _ _ _ _ _ _ _ E) as [Q _]. specialize (Q i Hi). destruct (L i Hi) as [L1 _]. destruct (Off i Hi) as (O1 & O2 & O3 & O4). destruct (A1 i Hi) as [B1 B2 B3 B4 B5 B6].
    unfold stage_hess, cost_update, constr_update in Q. rewrite L1, B6, O2 in Q. change (0 =? 0) with true in Q. cbv iota in Q. cbn [ebind] in Q. injection Q as Q. rewrite <- Q.
    destruct (Z.eqb_spec (c_comp (fl o i)) 0) as [Z0|Z0]; [exfalso; rewrite C0 in Z0 by exact Hi; exact (comp_on h i Cm Z0)|].
    unfold combine. rewrite B2, O4. reflexivity.
  - intros i Hi. cbn [op put_fl fl]. destruct (L i Hi) as [L1 L2]. rewrite L2. destruct (Off i Hi) as (O1 & O2 & O3 & O4). destruct (A1 i Hi) as [B1 B2 B3 B4 B5 B6]. cbn.
    rewrite B4, B5, B6, O1, O2, O3. auto.
Qed.

(** ** the solver with the feasibility QP *)
Definition says0 (h : list call) (i : nat) (f : flags) : Prop := says N K h i (put_add (last_set (says_add N i) 0 h) f).
Lemma says0_upd h i f c : says0 h i f -> says0 (h ++ [c]) i (upd N K i c f).
Proof.
  intros H. apply (says_upd N K _ _ _ c) in H. destruct H as [H1 H2 H3 H4 H5 H6]. split; [rewrite <- H1|reflexivity|rewrite <- H3|rewrite <- H4|rewrite <- H5|rewrite <- H6];
    clear; unfold upd, gn_of; destruct c as [v|v|v|v|v|j fd v]; try (destruct fd); repeat match goal with |- context [(?a =? ?b)%nat] => destruct (a =? b)%nat eqn:? end;
    destruct (ck (K i)); try (destruct (i <? N)%nat); try (destruct (v =? 0) eqn:?); reflexivity.
Qed.
Definition winv (h : list call) (s : wst real) : Prop := forall i, (i <= N)%nat -> says0 h i (fl (wop s) i) /\ c_comp (fl (wop s) i) = last_set (says_comp i) 1 h.
Lemma w_run_inv fh es : forall h s s', winv h s -> w_run N K real fh es s = Done s' -> winv (h ++ wcalls es) s'.
Proof.
  induction es as [|e es IH]; intros h s s' G H; cbn [w_run wcalls] in *; [injection H as <-; rewrite app_nil_r; exact G|].
  elim_e H. destruct e as [c|k|k]; cbn [w_step] in E.
  - elim_e E. injection E as <-. replace (h ++ c :: wcalls es) with ((h ++ [c]) ++ wcalls es) in * by (rewrite <- app_assoc; reflexivity).
    eapply IH; [|exact H]. intros i Hi. destruct (opts_set_pt _ _ _ _ _ E0) as [P _]. cbn [wop]. rewrite P by assumption. destruct (G i Hi) as [G1 G2]. split; [apply says0_upd, G1|apply says_comp_upd, G2].
  - unfold w_iterate in E. elim_e E. rename x0 into f. elim_e E. destruct x0 as [qc qk]. injection E as <-. eapply IH; [|exact H].
    intros i Hi. cbn [wop put_fl fl]. destruct (stages_pt _ (fun i f => Done (put_add 0 f)) (at_stage_pt K cost_add 0) _ _ _ E0) as [P _]. specialize (P i ltac:(lia)). injection P as P. rewrite <- P.
    destruct (G i Hi) as [[G1 G2 G3 G4 G5 G6] Gc]. split; [split; first [exact G1|reflexivity|exact G3|exact G4|exact G5|exact G6]|exact Gc].
  - injection E as <-. eapply IH; [|exact H]. unfold w_feasibility. destruct fh; exact G.
Qed.
Lemma w_known fh es : forall s s', w_run N K real fh es s = Done s' -> forall c, In c (wcalls es) -> known N K c = true.
Proof.
  induction es as [|e es IH]; intros s s' H c Hc; cbn [w_run wcalls] in *; [contradiction|]. elim_e H. destruct e as [d|k|k]; try (eapply IH; eassumption).
  destruct Hc as [->|Hc]; [|eapply IH; eassumption]. cbn [w_step] in E. elim_e E. eapply ok_known, E0.
Qed.
Local Open Scope R_scope.
(** no cost is integrated *)
Definition no_integ (h : list call) : Prop := forall i, (i <= N)%nat -> last_set (says_integ i) 0 h = 0%Z /\ (last_set (says_dcost i) 0 h <= 0)%Z.
Lemma w_stages (f : nat -> flags) (x : contrib real) : forall n qc qk qc' qk',
  stages n (fun i (qq : (nat -> mat real) * (nat -> mat real)) =>
    let '(qc, qk) := qq in
    let Q := if (i <? N)%nat then dyn_update K real x i (f i) (qk i) else qk i in
    let+ C := cost_update K real x i (f i) (qc i) in
    let+ Q := constr_update K real x i (f i) Q in
    Done (put_mat real i C qc, put_mat real i Q qk)) (qc, qk) = Done (qc', qk') ->
  (forall i, (i < n)%nat -> cost_update K real x i (f i) (qc i) = Done (qc' i) /\ constr_update K real x i (f i) (if (i <? N)%nat then dyn_update K real x i (f i) (qk i) else qk i) = Done (qk' i)) /\
  forall i, (n <= i)%nat -> qc' i = qc i /\ qk' i = qk i.
Proof.
  induction n; intros qc qk qc' qk' H; cbn in H; [injection H as <- <-; split; [intros; lia|auto]|].
  elim_e H. destruct x0 as [pc pk]. destruct (IHn _ _ _ _ E) as [I1 I2]. elim_e H. elim_e H. injection H as <- <-. unfold put_mat. split.
  - intros i Hi. destruct (Nat.eqb_spec i n) as [->|Hn]; [|apply I1; lia]. destruct (I2 n (le_n n)) as [J1 J2]. rewrite <- J1, <- J2. split; assumption.
  - intros i Hi. destruct (Nat.eqb_spec i n) as [->|Hn]; [lia|]. apply I2. lia.
Qed.
Theorem w_sum fh es x s s' : w_run N K real fh es (w_start real) = Done s -> w_iterate N K real fh x s = Done s' ->
  (forall i v, In (At i CostComp v) (wcalls es) -> v <> 0%Z) -> no_integ (wcalls es) ->
  forall i, (i <= N)%nat -> forall r c, w_nom s' i r c = asked N K (wcalls es) x i r c + lm_part x i r c /\
    (fh = true -> w_rel s' i r c = dyn_part N (wcalls es) x i r c + constr_part K (wcalls es) x i r c).
Proof.
  intros H H' Cm Ni i Hi r c. pose proof (w_known _ _ _ _ H) as Kn.
  assert (G : winv (wcalls es) s).
  { apply (w_run_inv fh es [] (w_start real) s); [|exact H]. intros j Hj. split; [|reflexivity]. cbn. apply (says_created N K j). }
  destruct (G i Hi) as [[G1 G2 G3 G4 G5 G6] Gc]. cbn [put_add c_gn c_integ d_hess d_cost k_hess] in *.
  unfold w_iterate in H'. elim_e H'. rename x0 into f. elim_e H'. destruct x0 as [qc qk]. injection H' as <-. cbn [w_nom w_rel].
  destruct (stages_pt _ (fun i f => Done (put_add 0 f)) (at_stage_pt K cost_add 0) _ _ _ E) as [P _]. specialize (P i ltac:(lia)). injection P as P.
  destruct (w_stages _ _ _ _ _ _ _ E0) as [Q _]. destruct (Q i ltac:(lia)) as [Q1 Q2]. clear Q E E0. rewrite <- P in Q1, Q2.
  destruct (Ni i Hi) as [N1 N2]. rewrite <- G3 in N1. rewrite <- G5 in N2.
  assert (HK : qk i r c = dyn_part N (wcalls es) x i r c + constr_part K (wcalls es) x i r c).
  { assert (D0 : i = N -> d_hess (fl (wop s) i) = 0%Z) by (intros ->; rewrite G4; apply (dyn_last N K), Kn).
    assert (HD : (if (i <? N)%nat then dyn_update K real x i (put_add 0 (fl (wop s) i)) (if (i =? N)%nat then mzero real else if (i <? N)%nat && (d_hess (fl (wop s) i) =? 0)%Z then mzero real else w_constr s i) else
      (if (i =? N)%nat then mzero real else if (i <? N)%nat && (d_hess (fl (wop s) i) =? 0)%Z then mzero real else w_constr s i)) r c = dyn_part N (wcalls es) x i r c).
    { unfold dyn_part, on. rewrite <- G4. destruct (Nat.ltb_spec i N) as [L|L].
      - destruct (Nat.eqb_spec i N); [lia|]. cbn [andb]. unfold dyn_update, dyn_write. cbn [put_add d_hess d_cost].
        assert (Z0 : (0 <? d_cost (fl (wop s) i))%Z = false) by (apply Z.ltb_ge; exact N2). rewrite Z0. destruct (d_hess (fl (wop s) i) =? 0)%Z; destruct (dk (K i)); reflexivity.
      - assert (i = N) by lia. rewrite (D0 H0). destruct (Nat.eqb_spec i N); [reflexivity|lia]. }
    unfold constr_update in Q2. cbn [put_add k_hess] in Q2. unfold constr_part, on. rewrite <- G6.
    destruct (k_hess (fl (wop s) i) =? 0)%Z.
    - injection Q2 as <-. rewrite HD. destruct (has_h (K i)); symmetry; apply Rplus_0_r.
    - destruct (kk (K i)); [|discriminate Q2]. injection Q2 as <-. destruct (has_h (K i)); [|rewrite HD; symmetry; apply Rplus_0_r].
      unfold plus. rewrite HD. reflexivity. }
  assert (HC : qc i r c = cost_part K (wcalls es) x i r c).
  { unfold cost_update in Q1. cbn [put_add c_comp c_integ c_gn c_add] in Q1. unfold combine in Q1. change (0 =? 0)%Z with true in Q1. cbv iota in Q1. unfold cost_part. rewrite <- G3. rewrite N1 in *. change (0 =? 0)%Z with true in *. cbv iota in Q1. cbn [negb].
    destruct (ck (K i)).
    - destruct (Z.eqb_spec (c_comp (fl (wop s) i)) 0) as [Z0|Z0]; [exfalso; rewrite Gc in Z0; exact (comp_on (wcalls es) i Cm Z0)|]. injection Q1 as <-. symmetry. apply Rplus_0_r.
    - rewrite G1 in Q1. unfold on. destruct (last_set (says_cost i) 0 (wcalls es) =? 0)%Z.
      + change (1 =? 0)%Z with false in Q1. cbv iota in Q1. injection Q1 as <-. symmetry. apply Rplus_0_r.
      + change (0 =? 0)%Z with true in Q1. cbv iota in Q1. destruct (nzpos (K i)); [discriminate Q1|]. injection Q1 as <-. reflexivity.
    - injection Q1 as <-. symmetry. apply Rplus_0_r.
    - injection Q1 as <-. symmetry. apply Rplus_0_r. }
  split.
  - rewrite lm_real by exact Hi. apply (f_equal2 Rplus); [|reflexivity]. apply Nat.leb_le in Hi. rewrite Hi. unfold plus.
    change (qk i r c + qc i r c = asked N K (wcalls es) x i r c). rewrite HK, HC. unfold asked. ring.
  - intros ->. apply Nat.leb_le in Hi. cbn [andb]. rewrite Hi. exact HK.
Qed.
End S.
