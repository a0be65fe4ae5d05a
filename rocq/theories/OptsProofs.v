From Coq Require Import ZArith List Bool Reals Lia Lra.
From Verif Require Import Arr Arith OptsModel OptsSpec.
Import ListNotations.
Open Scope Z_scope.

Ltac elim_e H := match type of H with ebind ?e _ = Done _ => let E := fresh "E" in destruct e eqn:E; cbn [ebind] in H; [|discriminate H|discriminate H] end.

Lemma last_nil f d : last_set f d [] = d. Proof. reflexivity. Qed.
Lemma last_snoc f d h c : last_set f d (h ++ [c]) = match f c with Some v => v | None => last_set f d h end.
Proof. unfold last_set. rewrite rev_app_distr. reflexivity. Qed.

Lemma stages_pt {X} (b : nat -> (nat -> X) -> outcome (nat -> X)) (fn : nat -> X -> outcome X) :
  (forall i f f', b i f = Done f' -> fn i (f i) = Done (f' i) /\ forall j, j <> i -> f' j = f j) ->
  forall n f f', stages n b f = Done f' -> (forall i, (i < n)%nat -> fn i (f i) = Done (f' i)) /\ forall i, (n <= i)%nat -> f' i = f i.
Proof.
  intros B n. induction n; intros f f' H; cbn in H.
  - injection H as <-. split; [intros; lia|reflexivity].
  - elim_e H. destruct (IHn _ _ E) as [I1 I2]. destruct (B _ _ _ H) as [B1 B2]. split.
    + intros i Hi. destruct (Nat.eq_dec i n) as [->|Hn]; [rewrite <- (I2 n) by lia; exact B1|]. rewrite (B2 i) by lia. apply I1; lia.
    + intros i Hi. rewrite (B2 i) by lia. apply I2; lia.
Qed.
Lemma stages_ok {X} (b : nat -> (nat -> X) -> outcome (nat -> X)) n :
  (forall i f, (i < n)%nat -> exists f', b i f = Done f') -> forall f, exists f', stages n b f = Done f'.
Proof.
  induction n; intros B f; cbn; [eauto|]. destruct IHn with (f := f) as [g ->]; [intros; apply B; lia|]. cbn. apply B; lia.
Qed.
Lemma at_stage_pt K fn v : forall i (f f' : nat -> flags), at_stage K fn i v f = Done f' -> fn (K i) v (f i) = Done (f' i) /\ forall j, j <> i -> f' j = f j.
Proof.
  intros i f f' H. unfold at_stage in H. elim_e H. injection H as <-. unfold put_stage. rewrite Nat.eqb_refl. split; [reflexivity|].
  intros j Hj. apply Nat.eqb_neq in Hj. rewrite Hj. reflexivity.
Qed.

Lemma is_cost_add k v f f' : cost_add k v f = Done f' -> f' = put_add v f. Proof. unfold cost_add. intros H; injection H as <-; reflexivity. Qed.
Lemma is_dyn_hess k v f f' : dyn_hess k v f = Done f' -> f' = put_dhess v f. Proof. unfold dyn_hess. intros H; injection H as <-; reflexivity. Qed.
Lemma is_constr_hess k v f f' : constr_hess k v f = Done f' -> f' = put_khess v f. Proof. unfold constr_hess. intros H; injection H as <-; reflexivity. Qed.
Lemma is_cost_comp k v f f' : cost_comp k v f = Done f' -> f' = put_comp v f.
Proof. unfold cost_comp. destruct (ck k); intros H; [injection H as <-; reflexivity|discriminate H..]. Qed.
Lemma is_cost_integ k v f f' : cost_integ k v f = Done f' -> f' = put_integ v f.
Proof. unfold cost_integ. destruct (ck k); intros H; [discriminate H|injection H as <-; reflexivity|injection H as <-; reflexivity|discriminate H]. Qed.
Lemma is_dyn_cost k v f f' : dyn_cost k v f = Done f' -> f' = put_dcost v f.
Proof. unfold dyn_cost. destruct (dk k); intros H; [injection H as <-; reflexivity|discriminate H]. Qed.

Section S.
Variable N : nat.
Variable K : nat -> kinds.
(** what a call does to the options of one stage *)
Definition gn_of (i : nat) (v : Z) (f : flags) := match ck (K i) with NLS => put_gn (if v =? 0 then 1 else 0) f | _ => f end.
Definition upd (i : nat) (c : call) (f : flags) : flags :=
  match c with
  | Exact v => let f := gn_of i v f in put_khess v (if (i <? N)%nat then put_add (if v =? 0 then 0 else 1) (put_dhess v f) else f)
  | ExactCost v => gn_of i v f
  | ExactDyn v => if (i <? N)%nat then (if v =? 0 then put_add 0 (put_dhess v f) else put_dhess v f) else f
  | ExactConstr v => put_khess v f
  | Fixed _ => f
  | At j fd v => if (i =? j)%nat then match fd with CostExact => gn_of i v f | CostAdd => put_add v f | CostComp => put_comp v f | CostInteg => put_integ v f
      | DynHess => put_dhess v f | DynCost => put_dcost v f | ConstrHess => put_khess v f end else f
  end.
Lemma cost_exact_gn i v f f' : cost_exact (K i) v f = Done f' -> f' = gn_of i v f.
Proof. unfold cost_exact, gn_of. destruct (ck (K i)); intros H; [injection H as <-|injection H as <-|discriminate H|injection H as <-]; reflexivity. Qed.
Lemma at_upd fn (g : flags -> flags) i v o o' : (forall f f', fn (K i) v f = Done f' -> f' = g f) -> at_stage K fn i v (fl o) = Done o' ->
  forall j, o' j = if (j =? i)%nat then g (fl o j) else fl o j.
Proof.
  intros G H j. apply at_stage_pt in H. destruct H as [H1 H2]. destruct (Nat.eqb_spec j i) as [->|Hj]; [apply G; exact H1|apply H2; exact Hj].
Qed.
Lemma opts_set_pt c o o' : opts_set N K c o = Done o' -> (forall i, (i <= N)%nat -> fl o' i = upd i c (fl o i)) /\ fixed o' = match c with Fixed v => v | _ => fixed o end.
Proof.
  intros H. destruct c as [v|v|v|v|v|j fd v]; unfold opts_set in H.
  - elim_e H. injection H as <-. split; [|reflexivity]. intros i Hi. cbn [fl put_fl].
    elim_e E. rename x0 into f1. elim_e E. rename x0 into f2.
    destruct (stages_pt _ (fun i f => cost_exact (K i) v f) (at_stage_pt K cost_exact v) _ _ _ E0) as [P1 _].
    assert (B : forall i (f f' : nat -> flags), (let+ f := at_stage K dyn_hess i v f in at_stage K cost_add i (if v =? 0 then 0 else 1) f) = Done f' ->
      Done (put_add (if v =? 0 then 0 else 1) (put_dhess v (f i))) = Done (f' i) /\ forall j, j <> i -> f' j = f j).
    { clear. intros i f f' H. elim_e H. apply at_stage_pt in E. destruct E as [A1 A2]. unfold dyn_hess in A1. injection A1 as A1.
      apply at_stage_pt in H. destruct H as [B1 B2]. unfold cost_add in B1. injection B1 as B1. rewrite A1, B1. split; [reflexivity|]. intros j Hj. rewrite B2, A2 by assumption. reflexivity. }
    destruct (stages_pt _ (fun i f => Done (put_add (if v =? 0 then 0 else 1) (put_dhess v f))) B _ _ _ E1) as [P2 P3].
    destruct (stages_pt _ (fun i f => Done (put_khess v f)) (at_stage_pt K constr_hess v) _ _ _ E) as [P4 _].
    specialize (P1 i ltac:(lia)). apply cost_exact_gn in P1. specialize (P4 i ltac:(lia)). injection P4 as P4. rewrite <- P4. unfold upd. cbv zeta. rewrite <- P1. f_equal.
    destruct (Nat.ltb_spec i N) as [L|L]; [specialize (P2 i L); injection P2 as P2; symmetry; exact P2|apply P3; exact L].
  - elim_e H. injection H as <-. split; [|reflexivity]. intros i Hi.
    destruct (stages_pt _ (fun i f => cost_exact (K i) v f) (at_stage_pt K cost_exact v) _ _ _ E) as [P1 _]. apply cost_exact_gn. apply P1. lia.
  - elim_e H. injection H as <-. split; [|reflexivity]. intros i Hi. cbn [fl put_fl upd].
    assert (B : forall i (f f' : nat -> flags), (let+ f := at_stage K dyn_hess i v f in if v =? 0 then at_stage K cost_add i 0 f else Done f) = Done f' ->
      Done (if v =? 0 then put_add 0 (put_dhess v (f i)) else put_dhess v (f i)) = Done (f' i) /\ forall j, j <> i -> f' j = f j).
    { clear. intros i f f' H. elim_e H. apply at_stage_pt in E. destruct E as [A1 A2]. unfold dyn_hess in A1. injection A1 as A1. destruct (v =? 0).
      - apply at_stage_pt in H. destruct H as [B1 B2]. unfold cost_add in B1. injection B1 as B1. rewrite A1, B1. split; [reflexivity|]. intros j Hj. rewrite B2, A2 by assumption. reflexivity.
      - injection H as <-. rewrite A1. split; [reflexivity|exact A2]. }
    destruct (stages_pt _ (fun i f => Done (if v =? 0 then put_add 0 (put_dhess v f) else put_dhess v f)) B _ _ _ E) as [P1 P2].
    destruct (Nat.ltb_spec i N) as [L|L]; [specialize (P1 i L); injection P1 as P1; symmetry; exact P1|apply P2; exact L].
  - elim_e H. injection H as <-. split; [|reflexivity]. intros i Hi.
    destruct (stages_pt _ (fun i f => Done (put_khess v f)) (at_stage_pt K constr_hess v) _ _ _ E) as [P1 _]. specialize (P1 i ltac:(lia)). injection P1 as P1. symmetry. exact P1.
  - injection H as <-. split; reflexivity.
  - destruct fd;
      (match type of H with (if ?b then _ else _) = _ => destruct b; [|discriminate H] end); elim_e H; injection H as <-; (split; [|reflexivity]); intros i Hi; cbn [fl put_fl upd].
    + rewrite (at_upd _ (gn_of j v) _ _ _ _ (cost_exact_gn j v) E i). destruct (Nat.eqb_spec i j) as [->|]; reflexivity.
    + apply (at_upd _ (put_add v) _ _ _ _ (is_cost_add _ v) E i).
    + apply (at_upd _ (put_comp v) _ _ _ _ (is_cost_comp _ v) E i).
    + apply (at_upd _ (put_integ v) _ _ _ _ (is_cost_integ _ v) E i).
    + apply (at_upd _ (put_dhess v) _ _ _ _ (is_dyn_hess _ v) E i).
    + apply (at_upd _ (put_dcost v) _ _ _ _ (is_dyn_cost _ v) E i).
    + apply (at_upd _ (put_khess v) _ _ _ _ (is_constr_hess _ v) E i).
Qed.

(** the options of stage i after the calls h *)
Record says (h : list call) (i : nat) (f : flags) : Prop := mkSays {
  s_gn : c_gn f = match ck (K i) with NLS => if last_set (says_cost i) 0 h =? 0 then 1 else 0 | _ => 1 end;
  s_add : c_add f = last_set (says_add N i) 0 h;
  s_integ : c_integ f = last_set (says_integ i) 0 h;
  s_dyn : d_hess f = last_set (says_dyn N i) 0 h;
  s_dcost : d_cost f = last_set (says_dcost i) 0 h;
  s_constr : k_hess f = last_set (says_constr i) 0 h }.
Lemma says_created i : says [] i defaults.
Proof. split; try reflexivity. cbn. destruct (ck (K i)); reflexivity. Qed.
Lemma says_upd h i f c : says h i f -> says (h ++ [c]) i (upd i c f).
Proof.
  intros [G1 G2 G3 G4 G5 G6]. split; rewrite last_snoc; unfold upd, gn_of; destruct c as [v|v|v|v|v|j fd v];
    cbn [says_cost says_add says_integ says_dyn says_dcost says_constr];
    try (destruct fd); unfold here; repeat match goal with |- context [(?a =? ?b)%nat] => destruct (a =? b)%nat eqn:? end;
    destruct (ck (K i)); try (destruct (i <? N)%nat); try (destruct (v =? 0) eqn:?); cbn; auto; try congruence.
Qed.
Lemma says_comp_upd h i f c : c_comp f = last_set (says_comp i) 1 h -> c_comp (upd i c f) = last_set (says_comp i) 1 (h ++ [c]).
Proof.
  intros G. rewrite last_snoc; unfold upd, gn_of; destruct c as [v|v|v|v|v|j fd v]; cbn [says_comp];
    try (destruct fd); unfold here; repeat match goal with |- context [(?a =? ?b)%nat] => destruct (a =? b)%nat eqn:? end;
    destruct (ck (K i)); try (destruct (i <? N)%nat); try (destruct (v =? 0) eqn:?); cbn; auto.
Qed.
End S.
