From Coq Require Import ZArith List Bool Reals Lia Lra.
From Verif Require Import Arr Arith OptsModel OptsSpec OptsProofs OptsTop OptsWhole OptsWfqp.
Import ListNotations.
Open Scope Z_scope.

(** every module computes a constant *)
Definition konst (d g e i k l : R) : contrib real := mkC (A := real) (fun _ _ _ => d) (fun _ _ _ => g) (fun _ _ _ => e) (fun _ _ _ => i) (fun _ _ _ => k) (fun _ => l).
Definition kLS : nat -> kinds := fun _ => mkK LS BGH DISC false true.
Definition kNLS : nat -> kinds := fun _ => mkK NLS BGH CONT false true.
Definition kCONL : nat -> kinds := fun _ => mkK CONL BGH CONT false true.
Definition q00 : nat -> mat real := fun _ _ _ => 0%R.
Lemma ex_done {S} (o : outcome S) (P : S -> Prop) : match o with Done s => P s | _ => False end -> exists s, o = Done s /\ P s.
Proof. destruct o; [eauto|contradiction..]. Qed.
Lemma ex_done2 {S T} (o : outcome S) (f : S -> outcome T) (P : T -> Prop) : match (let+ s := o in f s) with Done s => P s | _ => False end -> exists s t, o = Done s /\ f s = Done t /\ P t.
Proof. intros H. destruct o as [s| |]; try contradiction. cbn in H. destruct (f s) as [t| |] eqn:E; try contradiction. exists s, t. auto. Qed.
Ltac cv := cbv -[Rplus Rmult IZR Rltb Rmax Rle Rlt not iff]; repeat match goal with |- context [Rltb ?a ?b] => destruct (Rltb_spec a b) end; rewrite ?Rmax_right by lra; rewrite ?Rmax_left by lra; repeat split; try lra.

Local Open Scope R_scope.
(** "selectively turn on exact hessian contributions": exact_hess_dyn alone *)
Lemma dyn_alone : exists s s', run 1 kLS real [Set_ (ExactDyn 1)] (start real q00) = Done s /\ iterate 1 kLS real (konst 1 2 0 0 0 0) s = Done s' /\
  rsq s' 0%nat 1%nat 0%nat = 2 /\ asked 1 kLS [ExactDyn 1] (konst 1 2 0 0 0 0) 0%nat 1%nat 0%nat = 3.
Proof.
  apply ex_done2. cv.
Qed.
Lemma dyn_history : exists es1 es2 s1 s2 t1 t2, calls es1 = [Exact 1; ExactDyn 1] /\ calls es2 = [Exact 1; ExactDyn 0; ExactDyn 1] /\
  run 1 kLS real es1 (start real q00) = Done s1 /\ run 1 kLS real es2 (start real q00) = Done s2 /\
  iterate 1 kLS real (konst 1 2 0 0 4 0) s1 = Done t1 /\ iterate 1 kLS real (konst 1 2 0 0 4 0) s2 = Done t2 /\
  (forall i, (i <= 1)%nat -> same 1 (calls es1) (calls es2) i) /\ rsq t1 0%nat 1%nat 0%nat = 7 /\ rsq t2 0%nat 1%nat 0%nat = 6.
Proof.
  exists [Set_ (Exact 1); Set_ (ExactDyn 1)], [Set_ (Exact 1); Set_ (ExactDyn 0); Set_ (ExactDyn 1)]. 
  destruct (ex_done2 (run 1 kLS real [Set_ (Exact 1); Set_ (ExactDyn 1)] (start real q00)) (iterate 1 kLS real (konst 1 2 0 0 4 0)) (fun t => rsq t 0%nat 1%nat 0%nat = 7)) as (s1 & t1 & H1 & H2 & H3); [cv|].
  destruct (ex_done2 (run 1 kLS real [Set_ (Exact 1); Set_ (ExactDyn 0); Set_ (ExactDyn 1)] (start real q00)) (iterate 1 kLS real (konst 1 2 0 0 4 0)) (fun t => rsq t 0%nat 1%nat 0%nat = 6)) as (s2 & t2 & H4 & H5 & H6); [cv|].
  exists s1, s2, t1, t2. repeat (split; [first [reflexivity|assumption]|]). split; [|auto].
  intros i Hi. destruct i as [|[|i]]; [| |lia]; repeat split.
Qed.
(** the stage-wise setter: the cost adds to what is there *)
Lemma add_alone : exists s s', run 1 kLS real [Set_ (At 0 CostAdd 1); Iter (konst 0 2 0 0 0 0)] (start real q00) = Done s /\ iterate 1 kLS real (konst 0 2 0 0 0 0) s = Done s' /\
  rsq s' 0%nat 1%nat 0%nat = 4 /\ asked 1 kLS [At 0 CostAdd 1] (konst 0 2 0 0 0 0) 0%nat 1%nat 0%nat = 2.
Proof.
  apply ex_done2. cv.
Qed.
(** EXACT with exact_hess_cost = 0 is what the interface demands for a convex-over-nonlinear cost *)
Lemma conl_exits d k : set_all 1 kCONL (block d 0 k) created = Exit.
Proof. reflexivity. Qed.
(** fixed_hess on and off again *)
Lemma fixed_history : exists s1 s2,
  run 1 kLS real [Set_ (Fixed 0); Pre (konst 0 2 0 0 0 0); Iter (konst 0 5 0 0 0 0)] (start real q00) = Done s1 /\
  run 1 kLS real [Set_ (Fixed 1); Pre (konst 0 2 0 0 0 0); Set_ (Fixed 0); Pre (konst 0 2 0 0 0 0); Iter (konst 0 5 0 0 0 0)] (start real q00) = Done s2 /\
  rsq s1 0%nat 1%nat 0%nat = 5 /\ rsq s2 0%nat 1%nat 0%nat = 2.
Proof.
  destruct (ex_done (run 1 kLS real [Set_ (Fixed 0); Pre (konst 0 2 0 0 0 0); Iter (konst 0 5 0 0 0 0)] (start real q00)) (fun t => rsq t 0%nat 1%nat 0%nat = 5)) as (s1 & H1 & H3); [cv|].
  destruct (ex_done (run 1 kLS real [Set_ (Fixed 1); Pre (konst 0 2 0 0 0 0); Set_ (Fixed 0); Pre (konst 0 2 0 0 0 0); Iter (konst 0 5 0 0 0 0)] (start real q00)) (fun t => rsq t 0%nat 1%nat 0%nat = 2)) as (s2 & H4 & H6); [cv|].
  exists s1, s2. auto.
Qed.
(** fixed_hess with exact constraint Hessians: every iteration adds *)
Lemma fixed_grows : exists s, run 1 kLS real [Set_ (ExactConstr 1); Set_ (Fixed 1); Pre (konst 0 2 0 0 4 0); Iter (konst 0 2 0 0 4 0); Iter (konst 0 2 0 0 4 0)] (start real q00) = Done s /\
  rsq s 0%nat 1%nat 0%nat = 14 /\ asked 1 kLS [ExactConstr 1; Fixed 1] (konst 0 2 0 0 4 0) 0%nat 1%nat 0%nat = 6.
Proof. apply ex_done. cv. Qed.
(** the solver with the feasibility QP and a cost integrated by the dynamics *)
Lemma wfqp_integrated : exists s, let h := [Exact 1; At 0 CostInteg 1; At 0 DynCost 1] in let x := konst 1 2 0 8 4 0 in
  w_run 1 kNLS real true [WSet (Exact 1); WSet (At 0 CostInteg 1); WSet (At 0 DynCost 1); WIter x] (w_start real) = Done s /\
  integ_ok 1 kNLS h /\
  w_nom s 0%nat 1%nat 0%nat = 12 /\ asked 1 kNLS h x 0%nat 1%nat 0%nat = 13 /\
  w_rel s 0%nat 1%nat 0%nat = 12 /\ dyn_part 1 h x 0%nat 1%nat 0%nat + constr_part kNLS h x 0%nat 1%nat 0%nat = 5.
Proof.
  cbv zeta. apply ex_done. cbv -[Rplus Rmult IZR Rltb Rmax Rle Rlt not iff integ_ok kNLS]. split.
  { intros i Hi. destruct i as [|[|i]]; [| |lia]; cbn.
    - split; [intros _; split; [lia|split; [reflexivity|lia]]|intros _; discriminate].
    - split; [intros H; exfalso; apply H; reflexivity|intros (H & _); lia]. }
  cv.
Qed.
(** "LM for feasibility QP" *)
Lemma wfqp_lm : exists s, let x := konst 0 2 0 0 4 16 in
  w_run 1 kLS real true [WSet (ExactConstr 1); WIter x; WFeas x] (w_start real) = Done s /\
  w_rel s 0%nat 1%nat 1%nat = dyn_part 1 [ExactConstr 1] x 0%nat 1%nat 1%nat + constr_part kLS [ExactConstr 1] x 0%nat 1%nat 1%nat /\
  w_nom s 0%nat 1%nat 1%nat = asked 1 kLS [ExactConstr 1] x 0%nat 1%nat 1%nat + lm_part x 0%nat 1%nat 1%nat + lm_part x 0%nat 1%nat 1%nat /\ lm_part x 0%nat 1%nat 1%nat = 16.
Proof.
  cbv zeta. apply ex_done. cv.
Qed.
(** non-vacuity: the generated options, twice, with iterations in between *)
Definition es_gen : list (event real) := map Set_ (block 1 1 1) ++ Iter (konst 1 2 3 0 4 16) :: map Set_ (block 0 1 1) ++ Iter (konst 1 2 3 0 4 16) :: map Set_ (block 1 1 1).
Example gen_orderly : orderly (calls es_gen) /\ (forall c, In c (calls es_gen) -> global c = true).
Proof.
  split; [|intros c H; cbn in H; repeat (destruct H as [<-|H]; [reflexivity|]); contradiction].
  change (calls es_gen) with (((([] ++ block 1 1 1) ++ block 0 1 1) ++ block 1 1 1)). apply block_orderly, block_orderly, block_orderly. intros [|a b] v l E; discriminate E.
Qed.
Example gen_sum : exists s s', run 1 kNLS real es_gen (start real q00) = Done s /\ iterate 1 kNLS real (konst 1 2 3 0 4 16) s = Done s' /\ rsq s' 0%nat 1%nat 1%nat = 26.
Proof.
  apply ex_done2. cv.
Qed.
Example fixed_case : exists o s1 s', set_all 1 kLS [Fixed 1] created = Done o /\ precompute 1 kLS real (konst 1 2 3 0 4 16) (mkS o 1 q00) = Done s1 /\
  run 1 kLS real [Iter (konst 7 7 7 7 7 7); Iter (konst 8 8 8 8 8 8)] s1 = Done s' /\ rsq s' 1%nat 1%nat 1%nat = 2.
Proof.
  destruct (ex_done (set_all 1 kLS [Fixed 1] created) (fun o => exists s1 s', precompute 1 kLS real (konst 1 2 3 0 4 16) (mkS o 1 q00) = Done s1 /\
    run 1 kLS real [Iter (konst 7 7 7 7 7 7); Iter (konst 8 8 8 8 8 8)] s1 = Done s' /\ rsq s' 1%nat 1%nat 1%nat = 2)) as (o & H1 & s1 & s' & H2); [cbn [set_all ebind opts_set]; apply ex_done2; cv|].
  exists o, s1, s'. auto.
Qed.
