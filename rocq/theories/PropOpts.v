From Coq Require Import ZArith List Bool Reals Lia Lra.
From Verif Require Import Arr Arith OptsModel OptsSpec OptsProofs OptsTop OptsWhole OptsWfqp OptsCases.
Import ListNotations.
Open Scope Z_scope.

(** C49: the calls that are carried out, and the options they leave: the last call decides, for each module of each stage *)
Theorem C49_accepted : forall N K h o, (exists o', set_all N K h o = Done o') <-> forallb (known N K) h = true.
Proof. exact set_all_known. Qed.
Print Assumptions C49_accepted.
Theorem C49_options : forall N K h o, set_all N K h created = Done o -> forall i, (i <= N)%nat ->
  d_hess (fl o i) = last_set (says_dyn N i) 0 h /\ k_hess (fl o i) = last_set (says_constr i) 0 h /\ c_add (fl o i) = last_set (says_add N i) 0 h /\
  (ck (K i) = NLS -> (c_gn (fl o i) = 0 <-> last_set (says_cost i) 0 h <> 0)).
Proof. exact opts_after. Qed.
Print Assumptions C49_options.
(** the Hessians do not depend on the history, over any arithmetic *)
Theorem C49_history_free : forall N K (A : arith) (es1 es2 : list (event A)) q1 q2 x s1 s2 t1 t2, unfixed (calls es1) -> unfixed (calls es2) ->
  (forall i v, In (At i CostComp v) (calls es1 ++ calls es2) -> v <> 0) ->
  run N K A es1 (start A q1) = Done s1 -> run N K A es2 (start A q2) = Done s2 -> iterate N K A x s1 = Done t1 -> iterate N K A x s2 = Done t2 ->
  integ_ok N K (calls es1) ->
  forall i, (i <= N)%nat -> same N (calls es1) (calls es2) i -> in_step N (calls es1) i -> in_step N (calls es2) i -> forall r c, rsq t1 i r c = rsq t2 i r c.
Proof. exact history_free. Qed.
Print Assumptions C49_history_free.
Theorem C49_orderly : forall N h, (forall c, In c h -> global c = true) -> orderly h -> forall i, (i <= N)%nat -> in_step N h i.
Proof. exact orderly_step. Qed.
Print Assumptions C49_orderly.
Theorem C49_generated : forall h d c k, orderly h -> orderly (h ++ block d c k).
Proof. exact block_orderly. Qed.
Print Assumptions C49_generated.
(** the same final values, different Hessians *)
Theorem C49_history_refuted : exists es1 es2 s1 s2 t1 t2, calls es1 = [Exact 1; ExactDyn 1] /\ calls es2 = [Exact 1; ExactDyn 0; ExactDyn 1] /\
  run 1 kLS real es1 (start real q00) = Done s1 /\ run 1 kLS real es2 (start real q00) = Done s2 /\
  iterate 1 kLS real (konst 1 2 0 0 4 0) s1 = Done t1 /\ iterate 1 kLS real (konst 1 2 0 0 4 0) s2 = Done t2 /\
  (forall i, (i <= 1)%nat -> same 1 (calls es1) (calls es2) i) /\ rsq t1 0%nat 1%nat 0%nat = 7%R /\ rsq t2 0%nat 1%nat 0%nat = 6%R.
Proof. exact dyn_history. Qed.
Print Assumptions C49_history_refuted.
Theorem C49_fixed_refuted : exists s1 s2,
  run 1 kLS real [Set_ (Fixed 0); Pre (konst 0 2 0 0 0 0); Iter (konst 0 5 0 0 0 0)] (start real q00) = Done s1 /\
  run 1 kLS real [Set_ (Fixed 1); Pre (konst 0 2 0 0 0 0); Set_ (Fixed 0); Pre (konst 0 2 0 0 0 0); Iter (konst 0 5 0 0 0 0)] (start real q00) = Done s2 /\
  rsq s1 0%nat 1%nat 0%nat = 5%R /\ rsq s2 0%nat 1%nat 0%nat = 2%R.
Proof. exact fixed_history. Qed.
Print Assumptions C49_fixed_refuted.
(** the options the interface demands for a convex-over-nonlinear cost with exact Hessians end the program *)
Theorem C49_conl_refuted : forall d k, set_all 1 kCONL (block d 0 k) created = Exit.
Proof. exact conl_exits. Qed.
Print Assumptions C49_conl_refuted.

Open Scope R_scope.
(** C66: the Hessian of a stage is the sum of the contributions that are switched on *)
Theorem C66_sum : forall N K (es : list (event real)) q0 x s s', unfixed (calls es) -> (forall i v, In (At i CostComp v) (calls es) -> v <> 0%Z) ->
  run N K real es (start real q0) = Done s -> iterate N K real x s = Done s' -> integ_ok N K (calls es) ->
  forall i, (i <= N)%nat -> in_step N (calls es) i -> forall r c, rsq s' i r c = asked N K (calls es) x i r c + lm_part x i r c.
Proof. exact sum_of_parts. Qed.
Print Assumptions C66_sum.
(** otherwise the Hessian of the dynamics is lost, or the previous Hessian stays *)
Theorem C66_lost : forall N K (es : list (event real)) q0 x s s', unfixed (calls es) -> (forall i v, In (At i CostComp v) (calls es) -> v <> 0%Z) ->
  run N K real es (start real q0) = Done s -> iterate N K real x s = Done s' -> integ_ok N K (calls es) ->
  forall i, (i <= N)%nat -> last_set (says_add N i) 0 (calls es) = 0%Z -> forall r c, rsq s' i r c = cost_part K (calls es) x i r c + constr_part K (calls es) x i r c + lm_part x i r c.
Proof. exact dynamics_lost. Qed.
Print Assumptions C66_lost.
Theorem C66_accumulates : forall N K (es : list (event real)) q0 x s s', unfixed (calls es) -> (forall i v, In (At i CostComp v) (calls es) -> v <> 0%Z) ->
  run N K real es (start real q0) = Done s -> iterate N K real x s = Done s' -> integ_ok N K (calls es) ->
  forall i, (i <= N)%nat -> last_set (says_add N i) 0 (calls es) <> 0%Z -> last_set (says_dyn N i) 0 (calls es) = 0%Z ->
  forall r c, rsq s' i r c = rsq s i r c + cost_part K (calls es) x i r c + constr_part K (calls es) x i r c + lm_part x i r c.
Proof. exact accumulates. Qed.
Print Assumptions C66_accumulates.
Theorem C66_dynamics_refuted : exists s s', run 1 kLS real [Set_ (ExactDyn 1)] (start real q00) = Done s /\ iterate 1 kLS real (konst 1 2 0 0 0 0) s = Done s' /\
  rsq s' 0%nat 1%nat 0%nat = 2 /\ asked 1 kLS [ExactDyn 1] (konst 1 2 0 0 0 0) 0%nat 1%nat 0%nat = 3.
Proof. exact dyn_alone. Qed.
Print Assumptions C66_dynamics_refuted.
Theorem C66_stage_refuted : exists s s', run 1 kLS real [Set_ (At 0 CostAdd 1); Iter (konst 0 2 0 0 0 0)] (start real q00) = Done s /\ iterate 1 kLS real (konst 0 2 0 0 0 0) s = Done s' /\
  rsq s' 0%nat 1%nat 0%nat = 4 /\ asked 1 kLS [At 0 CostAdd 1] (konst 0 2 0 0 0 0) 0%nat 1%nat 0%nat = 2.
Proof. exact add_alone. Qed.
Print Assumptions C66_stage_refuted.

(** C67: with fixed_hess the Hessian of the least-squares cost is evaluated once, without Levenberg-Marquardt term *)
Theorem C67_fixed : forall N K (h : list call) o q0 m0 x0 (es : list (event real)) s1 s', set_all N K h created = Done o ->
  last_set (fun c => match c with Fixed v => Some v | _ => None end) 0 h <> 0%Z -> (forall i v, In (At i CostComp v) h -> v <> 0%Z) ->
  (forall i, (i <= N)%nat -> last_set (says_dyn N i) 0 h = 0%Z /\ last_set (says_constr i) 0 h = 0%Z /\ last_set (says_dcost i) 0 h = 0%Z /\ last_set (says_add N i) 0 h = 0%Z) ->
  (forall e, In e es -> exists x, e = Iter x) ->
  precompute N K real x0 (mkS o m0 q0) = Done s1 -> run N K real es s1 = Done s' ->
  forall i, (i <= N)%nat -> forall r c, rsq s' i r c = kG x0 i r c.
Proof. exact fixed_hessian. Qed.
Print Assumptions C67_fixed.
Theorem C67_constraints_refuted : exists s, run 1 kLS real [Set_ (ExactConstr 1); Set_ (Fixed 1); Pre (konst 0 2 0 0 4 0); Iter (konst 0 2 0 0 4 0); Iter (konst 0 2 0 0 4 0)] (start real q00) = Done s /\
  rsq s 0%nat 1%nat 0%nat = 14 /\ asked 1 kLS [ExactConstr 1; Fixed 1] (konst 0 2 0 0 4 0) 0%nat 1%nat 0%nat = 6.
Proof. exact fixed_grows. Qed.
Print Assumptions C67_constraints_refuted.

(** C68: the two Hessians of the solver with the feasibility QP, whatever the history *)
Theorem C68_wfqp : forall N K fh es x s s', w_run N K real fh es (w_start real) = Done s -> w_iterate N K real fh x s = Done s' ->
  (forall i v, In (At i CostComp v) (wcalls es) -> v <> 0%Z) -> no_integ N (wcalls es) ->
  forall i, (i <= N)%nat -> forall r c, w_nom s' i r c = asked N K (wcalls es) x i r c + lm_part x i r c /\
    (fh = true -> w_rel s' i r c = dyn_part N (wcalls es) x i r c + constr_part K (wcalls es) x i r c).
Proof. exact w_sum. Qed.
Print Assumptions C68_wfqp.
(** not for a cost integrated by the dynamics: the Hessian of the dynamics is lost, and the feasibility QP gets the Hessian of the cost *)
Theorem C68_integrated_refuted : exists s, let h := [Exact 1; At 0 CostInteg 1; At 0 DynCost 1] in let x := konst 1 2 0 8 4 0 in
  w_run 1 kNLS real true [WSet (Exact 1); WSet (At 0 CostInteg 1); WSet (At 0 DynCost 1); WIter x] (w_start real) = Done s /\
  integ_ok 1 kNLS h /\
  w_nom s 0%nat 1%nat 0%nat = 12 /\ asked 1 kNLS h x 0%nat 1%nat 0%nat = 13 /\
  w_rel s 0%nat 1%nat 0%nat = 12 /\ dyn_part 1 h x 0%nat 1%nat 0%nat + constr_part kNLS h x 0%nat 1%nat 0%nat = 5.
Proof. exact wfqp_integrated. Qed.
Print Assumptions C68_integrated_refuted.
(** the Levenberg-Marquardt term of the feasibility QP is added to the nominal QP, a second time *)
Theorem C68_levenberg_refuted : exists s, let x := konst 0 2 0 0 4 16 in
  w_run 1 kLS real true [WSet (ExactConstr 1); WIter x; WFeas x] (w_start real) = Done s /\
  w_rel s 0%nat 1%nat 1%nat = dyn_part 1 [ExactConstr 1] x 0%nat 1%nat 1%nat + constr_part kLS [ExactConstr 1] x 0%nat 1%nat 1%nat /\
  w_nom s 0%nat 1%nat 1%nat = asked 1 kLS [ExactConstr 1] x 0%nat 1%nat 1%nat + lm_part x 0%nat 1%nat 1%nat + lm_part x 0%nat 1%nat 1%nat /\ lm_part x 0%nat 1%nat 1%nat = 16.
Proof. exact wfqp_lm. Qed.
Print Assumptions C68_levenberg_refuted.
