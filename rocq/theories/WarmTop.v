(** The sequence of QP solver calls, the split phases of RTI, and cases. *)
From Coq Require Import ZArith List Bool Arith Lia Reals Lra.
From Verif Require Import Arith Vec RSum LinModel QpsModel QpsSpec WarmModel WarmProofs WarmSpec.
Import ListNotations.

Section R.
Variables Q P XQ XP M W : Type.
Variable cond : Q -> XQ. Variables clhs crhs : Q -> XQ -> XQ. Variable csol : Q -> P -> XP.
Variable solve : sopts -> XQ -> XP -> M -> XP * M. Variable expand : Q -> XP -> P -> P. Variable init : W -> Q -> P -> P.
Notation run_evs := (run_evs cond crhs csol solve expand init false).
Notation run_ev := (run_ev cond crhs csol solve expand init false).

Definition ready (o : nopts) (t0 l0 : Z) (s : st P XQ XP M) : Prop :=
  x_flag (st_x s) = false /\ st_sout s = st_out s /\ warm_start (x_opts (st_x s)) = qp_warm o /\ iter_max (x_opts (st_x s)) = qp_iter_max o
  /\ t0_min (x_opts (st_x s)) = t0 /\ lam0_min (x_opts (st_x s)) = l0.

Lemma sequence o t0 l0 evs : forall s, ready o t0 l0 s ->
  let s' := run_evs o evs s in
  ready o t0 l0 s' /\ exists cs, x_log (st_x s') = rev cs ++ x_log (st_x s) /\ calls cond csol expand init o t0 l0 (x_out (st_x s)) (st_out s) evs cs.
Proof.
  induction evs as [|e evs IH]; intros s R.
  - split; [exact R|]. exists []. split; [reflexivity|constructor].
  - cbn [WarmSpec.run_evs].
    assert (R' : ready o t0 l0 (run_ev o e s)).
    { destruct R as (F & So & Wm & Im & T0 & L0). destruct s as [[fl op xi xo me lg] out sout]. cbn in *. subst fl sout.
      destruct op as [ow oi of ot ol]. cbn in *. subst.
      destruct e as [[|] w q|w q]; cbn; [destruct (w_first o) eqn:E1, (w_nlp o) eqn:E2| |]; repeat split. }
    specialize (IH _ R'). cbv zeta in IH. destruct IH as [R2 (cs & L & C)]. split; [exact R2|].
    destruct R as (F & So & Wm & Im & T0 & L0). destruct s as [[fl op xi xo me lg] out sout]. cbn in F, So. subst fl sout.
    destruct op as [ow oi of ot ol]. cbn in Wm, Im, T0, L0. subst ow oi ot ol.
    destruct e as [first w q|w q].
    + set (from := first && w_first o && w_nlp o) in *.
      set (oc := mkSo (if first && negb (w_first o) then 0%Z else qp_warm o) (qp_iter_max o) of t0 l0).
      set (start := if from then csol q (init w q out) else xo).
      exists (mkCall oc (cond q) start (fst (solve oc (cond q) start me)) :: cs).
      assert (A : x_log (st_x (run_ev o (Step first w q) (mkSt (mkXs false (mkSo (qp_warm o) (qp_iter_max o) of t0 l0) xi xo me lg) out out)))
        = mkCall oc (cond q) start (fst (solve oc (cond q) start me)) :: lg
        /\ x_out (st_x (run_ev o (Step first w q) (mkSt (mkXs false (mkSo (qp_warm o) (qp_iter_max o) of t0 l0) xi xo me lg) out out))) = fst (solve oc (cond q) start me)
        /\ st_out (run_ev o (Step first w q) (mkSt (mkXs false (mkSo (qp_warm o) (qp_iter_max o) of t0 l0) xi xo me lg) out out))
           = expand q (fst (solve oc (cond q) start me)) (if from then init w q out else out)).
      { unfold start, oc, from. clear. destruct first; cbn; [destruct (w_first o), (w_nlp o)|]; cbn; auto. }
      destruct A as (A1 & A2 & A3). split.
      * rewrite L, A1. cbn [rev]. rewrite <- app_assoc. reflexivity.
      * constructor; try reflexivity.
        { cbn [c_start]. unfold start, from. destruct (first && w_first o && w_nlp o); reflexivity. }
        rewrite A2, A3 in C. exact C.
    + set (oc := mkSo 3 0 1 (sens_min o) (sens_min o)). set (start := csol q (init w q out)).
      exists (mkCall oc (cond q) start (fst (solve oc (cond q) start me)) :: cs). split.
      * rewrite L. cbn [rev]. rewrite <- app_assoc. reflexivity.
      * constructor; try reflexivity. exact C.
Qed.

(** split phases: lhs prepared with the matrices of [q'], rhs and matrices of [q] being those of [q] and [q'] *)
Lemma split_phases (same : Q -> Q -> Prop) : (forall q q' x, same q' q -> crhs q (clhs q' x) = cond q) ->
  forall q q' out (s : xs XQ XP M), same q' q -> x_flag s = false ->
  rhs_and_solve crhs solve expand q out (condense_lhs clhs q' s) = xcond_solve cond csol solve expand q out s.
Proof.
  intros H q q' out s E F. destruct s as [fl op xi xo me lg]. cbn in F. subst fl.
  unfold rhs_and_solve, xcond_solve, condense_lhs, run. cbn. rewrite (H q q' xi E). reflexivity.
Qed.
(** the first QP of split RTI starts at the previous result; the request is still pending afterwards *)
Lemma split_first o w q s : w_first o = true -> w_nlp o = true ->
  let s' := qp_step cond crhs csol solve expand false shared_seen shared_back init o true true w q q s in
  (exists c, x_log (st_x s') = c :: x_log (st_x s) /\ c_start c = x_out (st_x s)) /\ x_flag (st_x s') = true.
Proof. intros E1 E2. cbn. rewrite E1, E2. cbn. split; [eexists; split; reflexivity|reflexivity]. Qed.
(** a QP solved after a sensitivity starts at the sensitivity *)
Lemma after_sens sens o w q qs out s : x_flag (st_x s) = false ->
  let s1 := mkSt (fst (eval_sens sens expand qs out (st_x s))) (st_out s) (st_sout s) in
  let s' := run_ev o (Step false w q) s1 in
  exists c, x_log (st_x s') = c :: x_log (st_x s) /\ c_start c = sens (x_in (st_x s)) qs (x_mem (st_x s)).
Proof.
  intros F. destruct s as [[fl op xi xo me lg] out' sout]. cbn in F. subst fl. cbn. eexists. split; reflexivity.
Qed.
(** the factorization: the last call, and the options left behind *)
Lemma fact_exit_left o w q s : x_flag (st_x s) = false -> fact_exit (x_opts (st_x (run_ev o (Fact w q) s))) = 1%Z.
Proof. intros _. reflexivity. Qed.
End R.

(** ** a small instance: QPs, points and condensed objects are integers; the solver halves the distance to the QP's number *)
Section E.
Local Open Scope Z_scope.
Definition e_cond (q : Z) : Z := 10 * q.
Definition e_lhs (q x : Z) : Z := 10 * q.
Definition e_rhs (q x : Z) : Z := 10 * q.
Definition e_csol (q p : Z) : Z := 100 + p.
Definition e_solve (o : sopts) (x p : Z) (m : Z) : Z * Z := ((x + p + warm_start o) / 2, m + 1).
Definition e_expand (q x p : Z) : Z := x + q.
Definition e_init (w q p : Z) : Z := w.
Definition e_sens (x q m : Z) : Z := - 7.
Definition e_start : st Z Z Z Z := mkSt (mkXs false (mkSo 1 50 0 5 6) 0 40 0 []) 3 3.
Definition e_opts : nopts := mkNo true true 1 50 9.
Notation ev_run := (run_evs e_cond e_rhs e_csol e_solve e_expand e_init false).
Lemma e_ready : ready Z Z Z Z e_opts 5 6 e_start.
Proof. repeat split. Qed.
Lemma e_run : map c_start (rev (x_log (st_x (ev_run e_opts [Step true 1 2; Step false 8 3; Fact 9 3; Step false 9 4; Step true 11 5] e_start))))
  = [101; 61; 109; 71; 111] /\
  map (fun c => warm_start (c_opts c)) (rev (x_log (st_x (ev_run e_opts [Step true 1 2; Step false 8 3; Fact 9 3; Step false 9 4; Step true 11 5] e_start))))
  = [1; 1; 3; 1; 1].
Proof. vm_compute. split; reflexivity. Qed.
Lemma e_law : forall q q' x, True -> e_rhs q (e_lhs q' x) = e_cond q.
Proof. reflexivity. Qed.

(** split RTI, first QP from the NLP iterate: not started there, and a later QP is *)
Lemma split_wrong : exists o (s : st Z Z Z Z) w q w' q', ready Z Z Z Z o 5 6 s /\ w_first o = true /\ w_nlp o = true /\
  let s1 := qp_step e_cond e_rhs e_csol e_solve e_expand false shared_seen shared_back e_init o true true w q q s in
  let s2 := qp_step e_cond e_rhs e_csol e_solve e_expand false shared_seen shared_back e_init o false false w' q' q' s1 in
  exists c1 c2, x_log (st_x s2) = c2 :: c1 :: x_log (st_x s) /\
  c_start c1 <> e_csol q (e_init w q (st_out s)) /\ c_start c1 = x_out (st_x s) /\
  c_start c2 <> c_result c1 /\ c_start c2 = e_csol q' (e_expand q (c_result c1) (e_init w q (st_out s))).
Proof.
  exists e_opts, e_start, 1, 2, 8, 3. repeat (split; [repeat split|]). vm_compute. do 2 eexists.
  split; [reflexivity|]. cbn. repeat split; discriminate.
Qed.
Lemma sens_wrong : exists o (s : st Z Z Z Z) w q qs out w' q', ready Z Z Z Z o 5 6 s /\
  let s1 := run_ev e_cond e_rhs e_csol e_solve e_expand e_init false o (Step false w q) s in
  let s2 := mkSt (fst (eval_sens e_sens e_expand qs out (st_x s1))) (st_out s1) (st_sout s1) in
  let s3 := run_ev e_cond e_rhs e_csol e_solve e_expand e_init false o (Step false w' q') s2 in
  exists c1 c2, x_log (st_x s3) = c2 :: c1 :: x_log (st_x s) /\ c_start c2 <> c_result c1.
Proof.
  exists e_opts, e_start, 1, 2, 5, 6, 8, 3. split; [repeat split|]. vm_compute. do 2 eexists. split; [reflexivity|]. cbn. discriminate.
Qed.
Lemma endian_wrong : exists o (s : st Z Z Z Z) w q, ready Z Z Z Z o 5 6 s /\ w_first o = true /\ w_nlp o = true /\
  let s1 := run_ev e_cond e_rhs e_csol e_solve e_expand e_init true o (Step true w q) s in
  exists c, x_log (st_x s1) = c :: x_log (st_x s) /\ c_start c = x_out (st_x s) /\ c_start c <> e_csol q (e_init w q (st_out s)).
Proof.
  exists e_opts, e_start, 1, 2. repeat (split; [repeat split|]). vm_compute. eexists. split; [reflexivity|]. cbn. split; [reflexivity|discriminate].
Qed.
Lemma exit_wrong : exists o (s : st Z Z Z Z) w q w' q', ready Z Z Z Z o 5 6 s /\ fact_exit (x_opts (st_x s)) = 0 /\
  let s1 := ev_run o [Fact w q; Step false w' q'] s in
  exists c rest, x_log (st_x s1) = c :: rest /\ fact_exit (c_opts c) = 1.
Proof.
  exists e_opts, e_start, 1, 2, 8, 3. repeat (split; [repeat split|]). vm_compute. do 2 eexists. split; reflexivity.
Qed.
End E.

(** ** scaling *)
Section Q.
Local Open Scope R_scope.
(** the multipliers (and, with constraint scaling, the primal point) the QP solver is given do not come from the NLP iterate *)
Lemma scaled_start (o : qopts real) d q pi lam out s : o_con o = true \/ o_obj o = true ->
  let p := seen_out o (initialize_qp_from_nlp (A := real) d q pi lam out) s in
  s_lam (p_s p) = s_lam (p_s s) /\ s_pi (p_s p) = s_pi (p_s s) /\ (o_con o = true -> s_ux (p_s p) = s_ux (p_s s)).
Proof.
  intros H. unfold seen_out. destruct (o_con o); [auto|]. destruct H as [H|H]; [discriminate|]. rewrite H. cbn. repeat split; auto. discriminate.
Qed.
Definition d1 : qdims := mkD 0 (fun _ => 2%nat) (fun _ => 0%nat) (fun _ => 1%nat) (fun _ => 0%nat) (fun _ => 0%nat).
Definition zv : nat -> nat -> R := fun _ _ => 0.
Definition diag (a b : R) : nat -> nat -> nat -> R := fun _ r c => if (r =? c)%nat then (if (r =? 0)%nat then a else b) else 0.
Definition hq (a b : R) : rqp := mkQp (A := real) zv zv (diag a b) (fun _ => zv) zv zv zv (fun _ => zv) (fun _ _ => 0%nat) (fun _ _ => (-1)%Z).
Definition p0 : pt real := mkPt (mkSol (A := real) zv zv zv) zv.
Lemma hq_ok a b : maps_ok d1 (hq a b).
Proof. intros i Hi. split; intros k Hk; cbn in *; [unfold nv; cbn; lia|left; reflexivity]. Qed.
Lemma scaled_start_wrong (o : qopts real) : o_con o = true \/ o_obj o = true -> exists d q pi lam out s, maps_ok d q /\
  ~ from_nlp d q pi lam (seen_out o (initialize_qp_from_nlp (A := real) d q pi lam out) s).
Proof.
  intros H. exists d1, (hq 1 1), zv, (fun _ _ => 1), p0, p0. split; [apply hq_ok|]. intros F.
  destruct (scaled_start o d1 (hq 1 1) zv (fun _ _ => 1) p0 p0 H) as (A & _). 
  assert (B := fn_lam _ _ _ _ _ F 0%nat 0%nat ltac:(cbn; lia) ltac:(unfold nall; cbn; lia)). rewrite A in B. cbn in B. unfold zv in B. lra.
Qed.
(** the factorization with objective scaling sees the Hessian of the QP scaled last *)
Lemma scaled_fact nrm (o : qopts real) m : o_obj o = true -> exists d q q', 
  let sq := alias_in o q' (m_in (scale_qp (A := real) nrm o d m q)) in
  forall c : R, (forall r k, (r < 2)%nat -> (k < 2)%nat -> (q_H sq 0%nat r k : R) = c * q_H q' 0%nat r k) -> c = 0.
Proof.
  intros Ho. exists d1, (hq 1 1), (hq 1 2). cbv zeta. intros c H.
  assert (G : forall r k, (r < 2)%nat -> (k < 2)%nat -> (q_H (alias_in o (hq 1 2) (m_in (scale_qp (A := real) nrm o d1 m (hq 1 1)))) 0%nat r k : R)
     = fst (obj_factor (A := real) (o_ub o) (o_lb o) (fst (eig_grad nrm d1 (hq 1 1))) (snd (eig_grad nrm d1 (hq 1 1)))) * diag 1 1 0%nat r k).
  { intros r k Hr Hk. unfold scale_qp. rewrite Ho. set (f := obj_factor _ _ _ _). cbn [m_in].
    unfold alias_in at 1. rewrite Ho.
    assert (E : (q_H (scale_objective (A := real) d1 (hq 1 1) (fst f) (alias_in o (hq 1 1) (m_in m))) 0%nat r k : R) = fst f * diag 1 1 0%nat r k).
    { unfold scale_objective, mcpsc. cbn [q_H qN d1 Nat.leb qnx qnu Nat.add hq].
      replace (r <? 2)%nat with true by (symmetry; apply Nat.ltb_lt; lia). replace (k <? 2)%nat with true by (symmetry; apply Nat.ltb_lt; lia). reflexivity. }
    destruct (o_con o); cbn [fst q_H scale_constraints]; exact E. }
  assert (A := H 0%nat 0%nat ltac:(lia) ltac:(lia)). assert (B := H 1%nat 1%nat ltac:(lia) ltac:(lia)).
  rewrite G in A, B by lia. cbn [hq q_H] in A, B. unfold diag in A, B. cbn in A, B. lra.
Qed.
End Q.

(** ** one stage with a bound on x_1 and a general constraint with a slack *)
Section T.
Local Open Scope R_scope.
Definition dT : qdims := mkD 0 (fun _ => 2%nat) (fun _ => 0%nat) (fun _ => 1%nat) (fun _ => 1%nat) (fun _ => 1%nat).
Definition qT : rqp := mkQp (A := real) zv zv (fun _ => zv) (fun _ => zv) zv (fun _ k => IZR (nth k [5; 2; 7; 8; 1; 1]%Z 0%Z)) zv
  (fun _ r _ => if (r =? 0)%nat then 3 else 4) (fun _ _ => 1%nat) (fun _ k => if (k =? 1)%nat then 0%Z else (-1)%Z).
Definition uT : nat -> nat -> R := fun _ k => IZR (nth k [3; 4; 6; 32]%Z 0%Z).
Lemma maps_T : maps_ok dT qT.
Proof. intros i Hi. split; intros k Hk; cbn in *; [unfold nv; cbn; lia|]. destruct (k =? 1)%nat; [right; lia|left; reflexivity]. Qed.
Lemma t_case : maps_ok dT qT /\
  map (compute_t (A := real) dT qT uT (fun _ _ => 0) 0%nat) [0; 1; 2; 3; 4; 5]%nat = map (fun k => IZR k) [-1; 29; -11; -1; 5; 31]%Z.
Proof.
  split; [exact maps_T|]. unfold compute_t. cbn [dT qN Nat.leb]. unfold t_stage, seg, mvt. cbn. unfold uT; cbn [nth].
  repeat (apply (f_equal2 (@cons R)); [lra|]). reflexivity.
Qed.
Lemma init_case : maps_ok dT qT /\ forall i k, (i <= qN dT)%nat -> (k < nrow dT i)%nat -> (q_rev qT i k < Z.of_nat (qns dT i))%Z.
Proof. split; [exact maps_T|]. intros i k _ _. cbn. destruct (k =? 1)%nat; lia. Qed.
End T.
