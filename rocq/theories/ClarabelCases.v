(** Concrete QPs for the Clarabel interface. *)
From Coq Require Import ZArith List Bool Lia Reals Lra Arith.
From Verif Require Import Arr Arith QpsModel CscModel CscSpec RSum QpsSpec OsqpModel OsqpSpec CscProofs OsqpProofs OsqpRows OsqpKkt OsqpCases ClarabelModel ClarabelSpec ClarabelProofs ClarabelArena ClarabelTop ClarabelCsc.
Import ListNotations.
Open Scope R_scope.

Definition cm0 : cmem real := mkCM (A := real) false [] [] [] [] [] (fun _ => 0).

(** * The two-stage QP of the OSQP cases *)
Lemma cO_rev : wf_rev dO qO.
Proof. intros k i Hk Hi. exact (proj1 (O_soft k Hk) i Hi). Qed.
Lemma cO_roomy : roomy dO.
Proof. intros k Hk. cbn in Hk. replace k with O by lia. vm_compute. lia. Qed.
Lemma cO_kkt : kkt dO (all_rows qO) sO.
Proof.
  destruct O_kkt as (K1 & K2 & K3 & K4). split; [exact K1|split; [exact K2|split; [exact K3|]]]. intros k m Hk Hm. split; [intros _|cbn; intros C; lra].
  destruct (K4 k m Hk Hm) as [G _]. exact (G (O_unmasked k m Hk Hm)).
Qed.
Lemma cO_structure : exists m, c_calls dO [qO] (true, cm0) = Done (false, m) /\ c_constr dO = 7%nat /\ con_start dO = 1%nat /\
  c_Ap m = [0; 3; 4; 6; 8; 11]%nat /\ c_Ai m = [0; 1; 2; 0; 1; 5; 2; 6; 0; 3; 4]%nat /\
  map (A_nzval dO m) (seq 0 11) = [1; -(1); 1; 1; -(1); -(1); -(1); -(1); -(1); -(1); 1].
Proof. eexists. split; [reflexivity|]. repeat split. Qed.
Lemma cO_solved : exists m, c_calls dO [qO] (true, cm0) = Done (false, m) /\ exists x y, c_mem_kkt dO m x y /\ x 0%nat = 2 /\ x 4%nat = 3 /\ y 4%nat = 2.
Proof.
  destruct (clarabel_onto dO qO [] cm0 ltac:(intros ? []) O_bounds cO_rev cO_roomy) as (m & E & G). exists m. split; [exact E|].
  destruct (G sO cO_kkt) as (x & y & K & F). exists x, y. split; [exact K|]. destruct (F sO) as (F1 & _ & F3).
  split; [exact (F1 0%nat 0%nat ltac:(cbn; lia) ltac:(unfold nv; cbn; lia))|]. split; [exact (F1 1%nat 0%nat ltac:(cbn; lia) ltac:(unfold nv; cbn; lia))|].
  exact (F3 1%nat 1%nat ltac:(cbn; lia) ltac:(unfold nall; cbn; lia)).
Qed.

(** * No inequalities: minimise u^2/4 - 3u + x^2/2 subject to x = u *)
Definition dF : qdims := mkD 1 (fun k => k) (fun k => if (k =? 0)%nat then 1%nat else O) (fun _ => O) (fun _ => O) (fun _ => O).
Definition qF : rqp := mkQp (A := real) (fun k => if (k =? 0)%nat then li [-3] else li [0]) (fun _ _ => 0) (fun k _ _ => if (k =? 0)%nat then / 2 else 1) (fun _ _ _ => 1) (fun _ _ => 0)
  (fun _ _ => 0) (fun _ _ => 1) (fun _ _ _ => 0) (fun _ _ => O) (fun _ _ => (-1)%Z).
Definition sF : rsol := mkSol (A := real) (fun _ => li [2]) (fun _ _ => 2) (fun _ _ => 0).
Lemma F_kkt : kkt dF qF sF.
Proof.
  split; [|split; [|split]].
  - intros k r Hk Hr. unfold nv in Hr. cbn in Hk. destruct k as [|[|k]]; [| |lia]; cbn in Hr; replace r with O by lia; unfold stat, sym, coef, nv, nrow; kk.
  - intros k j up Hk Hj. cbn in Hj. lia.
  - intros k c Hk Hc. cbn in Hk, Hc. replace k with O in * by lia. replace c with O by lia. unfold dyn, nv; kk.
  - intros k m Hk Hm. unfold nall in Hm. cbn in Hm. lia.
Qed.
Lemma F_call : exists m, c_calls dF [qF] (true, cm0) = Done (false, m) /\ P_nzval dF m 0 = - / 2 /\
  forall x y, c_mem_kkt dF m x y <-> x 0%nat = 6 /\ x 1%nat = 6 /\ y 0%nat = 6.
Proof.
  eexists. split; [reflexivity|]. split; [reflexivity|]. intros x y. split.
  - intros [K1 K2 _]. pose proof (K1 0%nat ltac:(cbn; lia)) as A1. pose proof (K1 1%nat ltac:(cbn; lia)) as A2. specialize (K2 0%nat ltac:(cbn; lia)).
    revert A1 A2 K2. unfold entry. cbn -[Rplus Rmult Rminus Ropp Rinv]. unfold P_nzval, A_nzval. cbn -[Rplus Rmult Rminus Ropp Rinv]. unfold li. cbn [nth]. lra.
  - intros (X0 & X1 & Y0). constructor.
    + intros c Hc. cbn in Hc. destruct c as [|[|c]]; [| |lia]; unfold entry; cbn -[Rplus Rmult Rminus Ropp Rinv]; unfold P_nzval, A_nzval; cbn -[Rplus Rmult Rminus Ropp Rinv]; unfold li; cbn [nth]; rewrite ?X0, ?X1, ?Y0; lra.
    + intros r Hr. cbn in Hr. replace r with O by lia. unfold entry; cbn -[Rplus Rmult Rminus Ropp Rinv]; unfold P_nzval, A_nzval; cbn -[Rplus Rmult Rminus Ropp Rinv]. rewrite X0, X1. lra.
    + intros r Hr. cbn in Hr. lia.
Qed.
Lemma F_refuted : exists d q m0 m s, wf_bounds d q /\ wf_rev d q /\ unmasked d q /\ c_calls d [q] (true, m0) = Done (false, m) /\ kkt d q s /\ s_ux s 0%nat 0%nat = 2 /\
  (exists x y, c_mem_kkt d m x y) /\ forall x y out, c_mem_kkt d m x y -> s_ux (c_fill d x y out) 0%nat 0%nat = 6 /\ ~ kkt d q (c_fill d x y out).
Proof.
  destruct F_call as (m & E & _ & G). exists dF, qF, cm0, m, sF. split; [intros k i _ Hi; cbn in Hi; lia|]. split; [intros k i _ Hi; unfold nrow in Hi; cbn in Hi; lia|]. split; [intros k j _ _; cbn; lra|].
  split; [exact E|]. split; [exact F_kkt|]. split; [reflexivity|]. split.
  - exists (fun _ => 6), (fun _ => 6). apply G. repeat split.
  - intros x y out K. apply G in K. destruct K as (X0 & X1 & Y0). split; [exact X0|]. intros (K & _). specialize (K 0%nat 0%nat ltac:(cbn; lia) ltac:(unfold nv; cbn; lia)). revert K.
    unfold stat, sym, coef, nv, nrow. cbn -[Rplus Rmult Rminus Ropp Rinv]. unfold vset. cbn -[Rplus Rmult Rminus Ropp Rinv]. rewrite X0, Y0. unfold li. cbn [nth]. lra.
Qed.

(** * A masked upper bound, as in the OSQP cases *)
Lemma cM_call : exists m, c_calls dM [qM] (true, cm0) = Done (false, m) /\ c_mem_kkt dM m (fun _ => 0) (li [0; 1]) /\ forall x y, c_mem_kkt dM m x y -> x 0%nat <= 0.
Proof.
  eexists. split; [reflexivity|]. split.
  - constructor.
    + intros c Hc. cbn in Hc. replace c with O by lia. unfold entry; cbn -[Rplus Rmult Rminus Ropp Rinv]; unfold P_nzval, A_nzval; cbn -[Rplus Rmult Rminus Ropp Rinv]; unfold li, ey; cbn [nth]. cbn -[Rplus Rmult Rminus Ropp Rinv]. lra.
    + intros r Hr. cbn in Hr. lia.
    + intros r Hr. cbn in Hr. destruct r as [|[|r]]; [| |lia]; unfold entry; cbn -[Rplus Rmult Rminus Ropp Rinv]; unfold P_nzval, A_nzval; cbn -[Rplus Rmult Rminus Ropp Rinv]; unfold li; cbn [nth]; lra.
  - intros x y [_ _ K]. specialize (K 1%nat ltac:(cbn; lia)). revert K. unfold entry; cbn -[Rplus Rmult Rminus Ropp Rinv]; unfold P_nzval, A_nzval; cbn -[Rplus Rmult Rminus Ropp Rinv]; unfold li; cbn [nth]. lra.
Qed.
Lemma cM_refuted : exists d q m0 m s, wf_bounds d q /\ wf_rev d q /\ masks01 d q /\ roomy d /\ c_calls d [q] (true, m0) = Done (false, m) /\ kkt d q s /\ s_ux s 0%nat 0%nat = 1 /\
  (exists x y, c_mem_kkt d m x y) /\ forall x y, c_mem_kkt d m x y -> x 0%nat <= 0.
Proof.
  destruct cM_call as (m & E & K & G). exists dM, qM, cm0, m, sM. split; [exact M_bounds|]. split; [intros k i Hk Hi; exact (proj1 (M_soft k Hk) i Hi)|]. split; [exact M_masks|].
  split; [intros k Hk; cbn in Hk; lia|]. split; [exact E|]. split; [exact M_kkt|]. split; [reflexivity|]. split; [eexists; eexists; exact K|exact G].
Qed.

(** * The index map changes after the first call *)
Lemma cI_call : exists m, c_calls dI [qI 0; qI 1] (true, cm0) = Done (false, m) /\ c_mem_kkt dI m zI (li [0; 1]).
Proof.
  eexists. split; [reflexivity|]. constructor.
  - intros c Hc. cbn in Hc. destruct c as [|[|c]]; [| |lia]; unfold entry; cbn -[Rplus Rmult Rminus Ropp Rinv]; unfold P_nzval, A_nzval, zI; cbn -[Rplus Rmult Rminus Ropp Rinv]; unfold li, ey; cbn [nth]; cbn -[Rplus Rmult Rminus Ropp Rinv]; lra.
  - intros r Hr. cbn in Hr. lia.
  - intros r Hr. cbn in Hr. destruct r as [|[|r]]; [| |lia]; unfold entry; cbn -[Rplus Rmult Rminus Ropp Rinv]; unfold P_nzval, A_nzval, zI; cbn -[Rplus Rmult Rminus Ropp Rinv]; unfold li; cbn [nth]; lra.
Qed.
Lemma cI_refuted : exists d q1 q2 m0 m x y, wf_bounds d q1 /\ wf_bounds d q2 /\ wf_rev d q2 /\ unmasked d q2 /\ roomy d /\ c_calls d [q1; q2] (true, m0) = Done (false, m) /\
  c_mem_kkt d m x y /\ forall out, ~ feasible d q2 (s_ux (c_fill d x y out)).
Proof.
  destruct cI_call as (m & E & K). exists dI, (qI 0), (qI 1), cm0, m, zI, (li [0; 1]). split; [apply I_bounds; lia|]. split; [apply I_bounds; lia|]. split; [intros k i Hk Hi; exact (proj1 (I_soft 1 k Hk) i Hi)|].
  split; [apply I_unmasked|]. split; [intros k Hk; cbn in Hk; lia|]. split; [exact E|]. split; [exact K|].
  intros out [_ G]. specialize (G 0%nat 1%nat ltac:(cbn; lia) ltac:(unfold nall; cbn; lia) ltac:(cbn; lra)). revert G. unfold ineq, lin, slack, coef, nv, nrow, zI. cbn -[Rplus Rmult Rminus Ropp Rinv]. unfold vset, li. cbn -[Rplus Rmult Rminus Ropp Rinv]. lra.
Qed.

(** * A bound and a general constraint on one variable: the row numbers are not sorted *)
Definition dG : qdims := mkD 0 (fun _ => O) (fun _ => 1%nat) (fun _ => 1%nat) (fun _ => 1%nat) (fun _ => O).
Lemma cG_refuted : exists d (q : rqp) m0 m, wf_bounds d q /\ wf_rev d q /\ c_calls d [q] (true, m0) = Done (false, m) /\ c_Ap m = [0; 4]%nat /\ c_Ai m = [0; 2; 1; 3]%nat.
Proof.
  exists dG, qM, cm0. eexists. split; [intros k i Hk Hi; cbn in *; split; [unfold nv; cbn; lia|intros j Hj _; lia]|]. split; [intros k i _ _; left; reflexivity|]. split; [reflexivity|]. split; reflexivity.
Qed.

(** * Two memories behind one set of options *)
Lemma shared_options d (q : rqp) m0 d' (q' : rqp) m1 : c_built m1 = false -> exists f m, clarabel d q true m0 = Done (f, m) /\ clarabel d' q' f m1 = UB.
Proof.
  intros B. eexists. eexists. split; [reflexivity|]. unfold clarabel. cbv zeta. change (c_built (c_update d' q' false m1)) with (c_built m1). rewrite B. reflexivity.
Qed.
