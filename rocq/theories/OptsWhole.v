From Coq Require Import ZArith List Bool Reals Lia Lra.
From Verif Require Import Arr Arith OptsModel OptsSpec OptsProofs OptsTop.
Import ListNotations.
Open Scope Z_scope.

Section S.
Variable N : nat.
Variable K : nat -> kinds.
(** the two histories ask for the same *)
Definition same (h1 h2 : list call) (i : nat) : Prop :=
  last_set (says_dyn N i) 0 h1 = last_set (says_dyn N i) 0 h2 /\ last_set (says_cost i) 0 h1 = last_set (says_cost i) 0 h2 /\
  last_set (says_constr i) 0 h1 = last_set (says_constr i) 0 h2 /\ last_set (says_integ i) 0 h1 = last_set (says_integ i) 0 h2 /\ last_set (says_dcost i) 0 h1 = last_set (says_dcost i) 0 h2.
Lemma stage_free (A : arith) (x : contrib A) h1 h2 i f1 f2 (Q1 Q2 : mat A) : (i <= N)%nat -> says N K h1 i f1 -> says N K h2 i f2 -> same h1 h2 i -> in_step N h1 i -> in_step N h2 i ->
  cost_ok K i f1 -> cost_ok K i f2 -> integ_ok N K h1 -> (i = N -> d_hess f1 = 0) -> stage_hess N K A x i f1 Q1 = stage_hess N K A x i f2 Q2.
Proof.
  intros Hi [A1 A2 A3 A4 A5 A6] [B1 B2 B3 B4 B5 B6] (M1 & M2 & M3 & M4 & M5) I1 I2 O1 O2 Io Hn. unfold in_step in I1, I2. rewrite <- A2, <- A4 in I1. rewrite <- B2, <- B4 in I2. specialize (Io i Hi). rewrite <- A3, <- A5 in Io.
  rewrite <- A4, <- B4 in M1. rewrite <- A6, <- B6 in M3. rewrite <- A3, <- B3 in M4. rewrite <- A5, <- B5 in M5. rewrite M2, <- B1 in A1. clear M2 B1 A2 B2 A3 B3 A4 B4 A5 B5 A6 B6.
  destruct f1 as [gn1 cp1 ad1 it1 dh1 dc1 kh1], f2 as [gn2 cp2 ad2 it2 dh2 dc2 kh2]. cbn [c_gn c_comp c_add c_integ d_hess d_cost k_hess] in *. subst gn2 dh2 kh2 it2 dc2.
  unfold stage_hess. unfold cost_ok in O1, O2. cbn [c_comp] in O1, O2.
  assert (HC : cost_update K A x i (mkF gn1 cp1 ad1 it1 dh1 dc1 kh1) (if (i <? N)%nat then dyn_update K A x i (mkF gn1 cp1 ad1 it1 dh1 dc1 kh1) Q1 else Q1) =
               cost_update K A x i (mkF gn1 cp2 ad2 it1 dh1 dc1 kh1) (if (i <? N)%nat then dyn_update K A x i (mkF gn1 cp2 ad2 it1 dh1 dc1 kh1) Q2 else Q2)).
  { assert (D : forall P : mat A, combine A ad1 (if (i <? N)%nat then dyn_write A x i (mkF gn1 cp1 ad1 it1 dh1 dc1 kh1) Q1 else Q1) P =
                  combine A ad2 (if (i <? N)%nat then dyn_write A x i (mkF gn1 cp2 ad2 it1 dh1 dc1 kh1) Q2 else Q2) P).
    { intros P. unfold combine, dyn_write. cbn [d_hess]. destruct (Z.eqb_spec dh1 0) as [E|E].
      - rewrite (proj1 I1 E), (proj1 I2 E). reflexivity.
      - destruct (Z.eqb_spec ad1 0) as [E1|E1]; [tauto|]. destruct (Z.eqb_spec ad2 0) as [E2|E2]; [tauto|].
        destruct (Nat.ltb_spec i N) as [L|L]; [reflexivity|]. exfalso. apply E, Hn. lia. }
    assert (T : match ck (K i) with NLS | CONL => it1 | _ => 0 end = 0 -> forall cp ad Q, (if (i <? N)%nat then dyn_update K A x i (mkF gn1 cp ad it1 dh1 dc1 kh1) Q else Q) = (if (i <? N)%nat then dyn_write A x i (mkF gn1 cp ad it1 dh1 dc1 kh1) Q else Q)).
    { intros E cp ad Q. destruct (Nat.ltb_spec i N) as [L|L]; [|reflexivity]. unfold dyn_update. destruct (dk (K i)) eqn:Ed; [|reflexivity]. cbn [d_cost].
      destruct (0 <? dc1) eqn:E0; [|reflexivity]. exfalso. apply Z.ltb_lt in E0. apply (proj2 Io); auto. }
    assert (R : match ck (K i) with NLS | CONL => it1 | _ => 0 end <> 0 -> (if (i <? N)%nat then dyn_update K A x i (mkF gn1 cp1 ad1 it1 dh1 dc1 kh1) Q1 else Q1) = (if (i <? N)%nat then dyn_update K A x i (mkF gn1 cp2 ad2 it1 dh1 dc1 kh1) Q2 else Q2)).
    { intros E. destruct (proj1 Io E) as (L & Ed & E0). specialize (D (kI x i)). apply Nat.ltb_lt in L. rewrite L in *. unfold dyn_update. rewrite Ed. cbn [d_cost c_add]. apply Z.ltb_lt in E0. rewrite E0. exact D. }
    unfold cost_update. cbn [c_gn c_comp c_add c_integ].
    destruct (ck (K i)) eqn:Ek.
    - destruct (Z.eqb_spec cp1 0) as [E|_]; [contradiction|]. destruct (Z.eqb_spec cp2 0) as [E|_]; [contradiction|]. rewrite !T by reflexivity. rewrite D. reflexivity.
    - destruct (Z.eqb_spec it1 0) as [E|E]; [|rewrite R by exact E; reflexivity]. rewrite !T by exact E. rewrite D. reflexivity.
    - destruct (Z.eqb_spec it1 0) as [E|E]; [|rewrite R by exact E; reflexivity]. rewrite !T by exact E. rewrite D. reflexivity.
    - rewrite !T by reflexivity. rewrite D. reflexivity. }
  rewrite HC. reflexivity.
Qed.
Theorem history_free (A : arith) (es1 es2 : list (event A)) q1 q2 x s1 s2 t1 t2 : unfixed (calls es1) -> unfixed (calls es2) ->
  (forall i v, In (At i CostComp v) (calls es1 ++ calls es2) -> v <> 0) ->
  run N K A es1 (start A q1) = Done s1 -> run N K A es2 (start A q2) = Done s2 -> iterate N K A x s1 = Done t1 -> iterate N K A x s2 = Done t2 ->
  integ_ok N K (calls es1) ->
  forall i, (i <= N)%nat -> same (calls es1) (calls es2) i -> in_step N (calls es1) i -> in_step N (calls es2) i -> forall r c, rsq t1 i r c = rsq t2 i r c.
Proof.
  intros U1 U2 Cm H1 H2 I1 I2 Io i Hi Sm S1 S2 r c. pose proof (run_known _ _ _ _ _ _ H1) as Kn.
  apply run_inv with (h := []) in H1; [|apply start_inv|exact U1]. apply run_inv with (h := []) in H2; [|apply start_inv|exact U2]. cbn [app] in H1, H2.
  destruct H1 as (G1 & F1 & C1). destruct H2 as (G2 & F2 & C2). unfold iterate in I1, I2. elim_e I1. rename x0 into p1. elim_e I2. rename x0 into p2. injection I1 as <-. injection I2 as <-. cbn [rsq].
  rewrite F1, F2. change (1 =? 0) with false. cbv iota.
  assert (P : p1 i = p2 i).
  { destruct (approximate_pt _ _ _ _ _ _ _ E) as [P1 _]. destruct (approximate_pt _ _ _ _ _ _ _ E0) as [P2 _]. specialize (P1 i Hi). specialize (P2 i Hi).
    rewrite (stage_free A x (calls es1) (calls es2) i _ (fl (op s2) i) _ (rsq s2 i)) in P1; [rewrite P1 in P2; injection P2 as P2; exact P2|exact Hi|apply G1; exact Hi|apply G2; exact Hi|exact Sm|exact S1|exact S2| | |exact Io|].
    - unfold cost_ok. destruct (ck (K i)); auto. rewrite C1 by assumption. apply comp_on. intros j v Hj. apply (Cm j v), in_or_app. left. exact Hj.
    - unfold cost_ok. destruct (ck (K i)); auto. rewrite C2 by assumption. apply comp_on. intros j v Hj. apply (Cm j v), in_or_app. right. exact Hj.
    - intros ->. destruct (proj1 G1 N (le_n N)) as [_ _ _ S4 _ _]. rewrite S4. apply (dyn_last N K), Kn. }
  unfold lm. rewrite P. reflexivity.
Qed.

Lemma opts_after h o : set_all N K h created = Done o -> forall i, (i <= N)%nat ->
  d_hess (fl o i) = last_set (says_dyn N i) 0 h /\ k_hess (fl o i) = last_set (says_constr i) 0 h /\ c_add (fl o i) = last_set (says_add N i) 0 h /\
  (ck (K i) = NLS -> (c_gn (fl o i) = 0 <-> last_set (says_cost i) 0 h <> 0)).
Proof.
  intros H i Hi. destruct (set_all_are N K h [] created o (opts_created N K) H) as [A _]. destruct (A i Hi) as [B1 B2 B3 B4 B5 B6]. cbn [app] in *.
  split; [exact B4|]. split; [exact B6|]. split; [exact B2|]. intros E. rewrite E in B1. rewrite B1. destruct (Z.eqb_spec (last_set (says_cost i) 0 h) 0); split; intros; congruence.
Qed.

(** ** the calls of the generated code, acados_solver.in.c:2490-2500, however often repeated, with other options in between *)
Definition block (dyn cost constr : Z) : list call := [Exact 1; ExactDyn dyn; ExactCost cost; ExactConstr constr].
Lemma last_app f d h1 h2 : last_set f d (h1 ++ h2) = last_set f (last_set f d h1) h2.
Proof.
  induction h2 as [|c h2 IH] using rev_ind; [rewrite app_nil_r; reflexivity|]. rewrite app_assoc, !last_snoc, IH. reflexivity.
Qed.
Lemma orderly_app h1 h2 : orderly h1 -> (forall a v b, h2 = a ++ ExactDyn v :: b -> v <> 0 -> last_set (fun c => match c with Exact v | ExactDyn v => Some v | _ => None end) 0 (h1 ++ a) <> 0) -> orderly (h1 ++ h2).
Proof.
  intros O H a v b E V.
  assert (Ca : (exists l, a = h1 ++ l /\ h2 = l ++ ExactDyn v :: b) \/ exists l, h1 = a ++ ExactDyn v :: l).
  { revert a E. clear. induction h1 as [|c h1 IH]; intros a E; cbn in *; [left; exists a; auto|]. destruct a as [|d a]; cbn in E; injection E as E1 E2.
    - right. exists h1. subst. reflexivity.
    - destruct (IH a E2) as [(l & -> & ->)|(l & ->)]; [left; exists l; subst; auto|right; exists l; subst; reflexivity]. }
  destruct Ca as [(l & -> & E2)|(l & E2)]; [apply (H l v b E2 V)|apply (O a v l E2 V)].
Qed.
Lemma block_orderly h d c k : orderly h -> orderly (h ++ block d c k).
Proof.
  intros O. apply orderly_app; [exact O|]. intros a v b E V. unfold block in E.
  destruct a as [|a0 a]; [discriminate E|]. injection E as <- E. destruct a as [|a1 a]; [rewrite last_snoc; discriminate|].
  exfalso. injection E as <- E. destruct a as [|a2 a]; [discriminate E|]. injection E as <- E. destruct a as [|a3 a]; [discriminate E|]. injection E as <- E. destruct a; discriminate E.
Qed.
Lemma other_orderly h c : orderly h -> (forall v, c <> ExactDyn v \/ v = 0) -> orderly (h ++ [c]).
Proof.
  intros O H. apply orderly_app; [exact O|]. intros a v b E V. exfalso. destruct a as [|a0 a]; cbn in E.
  - injection E as E _. destruct (H v); [apply H0; exact E|contradiction].
  - injection E as _ E. destruct a; discriminate E.
Qed.
End S.
