(** The DAQP interface: one call and sequences of calls. *)
From Coq Require Import ZArith List Bool Lia Reals Lra Arith.
From Verif Require Import Arith Vec LinModel RSum DenseModel QpoModel DaqpModel DenseSpec DaqpSpec DenseProofs StackProofs QpoProofs QpoTop QpoKkt DaqpProofs DaqpFill DaqpUpd DaqpKkt DaqpHot.
Import ListNotations.
Open Scope R_scope.

Lemma last_cons_eq {T : Type} (l : list T) a b c : last (a :: l) b = last (a :: l) c.
Proof. revert a. induction l as [|x l IH]; intros a; [reflexivity|]. exact (IH x). Qed.
Section T.
Variables (inf tol : R) (potrf : matR -> matR) (trsm : matR -> matR -> matR) (trsv_n trsv_t : matR -> vecR -> vecR) (d : ddims).
Hypothesis Htol : 0 < tol.
Notation able := (daqp_able tol potrf trsm trsv_n trsv_t d).
Notation update := (daqp_update (A := real) inf tol sqrt potrf trsm trsv_n).
Lemma able_big q m0 : able q -> forall j, (j < mrows d)%nat -> tol <= sum (dnv d) (fun r => F potrf trsm d q m0 r j * F potrf trsm d q m0 r j).
Proof.
  intros [Hi Hs Ha Ht Hb] j Hj. apply (Hb j (fun r => F potrf trsm d q m0 r j) Hj). intros r Hr. unfold F. rewrite (tr_m _ _ _ _ _ _ _ Ht) by assumption. apply cols_coef; assumption.
Qed.
(** what a successful call gives *)
Definition solved (q : rdqp) (m : rdmem) : Prop := forall u ws out, ws_ok (mrows d) ws -> (forall j, (drows d <= j < mrows d)%nat -> In j (map fst ws)) ->
  ldp_kkt (dnv d) (mrows d) m u (ws_lam ws) -> inf_free inf d q (ldp_to_qp (A := real) trsv_t m u) -> dkkt d q 1 (daqp_out (A := real) trsv_t d q m u ws out).
Lemma facts_solved q m0 m : able q -> facts inf potrf trsm trsv_n d q m0 m -> solved q m.
Proof.
  intros A Hf u ws out W E K I. destruct A as [Hi Hs Ha Ht Hb] eqn:EA. clear EA. apply (daqp_kkt inf tol potrf trsm trsv_n trsv_t d q m0 m u ws out); try assumption. apply able_big. constructor; assumption.
Qed.
Lemma same_soft q p : same_mats d q p -> dq_H q = dq_H p /\ dq_A q = dq_A p /\ dq_C q = dq_C p /\ dq_idxb q = dq_idxb p /\ forall k, (k < drows d)%nat -> soft q k = soft p k.
Proof. intros (A & B & C & D & E). repeat split; try assumption. intros k Hk. unfold soft, hard. rewrite (E k Hk). reflexivity. Qed.
Theorem one_call check activate warm q m0 : able q -> (0 <= check)%Z -> (0 <= activate)%Z -> warm <> 2%Z \/ m_init m0 = false -> exists m, update check activate warm d q m0 = inr m /\ solved q m.
Proof.
  intros A Hc Ha Hw. destruct (update_facts inf tol potrf trsm trsv_n check activate warm d q m0 (ab_rows _ _ _ _ _ _ _ A) (ab_soft _ _ _ _ _ _ _ A) (able_big q m0 A)) as (m & E & Hf).
  - unfold upd. destruct Hw as [Hw | ->]; [|destruct (negb _); reflexivity]. destruct (Z.eqb_spec warm 2); [contradiction|reflexivity].
  - exact Hc.
  - exact Ha.
  - exists m. split; [exact E|]. apply (facts_solved q m0 m A Hf).
Qed.

Fixpoint calls (l : list call) (m : rdmem) : option rdmem :=
  match l with
  | [] => Some m
  | (c, a, w, q) :: r => match update c a w d q m with inr m' => calls r m' | inl _ => None end
  end.
Lemma calls_from l : forall p m0 m, able p -> facts inf potrf trsm trsv_n d p m0 m -> hot_ok d (Some p) l -> (forall e, In e l -> able (snd e)) ->
  exists m', calls l m = Some m' /\ solved (last (map snd l) p) m'.
Proof.
  induction l as [|[[[c a] w] q] r IH]; intros p m0 m A Hf Ho Hl.
  - exists m. split; [reflexivity|]. apply (facts_solved p m0 m A Hf).
  - destruct Ho as (Hc & Ha & Hw & Hr). assert (Aq : able q) by (apply (Hl (c, a, w, q)); left; reflexivity).
    assert (N : exists m1 mm, update c a w d q m = inr m1 /\ facts inf potrf trsm trsv_n d q mm m1).
    { destruct (Z.eq_dec w 2) as [->|W].
      - destruct (hot_facts inf tol potrf trsm trsv_n c a d p q m0 m (same_soft q p (Hw eq_refl)) (ab_rows _ _ _ _ _ _ _ Aq) (ab_soft _ _ _ _ _ _ _ Aq) Hc Ha Hf) as (m1 & E & F1). exists m1, m0. auto.
      - destruct (update_facts inf tol potrf trsm trsv_n c a w d q m (ab_rows _ _ _ _ _ _ _ Aq) (ab_soft _ _ _ _ _ _ _ Aq) (able_big q m Aq)) as (m1 & E & F1); [unfold upd; destruct (Z.eqb_spec w 2); [contradiction|reflexivity]|exact Hc|exact Ha|]. exists m1, m. auto. }
    destruct N as (m1 & mm & E & F1). destruct (IH q mm m1 Aq F1 Hr) as (m' & E' & S'); [intros e He; apply Hl; right; exact He|]. exists m'. cbn [calls map snd]. rewrite E. split; [exact E'|].
    destruct r as [|e r]; [exact S'|]. cbn [map] in *. rewrite (last_cons_eq _ _ q p) in S'. exact S'.
Qed.
Theorem call_sequence c a w q l m0 : hot_ok d None ((c, a, w, q) :: l) -> (forall e, In e ((c, a, w, q) :: l) -> able (snd e)) -> m_init m0 = false ->
  exists m, calls ((c, a, w, q) :: l) m0 = Some m /\ solved (last (map snd l) q) m.
Proof.
  intros (Hc & Ha & _ & Hr) Hl Hi. assert (Aq : able q) by (apply (Hl (c, a, w, q)); left; reflexivity).
  destruct (update_facts inf tol potrf trsm trsv_n c a w d q m0 (ab_rows _ _ _ _ _ _ _ Aq) (ab_soft _ _ _ _ _ _ _ Aq) (able_big q m0 Aq)) as (m1 & E & F1); [unfold upd; rewrite Hi; destruct (negb _); reflexivity|exact Hc|exact Ha|].
  destruct (calls_from l q m0 m1 Aq F1 Hr) as (m & E' & S'); [intros e He; apply Hl; right; exact He|]. exists m. cbn [calls]. rewrite E. auto.
Qed.
End T.

(** * status *)
Lemma status_zero e : daqp_status e = 0%Z <-> e = D_OPTIMAL \/ e = D_SOFT_OPTIMAL.
Proof. destruct e; cbn; split; intros H; auto; try discriminate; destruct H; discriminate. Qed.
Lemma run_status {A : arith} inf tol sq p t1 t2 t3 c a w ldp d (q : dqp A) m out st s m' : daqp_run inf tol sq p t1 t2 t3 c a w ldp d q m out = (st, s, Some m') ->
  daqp_update inf tol sq p t1 t2 c a w d q m = inr m' /\ st = daqp_status (fst (fst (ldp m'))) /\ s = daqp_out t3 d q m' (snd (fst (ldp m'))) (snd (ldp m')) out.
Proof. unfold daqp_run. destruct (daqp_update _ _ _ _ _ _ _ _ _ _ _ _) as [z|m1]; [discriminate|]. destruct (ldp m1) as [[e u] ws] eqn:E. intros H. injection H as <- <- <-. rewrite E. auto. Qed.
Lemma run_early {A : arith} inf tol sq p t1 t2 t3 c a w ldp d (q : dqp A) m out st s : daqp_run inf tol sq p t1 t2 t3 c a w ldp d q m out = (st, s, None) -> s = out /\ daqp_update inf tol sq p t1 t2 c a w d q m = inl st.
Proof. unfold daqp_run. destruct (daqp_update _ _ _ _ _ _ _ _ _ _ _ _) as [z|m1]; [intros H; injection H as <- <-; auto|]. destruct (ldp m1) as [[e u] ws]. discriminate. Qed.
Lemma update_neg {A : arith} inf tol sq p t1 t2 c a w d (q : dqp A) m z : daqp_update inf tol sq p t1 t2 c a w d q m = inl z -> (z < 0)%Z.
Proof.
  unfold daqp_update. cbv zeta. destruct (Z.ltb_spec c 0) as [L|L]; [intros H; injection H as <-; exact L|]. match goal with |- context [match ?x with Some _ => _ | None => _ end] => destruct x as [[[sn sc] F]|] end; [|intros H; injection H as <-; lia].
  match goal with |- context [loop ?n ?f ?s] => destruct (loop n f s) as [[[x1 x2] x3] x4] end. destruct (_ && _)%bool eqn:E; [|discriminate]. intros H. injection H as <-. apply andb_true_iff in E. destruct E as [_ E]. apply Z.ltb_lt in E. exact E.
Qed.
