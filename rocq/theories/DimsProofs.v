From Coq Require Import ZArith List Bool Lia.
From Verif Require Import Arr DimsModel DimsSpec.
Import ListNotations.
Open Scope Z_scope.

Lemma cfield_eqb_spec f g : reflect (f = g) (cfield_eqb f g).
Proof. destruct f, g; cbn; constructor; congruence. Qed.
Lemma all_stages_get n f : forall d d', all_stages n f d = Some d' ->
  forall i, if (i <? n)%nat then f i (d i) = Some (d' i) else d' i = d i.
Proof.
  induction n as [|n IH]; intros d d' H i; cbn in H.
  - injection H as <-. reflexivity.
  - destruct (all_stages n f d) as [d1|] eqn:E1; [|discriminate]. cbn in H.
    destruct (f n (d1 n)) as [s|] eqn:E2; [|discriminate]. cbn in H. injection H as <-.
    specialize (IH _ _ E1). unfold put_stage. destruct (Nat.eqb_spec i n).
    + subst. rewrite (proj2 (Nat.ltb_lt _ _)) by lia. specialize (IH n). rewrite Nat.ltb_irrefl in IH. congruence.
    + specialize (IH i). destruct (Nat.ltb_spec i n); destruct (Nat.ltb_spec i (S n)); try lia; auto.
Qed.
Lemma all_stages_ok n f : forall d, (forall i s, (i < n)%nat -> exists s', f i s = Some s') -> exists d', all_stages n f d = Some d'.
Proof.
  induction n as [|n IH]; intros d H; cbn; [eauto|].
  destruct (IH d) as (d1 & E1); [intros; apply H; lia|]. rewrite E1; cbn.
  destruct (H n (d1 n)) as (s & E2); [lia|]. rewrite E2; cbn. eauto.
Qed.
Lemma do_calls_snoc N h c : forall d, do_calls N (h ++ [c]) d = (do d <- do_calls N h d; do_call N c d).
Proof.
  induction h as [|c' h IH]; intro d; cbn.
  - destruct (do_call N c d); reflexivity.
  - destruct (do_call N c' d); cbn; [apply IH|reflexivity].
Qed.

(** what a call does to stage i *)
Definition stage_call (c : call) (i : nat) (s : sdims) : option sdims :=
  match c with
  | OptVars f v => set_opt_var f (v i) s
  | Constr j f v => if (j =? i)%nat then set_constraint_dim i f v s else Some s
  | CostNy j v => Some (if (j =? i)%nat then set_ny v s else s)
  end.
Lemma do_call_stage N c d d' i : (i <= N)%nat -> do_call N c d = Some d' -> stage_call c i (d i) = Some (d' i).
Proof.
  intros Hi H. destruct c as [f v|j f v|j v]; cbn [do_call] in H.
  - pose proof (all_stages_get _ _ _ _ H i) as A. rewrite (proj2 (Nat.ltb_lt _ _)) in A by lia. exact A.
  - destruct (Nat.leb_spec j N); [|discriminate]. destruct (set_constraint_dim j f v (d j)) as [s|] eqn:E; [|discriminate].
    cbn in H. injection H as <-. cbn. unfold put_stage. rewrite (Nat.eqb_sym j i). destruct (Nat.eqb_spec i j); [subst; auto|reflexivity].
  - destruct (Nat.leb_spec j N); [|discriminate]. injection H as <-. cbn. unfold put_stage. rewrite (Nat.eqb_sym j i). destruct (Nat.eqb_spec i j); [subst; auto|reflexivity].
Qed.

(** all that a stage holds after history h *)
Record holds (h : list call) (i : nat) (s : sdims) : Prop := {
  h_nx : nx s = last_opt h oNx i; h_nu : nu s = last_opt h oNu i; h_nz : nz s = last_opt h oNz i; h_ns : ns s = last_opt h oNs i; h_np : np s = last_opt h oNp i;
  h_nv : nv s = nu s + nx s + 2 * ns s; h_ny : ny s = last_ny h i;
  h_con : forall f, f <> cNb -> f <> cNsDerived -> con s f = last_con h f i;
  h_conb : con s cNb = con s cNbu + con s cNbx;
  h_cond : con s cNsDerived = con s cNsbu + con s cNsbx + con s cNsg + con s cNsh;
  h_nb : nb s = con s cNbu + con s cNbx; h_ng : ng s = con s cNg; h_ni_nl : ni_nl s = con s cNh;
  h_ni : ni_current h i = true -> ni s = con s cNbx + con s cNbu + con s cNg + con s cNh + con s cNs;
  h_qp : qp s = mkQ (nx s) (nu s) (con s cNbx) (con s cNbu) (con s cNg + con s cNh) (ns s) (con s cNbxe) (con s cNbue) (con s cNge + con s cNhe);
  h_rqp : rqp s = mkQ (nx s) (nu s) (con s cNbx) (con s cNbu) (con s cNg + con s cNh)
                    (con s cNg + con s cNh + con s cNsbu + (if (i =? 0)%nat then con s cNsbx else con s cNbx)) (con s cNbxe) 0 0;
  h_reg : reg s = mkR (nx s) (nu s) (con s cNbx) (con s cNbu) (con s cNg + con s cNh) }.

Lemma fold_snoc {A B} (f : A -> B -> A) l x a : fold_left f (l ++ [x]) a = f (fold_left f l a) x.
Proof. now rewrite fold_left_app. Qed.
Lemma holds_init i : holds [] i zero_stage.
Proof. constructor; try reflexivity; intros; try reflexivity. cbn. destruct (i =? 0)%nat; reflexivity. Qed.
Lemma holds_step h i s c s' : holds h i s -> stage_call c i s = Some s' -> holds (h ++ [c]) i s'.
Proof.
  intros H E. destruct H as [A1 A2 A3 A4 A5 A6 A7 A8 A9 A10 A11 A12 A13 A14 A15 A16 A17].
  assert (forall f, last_opt (h ++ [c]) f i = given_opt f i (last_opt h f i) c) as LO by (intro; unfold last_opt; now rewrite fold_snoc).
  assert (forall f, last_con (h ++ [c]) f i = given_con f i (last_con h f i) c) as LC by (intro; unfold last_con; now rewrite fold_snoc).
  assert (last_ny (h ++ [c]) i = given_ny i (last_ny h i) c) as LN by (unfold last_ny; now rewrite fold_snoc).
  assert (ni_current (h ++ [c]) i = fresh_ni i (ni_current h i) c) as LI by (unfold ni_current; now rewrite fold_snoc).
  destruct c as [f v|j f v|j v]; cbn [stage_call] in E.
  - destruct f; cbn in E; injection E as <-; constructor; rewrite ?LO, ?LN, ?LI; cbn;
      try assumption; try congruence; try (intro; discriminate);
      try (intros f F1 F2; rewrite LC; unfold cput; destruct f; cbn; auto; fail);
      try (rewrite A15; reflexivity); try (rewrite A16; reflexivity); try (rewrite A17; reflexivity); auto.
  - destruct (Nat.eqb_spec j i) as [->|D]; cbn in E.
    + unfold set_constraint_dim in E. destruct (bgh_dims_set (con s) f v) as [c|] eqn:EB; [|discriminate]. cbn [obind] in E.
      assert (f <> cNb /\ f <> cNsDerived) as [NB ND] by (split; intro; subst; discriminate).
      assert ((forall g, g <> cNb -> g <> cNsDerived -> c g = if cfield_eqb f g then v else con s g) /\ c cNb = c cNbu + c cNbx /\ c cNsDerived = c cNsbu + c cNsbx + c cNsg + c cNsh) as (B1 & B2 & B3).
      { destruct f; cbn in EB; try discriminate; injection EB as <-; unfold cput; repeat split; try (intros g G1 G2; destruct g; cbn; congruence); cbn; lia. }
      assert (forall g, g <> cNb -> g <> cNsDerived -> c g = last_con (h ++ [Constr i f v]) g i) as B4.
      { intros g G1 G2. rewrite LC, B1 by auto. cbn. rewrite Nat.eqb_refl. cbn. destruct (cfield_eqb f g); auto. }
      clear LC A8 EB.
      destruct f; try congruence;
        try (match type of E with (if ?b then _ else _) = _ => destruct b eqn:EX; [discriminate|] end); injection E as <-; constructor; rewrite ?LO, ?LN; try exact B4; cbn;
        try assumption; try congruence; try lia; unfold relaxed_ns, bgh_ni, bgh_ni_nl, bgh_ng_qp, bgh_nge_qp; rewrite ?A15, ?A16, ?A17; cbn; rewrite ?B1 by discriminate; cbn; try reflexivity; intros; lia.
    + injection E as <-. assert (forall f', given_con f' i (last_con h f' i) (Constr j f v) = last_con h f' i) as G.
      { intro; cbn. rewrite (proj2 (Nat.eqb_neq _ _)) by auto. reflexivity. }
      constructor; rewrite ?LO, ?LN, ?LI; cbn; try assumption.
      * intros g G1 G2. rewrite LC, G. auto.
      * rewrite (proj2 (Nat.eqb_neq _ _)) by auto. assumption.
  - injection E as <-. destruct (Nat.eqb_spec j i) as [->|D]; constructor; rewrite ?LO, ?LN, ?LI; cbn; try assumption; rewrite ?Nat.eqb_refl; auto;
      try (rewrite (proj2 (Nat.eqb_neq _ _)) by auto; assumption); intros g G1 G2; rewrite LC; cbn; auto.
Qed.
Lemma holds_run N h : forall d, do_calls N h fresh = Some d -> forall i, (i <= N)%nat -> holds h i (d i).
Proof.
  induction h as [|c h IH] using rev_ind; intros d H i Hi.
  - injection H as <-. apply holds_init.
  - rewrite do_calls_snoc in H. destruct (do_calls N h fresh) as [d1|]; [|discriminate]. cbn in H.
    eapply holds_step; [apply IH; auto|]. eapply do_call_stage; eauto.
Qed.
Lemma accepted_run N h : Forall (accepted N) h -> exists d, do_calls N h fresh = Some d.
Proof.
  intro H. cut (forall d, exists d', do_calls N h d = Some d'); [auto|]. induction H as [|c h A _ IH]; intro d; cbn; [eauto|].
  assert (exists d', do_call N c d = Some d') as (d1 & E).
  { destruct c as [f v|i f v|i v]; cbn in *.
    - apply (all_stages_ok (S N)). intros i s _. destruct f; cbn; eauto.
    - destruct A as (A1 & A2 & A3 & A4). rewrite (proj2 (Nat.leb_le _ _)) by auto.
      assert (exists s, set_constraint_dim i f v (d i) = Some s) as (s & ->).
      { unfold set_constraint_dim. destruct f; try congruence; cbn; eauto.
        destruct (Nat.eqb_spec i 0); cbn; eauto. destruct (Z.eqb_spec v 0); cbn; eauto. destruct A4; auto; contradiction. }
      cbn; eauto.
    - rewrite (proj2 (Nat.leb_le _ _)) by auto. eauto. }
  rewrite E; cbn. apply IH.
Qed.

(** ** sums *)
Lemma acc_fold n f : acc_stages n f = fold_right Z.add 0 (map f (seq 0 n)).
Proof.
  induction n as [|n IH]; [reflexivity|]. rewrite seq_S, map_app, fold_right_app; cbn [acc_stages map fold_right Nat.add].
  rewrite IH. rewrite Z.add_0_r. generalize (map f (seq 0 n)) as l. induction l as [|x l IHl]; cbn; lia.
Qed.
