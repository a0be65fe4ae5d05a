(** Facts about the iterate updates. *)
From Coq Require Import ZArith List Bool Lia Reals Lra.
From Verif Require Import Arith Vec LinModel LinProofs RSum Poly StepModel.
Import ListNotations.

Lemma field_eqb_spec a b : reflect (a = b) (field_eqb a b).
Proof. destruct a, b; constructor; congruence. Qed.
Lemma field_eqb_refl a : field_eqb a a = true. Proof. destruct a; reflexivity. Qed.

Section Gen.
Variable A : arith.
Notation T := (num A).
Notation vec := (nat -> T).
Notation hp := (heap A).
Definition hit (ob : nat) (f : field) (st zi n : nat) (ob' : nat) (f' : field) (st' j : nat) : bool :=
  ((ob' =? ob)%nat && field_eqb f' f && (st' =? st)%nat && (zi <=? j)%nat && (j <? zi + n)%nat)%bool.
Lemma hit_spec ob f st zi n ob' f' st' j : hit ob f st zi n ob' f' st' j = true <-> ob' = ob /\ f' = f /\ st' = st /\ (zi <= j < zi + n)%nat.
Proof.
  unfold hit. rewrite !andb_true_iff, !Nat.eqb_eq, Nat.leb_le, Nat.ltb_lt. destruct (field_eqb_spec f' f); intuition; try discriminate; contradiction.
Qed.
(** g only reads entries the loop has not written yet *)
Definition untouched (n ob : nat) (f : field) (st zi : nat) (g : hp -> nat -> T) (h : hp) : Prop :=
  forall k h', (k < n)%nat -> (forall ob' f' st' j, hit ob f st zi k ob' f' st' j = false -> h' ob' f' st' j = h ob' f' st' j) -> g h' k = g h k.
Lemma emap_val n ob f st zi g h : untouched n ob f st zi g h -> forall ob' f' st' j,
  emap n ob f st zi g h ob' f' st' j = if hit ob f st zi n ob' f' st' j then g h (j - zi)%nat else h ob' f' st' j.
Proof.
  intros U. unfold emap. assert (G : forall m, (m <= n)%nat -> forall ob' f' st' j, loop m (fun k h => hset h ob f st (zi + k) (g h k)) h ob' f' st' j = if hit ob f st zi m ob' f' st' j then g h (j - zi)%nat else h ob' f' st' j).
  { induction m as [|m IH]; intros Hm ob' f' st' j; cbn [loop].
    - unfold hit. rewrite Nat.add_0_r. destruct (zi <=? j)%nat eqn:E1, (j <? zi)%nat eqn:E2; rewrite ?andb_false_r; try reflexivity. apply Nat.leb_le in E1. apply Nat.ltb_lt in E2. lia.
    - specialize (IH ltac:(lia)). unfold hset. destruct ((ob' =? ob)%nat && field_eqb f' f && (st' =? st)%nat)%bool eqn:E.
      + unfold vset. destruct (Nat.eqb_spec j (zi + m)) as [->|N].
        * replace (hit ob f st zi (S m) ob' f' st' (zi + m)) with true. 2:{ symmetry. unfold hit. rewrite E. destruct (Nat.leb_spec zi (zi + m)); [|lia]. destruct (Nat.ltb_spec (zi + m) (zi + S m)); [reflexivity|lia]. }
          replace (zi + m - zi)%nat with m by lia. apply U; [lia|]. intros. rewrite IH. match goal with H : hit _ _ _ _ m _ _ _ _ = false |- _ => rewrite H end. reflexivity.
        * rewrite IH. unfold hit. rewrite E. cbn [andb]. destruct (Nat.ltb_spec j (zi + m)), (Nat.ltb_spec j (zi + S m)); try reflexivity; lia.
      + rewrite IH. unfold hit. rewrite E. reflexivity. }
  apply G. lia.
Qed.
Lemma hit_no ob f st zi n ob' f' st' j : ob' <> ob \/ f' <> f \/ st' <> st \/ ~ (zi <= j < zi + n)%nat -> hit ob f st zi n ob' f' st' j = false.
Proof. intros H. destruct (hit ob f st zi n ob' f' st' j) eqn:E; [|reflexivity]. apply hit_spec in E. exfalso. intuition. Qed.

Section Upd.
Variable d : sdims.
Variable zd : zdata A.
Variables src qp dst : nat.
Hypothesis Nq : dst <> qp.
Variable alpha : T.
Local Open Scope num_scope.
(** the promised contents of the destination *)
Definition target (full : bool) (h : hp) (f : field) (i k : nat) : T :=
  match f with
  | Fux => if (k <? snv d i)%nat then h src Fux i k + alpha * h qp Fux i k else h dst Fux i k
  | Flam => if (k <? 2 * sni d i)%nat then (if full then h qp Flam i k else (1 - alpha) * h src Flam i k + alpha * h qp Flam i k) else h dst Flam i k
  | Fpi => if ((i <? sN d)%nat && (k <? snx d (S i))%nat)%bool then (if full then h qp Fpi i k else (1 - alpha) * h src Fpi i k + alpha * h qp Fpi i k) else h dst Fpi i k
  | Fz => if ((i <? sN d)%nat && (k <? snz d i)%nat)%bool then vsum (snu d i + snx d i) (fun r => dzduxt zd i r k * h qp Fux i r) * alpha + z_alg zd i k else h dst Fz i k
  end.
Ltac hitcase := match goal with |- context [hit ?a ?b ?c ?z ?n ?a' ?b' ?c' ?j] => let E := fresh "E" in destruct (hit a b c z n a' b' c' j) eqn:E; [apply hit_spec in E; destruct E as (? & ? & ? & ?); subst|] end.
Lemma hit_self ob f st n k : hit ob f st 0 n ob f st k = (k <? n)%nat.
Proof. unfold hit. rewrite !Nat.eqb_refl, field_eqb_refl. reflexivity. Qed.
Lemma hit_other ob f st zi n ob' f' st' j : ob' <> ob \/ f' <> f \/ st' <> st -> hit ob f st zi n ob' f' st' j = false.
Proof. intros. apply hit_no. tauto. Qed.
Lemma vsum_ext n (f g : nat -> T) : (forall k, (k < n)%nat -> f k = g k) -> vsum n f = vsum n g.
Proof. unfold vsum. induction n as [|n IH]; intros H; cbn; [reflexivity|]. rewrite IH by (intros; apply H; lia). rewrite H by lia. reflexivity. Qed.

Definition stage_body (full : bool) (i : nat) (h : hp) : hp :=
  let h := emap (snv d i) dst Fux i 0 (fun h k => h src Fux i k + alpha * h qp Fux i k) h in z_update d zd qp dst alpha i (dual_update d src qp dst alpha full i h).
Lemma z_update_val i h f st ob k : z_update d zd qp dst alpha i h ob f st k =
  if hit dst Fz i 0 (if (i <? sN d)%nat then snz d i else 0) ob f st k then vsum (snu d i + snx d i) (fun r => dzduxt zd i r k * h qp Fux i r) * alpha + z_alg zd i k else h ob f st k.
Proof.
  unfold z_update. destruct (i <? sN d)%nat.
  - rewrite emap_val.
    + rewrite Nat.sub_0_r. reflexivity.
    + intros k' h' Hk Hh. f_equal. f_equal. apply vsum_ext. intros r _. rewrite Hh; [reflexivity|]. apply hit_other. auto.
  - destruct (hit dst Fz i 0 0 ob f st k) eqn:E; [apply hit_spec in E; lia|reflexivity].
Qed.
Lemma emap_pt n f i (g : hp -> nat -> T) h ob f' st k : (forall k', (k' < n)%nat -> forall h', (forall ob' f'' st' j, hit dst f i 0 k' ob' f'' st' j = false -> h' ob' f'' st' j = h ob' f'' st' j) -> g h' k' = g h k') ->
  emap n dst f i 0 g h ob f' st k = if hit dst f i 0 n ob f' st k then g h k else h ob f' st k.
Proof. intros U. rewrite emap_val; [rewrite Nat.sub_0_r; reflexivity|]. intros k' h' Hk Hh. apply U; assumption. Qed.
Lemma self_unhit f i k' : hit dst f i 0 k' dst f i k' = false.
Proof. rewrite hit_self. apply Nat.ltb_irrefl. Qed.
Lemma src_unhit f i k' : hit dst f i 0 k' src f i k' = false.
Proof. destruct (Nat.eq_dec src dst) as [->|N]; [apply self_unhit|apply hit_other; auto]. Qed.
Lemma qp_unhit f i n f' st k : hit dst f i 0 n qp f' st k = false.
Proof. apply hit_other. left. intros E. apply Nq. symmetry. exact E. Qed.
Lemma dual_update_val full i h ob f st k : dual_update d src qp dst alpha full i h ob f st k =
  if hit dst Flam i 0 (2 * sni d i) ob f st k then (if full then h qp Flam i k else (1 - alpha) * h src Flam i k + alpha * h qp Flam i k)
  else if hit dst Fpi i 0 (if (i <? sN d)%nat then snx d (S i) else 0) ob f st k then (if full then h qp Fpi i k else (1 - alpha) * h src Fpi i k + alpha * h qp Fpi i k)
  else h ob f st k.
Proof.
  unfold dual_update. destruct full, (i <? sN d)%nat; cbv zeta.
  - rewrite emap_pt by (intros; match goal with H : forall _ _ _ _, _ -> _ |- _ => apply H; apply qp_unhit end). hitcase.
    + rewrite emap_pt by (intros; match goal with H : forall _ _ _ _, _ -> _ |- _ => apply H; apply qp_unhit end). rewrite !hit_other by (right; left; discriminate). reflexivity.
    + rewrite emap_pt by (intros; match goal with H : forall _ _ _ _, _ -> _ |- _ => apply H; apply qp_unhit end). reflexivity.
  - rewrite emap_pt by (intros; match goal with H : forall _ _ _ _, _ -> _ |- _ => apply H; apply qp_unhit end). hitcase; [reflexivity|]. destruct (hit dst Fpi i 0 0 ob f st k) eqn:E2; [apply hit_spec in E2; lia|reflexivity].
  - rewrite emap_pt.
    2:{ intros k' Hk h' Hh. rewrite (Hh src), (Hh qp) by (apply src_unhit || apply qp_unhit). reflexivity. }
    assert (E1 : forall ob f st k, emap (2 * sni d i) dst Flam i 0 (fun h k => (1 - alpha) * h src Flam i k + alpha * h qp Flam i k) h ob f st k = if hit dst Flam i 0 (2 * sni d i) ob f st k then (1 - alpha) * h src Flam i k + alpha * h qp Flam i k else h ob f st k).
    { intros. apply emap_pt. intros k' Hk h' Hh. rewrite (Hh src), (Hh qp) by (apply src_unhit || apply qp_unhit). reflexivity. }
    rewrite !E1. rewrite !(hit_other dst Flam i 0 (2 * sni d i) _ Fpi) by (right; left; discriminate). hitcase; [|reflexivity].
    rewrite hit_other by (right; left; discriminate). reflexivity.
  - rewrite emap_pt.
    2:{ intros k' Hk h' Hh. rewrite (Hh src), (Hh qp) by (apply src_unhit || apply qp_unhit). reflexivity. }
    hitcase; [reflexivity|]. destruct (hit dst Fpi i 0 0 ob f st k) eqn:E2; [apply hit_spec in E2; lia|reflexivity].
Qed.
Lemma stage_val full i h ob f st k : stage_body full i h ob f st k = if ((ob =? dst)%nat && (st =? i)%nat)%bool then target full h f i k else h ob f st k.
Proof.
  unfold stage_body. cbv zeta. set (h1 := emap (snv d i) dst Fux i 0 (fun h k => h src Fux i k + alpha * h qp Fux i k) h).
  assert (E1 : forall ob f st k, h1 ob f st k = if hit dst Fux i 0 (snv d i) ob f st k then h src Fux i k + alpha * h qp Fux i k else h ob f st k).
  { intros. apply emap_pt. intros k' Hk h' Hh. rewrite (Hh src), (Hh qp) by (apply src_unhit || apply qp_unhit). reflexivity. }
  rewrite z_update_val, dual_update_val.
  assert (Q : forall f st k, h1 qp f st k = h qp f st k) by (intros; rewrite E1, qp_unhit; reflexivity).
  assert (QD : forall f st k, dual_update d src qp dst alpha full i h1 qp f st k = h qp f st k) by (intros; rewrite dual_update_val, !qp_unhit; apply Q).
  rewrite (vsum_ext _ (fun r => dzduxt zd i r k * dual_update d src qp dst alpha full i h1 qp Fux i r) (fun r => dzduxt zd i r k * h qp Fux i r)) by (intros; rewrite QD; reflexivity).
  rewrite !Q. rewrite !E1. rewrite !(hit_other dst Fux i 0 (snv d i) src Flam), !(hit_other dst Fux i 0 (snv d i) src Fpi) by (right; left; discriminate).
  destruct (Nat.eqb_spec ob dst) as [->|No]; cbn [andb].
  - destruct (Nat.eqb_spec st i) as [->|Ns].
    + destruct f; unfold target; rewrite ?hit_self; rewrite !hit_other by (right; left; discriminate); rewrite ?hit_self; try reflexivity.
      * destruct (i <? sN d)%nat; reflexivity.
      * destruct (i <? sN d)%nat; reflexivity.
    + rewrite !hit_other by auto. reflexivity.
  - rewrite !hit_other by auto. reflexivity.
Qed.
(** every location after the update *)
Lemma update_val full h ob f i k : update_variables_sqp d zd src qp dst alpha full h ob f i k = if ((ob =? dst)%nat && (i <=? sN d)%nat)%bool then target full h f i k else h ob f i k.
Proof.
  unfold update_variables_sqp. fold (stage_body full).
  assert (G : forall m ob f i k, loop m (stage_body full) h ob f i k = if ((ob =? dst)%nat && (i <? m)%nat)%bool then target full h f i k else h ob f i k).
  { induction m as [|m IH]; intros ob' f' i' k'; cbn [loop]; [rewrite andb_false_r; reflexivity|]. rewrite stage_val.
    destruct (Nat.eqb_spec ob' dst) as [->|No]; cbn [andb].
    - destruct (Nat.eqb_spec i' m) as [->|Ni].
      + destruct (Nat.ltb_spec m (S m)); [|lia]. set (h1 := loop m (stage_body full) h) in *.
        assert (Rd : forall ob f k, h1 ob f m k = h ob f m k) by (intros; rewrite IH; rewrite Nat.ltb_irrefl, andb_false_r; reflexivity).
        assert (Rq : forall f j k, h1 qp f j k = h qp f j k) by (intros; rewrite IH; destruct (Nat.eqb_spec qp dst) as [E|]; [exfalso; apply Nq; symmetry; exact E|reflexivity]).
        unfold target. destruct f'; rewrite ?Rd; try reflexivity. rewrite (vsum_ext _ (fun r => dzduxt zd m r k' * h1 qp Fux m r) (fun r => dzduxt zd m r k' * h qp Fux m r)) by (intros; rewrite Rq; reflexivity). reflexivity.
      + rewrite IH. rewrite Nat.eqb_refl. cbn [andb]. destruct (Nat.ltb_spec i' m), (Nat.ltb_spec i' (S m)); try reflexivity; lia.
    - rewrite IH. destruct (Nat.eqb_spec ob' dst); [contradiction|reflexivity]. }
  rewrite G. destruct (Nat.ltb_spec i (S (sN d))), (Nat.leb_spec i (sN d)); try reflexivity; lia.
Qed.
End Upd.
End Gen.
