(** The stage loops keep to the cells of their own stage. *)
From Coq Require Import ZArith List Bool Lia Permutation.
From Verif Require Import FP Par ParProofs OmpModel OmpSpec.
Import ListNotations.
Open Scope nat_scope.

Definition arr_of (l : loc) : arr := fst (fst l).
Definition stage (l : loc) : nat := snd (fst l).

(** kernels *)
Section Kernels.
Context (C U : loc -> option val) (R W K : loc -> Prop).
Notation inside := (within C U R W K).
Definition rd (l : loc) : Prop := C l = None /\ U l = None /\ R l.
Definition wt (l : loc) : Prop := U l = None /\ W l.

Lemma in_and p q : inside p -> inside q -> inside (p ;; q).
Proof. apply within_andR. Qed.
Lemma in_when b p : (b = true -> inside p) -> inside (when b p).
Proof. destruct b; cbn; auto. Qed.
Lemma in_read l k : rd l -> (forall v, inside (k v)) -> inside (Read l k).
Proof. intros (A & B & D) H. cbn. rewrite A, B. auto. Qed.
Lemma in_write l v k : wt l -> inside k -> inside (Write l v k).
Proof. intros (A & B) H. cbn. rewrite A. auto. Qed.
Lemma in_chain_map (f : nat -> prog) c : (forall i, In i c -> inside (f i)) -> inside (chain (map f c)).
Proof.
  induction c as [|x c IH]; cbn; auto. intros H. apply within_andR; [apply H; auto|apply IH; auto].
Qed.
Lemma in_each n f : (forall k, k < n -> inside (f k)) -> inside (each n f).
Proof. intros H. apply in_chain_map. intros i Hi. apply in_seq in Hi. apply H; lia. Qed.
Lemma in_vecse n v y : (forall k, k < n -> wt (at_ y k)) -> inside (vecse n v y).
Proof. intros H. apply in_each. intros k Hk. apply in_write; [auto|exact Logic.I]. Qed.
Lemma in_veccp n x y : (forall k, k < n -> rd (at_ x k)) -> (forall k, k < n -> wt (at_ y k)) -> inside (veccp n x y).
Proof. intros H1 H2. apply in_each. intros k Hk. apply in_read; [auto|]. intros v. apply in_write; [auto|exact Logic.I]. Qed.
Lemma in_vecsc n al x : (forall k, k < n -> rd (at_ x k)) -> (forall k, k < n -> wt (at_ x k)) -> inside (vecsc n al x).
Proof. intros H1 H2. apply in_each. intros k Hk. apply in_read; [auto|]. intros v. apply in_write; [auto|exact Logic.I]. Qed.
Lemma in_axpy n al x y z : (forall k, k < n -> rd (at_ x k)) -> (forall k, k < n -> rd (at_ y k)) -> (forall k, k < n -> wt (at_ z k)) -> inside (axpy n al x y z).
Proof. intros H1 H2 H3. apply in_each. intros k Hk. apply in_read; [auto|]. intros v. apply in_read; [auto|]. intros w. apply in_write; [auto|exact Logic.I]. Qed.
Lemma in_vecad n al x y : (forall k, k < n -> rd (at_ x k)) -> (forall k, k < n -> rd (at_ y k)) -> (forall k, k < n -> wt (at_ y k)) -> inside (vecad n al x y).
Proof. apply in_axpy. Qed.
Lemma in_axpby n al x be y z : (forall k, k < n -> rd (at_ x k)) -> (forall k, k < n -> rd (at_ y k)) -> (forall k, k < n -> wt (at_ z k)) -> inside (axpby n al x be y z).
Proof. intros H1 H2 H3. apply in_each. intros k Hk. apply in_read; [auto|]. intros v. apply in_read; [auto|]. intros w. apply in_write; [auto|exact Logic.I]. Qed.
Lemma in_dot n x y c : (forall k, rd (at_ x k)) -> (forall k, rd (at_ y k)) -> (forall d, inside (c d)) -> inside (dot n x y c).
Proof.
  intros H1 H2 H3. unfold dot. generalize f0, 0. induction n as [|n IH]; intros a k; cbn [dot_from]; [apply H3|].
  apply in_read; [auto|]. intros v. apply in_read; [auto|]. intros w. apply IH.
Qed.
Lemma in_writes ls : forall vs, Forall wt ls -> inside (writes ls vs).
Proof. induction ls as [|l ls IH]; intros [|v vs] H; cbn [writes]; try exact Logic.I. inversion H; subst. apply in_write; auto. Qed.
Lemma in_kern f ins outs : Forall rd ins -> Forall wt outs -> inside (kern f ins outs).
Proof.
  intros H1 H2. unfold kern. generalize (@nil val). induction H1 as [|l ls Hl H IH]; intros acc; cbn [reads].
  - apply in_writes, H2.
  - apply in_read; [exact Hl|]. intros v. apply IH.
Qed.
Lemma in_cells (P : loc -> Prop) n x : (forall k, k < n -> P (at_ x k)) -> Forall P (cells n x).
Proof. intros H. apply Forall_forall. intros l Hl. apply in_map_iff in Hl. destruct Hl as (k & <- & Hk). apply in_seq in Hk. apply H; lia. Qed.
End Kernels.

(** ** One loop *)
Section Stagewise.
Context (C : loc -> option val) (U : loc -> option val) (w : arr -> bool).
Context (CU : forall l, C l <> None -> U l = None).
Context (Cw : forall l, w (arr_of l) = true -> C l = None /\ U l = None).
(** iteration i reads what the loop does not write and the cells of stage i; it writes cells of stage i *)
Definition sR (i : nat) (l : loc) : Prop := stage l = i \/ w (arr_of l) = false.
Definition sW (i : nat) (l : loc) : Prop := stage l = i /\ w (arr_of l) = true.
Lemma sclean i : clean C U (sR i) (sW i).
Proof. intros l [_ H]. apply Cw, H. Qed.
Lemma sapart n i j : i < n -> j < n -> i <> j -> forall l, sW i l -> ~ sW j l /\ ~ sR j l.
Proof. intros _ _ Ne l [H1 H2]. split; [intros [H3 _]; congruence|]. intros [H3|H3]; congruence. Qed.
End Stagewise.

Definition good (pre post : store -> Prop) (f : phase) : Prop :=
  forall s, pre s -> exists t, run loc_dec (seq1 f) s = Some t /\ post t /\ (forall s', exec1 loc_dec f s s' -> same s' t) /\ can_end f s.
Definition closed (pre : store -> Prop) : Prop := forall s t, same s t -> pre s -> pre t.

Lemma good_par C U w n body (pre post : store -> Prop) :
  (forall l, C l <> None -> U l = None) -> (forall l, w (arr_of l) = true -> C l = None /\ U l = None) ->
  (forall i, i < n -> within C U (sR w i) (sW w i) none (body i)) ->
  (forall s, pre s -> holds C s) -> (forall s t, pre s -> run loc_dec (chain (map body (seq 0 n))) s = Some t -> holds C t -> post t) ->
  good pre post (Par n body).
Proof.
  intros CU Cw Hb Hpre Hpost s Hs.
  pose proof (fun i (_ : i < n) => sclean C U w Cw i) as Hc.
  pose proof (fun i j Hi Hj Ne => sapart w n i j Hi Hj Ne) as Ha.
  destruct (chain_total loc_dec C U CU n body (sR w) (sW w) Hc Hb (seq 0 n)) with (s := s) as (t & Ht & Hht); auto.
  { intros i Hi; apply in_seq in Hi; lia. }
  exists t. split; [exact Ht|split; [eapply Hpost; eauto|split]].
  - intros s' H. inversion H as [n' b' plan s1 s2 ps P St E|]; subst.
    destruct (loop_deterministic loc_dec C U CU n body (sR w) (sW w) Hc Hb Ha plan s ps s' (Hpre s Hs) P St E) as (t' & Ht' & Hs' & _).
    congruence.
  - intros plan ps s' P St. split.
    + exact (loop_safe loc_dec C U CU n body (sR w) (sW w) Hc Hb Ha plan s ps s' (Hpre s Hs) P St).
    + exact (loop_completes loc_dec C U CU n body (sR w) (sW w) Hc Hb Ha plan s ps s' (Hpre s Hs) P St).
Qed.
Lemma good_seq p (pre post : store -> Prop) : (forall s, pre s -> exists t, run loc_dec p s = Some t /\ post t) -> good pre post (Seq p).
Proof.
  intros H s Hs. destruct (H s Hs) as (t & Ht & Hp). exists t. split; [exact Ht|split; [exact Hp|split]].
  - intros s' E. inversion E; subst. intros l. congruence.
  - cbn. congruence.
Qed.

(** exec respects equality of memories *)
Lemma step_ext (ps qs : list prog) (s s' t : store) : step loc_dec (ps, s) (qs, s') -> same s t -> exists t', step loc_dec (ps, t) (qs, t') /\ same s' t'.
Proof.
  intros H E. inversion H as [ps0 s0 j l k Hj|ps0 s0 j l v k Hj]; subst.
  - exists t. split; [|exact E]. rewrite (E l). now apply step_read.
  - exists (set loc_dec t l v). split; [now apply step_write|]. now apply set_same.
Qed.
Lemma steps_ext (c d : list prog * store) : steps loc_dec c d -> forall t, same (snd c) t -> exists t', steps loc_dec (fst c, t) (fst d, t') /\ same (snd d) t'.
Proof.
  induction 1 as [c|c d e St H IH]; intros t E.
  - exists t; split; [apply Relation_Operators.rt1n_refl|exact E].
  - destruct c as [ps s], d as [qs s']. cbn [fst snd] in *. destruct (step_ext _ _ _ _ t St E) as (t' & St' & E').
    destruct (IH t' E') as (t2 & St2 & E2). exists t2; split; [|exact E2]. exact (Relation_Operators.rt1n_trans _ _ _ _ _ St' St2).
Qed.
Lemma exec1_ext (f : phase) (s s' t : store) : exec1 loc_dec f s s' -> same s t -> exists t', exec1 loc_dec f t t' /\ same s' t'.
Proof.
  intros H E. inversion H as [n body plan s1 s2 ps P St En|p s1 s2 R]; subst.
  - destruct (steps_ext _ _ St t E) as (t' & St' & E'). exists t'; split; [|exact E']. econstructor; eauto.
  - destruct (run_ext _ _ _ _ _ E R) as (t' & R' & E'). exists t'; split; [|exact E']. now constructor.
Qed.
Lemma exec_ext (fs : list phase) : forall (s s' t : store), exec loc_dec fs s s' -> same s t -> exists t', exec loc_dec fs t t' /\ same s' t'.
Proof.
  induction fs as [|f fs IH]; intros s s' t H E; inversion H as [|f' r s0 u s1 H1 H2]; subst.
  - exists t; split; [constructor|exact E].
  - destruct (exec1_ext _ _ _ _ H1 E) as (u' & H1' & E'). destruct (IH _ _ _ H2 E') as (t' & H2' & E2).
    exists t'; split; [|exact E2]. econstructor; eauto.
Qed.
Lemma can_end_ext f s t : same s t -> can_end f s -> can_end f t.
Proof.
  intros E. destruct f as [n body|p]; cbn.
  - intros H plan ps t' P St. destruct (steps_ext _ _ St s (same_sym _ _ E)) as (s' & St' & E'). cbn [fst snd] in *.
    destruct (H plan ps s' P St') as [H1 (qs & u & H2 & H3)]. split; [exact H1|].
    destruct (steps_ext _ _ H2 t' (same_sym _ _ E')) as (u' & H2' & _). cbn [fst snd] in *. eauto.
  - intros H N. destruct (run loc_dec p s) as [s'|] eqn:R; [|congruence].
    destruct (run_ext _ _ _ _ _ E R) as (t' & R' & _). congruence.
Qed.

(** pieces in sequence: [conds] are what holds before, between and after them *)
Fixpoint all_good (pre : store -> Prop) (l : list (phase * (store -> Prop))) : Prop :=
  match l with [] => True | (f, post) :: r => good pre post f /\ closed pre /\ all_good post r end.
Lemma compose l : forall pre s, all_good pre l -> pre s -> schedule_independent (map fst l) s.
Proof.
  induction l as [|[f post] l IH]; intros pre s H Hs.
  - exists s. split; [reflexivity|split].
    + intros s' E. inversion E; subst. apply same_refl.
    + intros [|] ? ? ? ?; discriminate.
  - destruct H as (Hf & Hc & Hl). destruct (Hf s Hs) as (t & Rt & Pt & Et & Ct).
    destruct (IH post t Hl Pt) as (u & Ru & Eu & Cu). exists u. split; [|split].
    + unfold sequential in *. cbn. rewrite andthen_run, Rt. exact Ru.
    + intros s' E. inversion E as [|f' r s0 v s1 H1 H2]; subst. cbn [map fst] in *.
      destruct (exec_ext _ _ _ t H2 (Et _ H1)) as (u' & H2' & E').
      eapply same_trans; [exact E'|]. apply Eu, H2'.
    + intros done g todo s' E X. destruct done as [|d done]; cbn in E.
      * injection E as <- _. inversion X; subst. exact Ct.
      * injection E as <- E. inversion X as [|f' r s0 v s1 H1 H2]; subst.
        destruct (exec_ext _ _ _ t H2 (Et _ H1)) as (u' & H2' & E').
        eapply can_end_ext; [apply same_sym, E'|]. eapply Cu; eauto.
Qed.
