(** The parallel functions of the solver are schedule independent. *)
From Coq Require Import ZArith List Bool Lia Permutation.
From Verif Require Import FP Par ParProofs OmpModel OmpSpec OmpProofs.
Import ListNotations.
Open Scope nat_scope.

Definition noU : loc -> option val := fun _ => None.
Definition noC : loc -> option val := fun _ => None.

Section Top.
Context (reuse : bool) (code : modl -> nat -> fn -> mprog).
Context (N : nat) (nx nu nz ns ni nv nns : nat -> nat) (sens_forw sens_adj : bool) (integrated : nat -> bool).
Notation leads := (leads sens_forw integrated).
Notation wired := (wired sens_forw integrated N).
Notation obeys := (obeys sens_forw integrated).
Context (Hobeys : forall o m i f, has N m i -> obeys o m i (code m i f)).

Definition hasb (m : modl) (i : nat) : bool := match m with Dyn => i <? N | _ => i <=? N end.
Lemma hasb_spec m i : hasb m i = true <-> has N m i.
Proof. destruct m; [apply Nat.ltb_lt|apply Nat.leb_le|apply Nat.leb_le]. Qed.
(** the pointers as constants *)
Definition cw (o : iterate) (l : loc) : option val :=
  match l with
  | (A_ptr m f, i, 0) => if hasb m i then match leads o m i f with Some (a, j) => Some (P a j) | None => None end else None
  | _ => None
  end.
Lemma wired_holds o s : wired o s <-> holds (cw o) s.
Proof.
  split.
  - intros H [[a i] k] c E. unfold cw in E. destruct a; try discriminate. destruct k; [|discriminate].
    destruct (hasb m i) eqn:Hb; [|discriminate]. destruct (leads o m i f) as [[b j]|] eqn:El; [|discriminate].
    injection E as <-. apply (H m i f b j); [now apply hasb_spec|exact El].
  - intros H m i f a j Hm El. apply H. cbn. apply hasb_spec in Hm. rewrite Hm, El. reflexivity.
Qed.
Lemma wired_closed o : closed (wired o).
Proof. intros s t E H m i f a j A B. rewrite <- E. eapply H; eauto. Qed.

(** arrays a module writes *)
Definition mw (m : modl) (a : arr) : bool :=
  match m, a with
  | Dyn, (A_mem Dyn _ | A_model Dyn _ | A_work Dyn _ | A_ext Dyn _ | A_BAbt | A_RSQrq false | A_dzduxt | A_set_sim_guess | A_z_alg | A_mem Cost _ | A_jac_dyn | A_jac_lag) => true
  | Cost, (A_mem Cost _ | A_model Cost _ | A_work Cost _ | A_ext Cost _ | A_RSQrq false | A_Z false | A_jac_lag) => true
  | Con, (A_mem Con _ | A_model Con _ | A_work Con _ | A_ext Con _ | A_RSQrq false | A_DCt | A_idxb | A_idxs_rev | A_idxe | A_jac_lag | A_jac_ineq) => true
  | _, _ => false
  end.

Lemma leads_target o m i f a j k : leads o m i f = Some (a, j) -> cw o (a, j, k) = None /\ (j = i \/ (j = i + 1 /\ a = A_ux o)) /\ (output m f = true -> j = i /\ mw m a = true).
Proof.
  destruct m, f; cbn; try discriminate; try (destruct (integrated i); [|discriminate]); try (destruct sens_forw; [|discriminate]);
    intros E; injection E as <- <-; cbn; (split; [reflexivity|split; [auto|]]); intros O; try discriminate O; auto.
Qed.

Section Call.
Context (o : iterate) (w : arr -> bool) (K : loc -> Prop).
Context (Hux : w (A_ux o) = false).
Lemma in_call m i p : (forall a, mw m a = true -> w a = true) -> has N m i -> obeys o m i p ->
  within (cw o) noU (sR w i) (sW w i) K (call true reuse m i p).
Proof.
  intros Hm Hh. apply hasb_spec in Hh.
  assert (Hr : forall a k, cw o (a, i, k) = None -> rd (cw o) noU (sR w i) (a, i, k)).
  { intros a k E. split; [exact E|split; [reflexivity|]]. left; reflexivity. }
  assert (Hw : forall a k, mw m a = true -> wt noU (sW w i) (a, i, k)).
  { intros a k E. split; [reflexivity|]. split; [reflexivity|]. apply Hm, E. }
  induction p as [|x k c IH|x k v c IH]; cbn [OmpSpec.obeys]; [intros _; exact Logic.I| |]; intros [H1 H2].
  - destruct x as [f|j|j|j|j|j].
    + cbn in H1. destruct (leads o m i f) as [[a j]|] eqn:El; [|discriminate].
      cbn [call]. change (within (cw o) noU (sR w i) (sW w i) K (Read (A_ptr m f, i, 0) (fun v => match v with P a j => Read (a, j, k) (fun w => call true reuse m i (c w)) | _ => Err end))).
      cbn [within]. assert (Ec : cw o (A_ptr m f, i, 0) = Some (P a j)) by (cbn; rewrite Hh, El; reflexivity).
      rewrite Ec. destruct (leads_target o m i f a j k El) as (T1 & T2 & _).
      apply in_read; [|intros; apply IH; auto].
      split; [exact T1|split; [reflexivity|]]. destruct T2 as [->|[-> ->]]; [left; reflexivity|right; exact Hux].
    + cbn [call]. apply in_read; [apply Hr; reflexivity|intros; apply IH; auto].
    + cbn [call]. apply in_read; [apply Hr; reflexivity|intros; apply IH; auto].
    + cbn [call]. apply in_read; [apply Hr; reflexivity|intros; apply IH; auto].
    + cbn [call]. unfold work_loc. rewrite Bool.andb_false_r. apply in_read; [apply Hr; reflexivity|intros; apply IH; auto].
    + cbn [call]. unfold ext_loc. rewrite Bool.andb_false_r. apply in_read; [apply Hr; reflexivity|intros; apply IH; auto].
  - destruct x as [f|j|j|j|j|j].
    + cbn in H1. apply andb_prop in H1. destruct H1 as [Ho H1]. destruct (leads o m i f) as [[a j]|] eqn:El; [|discriminate].
      cbn [call within]. assert (Ec : cw o (A_ptr m f, i, 0) = Some (P a j)) by (cbn; rewrite Hh, El; reflexivity).
      rewrite Ec. destruct (leads_target o m i f a j k El) as (_ & _ & T3). destruct (T3 Ho) as [-> T4].
      apply in_write; [apply Hw, T4|apply IH; auto].
    + cbn [call]. apply in_write; [apply Hw; destruct m; reflexivity|apply IH; auto].
    + cbn [call]. apply in_write; [apply Hw; destruct m; reflexivity|apply IH; auto].
    + discriminate.
    + cbn [call]. unfold work_loc. rewrite Bool.andb_false_r. apply in_write; [apply Hw; destruct m; reflexivity|apply IH; auto].
    + cbn [call]. unfold ext_loc. rewrite Bool.andb_false_r. apply in_write; [apply Hw; destruct m; reflexivity|apply IH; auto].
Qed.
Lemma in_C m i f : (forall a, mw m a = true -> w a = true) -> has N m i -> within (cw o) noU (sR w i) (sW w i) K (C true reuse code m i f).
Proof. intros H1 H2. apply in_call; auto. Qed.
End Call.

(** a parallel loop whose modules are wired *)
Lemma par_wired o w n body : (forall m f, w (A_ptr m f) = false) ->
  (forall i, i < n -> within (cw o) noU (sR w i) (sW w i) none (body i)) -> good (wired o) (wired o) (Par n body).
Proof.
  intros Hp Hb. apply (good_par (cw o) noU w).
  - intros; reflexivity.
  - intros [[a i] k] E. split; [|reflexivity]. unfold arr_of in E. cbn in E. destruct a; try reflexivity. rewrite Hp in E. discriminate.
  - exact Hb.
  - intros s. apply wired_holds.
  - intros s t _ _ H. apply wired_holds, H.
Qed.
(** a parallel loop without modules *)
Lemma par_plain w n body : (forall i, i < n -> within noC noU (sR w i) (sW w i) none (body i)) -> good (fun _ => True) (fun _ => True) (Par n body).
Proof.
  intros Hb. apply (good_par noC noU w).
  - intros; reflexivity.
  - split; reflexivity.
  - exact Hb.
  - intros s _ l c E. discriminate E.
  - auto.
Qed.
Lemma true_closed : closed (fun _ => True). Proof. intros ? ? ? ?; exact Logic.I. Qed.

End Top.

(** proves that a place may be read or written *)
Ltac cell := intros; unfold rd, wt, sR, sW, v_, vo, at_; cbn; repeat split; try reflexivity; auto.
Ltac kernel :=
  repeat first
    [ apply in_and | apply in_when; intros
    | apply in_vecse; cell | apply in_veccp; cell | apply in_vecad; cell | apply in_axpy; cell | apply in_axpby; cell
    | apply in_kern; repeat (apply Forall_app; split); try apply Forall_nil; apply in_cells; cell
    | exact Logic.I ].
