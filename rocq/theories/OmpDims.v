(** Loops with a shared variable for a dimension, when the dimension is the same at every stage. *)
From Coq Require Import ZArith List Bool Lia Permutation.
From Verif Require Import FP Par ParProofs OmpModel OmpSpec OmpProofs OmpTop OmpLoops.
Import ListNotations.
Open Scope nat_scope.

Section Dims.
Context (reuse : bool) (code : modl -> nat -> fn -> mprog).
Context (N : nat) (nx nu nz ns ni nv nns : nat -> nat) (sens_forw sens_adj : bool) (integrated : nat -> bool).
Context (Hobeys : forall o m i f, has N m i -> obeys sens_forw integrated o m i (code m i f)).
Notation wired := (wired sens_forw integrated N).
Notation cw := (cw N sens_forw integrated).
Notation W := (wired Out).

Definition uv (v : local) (n : nat) (l : loc) : option val := if loc_dec l (v_ (A_loc v) 0) then Some (I (Z.of_nat n)) else None.
Lemma uv_same v n : uv v n (v_ (A_loc v) 0) = Some (I (Z.of_nat n)).
Proof. unfold uv. destruct (loc_dec _ _); congruence. Qed.
Lemma uv_other v n a i k : (match a with A_loc _ => false | _ => true end) = true -> uv v n (a, i, k) = None.
Proof. intros H. unfold uv. destruct (loc_dec _ _) as [E|]; [|reflexivity]. unfold v_ in E. injection E as -> _ _. discriminate H. Qed.
Lemma in_set (v : local) n p C R W0 (K : loc -> Prop) : within C (uv v n) R W0 (add K (v_ (A_loc v) 0)) p -> within C (uv v n) R W0 K (set_int (v_ (A_loc v) 0) n ;; p).
Proof. intros H. cbn [set_int andthen within]. rewrite uv_same. auto. Qed.
Lemma in_get (v : local) n c o R W0 (K : loc -> Prop) : K (v_ (A_loc v) 0) -> within (cw o) (uv v n) R W0 K (c n) -> within (cw o) (uv v n) R W0 K (get_int (v_ (A_loc v) 0) c).
Proof. intros H1 H2. cbn [get_int within]. rewrite uv_same. cbn [OmpTop.cw v_]. split; [exact H1|]. rewrite Nat2Z.id. exact H2. Qed.

Lemma par_dim v m (w : arr -> bool) n body : (forall m f, w (A_ptr m f) = false) -> (forall x, w (A_loc x) = false) ->
  (forall i, i < n -> within (cw Out) (uv v m) (sR w i) (sW w i) none (body i)) -> good W W (Par n body).
Proof.
  intros Hp Hl Hb. apply (good_par (cw Out) (uv v m) w).
  - intros [[a i] k] H. apply uv_other. destruct a; auto.
  - intros [[a i] k] E. unfold arr_of in E. cbn in E. destruct a; try (split; [reflexivity|apply uv_other; reflexivity]).
    + rewrite Hp in E. discriminate.
    + rewrite Hl in E. discriminate.
  - exact Hb.
  - intros s. apply wired_holds.
  - intros s t _ _ H. apply wired_holds, H.
Qed.

Ltac cellu := intros; unfold rd, wt, sR, sW, v_, vo, at_; cbn -[uv]; repeat split; try reflexivity; auto; try (apply uv_other; reflexivity).
Ltac gou := repeat first
    [ apply in_and | apply in_when; intros
    | apply in_get; [left; reflexivity|]
    | apply in_vecse; cellu | apply in_veccp; cellu | apply in_vecsc; cellu | apply in_vecad; cellu | apply in_axpy; cellu | apply in_axpby; cellu
    | apply in_kern; [repeat (apply Forall_app; split); try apply Forall_nil; apply in_cells; cellu
                     |apply in_cells; cellu]
    | apply in_write; [cellu|]
    | exact Logic.I ].
Context (same_ni : forall i, i <= N -> ni i = ni 0) (same_nxu : forall i, i <= N -> nx i + nu i = nx 0 + nu 0).

Lemma fine_loop (w : arr -> bool) kernel : (forall m f, w (A_ptr m f) = false) -> (forall x, w (A_loc x) = false) ->
  (forall n f i K, within (cw Out) (uv l_ni_stage (ni 0)) (sR w i) (sW w i) K (kernel n f i)) -> fine N sens_forw integrated (qp_out_loop N nx nu ns ni kernel).
Proof.
  intros Hp Hl Hk. split; [|split; [apply wired_closed|exact Logic.I]]. apply (par_dim l_ni_stage (ni 0) w); auto.
  intros i Hi. rewrite (same_ni i) by lia. apply in_set. repeat first [apply in_and|apply in_when; intros|apply in_get; [left; reflexivity|]|apply Hk].
Qed.
Definition wq (q : qpos) (a : arr) : bool := match a with A_qpo q' _ => if qpos_dec q q' then true else false | _ => false end.
Lemma wq_same q f : wq q (A_qpo q f) = true. Proof. cbn. destruct (qpos_dec q q); congruence. Qed.
Lemma dim_fine fs : dim_piece N nx nu ns ni nns fs -> fine N sens_forw integrated fs.
Proof.
  destruct 1.
  - apply (fine_loop (wq z)); [reflexivity|reflexivity|]. intros. apply in_axpy; cellu; destruct (qpos_dec _ _); congruence.
  - apply (fine_loop (wq x)); [reflexivity|reflexivity|]. intros. apply in_vecse; cellu; destruct (qpos_dec _ _); congruence.
  - apply (fine_loop (wq x)); [reflexivity|reflexivity|]. intros. apply in_vecsc; cellu; destruct (qpos_dec _ _); congruence.
  - apply (fine_loop (wq y)); [reflexivity|reflexivity|]. intros. apply in_vecad; cellu; destruct (qpos_dec _ _); congruence.
  - split; [|split; [apply wired_closed|exact Logic.I]]. apply (par_dim l_nxu (nx 0 + nu 0) (wl [A_RSQrq true; A_RSQrq false; A_Z false])); [reflexivity|reflexivity|].
    intros i Hi. rewrite (same_nxu i) by lia. apply in_set. gou.
  - split; [|split; [apply wired_closed|exact Logic.I]]. apply (par_dim l_nxu (nx 0 + nu 0) (wl [A_RSQrq true; A_Z true; A_diag_H_flag; A_rqz true])); [reflexivity|reflexivity|].
    intros i Hi. rewrite (same_nxu i) by lia. apply in_set. cbv zeta. gou.
Qed.
Theorem uniform_independent calls s :
  Forall (fun fs => piece reuse code N nx nu nz ns ni nv nns fs \/ dim_piece N nx nu ns ni nns fs) calls -> W s -> schedule_independent (concat calls) s.
Proof.
  intros H Hs.
  assert (G : exists l, map fst l = concat calls /\ all_good W l /\ List.last (map snd l) W = W).
  { apply pieces_concat. eapply Forall_impl; [|exact H]. intros fs [P|P].
    - eapply piece_good; eauto.
    - apply fine_good, dim_fine, P. }
  destruct G as (l & <- & G & _). eapply compose; eauto.
Qed.
End Dims.
