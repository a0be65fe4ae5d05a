(** The carve-outs of LayoutSolver.v fit in the announced sizes. *)
From Coq Require Import ZArith List String Lia Bool.
From Verif Require Import Layout LayoutProofs LayoutNlp LayoutNlpProofs LayoutSolver.
Import ListNotations.
Open Scope Z_scope.
Open Scope string_scope.

(** The object fits from any base address, and is aligned from an 8-aligned one. *)
Definition obj_fits (ob : obj) : Prop :=
  (exists a n, fits false (o_ops ob) 1 a n /\ n <= o_size ob) /\
  (exists a n, fits true (o_ops ob) 8 a n).

Lemma obj_fits_carved ob base : obj_fits ob -> carved_within base (o_size ob) (blocks (o_ops ob) base).
Proof. intros [(a & n & H & L) _]. eapply fits_carved; [exact H|apply Z.mod_1_r|exact L]. Qed.
Lemma obj_fits_aligned ob base : obj_fits ob -> base mod 8 = 0 -> Forall aligned (blocks (o_ops ob) base).
Proof. intros [_ (a & n & H)] Hb. eapply fits_aligned; [exact H|exact Hb]. Qed.

(** nesting: the carve-out of a sub-object done inside its block keeps everything inside and apart *)
Lemma forall_ordpairs_app {A} (R : A -> A -> Prop) l1 l2 :
  ForallOrdPairs R l1 -> ForallOrdPairs R l2 -> (forall x y, In x l1 -> In y l2 -> R x y) ->
  ForallOrdPairs R (l1 ++ l2).
Proof.
  intros H1 H2 H. induction H1 as [|a l Ha Hl IH]; cbn; [exact H2|]. constructor.
  - apply Forall_app. split; [exact Ha|]. apply Forall_forall. intros y Hy. apply H; [left; reflexivity|exact Hy].
  - apply IH. intros x y Hx Hy. apply H; [right; exact Hx|exact Hy].
Qed.
Lemma forall_ordpairs_inv {A} (R : A -> A -> Prop) l1 l2 :
  ForallOrdPairs R (l1 ++ l2) ->
  ForallOrdPairs R l1 /\ ForallOrdPairs R l2 /\ (forall x y, In x l1 -> In y l2 -> R x y).
Proof.
  induction l1 as [|a l IH]; cbn; intros H; [split; [constructor|split; [exact H|intros x y []]]|].
  inversion H as [|? ? Ha Hl]; subst. destruct (IH Hl) as (A1 & A2 & A3).
  apply Forall_app in Ha as [F1 F2]. split; [constructor; assumption|split; [assumption|]].
  intros x y [<-|Hx] Hy; [rewrite Forall_forall in F2; apply F2; exact Hy|apply A3; assumption].
Qed.

Lemma nested_carved base size l1 b l2 cs :
  carved_within base size (l1 ++ b :: l2) ->
  carved_within (blk_start b) (blk_len b) cs ->
  carved_within base size (l1 ++ cs ++ l2).
Proof.
  intros [HI HA] [CI CA]. apply Forall_app in HI as [I1 I2]. inversion I2 as [|? ? Ib I3]; subst.
  apply forall_ordpairs_inv in HA as (A1 & A2 & A3). inversion A2 as [|? ? Ab A4]; subst.
  rewrite Forall_forall in CI, Ab. split.
  - apply Forall_app; split; [exact I1|]. apply Forall_app; split; [|exact I3].
    apply Forall_forall. intros c Hc. destruct (CI c Hc) as (X & Y & Z). destruct Ib as (P & Q & R). red. lia.
  - apply forall_ordpairs_app; [exact A1| |].
    + apply forall_ordpairs_app; [exact CA|exact A4|]. intros c y Hc Hy.
      destruct (CI c Hc) as (X & Y & Z). destruct (Ab y Hy); unfold apart; lia.
    + intros x y Hx Hy. apply in_app_or in Hy as [Hy|Hy].
      * destruct (CI y Hy) as (X & Y & Z). destruct (A3 x b Hx (or_introl eq_refl)); unfold apart; lia.
      * apply A3; [exact Hx|right; exact Hy].
Qed.

Section P.
Variable E : cenv.
Variable d : nlp_dims.
Variable o : size_opts.
Variable so_ : solver_opts.
Variable w : wf_dims.
Hypothesis HE : env_ok E.
Hypothesis Hd : dims_ok d.
Hypothesis Hw : forall i, 0 <= wf_nbu w i /\ 0 <= wf_nsbu w i /\ 0 <= wf_nbx w i /\ 0 <= wf_nsbx w i
                       /\ 0 <= qp_ng w i /\ 0 <= rqp_ng w i.

Lemma h_nbu i : 0 <= wf_nbu w i. Proof. apply Hw. Qed.
Lemma h_nbx i : 0 <= wf_nbx w i. Proof. apply Hw. Qed.
Lemma h_qng i : 0 <= qp_ng w i. Proof. apply Hw. Qed.
Lemma h_rng i : 0 <= rqp_ng w i. Proof. apply Hw. Qed.
Lemma h_ng i : 0 <= ng d i. Proof. destruct Hd as [H _]; apply (H i). Qed.
Lemma h_nb i : 0 <= nb d i. Proof. destruct Hd as [H _]; apply (H i). Qed.
Lemma zmax0_nn n f : (forall i, 0 <= f i) -> 0 <= zmax0 n f.
Proof. intros H. induction n as [|m IH]; cbn [zmax0]; [apply H|]. pose proof (H (S m)). lia. Qed.

Hint Resolve h_nbu h_nbx h_qng h_rng h_ng h_nb nn_nv nn_nx nn_nu nn_nz nn_ns nn_np nn_ni nn_ni_nl nn_npg nn_ngd : lay.
Hint Extern 1 (0 <= nx_max _) => apply zmax_nn : lay.
Hint Extern 1 (0 <= nu_max _) => apply zmax_nn : lay.

Lemma nuxM_nn : 0 <= nuxM d. Proof. apply zmax0_nn. intros i. nn. Qed.
Lemma nuM_nn : 0 <= nuM d. Proof. apply zmax0_nn. intros i. nn. Qed.
Lemma nxM_nn : 0 <= nxM d. Proof. apply zmax0_nn. intros i. nn. Qed.
Lemma nbgM_nn : 0 <= nbgM d w. Proof. apply zmax0_nn. intros i. nn. Qed.
Hint Resolve nuxM_nn nuM_nn nxM_nn nbgM_nn : lay.

Lemma mem_size_nn : 0 <= mem_size E d o.
Proof. destruct (mem_fits E d HE Hd o) as (n & [G H] & L). destruct (H 0 eq_refl) as (A & _ & _).
  pose proof (good_finish _ 0 G). lia. Qed.
Lemma mem_size_8 : mem_size E d o mod 8 = 0. Proof. apply mim_mod; lia. Qed.
Lemma opts_size_nn : 0 <= opts_size E d.
Proof. destruct (opts_fits E d HE) as (n & [G H] & L). destruct (H 0 eq_refl) as (A & _ & _).
  pose proof (good_finish _ 0 G). lia. Qed.
Lemma opts_size_8 : opts_size E d mod 8 = 0.
Proof. unfold opts_size, opts_size_with. md. Qed.
Lemma ws_size_nn : 0 <= ws_size E d o.
Proof. destruct (ws_fits E d HE Hd o) as (n & [G H] & L). destruct (H 0 eq_refl) as (A & _ & _).
  pose proof (good_finish _ 0 G). lia. Qed.
Hint Resolve mem_size_nn mem_size_8 opts_size_nn opts_size_8 ws_size_nn : lay.

Lemma stat_n_nn : 0 <= stat_n_sqp o. Proof. unfold stat_n_sqp. destruct (ext_qp_res o); lia. Qed.
Lemma stat_m_nn : 0 <= stat_m_sqp o. Proof. unfold stat_m_sqp. lia. Qed.
Lemma stat_n_rti_nn : 0 <= stat_n_rti o so_.
Proof. unfold stat_n_rti. destruct (ext_qp_res o), (rti_log_residuals so_); lia. Qed.
Lemma stat_m_rti_nn : 0 <= stat_m_rti so_. Proof. unfold stat_m_rti. lia. Qed.
Hint Resolve stat_n_nn stat_m_nn stat_n_rti_nn stat_m_rti_nn : lay.

Lemma qps_size_nn q1 q2 g : 0 <= q1 -> 0 <= q2 -> (forall i, 0 <= g i) -> 0 <= qpscaling_mem_size E d so_ q1 q2 g.
Proof. intros H1 H2 H3. unfold qpscaling_mem_size. nn. Qed.
Lemma qps_size_8 q1 q2 g : q1 mod 8 = 0 -> q2 mod 8 = 0 -> (forall i, 0 <= g i) -> qpscaling_mem_size E d so_ q1 q2 g mod 8 = 0.
Proof. intros H1 H2 H3. unfold qpscaling_mem_size. md. Qed.
Lemma rqps_size_nn : 0 <= rqpscaling_mem_size E d so_ w.
Proof. apply qps_size_nn; [nn|nn|intros; nn]. Qed.
Lemma rqps_size_8 : rqpscaling_mem_size E d so_ w mod 8 = 0.
Proof. apply qps_size_8; [md|md|intros; nn]. Qed.
Hint Resolve rqps_size_nn rqps_size_8 : lay.

Ltac szcase := repeat match goal with
  | |- context [if ?b then _ else _] => destruct b eqn:?
  end.
Ltac two := unfold obj_fits; cbn [o_ops o_size]; split;
  [eexists; eexists; split; [repeat lay1|] | eexists; eexists; repeat lay1].
Ltac fin := try (eapply Z.le_trans; [|apply mim_ge]); sums; try lia.

Lemma solver_opts_fits s : obj_fits (solver_opts_obj E d s).
Proof. unfold solver_opts_obj; two. fin. Qed.
Lemma solver_ws_fits s : obj_fits (solver_ws_obj E d o s).
Proof. unfold solver_ws_obj; two. fin. Qed.
Lemma sqp_mem_fits : obj_fits (sqp_mem_obj E d o).
Proof. unfold sqp_mem_obj; two. fin. Qed.
Lemma rti_mem_fits : obj_fits (rti_mem_obj E d o so_).
Proof. unfold rti_mem_obj; two. fin. Qed.
Lemma ddp_mem_fits : obj_fits (ddp_mem_obj E d o).
Proof. unfold ddp_mem_obj; two. fin. Qed.

Lemma qps_fits s q1 q2 g : 0 <= q1 -> 0 <= q2 -> q1 mod 8 = 0 -> q2 mod 8 = 0 -> (forall i, 0 <= g i) ->
  obj_fits (mkObj s (qpscaling_mem_size E d so_ q1 q2 g) (qpscaling_mem_ops E d so_ q1 q2 g)).
Proof.
  intros H1 H2 H3 H4 H5. unfold qpscaling_mem_ops, qpscaling_mem_size. 
  destruct (scale_obj so_), (scale_con so_); cbn [orb when app].
  all: two. all: fin.
Qed.
Lemma qpscaling_fits : obj_fits (qpscaling_mem_obj E d so_ w).
Proof. apply qps_fits; [nn|nn|md|md|intros; nn]. Qed.
Lemma rqpscaling_fits : obj_fits (rqpscaling_mem_obj E d so_ w).
Proof. apply qps_fits; [nn|nn|md|md|intros; nn]. Qed.

Section W.
Hypothesis Hnns : forall i, (i <= dN d)%nat -> 0 <= wf_nns d w i.
Lemma nns_sum n : (n <= S (dN d))%nat -> 0 <= zsum n (fun i => wf_nns d w i).
Proof. intros Hn. apply zsum_nonneg. intros i Hi. apply Hnns. lia. Qed.
Lemma wfqp_mem_fits : obj_fits (wfqp_mem_obj E d o so_ w).
Proof.
  assert (A : forall i, 0 <= (nb d i + ng d i + ni_nl d i) * so_int) by (intros i; nn).
  assert (B : 0 <= zsum (dN d) (fun i => (nb d i + ng d i + ni_nl d i) * so_int)) by (apply zsum_nonneg; intros; apply A).
  assert (B' := A (dN d)).
  assert (C : forall i, (i < S (dN d))%nat -> 0 <= wf_nns d w i) by (intros i Hi; apply Hnns; lia).
  assert (M1 : 0 <= max_str_len) by (unfold max_str_len; lia).
  assert (M2 : 0 <= so_char) by (unfold so_char; lia).
  unfold wfqp_mem_obj; two.
  all: fin. unfold so_ptr. lia.
Qed.
End W.


Lemma solver_objects_fit : (forall i, (i <= dN d)%nat -> 0 <= wf_nns d w i) ->
  Forall obj_fits (solver_objects E d o so_ w).
Proof.
  intros H. unfold solver_objects.
  repeat apply Forall_cons; try apply Forall_nil.
  1-4: apply solver_opts_fits. 1-4: apply solver_ws_fits.
  - apply sqp_mem_fits.
  - apply rti_mem_fits.
  - apply ddp_mem_fits.
  - apply wfqp_mem_fits; exact H.
  - apply qpscaling_fits.
  - apply rqpscaling_fits.
Qed.

Lemma reg_objects_fit : Forall obj_fits (reg_objects E d w).
Proof.
  unfold reg_objects. repeat apply Forall_cons; try apply Forall_nil.
  - unfold reg_convexify_obj; two. fin.
    match goal with |- context [2 * zsum ?n ?f] => assert (0 <= zsum n f) by (apply zsum_nonneg; intros; nn) end.
    assert (0 <= ms_dmat E (nu d (dN d) + nx d (dN d) + 1) (nu d (dN d) + nx d (dN d))) by nn. lia.
  - unfold reg_glm_obj; two. fin.
  - unfold reg_mirror_obj, reg_eig_obj; two. fin.
  - unfold reg_project_obj, reg_eig_obj; two. fin.
  - unfold reg_noreg_obj; two. fin.
  - unfold reg_prh_obj; two. fin.
Qed.

Lemma glob_opts_fits s : obj_fits (glob_opts_obj E s).
Proof. unfold glob_opts_obj; two. fin. Qed.
Lemma glob_mem_fits s : obj_fits (glob_mem_obj E s).
Proof. unfold glob_mem_obj; two. fin. Qed.
Lemma glob_objects_fit : Forall obj_fits (glob_opts_objects E ++ glob_mem_objects E).
Proof.
  unfold glob_opts_objects, glob_mem_objects; cbn [app].
  repeat apply Forall_cons; try apply Forall_nil; first [apply glob_opts_fits|apply glob_mem_fits].
Qed.

(** announced sizes are non-negative multiples of 8 *)
Definition size8 (ob : obj) : Prop := 0 <= o_size ob /\ o_size ob mod 8 = 0.
Lemma obj_size_nn ob : obj_fits ob -> 0 <= o_size ob.
Proof. intros [(a & n & [G H] & L) _]. destruct (H 0 (Z.mod_1_r 0)) as (A & _ & _).
  pose proof (good_finish _ 0 G). lia. Qed.
Lemma reg_objects_8 : Forall size8 (reg_objects E d w).
Proof.
  pose proof reg_objects_fit as H. unfold reg_objects in *.
  repeat match goal with H : Forall _ (_ :: _) |- _ => inversion H; clear H; subst end.
  repeat apply Forall_cons; try apply Forall_nil;
    (split; [apply obj_size_nn; assumption|]; 
     unfold reg_convexify_obj, reg_glm_obj, reg_mirror_obj, reg_project_obj, reg_eig_obj, reg_noreg_obj, reg_prh_obj; cbn [o_size]).
  all: md.
Qed.
Lemma glob_objects_8 : Forall size8 (glob_opts_objects E ++ glob_mem_objects E).
Proof.
  pose proof glob_objects_fit as H. unfold glob_opts_objects, glob_mem_objects in *; cbn [app] in *.
  repeat match goal with H : Forall _ (_ :: _) |- _ => inversion H; clear H; subst end.
  repeat apply Forall_cons; try apply Forall_nil;
    (split; [apply obj_size_nn; assumption|]; unfold glob_opts_obj, glob_mem_obj; cbn [o_size]; md).
Qed.
Lemma qpscaling_8 : size8 (qpscaling_mem_obj E d so_ w).
Proof. split; [apply obj_size_nn, qpscaling_fits|]. apply qps_size_8; [md|md|intros; nn]. Qed.
End P.
