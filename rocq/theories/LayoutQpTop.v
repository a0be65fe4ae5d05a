(** Top-level statements about the QP objects. *)
From Coq Require Import ZArith List String Lia Bool.
From Verif Require Import Layout LayoutProofs LayoutEnv LayoutSolver LayoutSolverProofs LayoutQp LayoutQpProofs.
Import ListNotations.
Open Scope string_scope.
Open Scope Z_scope.

Notation fine base ob := (carved_within base (o_size ob) (blocks (o_ops ob) base) /\ Forall aligned (blocks (o_ops ob) base)).
Lemma all_fine base l : base mod 8 = 0 -> Forall obj_fits8 l -> Forall (fun ob => fine base ob) l.
Proof. intros Hb F. eapply Forall_impl; [|exact F]. intros ob H. apply obj_fits8_carved; assumption. Qed.

Lemma qp_objects_ok E N dd sd ci base : env_ok E -> 0 <= N -> dqd_ok dd -> spd_ok sd -> ci = 4 \/ ci = 8 -> base mod 8 = 0 ->
  Forall (fun ob => fine base ob)
    (dense_objects E ++ ocp_objects E ++ cond_dims_objects E N ++ cond_opts_objects E N ++ cond_mem_objects E
     ++ qp_opts_objects E ++ qp_mem_objects E dd sd ++ work_objects E dd sd ci)%list.
Proof.
  intros HE HN Hd Hs Hc Hb. apply all_fine; [exact Hb|].
  apply Forall_app; split; [|apply Forall_app; split; [|apply Forall_app; split; [|apply Forall_app; split; [|apply Forall_app; split; [|apply Forall_app; split; [|apply Forall_app; split]]]]]].
  - apply dense_fit; assumption.
  - apply ocp_fit; assumption.
  - apply cdims_fit; assumption.
  - apply copts_fit; assumption.
  - apply cmem_fit; assumption.
  - apply qopts_fit; assumption.
  - apply qmem_fit; assumption.
  - unfold work_objects. repeat constructor; [apply dw_fit|apply ow_fit]; assumption.
Qed.

Lemma osqp_ok E sd base : env_ok E -> spd_ok sd -> base mod 8 = 0 -> fine base (osqp_mem_obj E sd 8).
Proof. intros HE Hs Hb. apply obj_fits8_carved; [|exact Hb]. apply om_8; auto. Qed.
Lemma osqp_room E sd ci base : env_ok E -> spd_ok sd -> ci = 4 \/ ci = 8 -> base mod 8 = 0 ->
  carved_within base (o_size (osqp_mem_obj E sd ci)) (blocks (o_ops (osqp_mem_obj E sd ci)) base).
Proof. intros HE Hs Hc Hb. destruct (om_any E sd ci HE Hs Hc) as (a & n & H & L). eapply fits_carved; [exact H|exact Hb|exact L]. Qed.
Lemma daqp_room E dd base : env_ok E -> dqd_ok dd -> base mod 8 = 0 ->
  carved_within base (o_size (daqp_mem_obj E dd)) (blocks (o_ops (daqp_mem_obj E dd)) base).
Proof. intros HE Hd Hb. destruct (daqp_any E dd HE Hd) as (a & n & H & L). eapply fits_carved; [exact H|exact Hb|exact L]. Qed.
Lemma daqp_ok E dd base : env_ok E -> dqd_ok dd -> base mod 8 = 0 -> Z.even (q_ns dd) = true -> Forall aligned (blocks (o_ops (daqp_mem_obj E dd)) base).
Proof. intros HE Hd Hb He. apply obj_fits8_carved; [|exact Hb]. apply daqp_even; assumption. Qed.

Lemma osqp_misaligned E sd base : env_ok E -> spd_ok sd -> Z.odd (s_P sd + s_A sd) = true -> base mod 8 = 0 ->
  exists b, In b (blocks (o_ops (osqp_mem_obj E sd 4)) base) /\ blk_kind b = KStruct /\ blk_len b = so E "OSQPData" /\ blk_start b mod 8 = 4.
Proof.
  intros HE Hs Ho Hb. destruct (om_odd E sd 4 HE (or_introl eq_refl) base eq_refl Ho Hb) as [_ F].
  eexists. split; [cbn [osqp_mem_obj o_ops]; rewrite blocks_app; apply in_or_app; right; unfold osqp_mem_tail; rewrite blocks_take; left; reflexivity|].
  cbn [blk_kind blk_len blk_start]. unfold osqp_mem_tail in F. rewrite blocks_take in F. inversion F; subst. auto.
Qed.
Lemma osqp_size4 E sd : env_ok E -> spd_ok sd -> Z.odd (s_m sd) = true -> o_size (osqp_mem_obj E sd 4) mod 8 = 4.
Proof.
  intros HE Hs Ho. apply Z.odd_spec in Ho. destruct Ho as [k Hk]. cbn [osqp_mem_obj o_size]. unfold osqp_mem_size, osqp_work_size. cbv zeta. unfold so_dbl.
  assert (A : forall s, exists j, so E s = j * 8) by (intros s; apply Z.mod_divide; [lia|apply env_so8; exact HE]).
  destruct (A "ocp_qp_osqp_memory") as [a1 ->], (A "OSQPData") as [a2 ->], (A "csc") as [a3 ->], (A "OSQPWorkspace") as [a4 ->],
    (A "OSQPSettings") as [a5 ->], (A "OSQPScaling") as [a6 ->], (A "OSQPPolish") as [a7 ->], (A "OSQPSolution") as [a8 ->], (A "OSQPInfo") as [a9 ->].
  rewrite Hk.
  clear - k. Z.div_mod_to_equations. lia.
Qed.

(** sizes: what the NLP level assumes of its QP solver *)
Definition size_ok8 (ob : obj) : Prop := 0 <= o_size ob /\ o_size ob mod 8 = 0.
Lemma qp_sizes E N dd sd : env_ok E -> 0 <= N -> dqd_ok dd -> spd_ok sd ->
  Forall size_ok8 (dense_objects E ++ ocp_objects E ++ cond_dims_objects E N ++ cond_opts_objects E N ++ cond_mem_objects E
     ++ qp_opts_objects E ++ qp_mem_objects E dd sd ++ [osqp_mem_obj E sd 8; daqp_mem_obj E dd])%list.
Proof.
  intros HE HN Hd Hs.
  apply Forall_app; split; [|apply Forall_app; split; [|apply Forall_app; split; [|apply Forall_app; split; [|apply Forall_app; split; [|apply Forall_app; split; [|apply Forall_app; split]]]]]].
  - apply dense_8; assumption.
  - apply ocp_8; assumption.
  - apply cdims_8; assumption.
  - apply copts_8; assumption.
  - apply cmem_8; assumption.
  - apply qopts_8; assumption.
  - apply qmem_8; assumption.
  - repeat constructor; try (apply daqp_8; assumption); apply osqp_8; auto.
Qed.
(** the condensing solver around any condensing and any solver, and its size *)
Lemma xcond_ok E N dd sd cd co cm so_ sm base : env_ok E -> 0 <= N -> dqd_ok dd -> spd_ok sd -> base mod 8 = 0 ->
  In cd (cond_dims_objects E N) -> In co (cond_opts_objects E N) -> In cm (cond_mem_objects E) ->
  In so_ (qp_opts_objects E) -> In sm (qp_mem_objects E dd sd ++ [osqp_mem_obj E sd 8; daqp_mem_obj E dd])%list ->
  Forall (fun ob => fine base ob /\ o_size ob mod 8 = 0)
    [xcond_config_obj E; xcond_dims_obj E (o_size cd); xcond_opts_obj E (o_size co) (o_size so_); xcond_mem_obj E (o_size cm) (o_size sm); xcond_ws_obj E].
Proof.
  intros HE HN Hd Hs Hb H1 H2 H3 H4 H5. pose proof (qp_sizes E N dd sd HE HN Hd Hs) as S. rewrite Forall_forall in S.
  assert (S1 : size_ok8 cd) by (apply S; repeat (apply in_or_app; first [left; assumption|right])).
  assert (S2 : size_ok8 co) by (apply S; repeat (apply in_or_app; first [left; assumption|right])).
  assert (S3 : size_ok8 cm) by (apply S; repeat (apply in_or_app; first [left; assumption|right])).
  assert (S4 : size_ok8 so_) by (apply S; repeat (apply in_or_app; first [left; assumption|right])).
  assert (S5 : size_ok8 sm) by (apply S; do 6 (apply in_or_app; right); assumption).
  destruct S1, S2, S3, S4, S5.
  pose proof (xc_fit E HE (o_size cd) 0) as X1. pose proof (xc_fit E HE (o_size co) (o_size so_)) as X2. pose proof (xc_fit E HE (o_size cm) (o_size sm)) as X3.
  assert (X1' := X1 ltac:(assumption) ltac:(assumption) ltac:(lia) eq_refl).
  assert (X2' := X2 ltac:(assumption) ltac:(assumption) ltac:(assumption) ltac:(assumption)).
  assert (X3' := X3 ltac:(assumption) ltac:(assumption) ltac:(assumption) ltac:(assumption)).
  apply all_fine with (base := base) in X1', X2', X3'; try exact Hb.
  rewrite !Forall_cons_iff in X1', X2', X3'.
  destruct X1' as (A1 & A2 & _). destruct X2' as (_ & _ & A3 & _). destruct X3' as (_ & _ & _ & A4 & A5 & _).
  repeat apply Forall_cons; try apply Forall_nil; (split; [assumption|]); cbn [o_size xcond_config_obj xcond_dims_obj xcond_opts_obj xcond_mem_obj xcond_ws_obj].
  - md.
  - unfold ocp_dims_size. md.
  - md.
  - md.
  - md.
Qed.
(** concrete case *)
Definition dd_ex : dqd := mkDqd 10 4 6 3 3.
Definition sd_ex : spd := mkSpd 12 9 30 25.
Lemma ex_ok : env_ok env64 /\ dqd_ok dd_ex /\ spd_ok sd_ex /\ Z.odd (q_ns dd_ex) = true /\ Z.odd (s_P sd_ex + s_A sd_ex) = true /\ Z.odd (s_m sd_ex) = true.
Proof. split; [apply env64_ok|]. unfold dqd_ok, spd_ok; cbn. repeat split; lia. Qed.
Lemma daqp_misaligned E dd base : env_ok E -> dqd_ok dd -> Z.odd (q_ns dd) = true -> base mod 8 = 0 ->
  exists b, In b (blocks (o_ops (daqp_mem_obj E dd)) base) /\ blk_kind b = KDouble /\ blk_len b = 8 * q_ns dd /\ blk_start b mod 8 = 4.
Proof. intros HE Hd Ho Hb. apply daqp_odd; assumption. Qed.
