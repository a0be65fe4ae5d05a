From Coq Require Import ZArith List Bool.
From Verif Require Import FP Par OmpModel OmpSpec OmpProofs OmpTop OmpLoops OmpDims OmpAlias OmpCases.
Import ListNotations.
Open Scope nat_scope.

(** C51: the region that sets the pointers of the modules: any number of threads, no barrier between its loops *)
Theorem C51_alias : forall N sens_forw sens_adj integrated s, cost_option integrated N s ->
  (forall s', alias_exec N sens_forw sens_adj s s' -> exists t, run loc_dec (alias_sequential N sens_forw sens_adj) s = Some t /\ same s' t) /\
  (forall plan ps s', alias_fair N plan -> steps loc_dec (map (alias_thread sens_forw sens_adj) plan, s) (ps, s') ->
     ~ stuck ps /\ exists qs t, steps loc_dec (ps, s') (qs, t) /\ ended qs) /\
  (forall t, run loc_dec (alias_sequential N sens_forw sens_adj) s = Some t -> wired sens_forw integrated N Out t).
Proof. exact alias_region. Qed.
Print Assumptions C51_alias.

(** any sequence of linearisations, updates, trial points, sensitivity evaluations and of sequential code between them *)
Theorem C51_stage_loops : forall reuse code N nx nu nz ns ni nv nns sens_forw integrated,
  (forall o m i f, has N m i -> obeys sens_forw integrated o m i (code m i f)) ->
  forall calls s, Forall (piece reuse code N nx nu nz ns ni nv nns) calls -> wired sens_forw integrated N Out s ->
  schedule_independent (concat calls) s.
Proof. exact pieces_independent. Qed.
Print Assumptions C51_stage_loops.

(** the loops with a shared ni_stage or nxu as well if the dimension is the same at all stages *)
Theorem C51_equal_dims : forall reuse code N nx nu nz ns ni nv nns sens_forw integrated,
  (forall o m i f, has N m i -> obeys sens_forw integrated o m i (code m i f)) ->
  (forall i, i <= N -> ni i = ni 0) -> (forall i, i <= N -> nx i + nu i = nx 0 + nu 0) ->
  forall calls s, Forall (fun fs => piece reuse code N nx nu nz ns ni nv nns fs \/ dim_piece N nx nu ns ni nns fs) calls ->
  wired sens_forw integrated N Out s -> schedule_independent (concat calls) s.
Proof. exact uniform_independent. Qed.
Print Assumptions C51_equal_dims.

(** ocp_qp_out_axpy, set_to_zero, sc, add with different numbers of constraints *)
Theorem C51_axpy_refuted : exists nx nu ns ni s, schedule_dependent (qp_out_axpy 1 nx nu ns ni f1 Prev Ander Step) s (A_qpo Step q_lam, 0, 0).
Proof. exact axpy_refuted. Qed.
Print Assumptions C51_axpy_refuted.
Theorem C51_set_to_zero_refuted : exists nx nu ns ni s, ni 1 = 0 /\ schedule_dependent (qp_out_set_to_zero 1 nx nu ns ni Step) s (A_qpo Step q_lam, 0, 0) /\
  schedule_dependent (qp_out_set_to_zero 1 nx nu ns ni Step) s (A_qpo Step q_lam, 1, 0).
Proof. exact zero_refuted. Qed.
Print Assumptions C51_set_to_zero_refuted.
Theorem C51_sc_refuted : exists nx nu ns ni s, schedule_dependent (qp_out_sc 1 nx nu ns ni f0 Step) s (A_qpo Step q_lam, 0, 0).
Proof. exact sc_refuted. Qed.
Print Assumptions C51_sc_refuted.
Theorem C51_add_refuted : exists nx nu ns ni s, schedule_dependent (qp_out_add 1 nx nu ns ni f1 Prev Step) s (A_qpo Step q_lam, 0, 0).
Proof. exact add_refuted. Qed.
Print Assumptions C51_add_refuted.
(** setup of the feasibility QP with a control at stage 0 and none at stage N *)
Theorem C51_hessians_refuted : forall b, exists s, schedule_dependent (setup_hessians 1 (fun _ => 1) (fun i => 1 - i) (fun _ => 0) b) s (A_RSQrq false, 0, 1).
Proof. exact hessians_refuted. Qed.
Print Assumptions C51_hessians_refuted.
Theorem C51_initial_setup_refuted : forall h d, exists s, schedule_dependent (initial_setup 1 (fun _ => 1) (fun i => 1 - i) (fun _ => 0) (fun _ => 0) true h d) s (A_RSQrq true, 0, 1).
Proof. exact initial_refuted. Qed.
Print Assumptions C51_initial_setup_refuted.
(** ocp_qp_out_ddot loses a summand, and mixes the scratch vectors of two stages, with equal dimensions *)
Theorem C51_ddot_refuted :
  (exists s, schedule_dependent (qp_out_ddot 1 (fun _ => 1) (fun _ => 0) (fun _ => 0) (fun _ => 0) Step Prev) s out_) /\
  (exists s, schedule_dependent (qp_out_ddot 1 (fun _ => 0) (fun _ => 0) (fun _ => 0) (fun _ => 1) Step Prev) s out_).
Proof. exact ddot_refuted. Qed.
Print Assumptions C51_ddot_refuted.
(** the workspaces that a library without OpenMP shares between the stages could not be used in parallel *)
Theorem C51_shared_workspace_refuted : exists code s, (forall o m i f, has 1 m i -> obeys true (fun _ => false) o m i (code m i f)) /\
  wired true (fun _ => false) 1 Out s /\ schedule_dependent [Par 2 (fun i => OmpModel.C false true code Cost i update_qp_matrices)] s (A_RSQrq false, 0, 0).
Proof. exact shared_refuted. Qed.
Print Assumptions C51_shared_workspace_refuted.
