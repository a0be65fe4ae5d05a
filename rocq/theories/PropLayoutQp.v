(** Property C79: memory layout of the QP objects. *)
From Coq Require Import ZArith String List.
From Verif Require Import Layout LayoutEnv LayoutSolver LayoutQp LayoutQpTop.
Import ListNotations.
Open Scope string_scope.
Open Scope Z_scope.

(** C79. Full statement: dense and OCP QPs, their solutions, seeds and residuals, the dims, options and memory of
    condensing, of the solver interfaces and of the condensing solver are carved inside the announced size,
    without overlap, every field aligned for its type, from an 8-aligned base address.
    It fails for the memory of DAQP with an odd number of slacks and the memory of OSQP with 4-byte integers. *)
Theorem C79_objects : forall E N dd sd ci base, env_ok E -> 0 <= N -> dqd_ok dd -> spd_ok sd -> ci = 4 \/ ci = 8 -> base mod 8 = 0 ->
  Forall (fun ob => carved_within base (o_size ob) (blocks (o_ops ob) base) /\ Forall aligned (blocks (o_ops ob) base))
    (dense_objects E ++ ocp_objects E ++ cond_dims_objects E N ++ cond_opts_objects E N ++ cond_mem_objects E
     ++ qp_opts_objects E ++ qp_mem_objects E dd sd ++ work_objects E dd sd ci)%list.
Proof. exact qp_objects_ok. Qed.
Print Assumptions C79_objects.
Example C79_objects_case : env_ok env64 /\ dqd_ok dd_ex /\ spd_ok sd_ex /\ Z.odd (q_ns dd_ex) = true /\ Z.odd (s_P sd_ex + s_A sd_ex) = true /\ Z.odd (s_m sd_ex) = true.
Proof. exact ex_ok. Qed.

(** OSQP with 8-byte integers, the default of its build. *)
Theorem C79_osqp : forall E sd base, env_ok E -> spd_ok sd -> base mod 8 = 0 ->
  carved_within base (o_size (osqp_mem_obj E sd 8)) (blocks (o_ops (osqp_mem_obj E sd 8)) base) /\
  Forall aligned (blocks (o_ops (osqp_mem_obj E sd 8)) base).
Proof. exact osqp_ok. Qed.
Print Assumptions C79_osqp.
(** With 4-byte integers the memory suffices, but for an odd number of nonzeros the structs with pointers that follow the integers
    start 4 bytes off. *)
Theorem C79_osqp_room : forall E sd ci base, env_ok E -> spd_ok sd -> ci = 4 \/ ci = 8 -> base mod 8 = 0 ->
  carved_within base (o_size (osqp_mem_obj E sd ci)) (blocks (o_ops (osqp_mem_obj E sd ci)) base).
Proof. exact osqp_room. Qed.
Print Assumptions C79_osqp_room.
Theorem C79_osqp_int_refuted : forall E sd base, env_ok E -> spd_ok sd -> Z.odd (s_P sd + s_A sd) = true -> base mod 8 = 0 ->
  exists b, In b (blocks (o_ops (osqp_mem_obj E sd 4)) base) /\ blk_kind b = KStruct /\ blk_len b = so E "OSQPData" /\ blk_start b mod 8 = 4.
Proof. exact osqp_misaligned. Qed.
Print Assumptions C79_osqp_int_refuted.
(** and for an odd number of rows the announced size is no multiple of 8, as the NLP level expects. *)
Theorem C79_osqp_size_refuted : forall E sd, env_ok E -> spd_ok sd -> Z.odd (s_m sd) = true -> o_size (osqp_mem_obj E sd 4) mod 8 = 4.
Proof. exact osqp_size4. Qed.
Print Assumptions C79_osqp_size_refuted.

(** DAQP: the memory suffices; with an even number of slacks every field is aligned; with an odd number the arrays of doubles
    after the slack indices start 4 bytes off, whatever the other dimensions. *)
Theorem C79_daqp_room : forall E dd base, env_ok E -> dqd_ok dd -> base mod 8 = 0 ->
  carved_within base (o_size (daqp_mem_obj E dd)) (blocks (o_ops (daqp_mem_obj E dd)) base).
Proof. exact daqp_room. Qed.
Print Assumptions C79_daqp_room.
Theorem C79_daqp_aligned_partial : forall E dd base, env_ok E -> dqd_ok dd -> base mod 8 = 0 -> Z.even (q_ns dd) = true ->
  Forall aligned (blocks (o_ops (daqp_mem_obj E dd)) base).
Proof. exact daqp_ok. Qed.
Print Assumptions C79_daqp_aligned_partial.
Theorem C79_daqp_refuted : forall E dd base, env_ok E -> dqd_ok dd -> Z.odd (q_ns dd) = true -> base mod 8 = 0 ->
  exists b, In b (blocks (o_ops (daqp_mem_obj E dd)) base) /\ blk_kind b = KDouble /\ blk_len b = 8 * q_ns dd /\ blk_start b mod 8 = 4.
Proof. exact daqp_misaligned. Qed.
Print Assumptions C79_daqp_refuted.

(** The sizes are multiples of 8, as C01 to C03 assume of the QP solver. *)
Theorem C79_sizes : forall E N dd sd, env_ok E -> 0 <= N -> dqd_ok dd -> spd_ok sd ->
  Forall (fun ob => 0 <= o_size ob /\ o_size ob mod 8 = 0)
    (dense_objects E ++ ocp_objects E ++ cond_dims_objects E N ++ cond_opts_objects E N ++ cond_mem_objects E
     ++ qp_opts_objects E ++ qp_mem_objects E dd sd ++ [osqp_mem_obj E sd 8; daqp_mem_obj E dd])%list.
Proof. exact qp_sizes. Qed.
Print Assumptions C79_sizes.

(** The condensing solver around either condensing and any of the solvers. *)
Theorem C79_xcond : forall E N dd sd cd co cm so_ sm base, env_ok E -> 0 <= N -> dqd_ok dd -> spd_ok sd -> base mod 8 = 0 ->
  In cd (cond_dims_objects E N) -> In co (cond_opts_objects E N) -> In cm (cond_mem_objects E) ->
  In so_ (qp_opts_objects E) -> In sm (qp_mem_objects E dd sd ++ [osqp_mem_obj E sd 8; daqp_mem_obj E dd])%list ->
  Forall (fun ob => (carved_within base (o_size ob) (blocks (o_ops ob) base) /\ Forall aligned (blocks (o_ops ob) base)) /\ o_size ob mod 8 = 0)
    [xcond_config_obj E; xcond_dims_obj E (o_size cd); xcond_opts_obj E (o_size co) (o_size so_); xcond_mem_obj E (o_size cm) (o_size sm); xcond_ws_obj E].
Proof. exact xcond_ok. Qed.
Print Assumptions C79_xcond.
