(** Property C03 (and the module-dependent part of C02): memory layout of the solver and module
    objects. *)
From Coq Require Import ZArith String List Lia.
From Verif Require Import Layout LayoutNlp LayoutEnv LayoutDimsProofs LayoutSolver LayoutMod LayoutModProofs LayoutSubTop.
Import ListNotations.
Open Scope string_scope.
Open Scope Z_scope.

(** C03. Full statement: the options, memory and workspace objects of the four solvers, the QP scaling, the
    regularizations and globalizations, the constraint, cost and dynamics modules and the
    external-function wrappers are carved inside the announced size without overlap, from any base
    address; from an 8-aligned base every field is aligned for its type.
    It fails for two objects, see the refutations; all others satisfy it. *)
Theorem C03_solver_objects : forall E d o so_ w base, env_ok E -> dims_ok d ->
  (forall i, 0 <= wf_nbu w i /\ 0 <= wf_nsbu w i /\ 0 <= wf_nbx w i /\ 0 <= wf_nsbx w i
             /\ 0 <= qp_ng w i /\ 0 <= rqp_ng w i) ->
  (forall i, (i <= dN d)%nat -> 0 <= wf_nns d w i) ->
  Forall (fun ob => carved_within base (o_size ob) (blocks (o_ops ob) base) /\
                    (base mod 8 = 0 -> Forall aligned (blocks (o_ops ob) base)))
    (solver_objects E d o so_ w ++ reg_objects E d w ++ glob_opts_objects E ++ glob_mem_objects E)%list.
Proof. exact solvers_ok. Qed.
Print Assumptions C03_solver_objects.
Example C03_solver_case : env_ok env64 /\ dims_ok (dims_ex 20) /\
  (forall i, (i <= 20)%nat -> 0 <= wf_nns (dims_ex 20) wf_ex i) /\
  List.length (solver_objects env64 (dims_ex 20) (mkSizeOpts true true false false true true true false 50)
                 (mkSolverOpts 1%nat true true true) wf_ex) = 14%nat.
Proof. exact (conj env64_ok (conj (dims_ex_ok 20) (conj (fun i _ => wf_ex_nns 20 i) eq_refl))). Qed.

Theorem C03_module_objects : forall E h nr c y sf sa sim_dims sim_opts sim_mem sim_ws sim_model sim_in sim_out base,
  env_ok E -> bgh_ok h -> 0 <= nr -> cost_ok c -> dyn_ok y -> 0 <= sim_dims /\ sim_dims mod 4 = 0 ->
  size_ok sim_opts -> size_ok sim_mem -> size_ok sim_ws -> size_ok sim_model -> size_ok sim_in -> size_ok sim_out ->
  Forall (fun ob => carved_within base (o_size ob) (blocks (o_ops ob) base) /\
                    (base mod 8 = 0 -> Forall aligned (blocks (o_ops ob) base)))
    (constraint_objects E h sf sa nr ++ cost_objects E sf sa c
     ++ dynamics_objects E sa y sim_dims sim_opts sim_mem sim_ws sim_model sim_in sim_out)%list.
Proof. exact modules_ok. Qed.
Print Assumptions C03_module_objects.

Theorem C03_external_functions : forall na nr asz rsz iw fw extw n base,
  (forall i, 0 <= asz i) -> (forall i, 0 <= rsz i) -> 0 <= iw -> 0 <= fw -> 0 <= n ->
  Forall (fun ob => carved_within base (o_size ob) (blocks (o_ops ob) base) /\
                    (base mod 8 = 0 -> Forall aligned (blocks (o_ops ob) base)))
    [param_generic_obj n; casadi_obj na nr asz rsz iw fw extw].
Proof. exact external_ok. Qed.
Print Assumptions C03_external_functions.

(** The least-squares model counts a [nz] by [ny] matrix and carves a [ny] by [nz] one: with a
    library that stores matrices in panels it writes past the announced size from every base. *)
Theorem C03_ls_model_refuted : exists E c, env_ok E /\ cost_ok c /\ forall base,
  exists b, In b (blocks (o_ops (ls_model_obj E c)) base) /\
            base + o_size (ls_model_obj E c) < blk_start b + blk_len b.
Proof. exact ls_model_overrun. Qed.
Print Assumptions C03_ls_model_refuted.
(** It fits when the transposed matrix needs no more memory, e.g. without algebraic variables and
    a library with symmetric sizes. *)
Theorem C03_ls_model_partial : forall E c base, env_ok E -> cost_ok c ->
  ms_dmat E (c_ny c) (c_nz c) <= ms_dmat E (c_nz c) (c_ny c) ->
  carved_within base (o_size (ls_model_obj E c)) (blocks (o_ops (ls_model_obj E c)) base) /\
  (base mod 8 = 0 -> Forall aligned (blocks (o_ops (ls_model_obj E c)) base)).
Proof. exact ls_model_ok. Qed.
Print Assumptions C03_ls_model_partial.

(** SQP_WITH_FEASIBLE_QP with two control bounds sharing a slack: the number of non-slacked
    constraints is negative, and the string [search_direction_type] (256 bytes) is placed on top of
    the array [nns]. *)
Theorem C03_wfqp_refuted : exists d w, dims_ok d /\ wf_nns d w 0 < 0 /\ forall E o so_ base, exists i j a b, (i < j)%nat /\
  nth_error (blocks (o_ops (wfqp_mem_obj E d o so_ w)) base) i = Some a /\
  nth_error (blocks (o_ops (wfqp_mem_obj E d o so_ w)) base) j = Some b /\
  blk_kind a = KInt /\ blk_len a = 8 /\ blk_kind b = KBool /\ blk_len b = 256 /\ blk_start b = blk_start a.
Proof. exact (ex_intro _ dims_shared (ex_intro _ wf_shared (conj dims_shared_ok (conj eq_refl wfqp_overlap)))). Qed.
Print Assumptions C03_wfqp_refuted.

(** The announced sizes of the stage objects are multiples of 8, as C01 and C02 assume. *)
Theorem C03_sizes : forall E, env_ok E -> forall sf sa h nr, bgh_ok h ->
  forall c, cost_ok c -> forall y, dyn_ok y -> forall sim_opts sim_mem sim_ws sim_model sim_in sim_out,
  size_ok sim_opts -> size_ok sim_mem -> size_ok sim_ws -> size_ok sim_model -> size_ok sim_in -> size_ok sim_out ->
  Forall (fun ob => o_size ob mod 8 = 0)
    (stage_objects E sf sa h nr c y sim_opts sim_mem sim_ws sim_model sim_in sim_out).
Proof. exact stage_objects_8. Qed.
Print Assumptions C03_sizes.

(** Nesting: carving a sub-object inside its block leaves everything inside and apart. *)
Theorem C03_nested : forall base size l1 b l2 ob,
  carved_within base size (l1 ++ b :: l2)%list -> blk_len b = o_size ob ->
  (carved_within (blk_start b) (o_size ob) (blocks (o_ops ob) (blk_start b)) /\
   (blk_start b mod 8 = 0 -> Forall aligned (blocks (o_ops ob) (blk_start b)))) ->
  carved_within base size (l1 ++ blocks (o_ops ob) (blk_start b) ++ l2)%list /\
  (blk_kind b = KSub8 -> aligned b -> Forall aligned (blocks (o_ops ob) (blk_start b))).
Proof. exact nested_ok. Qed.
Print Assumptions C03_nested.

(** The Jacobian written by the discrete dynamics' fun-and-adjoint evaluation has [nu+nx] rows and
    [nx1] columns; its buffer was sized for [nu+nx] columns. *)
Theorem C03_disc_jacobian_refuted : exists E y, env_ok E /\ dyn_ok y /\ forall sa base b,
  In b (blocks (o_ops (disc_ws_obj E sa y)) base) -> blk_kind b = KDmatMem -> blk_len b < disc_jac_bytes y.
Proof. exact disc_jac_overrun. Qed.
Print Assumptions C03_disc_jacobian_refuted.
Theorem C03_disc_jacobian_partial : forall E sa y base, env_ok E -> dyn_ok y -> y_nx1 y <= y_nu y + y_nx y ->
  forall b, In b (blocks (o_ops (disc_ws_obj E sa y)) base) -> blk_kind b = KDmatMem ->
  disc_jac_bytes y <= blk_len b.
Proof. exact disc_jac_fits. Qed.
Print Assumptions C03_disc_jacobian_partial.

(** C02 for the options object with discrete dynamics at every stage. *)
Theorem C02_opts_discrete : forall E d base, env_ok E ->
  carved_within base (opts_size_with E d (fun _ => 20)) (blocks (opts_assign_with E d (fun _ => KIntStruct) (fun _ => 20)) base) /\
  Forall aligned (blocks (opts_assign_with E d (fun _ => KIntStruct) (fun _ => 20)) base).
Proof. exact opts_disc_ok. Qed.
Print Assumptions C02_opts_discrete.
(** With a discrete stage before a continuous one, the options struct of the latter, which starts
    with a pointer, is misaligned from every base address. *)
Theorem C02_opts_mixed_refuted : forall E d, env_ok E -> (1 < dN d)%nat -> forall base, exists b,
  let dyn := fun i => if Nat.eqb i 0 then 20 else sub E "dynamics_opts" i in
  In b (blocks (opts_assign_with E d (fun i => if Nat.eqb i 0 then KIntStruct else KSub8) dyn) base) /\
  blk_kind b = KSub8 /\ blk_len b = sub E "dynamics_opts" 1 /\ blk_start b mod 8 = 4.
Proof. exact opts_mixed_misaligned. Qed.
Print Assumptions C02_opts_mixed_refuted.

(** Nonlinear least-squares and convex-over-nonlinear costs announce 20 bytes of dims: for every
    even horizon the dims of the QP solver, cast at once to a struct with pointers, start at an
    address congruent 4 modulo 8. *)
Theorem C02_dims_qp_refuted : forall E d dyn con qp rqp base,
  Nat.even (dN d) = true -> base mod 8 = 0 ->
  (forall i, dyn i mod 8 = 0) -> (forall i, con i mod 8 = 0) ->
  exists b, In b (blocks (dims_assign E d dyn (fun _ => 20) con qp rqp) base) /\ blk_kind b = KSub8 /\
            blk_len b = qp /\ blk_start b mod 8 = 4.
Proof. exact dims_qp_misaligned. Qed.
Print Assumptions C02_dims_qp_refuted.
