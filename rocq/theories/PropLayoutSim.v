(** Properties C69 and C70: memory layout of the integrator objects. *)
From Coq Require Import ZArith String List Lia Bool.
From Verif Require Import Layout LayoutNlp LayoutEnv LayoutSolver LayoutMod LayoutModProofs LayoutSim LayoutSimProofs LayoutSimTop.
Import ListNotations.
Open Scope string_scope.
Open Scope Z_scope.

(** C69: the input, output, options, model, memory and workspace objects of the four integrators are
    carved inside the announced sizes without overlap; from an 8-aligned base every field is aligned. *)
Theorem C69_objects : forall E d o model base, env_ok E -> sim_ok d -> sopts_ok o -> size_ok model ->
  Forall (fun ob => carved_within base (o_size ob) (blocks (o_ops ob) base) /\
                    (base mod 8 = 0 -> Forall aligned (blocks (o_ops ob) base)))
    (sim_objects E d o model).
Proof. exact sim_objects_ok. Qed.
Print Assumptions C69_objects.
(** sizes of the ERK and IRK workspaces for one state, one control, four stages and ten steps *)
Example C69_case : let o := mkSimOpts 4 10 2 true false true true true true true true true in
  env_ok env64 /\ sim_ok (mkSimDims 1 1 1 1 1 1 0 1 1) /\ sopts_ok o /\
  o_size (erk_ws_obj env64 (mkSimDims 1 1 1 1 1 1 0 1 1) o) = 1552 /\
  o_size (irk_ws_obj env64 (mkSimDims 1 1 1 1 1 1 0 1 1) o) = 15552.
Proof. exact (conj env64_ok (conj sim_case_ok (conj sopts_case_ok (conj eq_refl eq_refl)))). Qed.

(** the work array of the tableau computation holds both its users *)
Theorem C69_tableau_work : forall n base, 0 <= n ->
  Forall (fun ob => carved_within base (o_size ob) (blocks (o_ops ob) base) /\
                    (base mod 8 = 0 -> Forall aligned (blocks (o_ops ob) base)))
    [tableau_work_obj n; legendre_work_obj n].
Proof. exact tableau_ok. Qed.
Print Assumptions C69_tableau_work.
Example C69_tableau_case : o_size (tableau_work_obj 1) = 48 /\ o_size (tableau_work_obj 15) = 5464.
Proof. exact (conj eq_refl eq_refl). Qed.

(** the continuous-time dynamics module around any of the four integrators *)
Theorem C69_dynamics : forall E sa y d o k base, env_ok E -> dyn_ok y -> sim_ok d -> sopts_ok o ->
  Forall (fun ob => carved_within base (o_size ob) (blocks (o_ops ob) base) /\
                    (base mod 8 = 0 -> Forall aligned (blocks (o_ops ob) base)))
    (cont_objects E sa y d o k).
Proof. exact cont_objects_ok. Qed.
Print Assumptions C69_dynamics.

(** C70. Full statement: when [ocp_nlp_dynamics_cont_compute_fun] or [.._compute_fun_and_adj] changes
    the sensitivity options for one evaluation, the integrator still carves its workspace inside the
    size announced with the original options.
    True for the residual evaluation, whatever was announced: *)
Theorem C70_compute_fun : forall E, env_ok E -> forall d, sim_ok d -> forall o, sopts_ok o -> (1 <= num_steps o)%nat ->
  forall k base,
  carved_within base (o_size (sim_ws_obj E d o k)) (blocks (o_ops (sim_ws_obj E d (no_sens o) k)) base) /\
  (base mod 8 = 0 -> Forall aligned (blocks (o_ops (sim_ws_obj E d (no_sens o) k)) base)).
Proof. exact compute_fun_ok. Qed.
Print Assumptions C70_compute_fun.

(** With adjoints: true if the workspace was announced with adjoints or Hessians. *)
Theorem C70_compute_adj_partial : forall E, env_ok E -> forall d, sim_ok d -> forall o, sopts_ok o -> (1 <= num_steps o)%nat ->
  sens_adj o = true \/ sens_hess o = true -> forall k base,
  carved_within base (o_size (sim_ws_obj E d o k)) (blocks (o_ops (sim_ws_obj E d (adj_only o) k)) base) /\
  (base mod 8 = 0 -> Forall aligned (blocks (o_ops (sim_ws_obj E d (adj_only o) k)) base)).
Proof. exact compute_adj_ok. Qed.
Print Assumptions C70_compute_adj_partial.

(** Announced with forward sensitivities only, the default: for ERK exactly when the inequality
    holds (in doubles; the last summand is the alignment reserve). *)
Theorem C70_adj_erk_exact : forall E d o base, env_ok E -> sim_ok d -> sopts_ok o -> base mod 8 = 0 ->
  sens_forw_x o = true -> sens_forw_p o = false -> sens_adj o = false -> sens_hess o = false ->
  let nx := s_nx d in let nu := s_nu d in let ns := s_ns o in let st := Z.of_nat (num_steps o) in
  let nX := nx * (1 + num_forw_sens o) in
  (carved_within base (o_size (erk_ws_obj E d o)) (blocks (o_ops (erk_ws_obj E d (adj_only o))) base) <->
   (nx + nu) + ns * st * nx + (st + 1) * nx + (2 * nx + nu) + (nu + nx) + ns * (nu + nx)
     <= (nX + nu) + ns * nX + nX + 1).
Proof. exact erk_adj_exact. Qed.
Print Assumptions C70_adj_erk_exact.
(** one state, one control, four stages: one step is already too much *)
Example C70_erk_case :
  ~ (1 + 1) + 4 * 1 * 1 + (1 + 1) * 1 + (2 * 1 + 1) + (1 + 1) + 4 * (1 + 1) <= (3 + 1) + 4 * 3 + 3 + 1.
Proof. exact erk_case. Qed.

(** For IRK whenever the adjoint trajectory needs more than the alignment reserve. *)
Theorem C70_adj_irk_refuted : forall E d o base, env_ok E -> sim_ok d -> sopts_ok o ->
  sens_adj o = false -> sens_hess o = false ->
  135 < Z.of_nat (num_steps o) *
        (2 * so E "blasfeo_dvec" + ms_dvec E (s_nx d) + ms_dvec E ((s_nx d + s_nz d) * s_ns o)) ->
  ~ carved_within base (o_size (irk_ws_obj E d o)) (blocks (o_ops (irk_ws_obj E d (adj_only o))) base).
Proof. exact irk_adj_overrun. Qed.
Print Assumptions C70_adj_irk_refuted.
Example C70_irk_case : 135 < Z.of_nat 1 * (2 * so env64 "blasfeo_dvec" + ms_dvec env64 1 + ms_dvec env64 4).
Proof. exact irk_case. Qed.

(** The overrun is not absorbed by the surrounding workspace of the dynamics module. *)
Theorem C70_adj_module_refuted : exists E y d o, env_ok E /\ dyn_ok y /\ sim_ok d /\ sopts_ok o /\
  y_nx y = s_nx d /\ y_nu y = s_nu d /\ y_nx1 y = s_nx d /\ num_forw_sens o = s_nx d + s_nu d /\
  sens_forw_x o = true /\ sens_adj o = false /\ sens_hess o = false /\
  forall base, base mod 8 = 0 -> exists ws b,
    In ws (blocks (o_ops (cont_ws_of E y d o ERK)) base) /\ blk_kind ws = KSub8 /\
    blk_len ws = o_size (sim_ws_obj E d o ERK) /\
    In b (blocks (o_ops (sim_ws_obj E d (adj_only o) ERK)) (blk_start ws)) /\
    base + o_size (cont_ws_of E y d o ERK) < blk_start b + blk_len b.
Proof. exact erk_adj_module. Qed.
Print Assumptions C70_adj_module_refuted.
