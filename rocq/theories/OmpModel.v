(** The loops over the stages that acados runs under [#pragma omp], with every cell of memory they touch.

    Source: acados/ocp_nlp/ocp_nlp_common.c, ocp_nlp_sqp_rti.c,
    ocp_nlp_sqp_with_feasible_qp.c, ocp_nlp_globalization_merit_backtracking.c,
    ocp_nlp_globalization_funnel.c, acados/ocp_qp/ocp_qp_common.c.

    Dimensions are read-only and kept outside the memory.  A matrix is a row
    of cells like a vector.  The modules (dynamics, cost, constraints) are
    arbitrary programs; they reach the rest of the solver through the pointer
    members of their memory structs, as in C. *)
From Coq Require Import ZArith List Bool Lia.
From Verif Require Import FP Par.
Import ListNotations.
Open Scope nat_scope.

(** the three kinds of modules of a stage *)
Inductive modl := Dyn | Cost | Con.

(** pointer members of ocp_nlp_dynamics_cont_memory (ocp_nlp_dynamics_cont.h), ocp_nlp_cost_*_memory
    and ocp_nlp_constraints_bgh_memory *)
Inductive member :=
  p_ux | p_ux1 | p_pi | p_lam | p_BAbt | p_RSQrq | p_DCt | p_Z | p_dzduxt | p_sim_guess | p_set_sim_guess | p_z_alg
| p_idxb | p_idxs_rev | p_idxe
| p_cost_grad | p_cost_fun | p_y_ref | p_W_chol | p_W_chol_diag | p_outer_diag | p_cost_scaling | p_add_hess
| p_jac_dyn | p_jac_lag | p_jac_ineq | p_adj_lag.

(** the two iterates: nlp_out and nlp_work->tmp_nlp_out *)
Inductive iterate := Out | Tmp.
(** members of ocp_qp_out *)
Inductive qpo := q_ux | q_pi | q_lam | q_t.
(** the ocp_qp_out structs: nlp_mem->qp_out, prev_qp_out, anderson_step, nlp_work->tmp_qp_out *)
Inductive qpos := Step | Prev | Ander | TmpQp.
(** C variables of the enclosing function *)
Inductive local := l_ni_stage | l_tmp_nbg | l_out | l_nxu | l_sum.

(** arrays with one entry per stage *)
Inductive arr :=
(* ocp_nlp_out *)
| A_ux (o : iterate) | A_pi (o : iterate) | A_lam (o : iterate) | A_z (o : iterate)
(* ocp_qp_out *)
| A_qpo (q : qpos) (f : qpo)
(* ocp_qp_in: the QP of the solver (false) and the relaxed QP of SQP_WITH_FEASIBLE_QP (true) *)
| A_BAbt | A_RSQrq (r : bool) | A_DCt | A_Z (r : bool) | A_b | A_rqz (r : bool) | A_d (r : bool)
| A_idxb | A_idxs_rev | A_idxe | A_diag_H_flag
(* qp_in->d_mask, the pointer to the array of masks, and nlp_in->dmask itself *)
| A_d_mask_ptr | A_dmask
(* ocp_nlp_memory *)
| A_dzduxt | A_sim_guess | A_set_sim_guess | A_z_alg | A_cost_grad | A_dyn_fun | A_dyn_adj | A_ineq_fun | A_ineq_adj
| A_jac_lag | A_jac_dyn | A_jac_ineq | A_out_np_global
(* ocp_nlp_in *)
| A_Ts
(* ocp_nlp_sqp_wfqp_memory *)
| A_RSQ_cost | A_RSQ_constr | A_Z_cost
(* of a module: pointer members, other memory, model, options, workspace, external functions of the model *)
| A_ptr (m : modl) (f : member) | A_mem (m : modl) (k : nat) | A_model (m : modl) (k : nat) | A_opts (m : modl) (k : nat)
| A_work (m : modl) (k : nat) | A_ext (m : modl) (k : nat)
(* ocp_nlp_workspace *)
| A_tmp_2ni
(* stack of the function *)
| A_loc (v : local).

(** a cell: array, stage, position *)
Definition loc := (arr * nat * nat)%type.
Definition iterate_dec (a b : iterate) : {a = b} + {a <> b}. Proof. decide equality. Defined.
Definition qpos_dec (a b : qpos) : {a = b} + {a <> b}. Proof. decide equality. Defined.
Definition arr_dec (a b : arr) : {a = b} + {a <> b}.
Proof. decide equality; solve [apply Nat.eq_dec | apply bool_dec | decide equality]. Defined.
Definition loc_dec (a b : loc) : {a = b} + {a <> b}.
Proof. decide equality; [apply Nat.eq_dec|decide equality; [apply Nat.eq_dec|apply arr_dec]]. Defined.

(** content of a cell: a double, an int, or the address of an array at a stage *)
Inductive val := D (x : double) | I (z : Z) | P (a : arr) (i : nat).
Definition num (v : val) : double := match v with D x => x | _ => fnan end.

Notation prog := (prog loc val).
Notation store := (store loc val).
Notation phase := (phase loc val).

(* ------------------------------------------------------------------ *)
(** * Kernels of blasfeo *)

(** position k of a vector given by its first cell *)
Definition at_ (x : loc) (k : nat) : loc := match x with (a, i, o) => (a, i, o + k) end.
(** for (k = 0; k < n; k++) body(k) *)
Definition each (n : nat) (body : nat -> prog) : prog := chain (map body (seq 0 n)).
(** two pieces of code in sequence *)
Infix ";;" := andthen (at level 60, right associativity).
(** if (b) p *)
Definition when (b : bool) (p : prog) : prog := if b then p else Ret.

(** blasfeo_dvecse(n, v, y) *)
Definition vecse (n : nat) (v : val) (y : loc) : prog := each n (fun k => Write (at_ y k) v Ret).
(** blasfeo_dveccp(n, x, y) *)
Definition veccp (n : nat) (x y : loc) : prog := each n (fun k => Read (at_ x k) (fun v => Write (at_ y k) v Ret)).
(** blasfeo_dvecsc(n, alpha, x) *)
Definition vecsc (n : nat) (al : double) (x : loc) : prog :=
  each n (fun k => Read (at_ x k) (fun v => Write (at_ x k) (D (fmul al (num v))) Ret)).
(** blasfeo_daxpy(n, alpha, x, y, z): z = y + alpha * x *)
Definition axpy (n : nat) (al : double) (x y z : loc) : prog :=
  each n (fun k => Read (at_ x k) (fun v => Read (at_ y k) (fun w => Write (at_ z k) (D (fadd (num w) (fmul al (num v)))) Ret))).
(** blasfeo_dvecad(n, alpha, x, y): y += alpha * x *)
Definition vecad (n : nat) (al : double) (x y : loc) : prog := axpy n al x y y.
(** blasfeo_daxpby(n, alpha, x, beta, y, z): z = beta * y + alpha * x *)
Definition axpby (n : nat) (al : double) (x : loc) (be : double) (y z : loc) : prog :=
  each n (fun k => Read (at_ x k) (fun v => Read (at_ y k) (fun w =>
    Write (at_ z k) (D (fadd (fmul be (num w)) (fmul al (num v)))) Ret))).
(** blasfeo_ddot(n, x, y), the sum kept in a register, then what is done with it *)
Fixpoint dot_from (n : nat) (x y : loc) (acc : double) (k : nat) (c : double -> prog) : prog :=
  match n with
  | O => c acc
  | S n => Read (at_ x k) (fun v => Read (at_ y k) (fun w => dot_from n x y (fadd acc (fmul (num v) (num w))) (S k) c))
  end.
Definition dot (n : nat) (x y : loc) (c : double -> prog) : prog := dot_from n x y f0 0 c.
(** a kernel that reads cells, computes, and writes cells: dgemv_n, dgemv_t, dsymv_l, dgese, ddiare, ... *)
Fixpoint reads (ls : list loc) (acc : list val) (c : list val -> prog) : prog :=
  match ls with [] => c (rev acc) | l :: r => Read l (fun v => reads r (v :: acc) c) end.
Fixpoint writes (ls : list loc) (vs : list val) : prog :=
  match ls, vs with l :: r, v :: w => Write l v (writes r w) | _, _ => Ret end.
Definition kern (f : list val -> list val) (ins outs : list loc) : prog := reads ins [] (fun vs => writes outs (f vs)).
(** the first n cells from a place *)
Definition cells (n : nat) (x : loc) : list loc := map (at_ x) (seq 0 n).

(* ------------------------------------------------------------------ *)
(** * Modules *)

(** what the code of a module refers to: data behind one of the pointers of its memory; its memory, model,
    options, workspace; the memory of its external functions *)
Inductive mref := Via (f : member) | Mem (k : nat) | Model (k : nat) | Opts (k : nat) | Work (k : nat) | Ext (k : nat).
(** the code of a module *)
Inductive mprog := MRet | MGet (x : mref) (k : nat) (c : val -> mprog) | MPut (x : mref) (k : nat) (v : val) (c : mprog).

(** where the workspaces of the modules are: ocp_nlp_common.c:2450-2532 (the same for the workspaces of the
    external functions: 2543-2600).  With [reuse] and a library built without OpenMP all modules of all stages
    have the same workspace *)
Definition work_loc (omp reuse : bool) (m : modl) (i k : nat) : arr * nat :=
  if reuse && negb omp then (A_work Dyn k, 0) else (A_work m k, i).
Definition ext_loc (omp reuse : bool) (m : modl) (i k : nat) : arr * nat :=
  if reuse && negb omp then (A_ext Dyn k, 0) else (A_ext m k, i).

Section Build.
Context (omp reuse : bool).

(** code of module m of stage i *)
Fixpoint call (m : modl) (i : nat) (p : mprog) : prog :=
  match p with
  | MRet => Ret
  | MGet (Via f) k c => Read (A_ptr m f, i, 0) (fun v => match v with P a j => Read (a, j, k) (fun w => call m i (c w)) | _ => Err end)
  | MPut (Via f) k v c => Read (A_ptr m f, i, 0) (fun w => match w with P a j => Write (a, j, k) v (call m i c) | _ => Err end)
  | MGet (Mem j) k c => Read (A_mem m j, i, k) (fun w => call m i (c w))
  | MPut (Mem j) k v c => Write (A_mem m j, i, k) v (call m i c)
  | MGet (Model j) k c => Read (A_model m j, i, k) (fun w => call m i (c w))
  | MPut (Model j) k v c => Write (A_model m j, i, k) v (call m i c)
  | MGet (Opts j) k c => Read (A_opts m j, i, k) (fun w => call m i (c w))
  | MPut (Opts j) k v c => Write (A_opts m j, i, k) v (call m i c)
  | MGet (Work j) k c => Read (work_loc omp reuse m i j, k) (fun w => call m i (c w))
  | MPut (Work j) k v c => Write (work_loc omp reuse m i j, k) v (call m i c)
  | MGet (Ext j) k c => Read (ext_loc omp reuse m i j, k) (fun w => call m i (c w))
  | MPut (Ext j) k v c => Write (ext_loc omp reuse m i j, k) v (call m i c)
  end.

(** the functions of the modules that the loops call *)
Inductive fn := initialize | update_qp_matrices | update_qp_vectors | compute_fun | compute_gradient | compute_fun_and_adj | compute_jac.
(** their code, by module, stage and function *)
Context (code : modl -> nat -> fn -> mprog).
Definition C (m : modl) (i : nat) (f : fn) : prog := call m i (code m i f).

(** members the modules hand out addresses of: fun and grad/adj; for an integrated cost also y_ref, W_chol,
    W_chol_diag, outer_hess_is_diag, scaling, and add_hess_contribution *)
Definition m_fun := 0. Definition m_grad := 1. Definition m_adj := 1.
Definition m_W_chol := 2. Definition m_W_chol_diag := 3. Definition m_outer_diag := 4.
Definition mo_y_ref := 0. Definition mo_scaling := 1. Definition mo_T := 2.
Definition o_add_hess := 0. Definition o_cost_computation := 1.

(* dimensions: ocp_nlp_dims *)
Context (N : nat) (nx nu nz ns ni nv nns : nat -> nat).
(* options *)
Context (sens_forw sens_adj : bool).

Definition v_ (a : arr) (i : nat) : loc := (a, i, 0).
Definition vo (a : arr) (i o : nat) : loc := (a, i, o).

(* ------------------------------------------------------------------ *)
(** * ocp_nlp_alias_memory_to_submodules (ocp_nlp_common.c:2777-2913) *)

Definition setp (m : modl) (i : nat) (f : member) (a : arr) (j : nat) : prog := Write (A_ptr m f, i, 0) (P a j) Ret.

(** 2797-2842 *)
Definition alias_dyn (i : nat) : prog :=
  setp Dyn i p_ux (A_ux Out) i ;; setp Dyn i p_ux1 (A_ux Out) (i + 1) ;; setp Dyn i p_pi (A_pi Out) i ;;
  setp Dyn i p_BAbt A_BAbt i ;; setp Dyn i p_RSQrq (A_RSQrq false) i ;; setp Dyn i p_dzduxt A_dzduxt i ;;
  setp Dyn i p_sim_guess A_sim_guess i ;; setp Dyn i p_set_sim_guess A_set_sim_guess i ;;
  setp Dyn i p_z_alg A_z_alg i ;;
  when sens_forw (setp Dyn i p_jac_dyn A_jac_dyn i ;; setp Dyn i p_jac_lag A_jac_lag i) ;;
  when sens_adj (setp Dyn i p_adj_lag A_out_np_global 0) ;;
  Read (A_opts Dyn o_cost_computation, i, 0) (fun c =>
    match c with
    | I 0 => Ret
    | I _ =>
      setp Dyn i p_cost_grad (A_mem Cost m_grad) i ;; setp Dyn i p_cost_fun (A_mem Cost m_fun) i ;;
      setp Dyn i p_y_ref (A_model Cost mo_y_ref) i ;; setp Dyn i p_W_chol (A_mem Cost m_W_chol) i ;;
      setp Dyn i p_W_chol_diag (A_mem Cost m_W_chol_diag) i ;; setp Dyn i p_outer_diag (A_mem Cost m_outer_diag) i ;;
      setp Dyn i p_cost_scaling (A_model Cost mo_scaling) i ;; setp Dyn i p_add_hess (A_opts Cost o_add_hess) i
    | _ => Err
    end).
(** 2849-2863 *)
Definition alias_cost (i : nat) : prog :=
  when sens_forw (setp Cost i p_jac_lag A_jac_lag i) ;;
  when sens_adj (setp Cost i p_adj_lag A_out_np_global 0) ;;
  setp Cost i p_ux (A_ux Out) i ;; setp Cost i p_z_alg A_z_alg i ;; setp Cost i p_dzduxt A_dzduxt i ;;
  setp Cost i p_RSQrq (A_RSQrq false) i ;; setp Cost i p_Z (A_Z false) i.
(** 2870-2891 *)
Definition alias_con (i : nat) : prog :=
  setp Con i p_ux (A_ux Out) i ;; setp Con i p_lam (A_lam Out) i ;; setp Con i p_z_alg A_z_alg i ;;
  setp Con i p_dzduxt A_dzduxt i ;; setp Con i p_DCt A_DCt i ;; setp Con i p_RSQrq (A_RSQrq false) i ;;
  setp Con i p_idxb A_idxb i ;; setp Con i p_idxs_rev A_idxs_rev i ;; setp Con i p_idxe A_idxe i ;;
  when sens_forw (setp Con i p_jac_lag A_jac_lag i ;; setp Con i p_jac_ineq A_jac_ineq i) ;;
  when sens_adj (setp Con i p_adj_lag A_out_np_global 0).
(** 2894: executed by every thread of the region *)
Definition alias_mask : prog := Write (A_d_mask_ptr, 0, 0) (P A_dmask 0) Ret.
(** 2902-2906 *)
Definition alias_T (i : nat) : prog := Read (A_Ts, i, 0) (fun v => Write (A_model Dyn mo_T, i, 0) v Ret).
(** one thread of the region: its share of the four loops, none of which waits for the other threads *)
Definition alias_thread (c : list nat * list nat * list nat * list nat) : prog :=
  match c with (c1, c2, c3, c4) =>
    chain (map alias_dyn c1) ;; chain (map alias_cost c2) ;; chain (map alias_con c3) ;; alias_mask ;; chain (map alias_T c4)
  end.
Definition alias_fair (plan : list (list nat * list nat * list nat * list nat)) : Prop :=
  fair_plan N (map (fun c => fst (fst (fst c))) plan) /\ fair_plan (N + 1) (map (fun c => snd (fst (fst c))) plan) /\
  fair_plan (N + 1) (map (fun c => snd (fst c)) plan) /\ fair_plan N (map snd plan).
(** the region under any number of threads *)
Definition alias_exec (s s' : store) : Prop :=
  exists plan ps, plan <> [] /\ alias_fair plan /\ steps loc_dec (map alias_thread plan, s) (ps, s') /\ ended ps.
(** the function without OpenMP *)
Definition alias_sequential : prog := alias_thread (seq 0 N, seq 0 (N + 1), seq 0 (N + 1), seq 0 N).

(** ocp_nlp_set_primal_variable_pointers_in_submodules (2741-2756); not parallel *)
Definition set_primal (o : iterate) : prog :=
  chain (map (fun i => setp Dyn i p_ux (A_ux o) i ;; setp Dyn i p_ux1 (A_ux o) (i + 1)) (seq 0 N)) ;;
  chain (map (fun i => setp Cost i p_ux (A_ux o) i ;; setp Con i p_ux (A_ux o) i) (seq 0 (N + 1))).

(* ------------------------------------------------------------------ *)
(** * Linearisation *)

(** ocp_nlp_initialize_submodules (2916-2944) *)
Definition initialize_submodules : list phase :=
  [Par (N + 1) (fun i => C Cost i initialize ;; when (i <? N) (C Dyn i initialize) ;; C Con i initialize)].

(** ocp_nlp_approximate_qp_matrices (3016-3098) without collect_integrator_timings *)
Definition collect_adj (i : nat) : prog :=
  (if i <? N then veccp (nu i + nx i) (v_ (A_mem Dyn m_adj) i) (v_ A_dyn_adj i)
   else vecse (nu N + nx N) (D f0) (v_ A_dyn_adj N)) ;;
  when (0 <? i) (axpy (nx i) f1 (vo (A_mem Dyn m_adj) (i - 1) (nu (i - 1) + nx (i - 1))) (vo A_dyn_adj i (nu i)) (vo A_dyn_adj i (nu i))).
Definition approximate_qp_matrices : list phase :=
  [Par (N + 1) (fun i => when (i <? N) (C Dyn i update_qp_matrices) ;; C Cost i update_qp_matrices ;; C Con i update_qp_matrices);
   Par (N + 1) (fun i =>
     veccp (nv i) (v_ (A_mem Cost m_grad) i) (v_ A_cost_grad i) ;;
     when (i <? N) (veccp (nx (i + 1)) (v_ (A_mem Dyn m_fun) i) (v_ A_dyn_fun i)) ;;
     collect_adj i ;;
     veccp (nv i) (v_ (A_mem Con m_adj) i) (v_ A_ineq_adj i))].

(** ocp_nlp_approximate_qp_vectors_sqp (3106-3138) *)
Definition approximate_qp_vectors : list phase :=
  [Par (N + 1) (fun i =>
     veccp (nv i) (v_ A_cost_grad i) (v_ (A_rqz false) i) ;;
     when (i <? N) (veccp (nx (i + 1)) (v_ A_dyn_fun i) (v_ A_b i)) ;;
     C Con i update_qp_vectors ;;
     veccp (2 * ni i) (v_ (A_mem Con m_fun) i) (v_ A_ineq_fun i) ;;
     veccp (2 * ni i) (v_ A_ineq_fun i) (v_ (A_d false) i))].

(* ------------------------------------------------------------------ *)
(** * Updates of the real-time iterations *)

(** the arithmetic of the matrix-vector kernels *)
Context (gemv : list val -> list val).

Definition con_fun (i : nat) : prog :=
  C Con i compute_fun ;;
  veccp (2 * ni i) (v_ (A_mem Con m_fun) i) (v_ (A_d false) i) ;;
  veccp (2 * ni i) (v_ (A_mem Con m_fun) i) (v_ A_ineq_fun i).
(** ocp_nlp_zero_order_qp_update (3142-3190) *)
Definition zero_order_qp_update : list phase :=
  [Par (N + 1) con_fun;
   Par N (fun i =>
     C Dyn i compute_fun ;;
     veccp (nx (i + 1)) (v_ (A_mem Dyn m_fun) i) (v_ A_b i) ;; veccp (nx (i + 1)) (v_ (A_mem Dyn m_fun) i) (v_ A_dyn_fun i));
   Seq (each (N + 1) (fun i => let n := nx i + nu i in
     kern gemv (cells (n * n) (v_ (A_RSQrq false) i) ++ cells n (v_ (A_qpo Step q_ux) i) ++ cells n (v_ (A_rqz false) i)) (cells n (v_ (A_rqz false) i))))].
(** ocp_nlp_level_c_update (3194-3264) *)
Definition level_c_update : list phase :=
  [Par (N + 1) con_fun;
   Par (N + 1) (fun i =>
     C Cost i compute_gradient ;;
     veccp (nv i) (v_ (A_mem Cost m_grad) i) (v_ A_cost_grad i) ;; veccp (nv i) (v_ A_cost_grad i) (v_ (A_rqz false) i));
   Par N (fun i =>
     C Dyn i compute_fun_and_adj ;;
     veccp (nx (i + 1)) (v_ (A_mem Dyn m_fun) i) (v_ A_b i) ;; veccp (nx (i + 1)) (v_ (A_mem Dyn m_fun) i) (v_ A_dyn_fun i) ;;
     vecad (nu i + nx i) (fopp f1) (v_ (A_mem Dyn m_adj) i) (v_ (A_rqz false) i) ;;
     kern gemv (cells ((nu i + nx i) * nx (i + 1)) (v_ A_BAbt i) ++ cells (nx (i + 1)) (v_ (A_pi Out) i) ++ cells (nu i + nx i) (v_ (A_rqz false) i))
       (cells (nu i + nx i) (v_ (A_rqz false) i)))].
(** prepare_full_residual_computation (ocp_nlp_sqp_rti.c:396-452; the loop at 763-795 is the same) *)
Definition full_residual : list phase :=
  [Seq (chain (map (fun i => C Dyn i compute_fun_and_adj) (seq 0 N)));
   Seq (chain (map (fun i => C Con i update_qp_matrices ;; veccp (nv i) (v_ (A_mem Con m_adj) i) (v_ A_ineq_adj i)) (seq 0 (N + 1))));
   Par (N + 1) (fun i =>
     C Cost i compute_gradient ;; veccp (nv i) (v_ (A_mem Cost m_grad) i) (v_ A_cost_grad i) ;; collect_adj i)].

(* ------------------------------------------------------------------ *)
(** * Steps and trial points *)

(** linear update of z *)
Definition z_update (q : qpos) (o : iterate) (i : nat) : prog :=
  kern gemv (cells ((nu i + nx i) * nz i) (v_ A_dzduxt i) ++ cells (nu i + nx i) (v_ (A_qpo q q_ux) i) ++ cells (nz i) (v_ A_z_alg i)) (cells (nz i) (v_ (A_z o) i)).
(** ocp_nlp_update_variables_sqp (3292-3350) from out_start = nlp_out *)
Definition update_variables (dest : iterate) (alpha : double) (full_step_dual : bool) : list phase :=
  [Par (N + 1) (fun i =>
     axpy (nv i) alpha (v_ (A_qpo Step q_ux) i) (v_ (A_ux Out) i) (v_ (A_ux dest) i) ;;
     (if full_step_dual then
        veccp (2 * ni i) (v_ (A_qpo Step q_lam) i) (v_ (A_lam dest) i) ;;
        when (i <? N) (veccp (nx (i + 1)) (v_ (A_qpo Step q_pi) i) (v_ (A_pi dest) i))
      else
        axpby (2 * ni i) (fsub f1 alpha) (v_ (A_lam Out) i) alpha (v_ (A_qpo Step q_lam) i) (v_ (A_lam dest) i) ;;
        when (i <? N) (axpby (nx (i + 1)) (fsub f1 alpha) (v_ (A_pi Out) i) alpha (v_ (A_qpo Step q_pi) i) (v_ (A_pi dest) i))) ;;
     when (i <? N) (z_update Step dest i))].
(** ocp_nlp_convert_primaldelta_absdual_step_to_delta_step (3384-3404) *)
Definition to_delta (q : qpos) : list phase :=
  [Par (N + 1) (fun i =>
     vecad (2 * ni i) (fopp f1) (v_ (A_lam Out) i) (v_ (A_qpo q q_lam) i) ;;
     when (i <? N) (vecad (nx (i + 1)) (fopp f1) (v_ (A_pi Out) i) (v_ (A_qpo q q_pi) i)))].
(** ocp_nlp_update_variables_sqp_delta_primal_dual (3407-3439) *)
Definition update_delta (q : qpos) (alpha : double) : list phase :=
  [Par (N + 1) (fun i =>
     axpy (nv i) alpha (v_ (A_qpo q q_ux) i) (v_ (A_ux Out) i) (v_ (A_ux Out) i) ;;
     axpy (2 * ni i) alpha (v_ (A_qpo q q_lam) i) (v_ (A_lam Out) i) (v_ (A_lam Out) i) ;;
     when (i <? N) (axpy (nx (i + 1)) alpha (v_ (A_qpo q q_pi) i) (v_ (A_pi Out) i) (v_ (A_pi Out) i) ;; z_update q Out i))].
(** evaluation of a trial point: ocp_nlp_globalization_funnel.c:455-497 and
    ocp_nlp_globalization_merit_backtracking.c:619-662; the sum of the stage costs is computed after the loops *)
Definition sum_costs : prog :=
  Write (v_ (A_loc l_sum) 0) (D f0) Ret ;;
  each (N + 1) (fun i => Read (v_ (A_loc l_sum) 0) (fun s => Read (v_ (A_mem Cost m_fun) i) (fun c => Write (v_ (A_loc l_sum) 0) (D (fadd (num s) (num c))) Ret))).
Definition eval_trial : list phase :=
  [Seq (set_primal Tmp);
   Par N (fun i => C Dyn i compute_fun);
   Par (N + 1) (fun i => C Cost i compute_fun);
   Par (N + 1) (fun i => C Con i compute_fun);
   Seq (set_primal Out);
   Seq sum_costs].

(** ocp_nlp_params_jac_compute (3990-4036) *)
Definition params_jac (np_global : nat) (zeros : list val -> list val) : list phase :=
  [Par (N + 1) (fun i =>
     (if i <? N then
        kern zeros [] (cells (2 * ns i * np_global) (vo A_jac_lag i (nx i + nu i))) ;; C Dyn i compute_jac
      else kern zeros [] (cells (nv i * np_global) (v_ A_jac_lag i))) ;;
     C Cost i compute_jac ;; C Con i compute_jac)].

(** setup of the bounds of the relaxed QP (ocp_nlp_sqp_with_feasible_qp.c:1344-1353) *)
Definition relaxed_bounds : list phase :=
  [Par (N + 1) (fun i => let nn := ni i - ns i in
     veccp (2 * nn + ns i) (v_ (A_d false) i) (v_ (A_d true) i) ;;
     veccp (ns i) (vo (A_d false) i (2 * nn + ns i)) (vo (A_d true) i (2 * nn + ns i + nns i)))].

(* ------------------------------------------------------------------ *)
(** * Loops with a variable of the enclosing function *)

(** reads an int *)
Definition get_int (l : loc) (c : nat -> prog) : prog := Read l (fun v => match v with I z => c (Z.to_nat z) | _ => Err end).
Definition set_int (l : loc) (n : nat) : prog := Write l (I (Z.of_nat n)) Ret.

(** the bodies of the loops over an ocp_qp_out: ni_stage is a variable of the function, not of the loop *)
Section QpOut.
Context (kernel : nat -> qpo -> nat -> prog).
Definition ni_stage : loc := v_ (A_loc l_ni_stage) 0.
Definition qp_out_loop : list phase :=
  [Par (N + 1) (fun i =>
     set_int ni_stage (ni i) ;;
     kernel (nx i + nu i + 2 * ns i) q_ux i ;;
     get_int ni_stage (fun n => kernel (2 * n) q_lam i) ;;
     when (i <? N) (kernel (nx (i + 1)) q_pi i) ;;
     get_int ni_stage (fun n => kernel (2 * n) q_t i))].
End QpOut.
(** ocp_qp_out_axpy (ocp_qp_common.c:338-361) *)
Definition qp_out_axpy (alpha : double) (x y z : qpos) : list phase :=
  qp_out_loop (fun n f i => axpy n alpha (v_ (A_qpo x f) i) (v_ (A_qpo y f) i) (v_ (A_qpo z f) i)).
(** ocp_qp_out_set_to_zero (423-446) *)
Definition qp_out_set_to_zero (x : qpos) : list phase := qp_out_loop (fun n f i => vecse n (D f0) (v_ (A_qpo x f) i)).
(** ocp_qp_out_sc (449-472) *)
Definition qp_out_sc (alpha : double) (x : qpos) : list phase := qp_out_loop (fun n f i => vecsc n alpha (v_ (A_qpo x f) i)).
(** ocp_qp_out_add (476-499) *)
Definition qp_out_add (alpha : double) (x y : qpos) : list phase :=
  qp_out_loop (fun n f i => vecad n alpha (v_ (A_qpo x f) i) (v_ (A_qpo y f) i)).

(** ocp_qp_out_ddot (364-420): out, tmp_nbg and the scratch vector work_tmp_2ni are shared by the iterations *)
Definition out_ : loc := v_ (A_loc l_out) 0.
Definition tmp_nbg : loc := v_ (A_loc l_tmp_nbg) 0.
Definition add_out (x : double) : prog := Read out_ (fun o => Write out_ (D (fadd (num o) x)) Ret).
Definition qp_out_ddot (x y : qpos) : list phase :=
  [Seq (Write out_ (D f0) Ret);
   Par (N + 1) (fun i =>
     dot (nx i + nu i + 2 * ns i) (v_ (A_qpo x q_ux) i) (v_ (A_qpo y q_ux) i) add_out ;;
     set_int tmp_nbg (ni i - ns i) ;;
     get_int tmp_nbg (fun g => axpy g (fopp f1) (vo (A_qpo x q_lam) i g) (vo (A_qpo x q_lam) i 0) (vo A_tmp_2ni 0 0)) ;;
     get_int tmp_nbg (fun g => axpy g (fopp f1) (vo (A_qpo y q_lam) i g) (vo (A_qpo y q_lam) i 0) (vo A_tmp_2ni 0 g)) ;;
     get_int tmp_nbg (fun g => dot g (vo A_tmp_2ni 0 0) (vo A_tmp_2ni 0 g) add_out) ;;
     get_int tmp_nbg (fun g => dot (2 * ns i) (vo (A_qpo x q_lam) i (2 * g)) (vo (A_qpo y q_lam) i (2 * g)) add_out) ;;
     when (i <? N) (dot (nx (i + 1)) (v_ (A_qpo x q_pi) i) (v_ (A_qpo y q_pi) i) add_out))].

(** setup_hessian_matrices_for_qps (ocp_nlp_sqp_with_feasible_qp.c:905-941), without the Levenberg-Marquardt term after
    the loop: nxu is a variable of the function *)
Definition nxu : loc := v_ (A_loc l_nxu) 0.
Definition setup_hessians (use_constraint_hessian : bool) : list phase :=
  [Par (N + 1) (fun i =>
     set_int nxu (nx i + nu i) ;;
     when use_constraint_hessian (get_int nxu (fun n => veccp (n * n) (v_ A_RSQ_constr i) (v_ (A_RSQrq true) i))) ;;
     get_int nxu (fun n => veccp (n * n) (v_ A_RSQ_constr i) (v_ (A_RSQrq false) i)) ;;
     get_int nxu (fun n => vecad (n * n) f1 (v_ A_RSQ_cost i) (v_ (A_RSQrq false) i)) ;;
     veccp (2 * ns i) (v_ A_Z_cost i) (v_ (A_Z false) i))].
(** initial_setup_feasibility_qp_objective (1370-1438): the same variable *)
Definition initial_setup (use_constraint_hessian : bool) (h : double) (diag : list val -> list val) : list phase :=
  [Par (N + 1) (fun i =>
     set_int nxu (nx i + nu i) ;;
     get_int nxu (fun n => vecse (n * n) (D f0) (v_ (A_RSQrq true) i)) ;;
     when (negb use_constraint_hessian)
       (get_int nxu (fun n => kern diag [] (cells (n * n) (v_ (A_RSQrq true) i))) ;; Write (v_ A_diag_H_flag i) (I 1) Ret) ;;
     vecse (nns i) (D f0) (vo (A_Z true) i (ns i)) ;;
     vecse (nns i) (D f0) (vo (A_Z true) i (2 * ns i + nns i)) ;;
     (let z := if use_constraint_hessian then D f0 else D h in
      vecse (ns i) z (v_ (A_Z true) i) ;; vecse (ns i) z (vo (A_Z true) i (ns i + nns i))) ;;
     vecse (nx i + nu i + ns i) (D f0) (v_ (A_rqz true) i) ;;
     vecse (ns i) (D f0) (vo (A_rqz true) i (nx i + nu i + ns i + nns i)) ;;
     vecse (nns i) (D f1) (vo (A_rqz true) i (nu i + nx i + ns i)) ;;
     vecse (nns i) (D f1) (vo (A_rqz true) i (nu i + nx i + 2 * ns i + nns i)))].
End Build.
