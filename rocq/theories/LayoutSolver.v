(** calculate_size / assign pairs of the four NLP solvers, the QP scaling, the globalizations and
    the regularizations, in the layout model of Layout.v. *)
From Coq Require Import ZArith List String.
From Verif Require Import Layout LayoutNlp.
Import ListNotations.
Open Scope Z_scope.
Open Scope string_scope.

(** One object: the size announced by its calculate_size function and the carve-out done by its
    assign (or cast_workspace) function. *)
Record obj := mkObj { o_name : string; o_size : Z; o_ops : list op }.

(** Options of the solvers that influence the sizes, beyond [size_opts]. *)
Record solver_opts := mkSolverOpts {
  as_rti_iter : nat;             (* ocp_nlp_sqp_rti.h *)
  rti_log_residuals : bool;      (* ocp_nlp_sqp_rti.h *)
  scale_obj : bool;              (* scale_qp_objective != NO_OBJECTIVE_SCALING *)
  scale_con : bool }.            (* scale_qp_constraints != NO_CONSTRAINT_SCALING *)

(** Dimensions of the constraint modules asked for by the feasible-QP solver, and the general
    constraints of the two QPs. *)
Record wf_dims := mkWf {
  wf_nbu : nat -> Z; wf_nsbu : nat -> Z; wf_nbx : nat -> Z; wf_nsbx : nat -> Z;
  qp_ng : nat -> Z; rqp_ng : nat -> Z }.

Section M.
Variable E : cenv.
Variable d : nlp_dims.
Variable o : size_opts.
Variable so_ : solver_opts.
Variable w : wf_dims.

Let N := dN d.
Let zN := Z.of_nat (dN d).
Let zN1 := Z.of_nat (dN d) + 1.

(** ** options of the four solvers.
    ocp_nlp_sqp.c:67-100, ocp_nlp_sqp_rti.c:68-101, ocp_nlp_ddp.c:64-96,
    ocp_nlp_sqp_with_feasible_qp.c:66-97: the struct, then the NLP options, no alignment. *)
Definition solver_opts_obj (s : string) : obj :=
  mkObj s (so E s + opts_size E d) [Take KStruct (so E s); Take KSub (opts_size E d)].
Definition sqp_opts_obj := solver_opts_obj "ocp_nlp_sqp_opts".
Definition rti_opts_obj := solver_opts_obj "ocp_nlp_sqp_rti_opts".
Definition ddp_opts_obj := solver_opts_obj "ocp_nlp_ddp_opts".
Definition wfqp_opts_obj := solver_opts_obj "ocp_nlp_sqp_wfqp_opts".

(** ** workspaces of the four solvers.
    ocp_nlp_sqp.c:289-327, ocp_nlp_sqp_rti.c:317-358, ocp_nlp_ddp.c:289-327,
    ocp_nlp_sqp_with_feasible_qp.c:459-497.  The NLP workspace casts its memory at once. *)
Definition solver_ws_obj (s : string) : obj :=
  mkObj s (so E s + ws_size E d o) [Take KStruct (so E s); Take KSub8 (ws_size E d o)].
Definition sqp_ws_obj := solver_ws_obj "ocp_nlp_sqp_workspace".
Definition rti_ws_obj := solver_ws_obj "ocp_nlp_sqp_rti_workspace".
Definition ddp_ws_obj := solver_ws_obj "ocp_nlp_ddp_workspace".
Definition wfqp_ws_obj := solver_ws_obj "ocp_nlp_sqp_wfqp_workspace".

(** number of columns of the statistics table: ocp_nlp_sqp.c:224-227, ocp_nlp_ddp.c:197-200 *)
Definition stat_n_sqp : Z := if ext_qp_res o then 7 + 4 else 7.
Definition stat_m_sqp : Z := Z.of_nat (max_iter o) + 1.

(** ** SQP memory: ocp_nlp_sqp.c:207-234 and :236-284 *)
Definition sqp_mem_obj : obj := mkObj "ocp_nlp_sqp_memory"
  (make_int_multiple_of 8
     (so E "ocp_nlp_sqp_memory" + mem_size E d o + stat_n_sqp * stat_m_sqp * so_dbl + 3 * 8))
  [Align 8; Take KStruct (so E "ocp_nlp_sqp_memory"); Align 8; Take KSub (mem_size E d o);
   Take KDouble (stat_m_sqp * stat_n_sqp * so_dbl); Align 8].

(** ** SQP_RTI memory: ocp_nlp_sqp_rti.c:232-263 and :267-309 *)
Definition stat_n_rti : Z :=
  2 + (if rti_log_residuals so_ then 4 else 0) + (if ext_qp_res o then 4 else 0).
Definition stat_m_rti : Z := 2 + Z.of_nat (as_rti_iter so_).
Definition rti_mem_obj : obj := mkObj "ocp_nlp_sqp_rti_memory"
  (make_int_multiple_of 8
     (so E "ocp_nlp_sqp_rti_memory" + mem_size E d o + stat_n_rti * stat_m_rti * so_dbl + 8))
  [Align 8; Take KStruct (so E "ocp_nlp_sqp_rti_memory"); Take KSub (mem_size E d o);
   Take KDouble (stat_m_rti * stat_n_rti * so_dbl)].

(** ** DDP memory: ocp_nlp_ddp.c:175-221 and :225-281 *)
Definition nu_max := zmax (S N) (nu d).
Definition ddp_mem_obj : obj := mkObj "ocp_nlp_ddp_memory"
  (make_int_multiple_of 8
     (so E "ocp_nlp_ddp_memory" + mem_size E d o + stat_n_sqp * stat_m_sqp * so_dbl
      + 1 * ms_dmat E nu_max (nx_max d) + nu_max * nx_max d * so_dbl + 3 * 8 + 64))
  [Align 8; Take KStruct (so E "ocp_nlp_ddp_memory"); Align 8; Take KSub (mem_size E d o);
   Align 64; Take KDmatMem (ms_dmat E nu_max (nx_max d)) (* K_mat *);
   Take KDouble (stat_m_sqp * stat_n_sqp * so_dbl);
   Take KDouble (nu_max * nx_max d * so_dbl) (* tmp_nu_times_nx *); Align 8].

(** ** QP scaling memory: ocp_nlp_qpscaling.c:164-196 and :200-237.  [qin], [qout]: announced
    sizes of the scaled QP objects, [g]: number of general constraints of the QP per stage. *)
Definition qpscaling_mem_size (qin qout : Z) (g : nat -> Z) : Z :=
  so E "ocp_nlp_qpscaling_memory" + 8
  + (if (scale_obj so_ || scale_con so_)%bool then qin + qout else 0)
  + (if scale_con so_ then 32 + zN1 * so E "blasfeo_dvec" + zsum (S N) (fun i => ms_dvec E (g i)) else 0).
Definition qpscaling_mem_ops (qin qout : Z) (g : nat -> Z) : list op :=
  [Take KStruct (so E "ocp_nlp_qpscaling_memory"); Align 8]
  ++ when (scale_obj so_ || scale_con so_)%bool [Take KSub8 qin; Take KSub8 qout]
  ++ when (scale_con so_)
       ([Take KDvecS (zN1 * so E "blasfeo_dvec"); Align 32]
        ++ for_ops (S N) (fun i => [Take KDvecMem (ms_dvec E (g i))])).
Definition qpscaling_mem_obj : obj := mkObj "ocp_nlp_qpscaling_memory"
  (qpscaling_mem_size (sub E "qp_in" 0) (sub E "qp_out" 0) (qp_ng w))
  (qpscaling_mem_ops (sub E "qp_in" 0) (sub E "qp_out" 0) (qp_ng w)).
Definition rqpscaling_mem_size : Z :=
  qpscaling_mem_size (sub E "relaxed_qp_in" 0) (sub E "relaxed_qp_out" 0) (rqp_ng w).
Definition rqpscaling_mem_obj : obj := mkObj "relaxed ocp_nlp_qpscaling_memory" rqpscaling_mem_size
  (qpscaling_mem_ops (sub E "relaxed_qp_in" 0) (sub E "relaxed_qp_out" 0) (rqp_ng w)).

(** ** SQP_WITH_FEASIBLE_QP memory: ocp_nlp_sqp_with_feasible_qp.c:250-331 and :335-451.
*)
Definition wf_nns (i : nat) : Z :=
  (ni d i - ns d i) - ns d i - wf_nbu w i + wf_nsbu w i
  + (if Nat.eqb i 0 then - wf_nbx w i + wf_nsbx w i else 0).
Definition so_char : Z := 1.
(** utils/types.h:57 MAX_STR_LEN *)
Definition max_str_len : Z := 256.
Definition wfqp_mem_obj : obj := mkObj "ocp_nlp_sqp_wfqp_memory"
  (make_int_multiple_of 8
     (so E "ocp_nlp_sqp_wfqp_memory" + mem_size E d o
      + sub E "relaxed_qp_solver_mem" 0 + sub E "relaxed_qp_solver_ws" 0
      + sub E "relaxed_qp_in" 0 + sub E "relaxed_qp_out" 0 + rqpscaling_mem_size
      + 13 * stat_m_sqp * so_dbl + zN1 * so_ptr + zN1 * so_ptr
      + zsum (S N) (fun i => wf_nns i * so_int + (nb d i + ng d i + ni_nl d i) * so_int
                             + ms_dvec E (2 * ns d i)
                             + 2 * ms_dmat E (nx d i + nu d i) (nx d i + nu d i))
      + zN1 * so_int + zN1 * so E "blasfeo_dvec" + 2 * zN1 * so E "blasfeo_dmat"
      + max_str_len * so_char + 3 * 8 + 64))
  ([Align 8; Take KStruct (so E "ocp_nlp_sqp_wfqp_memory"); Align 8; Take KSub (mem_size E d o);
    Take KSub8 (sub E "relaxed_qp_solver_mem" 0); Take KSub8 (sub E "relaxed_qp_solver_ws" 0);
    Take KSub8 (sub E "relaxed_qp_in" 0); Take KSub8 (sub E "relaxed_qp_out" 0);
    Take KSub8 rqpscaling_mem_size;
    Take KDvecS (zN1 * so E "blasfeo_dvec"); Take KDmatS (zN1 * so E "blasfeo_dmat");
    Take KDmatS (zN1 * so E "blasfeo_dmat"); Take KDouble (stat_m_sqp * 13 * so_dbl); Align 8;
    Take KPtr (zN1 * so_ptr) (* idxns *); Take KInt (zN1 * so_int) (* nns *)]
   ++ for_ops (S N) (fun i => [Take KInt (wf_nns i * so_int)])
   ++ [Take KBool (max_str_len * so_char) (* search_direction_type *); Align 64]
   ++ for_ops (S N) (fun i => [Take KDmatMem (ms_dmat E (nx d i + nu d i) (nx d i + nu d i));
                               Take KDmatMem (ms_dmat E (nx d i + nu d i) (nx d i + nu d i))])
   ++ for_ops (S N) (fun i => [Take KDvecMem (ms_dvec E (2 * ns d i))])).

(** ** globalization options and memory.
    ocp_nlp_globalization_fixed_step.c:56-68,105-153, ocp_nlp_globalization_funnel.c:59-71,175-223,
    ocp_nlp_globalization_merit_backtracking.c:58-70,94-142; the common options are one struct
    (ocp_nlp_globalization_common.c:72-103). *)
Definition glob_opts_obj (s : string) : obj := mkObj s
  (so E s + so E "ocp_nlp_globalization_opts")
  [Take KStruct (so E s); Take KStruct (so E "ocp_nlp_globalization_opts")].
Definition glob_mem_obj (s : string) : obj := mkObj s
  (so E s + 8 + 8) [Align 8; Take KStruct (so E s); Align 8].

(** ** regularization memories *)
(** maxima start from stage 0, e.g. ocp_nlp_reg_convexify.c:120-134 *)
Fixpoint zmax0 (n : nat) (f : nat -> Z) : Z :=
  match n with O => f O | S m => Z.max (zmax0 m f) (f (S m)) end.
Definition nuxM := zmax0 N (fun i => nu d i + nx d i).
Definition nuM := zmax0 N (nu d).
Definition nxM := zmax0 N (nx d).
(** [nbx + nbu + ng] of the regularization dims, from stage 0 *)
Definition nbgM := zmax0 N (fun i => wf_nbu w i + wf_nbx w i + ng d i).

(** ocp_nlp_reg_convexify.c:108-175 and :179-294 *)
Definition reg_convexify_obj : obj := mkObj "ocp_nlp_reg_convexify_memory"
  (so E "ocp_nlp_reg_convexify_memory"
   + nuM * nuM * so_dbl + nuxM * nuxM * so_dbl + 2 * nuxM * so_dbl + nuxM * nuxM * so_dbl
   + zN1 * so E "blasfeo_dmat" + 1 * 64
   + 3 * ms_dmat E nxM nxM + ms_dmat E nuxM nxM + ms_dmat E nuM nuM
   + ms_dmat E nxM nuM + ms_dvec E nuxM + ms_dvec E nbgM
   + zsum (S N) (fun i => 2 * ms_dmat E (nu d i + nx d i + 1) (nu d i + nx d i))
   + ms_dmat E nuxM nuxM
   + (2 * zN1 + zN) * so_ptr + (3 * zN1 + 2 * zN) * so_ptr + zN1 * so_ptr)
  ([Take KStruct (so E "ocp_nlp_reg_convexify_memory");
    Take KDouble (nuM * nuM * so_dbl) (* R *); Take KDouble (nuxM * nuxM * so_dbl) (* V *);
    Take KDouble (nuxM * so_dbl) (* d *); Take KDouble (nuxM * so_dbl) (* e *);
    Take KDouble (nuxM * nuxM * so_dbl) (* reg_hess *);
    Take KDmatS (zN1 * so E "blasfeo_dmat") (* original_RSQrq *);
    Take KPtr (zN1 * so_ptr) (* RSQrq *); Take KPtr (zN * so_ptr) (* BAbt *);
    Take KPtr (zN1 * so_ptr) (* DCt *); Take KPtr (zN1 * so_ptr) (* rq *);
    Take KPtr (zN * so_ptr) (* b *); Take KPtr (zN1 * so_ptr) (* ux *);
    Take KPtr (zN * so_ptr) (* pi *); Take KPtr (zN1 * so_ptr) (* lam *);
    Take KPtr (zN1 * so_ptr) (* idxb *); Align 64;
    Take KDmatMem (ms_dmat E nxM nxM) (* Q_tilde *); Take KDmatMem (ms_dmat E nxM nxM) (* Q_bar *);
    Take KDmatMem (ms_dmat E nuxM nxM) (* BAQ *); Take KDmatMem (ms_dmat E nuM nuM) (* L *);
    Take KDmatMem (ms_dmat E nxM nxM) (* delta_eye *); Take KDmatMem (ms_dmat E nxM nuM) (* St_copy *)]
   ++ for_ops (S N) (fun i => [Take KDmatMem (ms_dmat E (nu d i + nx d i + 1) (nu d i + nx d i))])
   ++ [Take KDmatMem (ms_dmat E nuxM nuxM) (* tmp_RSQ *);
       Take KDvecMem (ms_dvec E nuxM); Take KDvecMem (ms_dvec E nbgM)]).

(** ocp_nlp_reg_glm.c:99-149 *)
Definition reg_glm_obj : obj := mkObj "ocp_nlp_reg_glm_memory"
  (so E "ocp_nlp_reg_glm_memory" + zN1 * so_ptr)
  [Take KStruct (so E "ocp_nlp_reg_glm_memory"); Take KPtr (zN1 * so_ptr)].

(** ocp_nlp_reg_mirror.c:119-184, ocp_nlp_reg_project.c:119-184 *)
Definition reg_eig_obj (s : string) : obj := mkObj s
  (so E s + nuxM * nuxM * so_dbl + nuxM * nuxM * so_dbl + 2 * nuxM * so_dbl + zN1 * so_ptr)
  [Take KStruct (so E s); Take KDouble (nuxM * nuxM * so_dbl); Take KDouble (nuxM * nuxM * so_dbl);
   Take KDouble (nuxM * so_dbl); Take KDouble (nuxM * so_dbl); Take KPtr (zN1 * so_ptr)].
Definition reg_mirror_obj := reg_eig_obj "ocp_nlp_reg_mirror_memory".
Definition reg_project_obj := reg_eig_obj "ocp_nlp_reg_project_memory".

(** ocp_nlp_reg_noreg.c: no memory *)
Definition reg_noreg_obj : obj := mkObj "ocp_nlp_reg_noreg_memory" 0 [].

(** ocp_nlp_reg_project_reduc_hess.c:120-215 *)
Definition reg_prh_obj : obj := mkObj "ocp_nlp_reg_project_reduc_hess_memory"
  (so E "ocp_nlp_reg_project_reduc_hess_memory"
   + nuxM * nuxM * so_dbl + nuxM * nuxM * so_dbl + 2 * nuxM * so_dbl
   + zN1 * so_ptr + zN * so_ptr + 1 * 64
   + 3 * ms_dmat E nuxM nuxM + ms_dmat E nxM nuM + ms_dmat E nxM nxM + ms_dmat E nuxM nxM)
  [Take KStruct (so E "ocp_nlp_reg_project_reduc_hess_memory");
   Take KDouble (nuxM * nuxM * so_dbl); Take KDouble (nuxM * nuxM * so_dbl);
   Take KDouble (nuxM * so_dbl); Take KDouble (nuxM * so_dbl);
   Take KPtr (zN1 * so_ptr); Take KPtr (zN * so_ptr); Align 64;
   Take KDmatMem (ms_dmat E nuxM nuxM); Take KDmatMem (ms_dmat E nuxM nuxM);
   Take KDmatMem (ms_dmat E nuxM nuxM); Take KDmatMem (ms_dmat E nxM nuM);
   Take KDmatMem (ms_dmat E nxM nxM); Take KDmatMem (ms_dmat E nuxM nxM)].

(** all objects of this file *)
Definition solver_objects : list obj :=
  [sqp_opts_obj; rti_opts_obj; ddp_opts_obj; wfqp_opts_obj;
   sqp_ws_obj; rti_ws_obj; ddp_ws_obj; wfqp_ws_obj;
   sqp_mem_obj; rti_mem_obj; ddp_mem_obj; wfqp_mem_obj; qpscaling_mem_obj; rqpscaling_mem_obj].
Definition reg_objects : list obj :=
  [reg_convexify_obj; reg_glm_obj; reg_mirror_obj; reg_project_obj; reg_noreg_obj; reg_prh_obj].
Definition glob_opts_objects : list obj :=
  [glob_opts_obj "ocp_nlp_globalization_fixed_step_opts"; glob_opts_obj "ocp_nlp_globalization_funnel_opts";
   glob_opts_obj "ocp_nlp_globalization_merit_backtracking_opts"].
Definition glob_mem_objects : list obj :=
  [glob_mem_obj "ocp_nlp_globalization_fixed_step_memory"; glob_mem_obj "ocp_nlp_globalization_funnel_memory";
   glob_mem_obj "ocp_nlp_globalization_merit_backtracking_memory"].

End M.
