(** calculate_size / assign pairs of the constraint, cost and dynamics modules and of the
    external-function wrappers, in the layout model of Layout.v. *)
From Coq Require Import ZArith List String.
From Verif Require Import Layout LayoutNlp LayoutSolver.
Import ListNotations.
Open Scope string_scope.
Open Scope Z_scope.

Section M.
Variable E : cenv.

(** ** bounds / general / nonlinear constraints (ocp_nlp_constraints_bgh.c) *)
(** ocp_nlp_constraints_bgh.h, the dimensions that enter the sizes *)
Record bgh_dims := mkBgh {
  h_nx : Z; h_nu : Z; h_nz : Z; h_nb : Z; h_ng : Z; h_nh : Z; h_ns : Z; h_npg : Z;
  h_nbue : Z; h_nbxe : Z; h_nge : Z; h_nhe : Z }.
Variable h : bgh_dims.
(** with_solution_sens_wrt_params_forw / _adj of the module *)
Variables sens_f sens_a : bool.

(** :51-90: a struct of ints, rounded up to 8 bytes *)
Definition bgh_dims_obj : obj := mkObj "ocp_nlp_constraints_bgh_dims"
  (make_int_multiple_of 8 (soi E "ocp_nlp_constraints_bgh_dims"))
  [Take KIntStruct (soi E "ocp_nlp_constraints_bgh_dims")].

(** :286-322 and :326-385 *)
Definition bgh_model_obj : obj := mkObj "ocp_nlp_constraints_bgh_model"
  (make_int_multiple_of 8
    (so E "ocp_nlp_constraints_bgh_model"
     + so_int * h_nb h + so_int * h_ns h + so_int * (h_nb h + h_ng h + h_nh h)
     + so_int * (h_nbue h + h_nbxe h + h_nge h + h_nhe h)
     + ms_dvec E (2 * h_nb h + 2 * h_ng h + 2 * h_nh h + 2 * h_ns h)
     + ms_dmat E (h_nu h + h_nx h) (h_ng h) + 64 + 8))
  [Take KStruct (so E "ocp_nlp_constraints_bgh_model"); Align 8;
   Take KInt (h_nb h * so_int) (* idxb *); Take KInt (h_ns h * so_int) (* idxs *);
   Take KInt ((h_nb h + h_ng h + h_nh h) * so_int) (* idxs_rev *);
   Take KInt ((h_nbue h + h_nbxe h + h_nge h + h_nhe h) * so_int) (* idxe *);
   Align 64; Take KDmatMem (ms_dmat E (h_nu h + h_nx h) (h_ng h)) (* DCt *);
   Take KDvecMem (ms_dvec E (2 * h_nb h + 2 * h_ng h + 2 * h_nh h + 2 * h_ns h)) (* d *)].

(** :780-802: one struct of ints, no rounding (also ocp_nlp_constraints_bgp.c:766-788) *)
Definition bgh_opts_obj : obj := mkObj "ocp_nlp_constraints_bgh_opts"
  (soi E "ocp_nlp_constraints_bgh_opts") [Take KIntStruct (soi E "ocp_nlp_constraints_bgh_opts")].
Definition bgp_opts_obj : obj := mkObj "ocp_nlp_constraints_bgp_opts"
  (soi E "ocp_nlp_constraints_bgp_opts") [Take KIntStruct (soi E "ocp_nlp_constraints_bgp_opts")].

(** :868-895 and :899-935 *)
Definition bgh_mem_obj : obj := mkObj "ocp_nlp_constraints_bgh_memory"
  (make_int_multiple_of 8
    (so E "ocp_nlp_constraints_bgh_memory"
     + ms_dvec E (2 * h_nb h + 2 * h_ng h + 2 * h_nh h + 2 * h_ns h)
     + ms_dvec E (h_nu h + h_nx h + 2 * h_ns h)
     + ms_dvec E (h_nb h + h_ng h + h_nh h + h_ns h) + 64 + 8))
  [Align 8; Take KStruct (so E "ocp_nlp_constraints_bgh_memory"); Align 64;
   Take KDvecMem (ms_dvec E (2 * h_nb h + 2 * h_ng h + 2 * h_nh h + 2 * h_ns h)) (* fun *);
   Take KDvecMem (ms_dvec E (h_nu h + h_nx h + 2 * h_ns h)) (* adj *);
   Take KDvecMem (ms_dvec E (h_nb h + h_ng h + h_nh h + h_ns h)) (* constr_eval_no_bounds *)].

(** :1097-1144 and :1148-1208 *)
Definition bgh_ws_obj : obj := mkObj "ocp_nlp_constraints_bgh_workspace"
  (so E "ocp_nlp_constraints_bgh_workspace"
   + (if sens_f then ms_dmat E (h_nx h + h_nu h) (h_npg h) else 0)
   + (if sens_a then ms_dvec E (h_npg h) + ms_dvec E (h_nh h) else 0)
   + (if 0 <? h_nz h then ms_dmat E (h_nz h) (h_nh h) + ms_dmat E (h_nz h) (h_nz h)
                          + ms_dmat E (h_nz h) (h_nx h + h_nu h) else 0)
   + (if 0 <? h_nh h then ms_dmat E (h_nu h + h_nx h) (h_nu h + h_nx h)
                          + ms_dmat E (h_nx h + h_nu h) (h_nh h) + ms_dvec E (h_nh h) else 0)
   + ms_dvec E (h_nb h + h_ng h + h_nh h + h_ns h) + 1 * 64)
  ([Take KStruct (so E "ocp_nlp_constraints_bgh_workspace"); Align 64]
   ++ when sens_f [Take KDmatMem (ms_dmat E (h_nx h + h_nu h) (h_npg h))]
   ++ when (0 <? h_nz h) [Take KDmatMem (ms_dmat E (h_nz h) (h_nh h));
                          Take KDmatMem (ms_dmat E (h_nz h) (h_nz h));
                          Take KDmatMem (ms_dmat E (h_nz h) (h_nx h + h_nu h))]
   ++ when (0 <? h_nh h) [Take KDmatMem (ms_dmat E (h_nu h + h_nx h) (h_nu h + h_nx h));
                          Take KDmatMem (ms_dmat E (h_nx h + h_nu h) (h_nh h));
                          Take KDvecMem (ms_dvec E (h_nh h))]
   ++ when sens_a [Take KDvecMem (ms_dvec E (h_npg h)); Take KDvecMem (ms_dvec E (h_nh h))]
   ++ [Take KDvecMem (ms_dvec E (h_nb h + h_ng h + h_nh h + h_ns h))]).

(** ** convex-over-nonlinear constraints (ocp_nlp_constraints_bgp.c); [h_nh] plays the role of
    [nphi], [h_nhe] of [nphie] *)
Variable h_nr : Z.
(** :49-88: a struct of ints, not rounded *)
Definition bgp_dims_obj : obj := mkObj "ocp_nlp_constraints_bgp_dims"
  (soi E "ocp_nlp_constraints_bgp_dims") [Take KIntStruct (soi E "ocp_nlp_constraints_bgp_dims")].
(** :296-330 and :334-388 *)
Definition bgp_model_obj : obj := mkObj "ocp_nlp_constraints_bgp_model"
  (make_int_multiple_of 8
    (so E "ocp_nlp_constraints_bgp_model"
     + so_int * h_nb h + so_int * h_ns h + so_int * (h_nb h + h_ng h + h_nh h)
     + so_int * (h_nbue h + h_nbxe h + h_nge h + h_nhe h)
     + ms_dvec E (2 * h_nb h + 2 * h_ng h + 2 * h_nh h + 2 * h_ns h)
     + ms_dmat E (h_nu h + h_nx h) (h_ng h) + 64))
  [Take KStruct (so E "ocp_nlp_constraints_bgp_model"); Align 64;
   Take KDmatMem (ms_dmat E (h_nu h + h_nx h) (h_ng h)) (* DCt *);
   Take KDvecMem (ms_dvec E (2 * h_nb h + 2 * h_ng h + 2 * h_nh h + 2 * h_ns h)) (* d *);
   Take KInt (h_nb h * so_int); Take KInt (h_ns h * so_int);
   Take KInt ((h_nb h + h_ng h + h_nh h) * so_int);
   Take KInt ((h_nbue h + h_nbxe h + h_nge h + h_nhe h) * so_int)].
(** :854-880 and :884-915 *)
Definition bgp_mem_obj : obj := mkObj "ocp_nlp_constraints_bgp_memory"
  (so E "ocp_nlp_constraints_bgp_memory"
   + ms_dvec E (2 * h_nb h + 2 * h_ng h + 2 * h_nh h + 2 * h_ns h)
   + ms_dvec E (h_nu h + h_nx h + 2 * h_ns h)
   + ms_dvec E (h_nb h + h_ng h + h_nh h + h_ns h) + 1 * 64)
  [Take KStruct (so E "ocp_nlp_constraints_bgp_memory"); Align 64;
   Take KDvecMem (ms_dvec E (2 * h_nb h + 2 * h_ng h + 2 * h_nh h + 2 * h_ns h));
   Take KDvecMem (ms_dvec E (h_nu h + h_nx h + 2 * h_ns h));
   Take KDvecMem (ms_dvec E (h_nb h + h_ng h + h_nh h + h_ns h))].
(** :1048-1080 and :1084-1121.  The struct itself is the unaligned [work_] pointer; the cast
    function aligns its running pointer before it skips the struct, which makes the struct block
    start at the aligned address here; for an 8-aligned workspace the two coincide. *)
Definition bgp_ws_obj : obj := mkObj "ocp_nlp_constraints_bgp_workspace"
  (make_int_multiple_of 8
    (so E "ocp_nlp_constraints_bgp_workspace"
     + ms_dvec E (h_nb h + h_ng h + h_nh h + h_ns h)
     + ms_dmat E (h_nx h + h_nu h) h_nr + ms_dmat E (h_nr * h_nh h) h_nr
     + ms_dmat E (h_nu h + h_nx h) h_nr + ms_dmat E (h_nz h) (h_nh h)
     + ms_dmat E (h_nu h + h_nx h) (h_nh h) + 64 + 8))
  [Align 8; Take KStruct (so E "ocp_nlp_constraints_bgp_workspace"); Align 64;
   Take KDmatMem (ms_dmat E (h_nx h + h_nu h) h_nr); Take KDmatMem (ms_dmat E (h_nr * h_nh h) h_nr);
   Take KDmatMem (ms_dmat E (h_nu h + h_nx h) h_nr); Take KDmatMem (ms_dmat E (h_nz h) (h_nh h));
   Take KDmatMem (ms_dmat E (h_nu h + h_nx h) (h_nh h));
   Take KDvecMem (ms_dvec E (h_nb h + h_ng h + h_nh h + h_ns h))].

(** ** costs *)
(** dims of a cost module: ocp_nlp_cost_{ls,nls,conl,external}.h *)
Record cost_dims := mkCostDims { c_nx : Z; c_nz : Z; c_nu : Z; c_ny : Z; c_ns : Z; c_npg : Z }.
Variable c : cost_dims.
Let nv' := c_nu c + c_nx c.

(** dims, ocp_nlp_cost_ls.c:60-83, ocp_nlp_cost_nls.c:52-73, ocp_nlp_cost_conl.c:53-74,
    ocp_nlp_cost_external.c:52-78: a struct of ints, not rounded *)
Definition cost_dims_obj (s : string) : obj := mkObj s (soi E s) [Take KIntStruct (soi E s)].
(** opts, ocp_nlp_cost_ls.c:461-487, ocp_nlp_cost_nls.c:398-424, ocp_nlp_cost_conl.c:333-357,
    ocp_nlp_cost_external.c:355-382: a struct of ints and bools, rounded up to 8 bytes *)
Definition cost_opts_obj (s : string) : obj := mkObj s
  (make_int_multiple_of 8 (soi E s)) [Take KIntStruct (soi E s)].

(** linear least squares: ocp_nlp_cost_ls.c:157-189 and :193-239.
    The size counts a [nz] by [ny] matrix, the carve-out takes [ny] by [nz] for [Vz]. *)
Definition ls_model_obj : obj := mkObj "ocp_nlp_cost_ls_model"
  (make_int_multiple_of 8
    (so E "ocp_nlp_cost_ls_model" + 1 * 64
     + ms_dmat E (c_ny c) (c_ny c) + ms_dmat E nv' (c_ny c) + ms_dmat E (c_nz c) (c_ny c)
     + ms_dvec E (c_ny c) + 2 * ms_dvec E (2 * c_ns c)))
  [Take KStruct (so E "ocp_nlp_cost_ls_model"); Align 64;
   Take KDmatMem (ms_dmat E (c_ny c) (c_ny c)) (* W *); Take KDmatMem (ms_dmat E nv' (c_ny c)) (* Cyt *);
   Take KDmatMem (ms_dmat E (c_ny c) (c_nz c)) (* Vz *); Take KDvecMem (ms_dvec E (c_ny c));
   Take KDvecMem (ms_dvec E (2 * c_ns c)); Take KDvecMem (ms_dvec E (2 * c_ns c))].
(** :568-594 and :598-631 *)
Definition ls_mem_obj : obj := mkObj "ocp_nlp_cost_ls_memory"
  (so E "ocp_nlp_cost_ls_memory" + ms_dmat E nv' nv' + ms_dmat E (c_ny c) (c_ny c)
   + ms_dvec E (c_ny c) + ms_dvec E (nv' + 2 * c_ns c) + ms_dvec E (c_ny c) + 64)
  [Take KStruct (so E "ocp_nlp_cost_ls_memory"); Align 64;
   Take KDmatMem (ms_dmat E nv' nv'); Take KDmatMem (ms_dmat E (c_ny c) (c_ny c));
   Take KDvecMem (ms_dvec E (c_ny c)); Take KDvecMem (ms_dvec E (c_ny c));
   Take KDvecMem (ms_dvec E (nv' + 2 * c_ns c))].
(** :714-741 and :745-788 *)
Definition ls_ws_obj : obj := mkObj "ocp_nlp_cost_ls_workspace"
  (so E "ocp_nlp_cost_ls_workspace" + ms_dmat E nv' (c_ny c) + ms_dmat E nv' (c_ny c)
   + ms_dmat E nv' (c_nz c) + ms_dvec E (c_ny c) + ms_dvec E (2 * c_ns c) + ms_dvec E (c_nz c)
   + ms_dvec E (c_ny c) + 64)
  [Take KStruct (so E "ocp_nlp_cost_ls_workspace"); Align 64;
   Take KDmatMem (ms_dmat E nv' (c_ny c)); Take KDmatMem (ms_dmat E nv' (c_ny c));
   Take KDmatMem (ms_dmat E nv' (c_nz c)); Take KDvecMem (ms_dvec E (c_ny c));
   Take KDvecMem (ms_dvec E (2 * c_ns c)); Take KDvecMem (ms_dvec E (c_nz c));
   Take KDvecMem (ms_dvec E (c_ny c))].

(** nonlinear least squares: ocp_nlp_cost_nls.c:143-168 and :172-216 *)
Definition nls_model_obj : obj := mkObj "ocp_nlp_cost_nls_model"
  (so E "ocp_nlp_cost_nls_model" + 1 * 64 + ms_dmat E (c_ny c) (c_ny c) + ms_dvec E (c_ny c)
   + 2 * ms_dvec E (2 * c_ns c))
  [Take KStruct (so E "ocp_nlp_cost_nls_model"); Align 64; Take KDmatMem (ms_dmat E (c_ny c) (c_ny c));
   Take KDvecMem (ms_dvec E (c_ny c)); Take KDvecMem (ms_dvec E (2 * c_ns c));
   Take KDvecMem (ms_dvec E (2 * c_ns c))].
(** :519-546 and :550-584 *)
Definition nls_mem_obj : obj := mkObj "ocp_nlp_cost_nls_memory"
  (so E "ocp_nlp_cost_nls_memory" + ms_dmat E (c_ny c) (c_ny c) + ms_dvec E (c_ny c)
   + ms_dmat E nv' (c_ny c) + ms_dvec E (c_ny c) + ms_dvec E (nv' + 2 * c_ns c) + 64)
  [Take KStruct (so E "ocp_nlp_cost_nls_memory"); Align 64; Take KDmatMem (ms_dmat E (c_ny c) (c_ny c));
   Take KDmatMem (ms_dmat E nv' (c_ny c)); Take KDvecMem (ms_dvec E (c_ny c));
   Take KDvecMem (ms_dvec E (c_ny c)); Take KDvecMem (ms_dvec E (nv' + 2 * c_ns c))].
(** :694-722 and :726-769 *)
Definition nls_ws_obj : obj := mkObj "ocp_nlp_cost_nls_workspace"
  (so E "ocp_nlp_cost_nls_workspace" + ms_dmat E nv' (c_ny c) + ms_dmat E nv' nv'
   + ms_dmat E nv' (c_ny c) + ms_dmat E (c_nz c) (c_ny c)
   + ms_dvec E (c_ny c) + ms_dvec E (2 * c_ns c) + ms_dvec E (c_nz c) + 64)
  [Take KStruct (so E "ocp_nlp_cost_nls_workspace"); Align 64;
   Take KDmatMem (ms_dmat E nv' (c_ny c)); Take KDmatMem (ms_dmat E nv' nv');
   Take KDmatMem (ms_dmat E (c_nz c) (c_ny c)); Take KDmatMem (ms_dmat E nv' (c_ny c));
   Take KDvecMem (ms_dvec E (c_ny c)); Take KDvecMem (ms_dvec E (2 * c_ns c));
   Take KDvecMem (ms_dvec E (c_nz c))].

(** convex-over-nonlinear: ocp_nlp_cost_conl.c:144-165 and :169-198 *)
Definition conl_model_obj : obj := mkObj "ocp_nlp_cost_conl_model"
  (so E "ocp_nlp_cost_conl_model" + 1 * 64 + ms_dvec E (c_ny c) + 2 * ms_dvec E (2 * c_ns c))
  [Take KStruct (so E "ocp_nlp_cost_conl_model"); Align 64; Take KDvecMem (ms_dvec E (c_ny c));
   Take KDvecMem (ms_dvec E (2 * c_ns c)); Take KDvecMem (ms_dvec E (2 * c_ns c))].
(** :436-458 and :462-493 *)
Definition conl_mem_obj : obj := mkObj "ocp_nlp_cost_conl_memory"
  (so E "ocp_nlp_cost_conl_memory" + ms_dvec E (nv' + 2 * c_ns c) + 64
   + ms_dmat E (c_ny c) (c_ny c) + ms_dvec E (c_ny c))
  [Take KStruct (so E "ocp_nlp_cost_conl_memory"); Align 64; Take KDmatMem (ms_dmat E (c_ny c) (c_ny c));
   Take KDvecMem (ms_dvec E (c_ny c)); Take KDvecMem (ms_dvec E (nv' + 2 * c_ns c))].
(** :603-631 and :635-675 *)
Definition conl_ws_obj : obj := mkObj "ocp_nlp_cost_conl_workspace"
  (so E "ocp_nlp_cost_conl_workspace" + ms_dmat E (c_ny c) (c_ny c) + 3 * ms_dmat E nv' (c_ny c)
   + ms_dmat E (c_nz c) (c_ny c) + ms_dvec E (c_ny c) + ms_dvec E (2 * c_ns c) + 64)
  [Take KStruct (so E "ocp_nlp_cost_conl_workspace"); Align 64;
   Take KDmatMem (ms_dmat E (c_ny c) (c_ny c)); Take KDmatMem (ms_dmat E nv' (c_ny c));
   Take KDmatMem (ms_dmat E nv' (c_ny c)); Take KDmatMem (ms_dmat E (c_nz c) (c_ny c));
   Take KDmatMem (ms_dmat E nv' (c_ny c));
   Take KDvecMem (ms_dvec E (c_ny c)); Take KDvecMem (ms_dvec E (2 * c_ns c))].

(** external: ocp_nlp_cost_external.c:139-162 and :166-194 *)
Definition ext_model_obj : obj := mkObj "ocp_nlp_cost_external_model"
  (so E "ocp_nlp_cost_external_model" + 1 * 64 + ms_dmat E nv' nv' + 2 * ms_dvec E (2 * c_ns c))
  [Take KStruct (so E "ocp_nlp_cost_external_model"); Align 64; Take KDmatMem (ms_dmat E nv' nv');
   Take KDvecMem (ms_dvec E (2 * c_ns c)); Take KDvecMem (ms_dvec E (2 * c_ns c))].
(** :463-481 and :485-512 *)
Definition ext_mem_obj : obj := mkObj "ocp_nlp_cost_external_memory"
  (so E "ocp_nlp_cost_external_memory" + ms_dvec E (nv' + 2 * c_ns c) + 64)
  [Take KStruct (so E "ocp_nlp_cost_external_memory"); Align 64; Take KDvecMem (ms_dvec E (nv' + 2 * c_ns c))].
(** :607-643 and :647-694 *)
Definition ext_ws_obj : obj := mkObj "ocp_nlp_cost_external_workspace"
  (so E "ocp_nlp_cost_external_workspace"
   + (if sens_f then ms_dmat E nv' (c_npg c) else 0) + (if sens_a then ms_dvec E (c_npg c) else 0)
   + ms_dmat E nv' nv' + ms_dmat E (c_nz c) (c_nz c) + ms_dmat E (c_nz c) nv'
   + ms_dvec E (nv' + c_nz c) + ms_dvec E (2 * c_ns c) + 64)
  ([Take KStruct (so E "ocp_nlp_cost_external_workspace"); Align 64]
   ++ when sens_f [Take KDmatMem (ms_dmat E nv' (c_npg c))]
   ++ [Take KDmatMem (ms_dmat E nv' nv'); Take KDmatMem (ms_dmat E (c_nz c) (c_nz c));
       Take KDmatMem (ms_dmat E (c_nz c) nv'); Take KDvecMem (ms_dvec E (nv' + c_nz c));
       Take KDvecMem (ms_dvec E (2 * c_ns c))]
   ++ when sens_a [Take KDvecMem (ms_dvec E (c_npg c))]).

(** ** dynamics *)
Record dyn_dims := mkDynDims { y_nx : Z; y_nu : Z; y_nx1 : Z; y_npg : Z }.
Variable y : dyn_dims.
(** sizes announced by the integrator: dims, options, memory, workspace, model, sim_in, sim_out *)
Variables sim_dims sim_opts sim_mem sim_ws sim_model sim_in sim_out : Z.

(** continuous-time dynamics, ocp_nlp_dynamics_cont.c:51-64 and :68-86 *)
Definition cont_dims_obj : obj := mkObj "ocp_nlp_dynamics_cont_dims"
  (so E "ocp_nlp_dynamics_cont_dims" + sim_dims + 2 * 8)
  [Align 8; Take KStruct (so E "ocp_nlp_dynamics_cont_dims"); Align 8; Take KIntStruct sim_dims].
(** :223-236 and :240-257 *)
Definition cont_opts_obj : obj := mkObj "ocp_nlp_dynamics_cont_opts"
  (so E "ocp_nlp_dynamics_cont_opts" + sim_opts + 8)
  [Take KStruct (so E "ocp_nlp_dynamics_cont_opts"); Align 8; Take KSub8 sim_opts].
(** :381-408 and :412-450 *)
Definition cont_mem_obj : obj := mkObj "ocp_nlp_dynamics_cont_memory"
  (make_int_multiple_of 8
    (so E "ocp_nlp_dynamics_cont_memory" + ms_dvec E (y_nu y + y_nx y + y_nx1 y) + ms_dvec E (y_nx1 y)
     + sim_mem + 1 * 64))
  [Take KStruct (so E "ocp_nlp_dynamics_cont_memory"); Take KSub8 sim_mem; Align 64;
   Take KDvecMem (ms_dvec E (y_nu y + y_nx y + y_nx1 y)); Take KDvecMem (ms_dvec E (y_nx1 y))].
(** :632-657 and :661-695; [sim_in_assign] and [sim_out_assign] are counted at their announced sizes *)
Definition cont_ws_obj : obj := mkObj "ocp_nlp_dynamics_cont_workspace"
  (make_int_multiple_of 8
    (so E "ocp_nlp_dynamics_cont_workspace" + sim_in + sim_out + sim_ws
     + ms_dmat E (y_nu y + y_nx y) (y_nu y + y_nx y) + 1 * 64))
  [Take KStruct (so E "ocp_nlp_dynamics_cont_workspace"); Take KSub8 sim_in; Take KSub8 sim_out;
   Take KSub8 sim_ws; Align 64; Take KDmatMem (ms_dmat E (y_nu y + y_nx y) (y_nu y + y_nx y))].
(** :703-721 and :725-747 *)
Definition cont_model_obj : obj := mkObj "ocp_nlp_dynamics_cont_model"
  (make_int_multiple_of 8 (so E "ocp_nlp_dynamics_cont_model" + sim_model + 8))
  [Take KStruct (so E "ocp_nlp_dynamics_cont_model"); Align 8; Take KSub8 sim_model].

(** discrete-time dynamics, ocp_nlp_dynamics_disc.c:50-76: struct of ints *)
Definition disc_dims_obj : obj := mkObj "ocp_nlp_dynamics_disc_dims"
  (soi E "ocp_nlp_dynamics_disc_dims") [Take KIntStruct (soi E "ocp_nlp_dynamics_disc_dims")].
(** :169-197: struct of five ints *)
Definition disc_opts_obj : obj := mkObj "ocp_nlp_dynamics_disc_opts"
  (soi E "ocp_nlp_dynamics_disc_opts") [Take KIntStruct (soi E "ocp_nlp_dynamics_disc_opts")].
(** :294-314 and :318-347 *)
Definition disc_mem_obj : obj := mkObj "ocp_nlp_dynamics_disc_memory"
  (so E "ocp_nlp_dynamics_disc_memory" + 1 * ms_dvec E (y_nu y + y_nx y + y_nx1 y)
   + 1 * ms_dvec E (y_nx1 y) + 64)
  [Take KStruct (so E "ocp_nlp_dynamics_disc_memory"); Align 64;
   Take KDvecMem (ms_dvec E (y_nu y + y_nx y + y_nx1 y)); Take KDvecMem (ms_dvec E (y_nx1 y))].
(** :506-530 and :534-565 *)
Definition disc_ws_obj : obj := mkObj "ocp_nlp_dynamics_disc_workspace"
  (so E "ocp_nlp_dynamics_disc_workspace" + 1 * ms_dmat E (y_nu y + y_nx y) (y_nu y + y_nx y)
   + (if sens_a then 1 * ms_dvec E (y_npg y) else 0) + 1 * 64)
  ([Take KStruct (so E "ocp_nlp_dynamics_disc_workspace"); Align 64;
    Take KDmatMem (ms_dmat E (y_nu y + y_nx y) (y_nu y + y_nx y))]
   ++ when sens_a [Take KDvecMem (ms_dvec E (y_npg y))]).
(** :573-600 *)
Definition disc_model_obj : obj := mkObj "ocp_nlp_dynamics_disc_model"
  (make_int_multiple_of 8 (so E "ocp_nlp_dynamics_disc_model"))
  [Take KStruct (so E "ocp_nlp_dynamics_disc_model")].

(** ** external functions (utils/external_function_generic.c) *)
(** parametric generic functions, :94-111 and :113-149: the parameter vector.
    [external_param_generic] needs no memory. *)
Definition param_generic_obj (nparam : Z) : obj := mkObj "external_function_param_generic"
  (make_int_multiple_of 8 (nparam * so_dbl + 8)) [Align 8; Take KDouble (nparam * so_dbl)].

(** the three CasADi wrappers, :838-958, :1063-1196, :1418-1562.  [na], [nr]: number of arguments
    and results, [asz i], [rsz i]: number of doubles stored for them ([asz] is 0 for the argument
    slots that an external-parameter function takes from elsewhere), [iw], [fw]: length of the
    CasADi work arrays, [extw]: the double work array comes from outside. *)
Definition casadi_obj (na nr : nat) (asz rsz : nat -> Z) (iw fw : Z) (extw : bool) : obj :=
  mkObj "external_function_casadi"
  (make_int_multiple_of 8
    (Z.of_nat na * so_ptr + Z.of_nat nr * so_ptr + Z.of_nat na * so_int + Z.of_nat na * so_int
     + Z.of_nat nr * so_int + Z.of_nat nr * so_int + iw * so_int
     + zsum na asz * so_dbl + zsum nr rsz * so_dbl + (if extw then 0 else fw * so_dbl) + 8 + 8))
  ([Align 8; Take KPtr (Z.of_nat na * so_ptr); Take KPtr (Z.of_nat nr * so_ptr);
    Take KInt (Z.of_nat na * so_int) (* args_size *); Take KInt (Z.of_nat na * so_int) (* args_dense *);
    Take KInt (Z.of_nat nr * so_int) (* res_size *); Take KInt (Z.of_nat nr * so_int) (* res_dense *);
    Take KInt (iw * so_int); Align 8]
   ++ for_ops na (fun i => [Take KDouble (asz i * so_dbl)])
   ++ for_ops nr (fun i => [Take KDouble (rsz i * so_dbl)])
   ++ when (negb extw) [Take KDouble (fw * so_dbl)]).

Definition constraint_objects : list obj :=
  [bgh_dims_obj; bgh_model_obj; bgh_opts_obj; bgh_mem_obj; bgh_ws_obj;
   bgp_dims_obj; bgp_model_obj; bgp_opts_obj; bgp_mem_obj; bgp_ws_obj].
Definition cost_objects : list obj :=
  [cost_dims_obj "ocp_nlp_cost_ls_dims"; cost_dims_obj "ocp_nlp_cost_nls_dims";
   cost_dims_obj "ocp_nlp_cost_conl_dims"; cost_dims_obj "ocp_nlp_cost_external_dims";
   cost_opts_obj "ocp_nlp_cost_ls_opts"; cost_opts_obj "ocp_nlp_cost_nls_opts";
   cost_opts_obj "ocp_nlp_cost_conl_opts"; cost_opts_obj "ocp_nlp_cost_external_opts";
   ls_mem_obj; ls_ws_obj; nls_model_obj; nls_mem_obj; nls_ws_obj;
   conl_model_obj; conl_mem_obj; conl_ws_obj; ext_model_obj; ext_mem_obj; ext_ws_obj].
Definition dynamics_objects : list obj :=
  [cont_dims_obj; cont_opts_obj; cont_mem_obj; cont_ws_obj; cont_model_obj;
   disc_dims_obj; disc_opts_obj; disc_mem_obj; disc_ws_obj; disc_model_obj].

End M.
