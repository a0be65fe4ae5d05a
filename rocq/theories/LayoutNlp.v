(** calculate_size / assign pairs of acados/ocp_nlp/ocp_nlp_common.c in the layout model. *)
From Coq Require Import ZArith List String.
From Verif Require Import Layout.
Import ListNotations.
Open Scope Z_scope.
Open Scope string_scope.

(** acados/ocp_nlp/ocp_nlp_common.h [ocp_nlp_dims]: the per-stage dimensions used by the size
    functions.  Simplified: C ints as Z. *)
Record nlp_dims := mkDims {
  dN : nat;
  nv : nat -> Z; nx : nat -> Z; nu : nat -> Z; nz : nat -> Z; ns : nat -> Z; np : nat -> Z;
  ni : nat -> Z; nb : nat -> Z; ng : nat -> Z; ni_nl : nat -> Z;
  np_global : Z; n_global_data : Z }.

Definition dims_ok (d : nlp_dims) : Prop :=
  (forall i, 0 <= nv d i /\ 0 <= nx d i /\ 0 <= nu d i /\ 0 <= nz d i /\ 0 <= ns d i /\ 0 <= np d i
             /\ 0 <= ni d i /\ 0 <= nb d i /\ 0 <= ng d i /\ 0 <= ni_nl d i)
  /\ 0 <= np_global d /\ 0 <= n_global_data d.

Section M.
Variable E : cenv.
Variable d : nlp_dims.

(** N and N+1 as C integers *)
Let N := dN d.
Let zN := Z.of_nat (dN d).
Let zN1 := Z.of_nat (dN d) + 1.

(** ** config: ocp_nlp_common.c:61-95 and :99-155 *)
Definition config_size : Z :=
  so E "ocp_nlp_config"
  + so E "xcond_solver_config_all" + so E "xcond_solver_config_all"
  + so E "reg_config" + so E "globalization_config"
  + zN * so_ptr + zsum N (fun _ => so E "dynamics_config_all")
  + zN1 * so_ptr + zsum (S N) (fun _ => so E "cost_config")
  + zN1 * so_ptr + zsum (S N) (fun _ => so E "constraints_config").

Definition config_assign : list op :=
  [Take KStruct (so E "ocp_nlp_config");
   Take KSub8 (so E "xcond_solver_config_all");
   Take KSub8 (so E "xcond_solver_config_all");
   Take KSub8 (so E "reg_config");
   Take KSub8 (so E "globalization_config");
   Take KPtr (zN * so_ptr)]
  ++ for_ops N (fun _ => [Take KSub8 (so E "dynamics_config_all")])
  ++ [Take KPtr (zN1 * so_ptr)]
  ++ for_ops (S N) (fun _ => [Take KSub8 (so E "cost_config")])
  ++ [Take KPtr (zN1 * so_ptr)]
  ++ for_ops (S N) (fun _ => [Take KSub8 (so E "constraints_config")]).

(** ** regularization dims: ocp_nlp_reg_common.c:66-123 *)
Definition reg_dims_size : Z := so E "ocp_nlp_reg_dims" + 5 * zN1 * so_int.
Definition reg_dims_assign : list op :=
  [Take KStruct (so E "ocp_nlp_reg_dims");
   Take KInt (zN1 * so_int); Take KInt (zN1 * so_int); Take KInt (zN1 * so_int);
   Take KInt (zN1 * so_int); Take KInt (zN1 * so_int)].

(** ** qpscaling dims: ocp_nlp_qpscaling.c:54-90; [sub "d_ocp_qp_dim_memsize"] is the HPIPM size *)
Definition qpscaling_dims_size : Z :=
  make_int_multiple_of 8
    (so E "ocp_nlp_qpscaling_dims" + so E "ocp_qp_dims" + sub E "d_ocp_qp_dim_memsize" N + 8).
Definition qpscaling_dims_assign : list op :=
  [Take KStruct (so E "ocp_nlp_qpscaling_dims"); Take KStruct (so E "ocp_qp_dims");
   Align 8; Take KSub (sub E "d_ocp_qp_dim_memsize" N)].

(** ** dims (self part): ocp_nlp_common.c:165-200 and :240-335 *)
Definition dims_self_size : Z :=
  make_int_multiple_of 8
   (so E "ocp_nlp_dims" + 10 * zN1 * so_int + zN * so_ptr + zN1 * so_ptr + zN1 * so_ptr
    + reg_dims_size + qpscaling_dims_size + qpscaling_dims_size + so E "ocp_nlp_reg_dims" + 8 + 8).
Definition dims_self_assign : list op :=
  [Align 8; Take KStruct (so E "ocp_nlp_dims");
   Take KPtr (zN * so_ptr); Take KPtr (zN1 * so_ptr); Take KPtr (zN1 * so_ptr);
   Take KInt (zN1 * so_int) (* nv *); Take KInt (zN1 * so_int) (* nx *);
   Take KInt (zN1 * so_int) (* nu *); Take KInt (zN1 * so_int) (* nz *);
   Take KInt (zN1 * so_int) (* ns *); Take KInt (zN1 * so_int) (* np *);
   Take KInt (zN1 * so_int) (* ni *); Take KInt (zN1 * so_int) (* nb *);
   Take KInt (zN1 * so_int) (* ng *); Take KInt (zN1 * so_int) (* ni_nl *)]
  ++
  [Align 8;
   (* the sub-assign functions cast the pointer without aligning it *)
   Take KSub8 reg_dims_size; Take KSub8 qpscaling_dims_size; Take KSub8 qpscaling_dims_size].

(** ** dims: ocp_nlp_common.c:203-232 and :341-387.  [dyn_dims i], [cost_dims i], [con_dims i],
    [qp_dims], [rqp_dims]: the sizes announced by the submodules. *)
Definition dims_size (dyn_dims cost_dims con_dims : nat -> Z) (qp_dims rqp_dims : Z) : Z :=
  dims_self_size + zsum N dyn_dims + zsum (S N) cost_dims + zsum (S N) con_dims
  + qp_dims + rqp_dims.
Definition dims_assign (dyn_dims cost_dims con_dims : nat -> Z) (qp_dims rqp_dims : Z) : list op :=
  [Take KSub dims_self_size]
  ++ for_ops N (fun i => [Take KSub (dyn_dims i)])
  ++ for_ops (S N) (fun i => [Take KIntStruct (cost_dims i)])
  ++ for_ops (S N) (fun i => [Take KIntStruct (con_dims i)])
  ++ [Take KSub8 qp_dims; Take KSub8 rqp_dims].

(** ** in: ocp_nlp_common.c:778-838 and :842-940 *)
Definition in_size : Z :=
  make_int_multiple_of 8
   (so E "ocp_nlp_in" + zN * so_dbl
    + zsum (S N) (fun i => np d i * so_dbl)
    + n_global_data d * so_dbl
    + zN1 * so_ptr + zN * so_ptr + zN1 * so_ptr + zN1 * so_ptr
    + zN1 * so E "blasfeo_dvec"
    + zsum (S N) (fun i => ms_dvec E (2 * ni d i))
    + zsum N (sub E "dynamics_model")
    + zsum (S N) (sub E "cost_model")
    + zsum (S N) (sub E "constraints_model")
    + (5 * 8 + 64)).
Definition in_assign : list op :=
  [Align 8; Take KStruct (so E "ocp_nlp_in");
   Take KPtr (zN * so_ptr); Take KPtr (zN1 * so_ptr); Take KPtr (zN1 * so_ptr);
   Align 8;
   Take KDvecS (zN1 * so E "blasfeo_dvec"); Align 8]
  ++ for_ops N (fun i => [Take KSub8 (sub E "dynamics_model" i)])
  ++ for_ops (S N) (fun i => [Take KSub8 (sub E "cost_model" i)])
  ++ for_ops (S N) (fun i => [Take KSub8 (sub E "constraints_model" i)])
  ++ [Take KDouble (zN * so_dbl); Take KPtr (zN1 * so_ptr); Align 8]
  ++ for_ops (S N) (fun i => [Take KDouble (np d i * so_dbl)])
  ++ [Take KDouble (n_global_data d * so_dbl); Align 64]
  ++ for_ops (S N) (fun i => [Take KDvecMem (ms_dvec E (2 * ni d i))])
  ++ [Align 8].

(** ** out: ocp_nlp_common.c:949-985 and :989-1055 *)
Definition out_size : Z :=
  make_int_multiple_of 8
   (so E "ocp_nlp_out" + 3 * zN1 * so E "blasfeo_dvec" + 1 * zN * so E "blasfeo_dvec"
    + zsum N (fun i => ms_dvec E (nv d i) + ms_dvec E (nz d i)
                       + ms_dvec E (2 * ni d i) + ms_dvec E (nx d (S i)))
    + ms_dvec E (nv d N) + ms_dvec E (nz d N) + ms_dvec E (2 * ni d N)
    + 8 + 8 + 64).
Definition out_assign : list op :=
  [Align 8; Take KStruct (so E "ocp_nlp_out"); Align 8;
   Take KDvecS (zN1 * so E "blasfeo_dvec") (* ux *);
   Take KDvecS (zN1 * so E "blasfeo_dvec") (* z *);
   Take KDvecS (zN * so E "blasfeo_dvec") (* pi *);
   Take KDvecS (zN1 * so E "blasfeo_dvec") (* lam *);
   Align 64]
  ++ for_ops (S N) (fun i => [Take KDvecMem (ms_dvec E (nv d i))])
  ++ for_ops (S N) (fun i => [Take KDvecMem (ms_dvec E (nz d i))])
  ++ for_ops N (fun i => [Take KDvecMem (ms_dvec E (nx d (S i)))])
  ++ for_ops (S N) (fun i => [Take KDvecMem (ms_dvec E (2 * ni d i))]).

(** ** opts: ocp_nlp_common.c:1065-1112 and :1114-1180.  [dyn i]: size announced by the dynamics
    module of stage [i] for its options, [kd i]: what its assign function casts the memory to
    (ocp_nlp_dynamics_cont.h:83-88 starts with a pointer, ocp_nlp_dynamics_disc.h:79-86 has ints
    only).  The options of all cost and constraint modules are structs of ints. *)
Definition opts_size_with (dyn : nat -> Z) : Z :=
  so E "ocp_nlp_opts" + sub E "qp_solver_opts" 0 + sub E "regularize_opts" 0
  + so E "ocp_nlp_qpscaling_opts" + sub E "globalization_opts" 0
  + zN * so_ptr + zsum N dyn
  + zN1 * so_ptr + zsum (S N) (sub E "cost_opts")
  + zN1 * so_ptr + zsum (S N) (sub E "constraints_opts")
  + 2 * 8.
Definition opts_assign_with (kd : nat -> kind) (dyn : nat -> Z) : list op :=
  [Align 8; Take KStruct (so E "ocp_nlp_opts");
   Take KPtr (zN * so_ptr); Take KPtr (zN1 * so_ptr); Take KPtr (zN1 * so_ptr); Align 8;
   Take KSub8 (sub E "qp_solver_opts" 0); Take KSub8 (sub E "regularize_opts" 0);
   Take KStruct (so E "ocp_nlp_qpscaling_opts"); Take KSub8 (sub E "globalization_opts" 0)]
  ++ for_ops N (fun i => [Take (kd i) (dyn i)])
  ++ for_ops (S N) (fun i => [Take KIntStruct (sub E "cost_opts" i)])
  ++ for_ops (S N) (fun i => [Take KIntStruct (sub E "constraints_opts" i)]).
Definition opts_size : Z := opts_size_with (sub E "dynamics_opts").
Definition opts_assign : list op := opts_assign_with (fun _ => KSub8) (sub E "dynamics_opts").

(** ** residuals: ocp_nlp_common.c:3580-3611 and :3614-3677 *)
Definition res_size : Z :=
  make_int_multiple_of 8
   (so E "ocp_nlp_res" + 3 * zN1 * so E "blasfeo_dvec" + 1 * zN * so E "blasfeo_dvec"
    + zsum N (fun i => ms_dvec E (nv d i) + ms_dvec E (nx d (S i)) + 2 * ms_dvec E (2 * ni d i))
    + ms_dvec E (nv d N) + 2 * ms_dvec E (2 * ni d N)
    + ms_dvec E zN
    + 8 + 8 + 64).
Definition res_assign : list op :=
  [Align 8; Take KStruct (so E "ocp_nlp_res"); Align 8;
   Take KDvecS (zN1 * so E "blasfeo_dvec") (* res_stat *);
   Take KDvecS (zN * so E "blasfeo_dvec") (* res_eq *);
   Take KDvecS (zN1 * so E "blasfeo_dvec") (* res_ineq *);
   Take KDvecS (zN1 * so E "blasfeo_dvec") (* res_comp *);
   Align 64]
  ++ for_ops (S N) (fun i => [Take KDvecMem (ms_dvec E (nv d i))])
  ++ for_ops N (fun i => [Take KDvecMem (ms_dvec E (nx d (S i)))])
  ++ for_ops (S N) (fun i => [Take KDvecMem (ms_dvec E (2 * ni d i))])
  ++ for_ops (S N) (fun i => [Take KDvecMem (ms_dvec E (2 * ni d i))])
  ++ [Take KDvecMem (ms_dvec E zN)].

(** Options that influence the size of the NLP memory and workspace. *)
Record size_opts := mkSizeOpts {
  with_anderson : bool; store_iterates : bool; sens_forw : bool;
  log_primal : bool; log_dual : bool; ext_qp_res : bool;
  reuse_workspace : bool; openmp : bool (* compiled with ACADOS_WITH_OPENMP *);
  max_iter : nat }.
Variable o : size_opts.

(** ** memory: ocp_nlp_common.c:1733-1872 and :1876-2125.
    [mem_size] is the announced size, [mem_assign] the carve-out. *)
Definition mem_size : Z :=
  make_int_multiple_of 8
   (so E "ocp_nlp_memory" + sub E "qp_in" 0 + sub E "qp_out" 0
    + (if with_anderson o then 2 * sub E "qp_out" 0 else 0)
    + sub E "qp_solver_mem" 0 + sub E "regularize_mem" 0 + sub E "qpscaling_mem" 0
    + sub E "globalization_mem" 0
    + zN * so_ptr + zsum N (sub E "dynamics_mem")
    + zN1 * so_ptr + zsum (S N) (sub E "cost_mem")
    + zN1 * so_ptr + zsum (S N) (sub E "constraints_mem")
    + (if store_iterates o then
         (Z.of_nat (max_iter o) + 1) * so_ptr + zsum (S (max_iter o)) (fun _ => out_size)
       else 0)
    + (if sens_forw o then
         2 * zN1 * so E "blasfeo_dmat" + zN * so E "blasfeo_dmat"
         + zsum (S N) (fun i => ms_dmat E (nv d i) (np_global d) + ms_dmat E (ni_nl d i) (np_global d))
         + zsum N (fun i => ms_dmat E (nx d (S i)) (np_global d))
       else 0)
    + res_size + so E "ocp_nlp_timings" + zN1 * so_bool
    + (if log_primal o then Z.of_nat (max_iter o) * so_dbl else 0)
    + (if log_dual o then Z.of_nat (max_iter o) * so_dbl else 0)
    + zN1 * so E "blasfeo_dmat" + 6 * zN1 * so E "blasfeo_dvec" + 1 * zN * so E "blasfeo_dvec"
    + zsum N (fun i =>
         ms_dmat E (nu d i + nx d i) (nz d i) + ms_dvec E (nz d i) + 2 * ms_dvec E (nv d i)
         + ms_dvec E (nu d i + nx d i) + ms_dvec E (nx d (S i)) + ms_dvec E (2 * ni d i)
         + ms_dvec E (nx d i + nz d i))
    + ms_dmat E (nu d N + nx d N) (nz d N) + ms_dvec E (nz d N) + 2 * ms_dvec E (nv d N)
    + ms_dvec E (nu d N + nx d N) + ms_dvec E (2 * ni d N) + ms_dvec E (nx d N + nz d N)
    + ms_dvec E (np_global d)
    + 8 + 8 + 8 + 64).

Definition when (b : bool) (l : list op) : list op := if b then l else [].

Definition mem_assign : list op :=
  [Align 8; Take KStruct (so E "ocp_nlp_memory");
   Take KPtr (zN * so_ptr); Take KPtr (zN1 * so_ptr); Take KPtr (zN1 * so_ptr)]
  ++ when (store_iterates o) [Take KPtr ((Z.of_nat (max_iter o) + 1) * so_ptr)]
  ++ [Align 8; Take KSub8 (sub E "qp_in" 0); Take KSub8 (sub E "qp_out" 0)]
  ++ when (with_anderson o) [Take KSub8 (sub E "qp_out" 0); Take KSub8 (sub E "qp_out" 0)]
  ++ [Take KSub8 (sub E "qp_solver_mem" 0); Take KSub8 (sub E "regularize_mem" 0);
      Take KSub8 (sub E "globalization_mem" 0); Take KSub8 (sub E "qpscaling_mem" 0)]
  ++ for_ops N (fun i => [Take KSub8 (sub E "dynamics_mem" i)])
  ++ for_ops (S N) (fun i => [Take KSub8 (sub E "cost_mem" i)])
  ++ for_ops (S N) (fun i => [Take KSub8 (sub E "constraints_mem" i)])
  ++ when (store_iterates o) (for_ops (S (max_iter o)) (fun _ => [Take KSub out_size]))
  ++ [Take KSub res_size; Take KStruct (so E "ocp_nlp_timings"); Align 8]
  ++ when (sens_forw o)
       [Take KDmatS (zN1 * so E "blasfeo_dmat"); Take KDmatS (zN1 * so E "blasfeo_dmat");
        Take KDmatS (zN * so E "blasfeo_dmat")]
  ++ [Take KDmatS (zN1 * so E "blasfeo_dmat") (* dzduxt *);
      Take KDvecS (zN1 * so E "blasfeo_dvec") (* z_alg *);
      Take KDvecS (zN1 * so E "blasfeo_dvec") (* cost_grad *);
      Take KDvecS (zN1 * so E "blasfeo_dvec") (* ineq_fun *);
      Take KDvecS (zN1 * so E "blasfeo_dvec") (* ineq_adj *);
      Take KDvecS (zN * so E "blasfeo_dvec") (* dyn_fun *);
      Take KDvecS (zN1 * so E "blasfeo_dvec") (* dyn_adj *);
      Take KDvecS (zN1 * so E "blasfeo_dvec") (* sim_guess *)]
  ++ when (log_primal o) [Take KDouble (Z.of_nat (max_iter o) * so_dbl)]
  ++ when (log_dual o) [Take KDouble (Z.of_nat (max_iter o) * so_dbl)]
  ++ [Take KBool (zN1 * so_bool); Align 64]
  ++ when (sens_forw o)
       (for_ops (S N) (fun i => [Take KDmatMem (ms_dmat E (nv d i) (np_global d));
                                 Take KDmatMem (ms_dmat E (ni_nl d i) (np_global d))])
        ++ for_ops N (fun i => [Take KDmatMem (ms_dmat E (nx d (S i)) (np_global d))]))
  ++ for_ops (S N) (fun i => [Take KDmatMem (ms_dmat E (nu d i + nx d i) (nz d i))])
  ++ for_ops (S N) (fun i => [Take KDvecMem (ms_dvec E (nz d i))])
  ++ for_ops (S N) (fun i => [Take KDvecMem (ms_dvec E (nv d i))])
  ++ for_ops (S N) (fun i => [Take KDvecMem (ms_dvec E (2 * ni d i))])
  ++ for_ops (S N) (fun i => [Take KDvecMem (ms_dvec E (nv d i))])
  ++ for_ops N (fun i => [Take KDvecMem (ms_dvec E (nx d (S i)))])
  ++ for_ops (S N) (fun i => [Take KDvecMem (ms_dvec E (nu d i + nx d i))])
  ++ for_ops (S N) (fun i => [Take KDvecMem (ms_dvec E (nx d i + nz d i))])
  ++ [Take KDvecMem (ms_dvec E (np_global d))].

(** ** workspace: ocp_nlp_common.c:2133-2356 and :2360-2607.
    Simplified: the [int tmp] truncation of sub-workspace sizes (lines 2225-2254) is not modelled.
    With [reuse_workspace] and no OpenMP all module workspaces share one block (lines 2458-2490,
    2554-2570): that block is one [Take]. *)
Fixpoint zmax (n : nat) (f : nat -> Z) : Z :=
  match n with O => 0 | S m => Z.max (zmax m f) (f m) end.

Definition nx_max := zmax (S N) (nx d).
Definition nv_max := zmax (S N) (nv d).
Definition ni_max := zmax (S N) (ni d).
Definition ns_max := zmax (S N) (ns d).

Definition shared_ws : bool := reuse_workspace o && negb (openmp o).

Definition module_ws_size : Z :=
  if shared_ws then
    Z.max (Z.max (Z.max (sub E "qp_solver_ws" 0) (zmax N (sub E "dynamics_ws")))
                 (zmax (S N) (sub E "cost_ws"))) (zmax (S N) (sub E "constraints_ws"))
  else sub E "qp_solver_ws" 0 + zsum N (sub E "dynamics_ws")
       + zsum (S N) (sub E "cost_ws") + zsum (S N) (sub E "constraints_ws").

Definition ext_ws_size : Z :=
  if shared_ws then
    Z.max (Z.max (zmax (S N) (sub E "constraints_ext_ws")) (zmax (S N) (sub E "cost_ext_ws")))
          (zmax N (sub E "dynamics_ext_ws"))
  else zsum (S N) (sub E "constraints_ext_ws") + zsum (S N) (sub E "cost_ext_ws")
       + zsum N (sub E "dynamics_ext_ws").

Definition ws_size : Z :=
  so E "ocp_nlp_workspace" + out_size + out_size + sub E "qp_out" 0 + sub E "qp_seed" 0
  + (if ext_qp_res o then sub E "qp_res" 0 + sub E "qp_res_ws" 0 else 0)
  + ms_dvec E nx_max + ms_dvec E nv_max + ms_dvec E (2 * ni_max) + ms_dvec E (np_global d)
  + zN1 * so_ptr + zN * so_ptr + zN1 * so_ptr + nv_max * so_dbl
  + module_ws_size + (ni_max + ns_max) * so_int
  + 64 + ext_ws_size + 8 + 64.

Definition ws_assign : list op :=
  [Take KStruct (so E "ocp_nlp_workspace");
   Take KPtr (zN * so_ptr); Take KPtr (zN1 * so_ptr); Take KPtr (zN1 * so_ptr); Align 8;
   Take KSub out_size; Take KSub8 (sub E "qp_out" 0); Take KSub out_size;
   Take KSub8 (sub E "qp_seed" 0)]
  ++ when (ext_qp_res o) [Take KSub8 (sub E "qp_res" 0); Take KSub8 (sub E "qp_res_ws" 0)]
  ++ [Take KDouble (nv_max * so_dbl); Take KInt ((ni_max + ns_max) * so_int); Align 64;
      Take KDvecMem (ms_dvec E nv_max); Take KDvecMem (ms_dvec E (2 * ni_max));
      Take KDvecMem (ms_dvec E nx_max); Take KDvecMem (ms_dvec E (np_global d))]
  ++ (if shared_ws then [Take KSub8 module_ws_size]
      else [Take KSub8 (sub E "qp_solver_ws" 0)]
           ++ for_ops N (fun i => [Take KSub8 (sub E "dynamics_ws" i)])
           ++ for_ops (S N) (fun i => [Take KSub8 (sub E "cost_ws" i)])
           ++ for_ops (S N) (fun i => [Take KSub8 (sub E "constraints_ws" i)]))
  ++ [Align 64]
  ++ (if shared_ws then [Take KSub8 ext_ws_size]
      else for_ops (S N) (fun i => [Take KSub8 (sub E "constraints_ext_ws" i)])
           ++ for_ops (S N) (fun i => [Take KSub8 (sub E "cost_ext_ws" i)])
           ++ for_ops N (fun i => [Take KSub8 (sub E "dynamics_ext_ws" i)])).

End M.
