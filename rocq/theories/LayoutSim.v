(** calculate_size / assign pairs of the integrators (acados/sim), in the layout model of
    Layout.v. *)
From Coq Require Import ZArith List String.
From Verif Require Import Layout LayoutNlp LayoutSolver.
Import ListNotations.
Open Scope string_scope.
Open Scope Z_scope.

(** dims of the integrators: sim_erk_integrator.h:44-50, sim_irk_integrator.h:44-52,
    sim_lifted_irk_integrator.h:42-47, sim_gnsf.h:59-70.  [s_ny]: output dimension of an integrated
    cost (IRK) or of the first input of phi (GNSF). *)
Record sim_dims := mkSimDims {
  s_nx : Z; s_nu : Z; s_nz : Z; s_np : Z; s_ny : Z;
  g_nx1 : Z; g_nz1 : Z; g_nout : Z; g_nuhat : Z }.

(** sim_common.h, the options that influence the sizes *)
Record sim_opts := mkSimOpts {
  s_ns : Z; num_steps : nat; num_forw_sens : Z;
  sens_forw_x : bool; sens_forw_p : bool; sens_adj : bool; sens_hess : bool; sens_algebraic : bool;
  output_z : bool; exact_z_output : bool; cost_computation : bool; cost_conl : bool }.

(** sim_common.h:44 *)
Definition NS_MAX : Z := 15.

Section M.
Variable E : cenv.
Variable d : sim_dims.
Variable o : sim_opts.
(** announced size of the model object *)
Variable model : Z.

Let nx := s_nx d.
Let nu := s_nu d.
Let nz := s_nz d.
Let np := s_np d.
Let ny := s_ny d.
Let NF := s_nx d + s_nu d.
Let ns := s_ns o.
Let steps := Z.of_nat (num_steps o).

(** ** sim_in: sim_common.c:77-101 and :105-144 *)
Definition sim_in_obj : obj := mkObj "sim_in"
  (make_int_multiple_of 8
     (so E "sim_in" + nx * so_dbl + nu * so_dbl + nx * (nx + nu) * so_dbl + (nx + nu) * so_dbl + model)
   + 2 * 8)
  [Take KStruct (so E "sim_in"); Align 8; Take KSub8 model; Align 8;
   Take KDouble (nx * so_dbl); Take KDouble (nu * so_dbl); Take KDouble (nx * NF * so_dbl);
   Take KDouble (NF * so_dbl)].

(** ** sim_out: sim_common.c:272-300 and :304-337 *)
Definition sim_out_obj : obj := mkObj "sim_out"
  (make_int_multiple_of 8
     (so E "sim_out" + so E "sim_info" + nx * so_dbl + nx * NF * so_dbl + (nx + nu) * so_dbl
      + (NF * NF) * so_dbl + nz * so_dbl + nz * NF * so_dbl + NF * so_dbl)
   + 1 * 8)
  [Take KStruct (so E "sim_out"); Take KStruct (so E "sim_info"); Align 8;
   Take KDouble (nx * so_dbl); Take KDouble (nx * NF * so_dbl); Take KDouble ((nx + nu) * so_dbl);
   Take KDouble (NF * NF * so_dbl); Take KDouble (NF * so_dbl); Take KDouble (nz * so_dbl);
   Take KDouble (nz * NF * so_dbl)].

(** ** work array of the tableau computation: sim_collocation_utils.c:156-168 and :464-477 *)
Definition legendre_work (n : Z) : Z := 4 * n * so_dbl + 1 * n * (n + 1) * so_dbl.
Definition butcher_work (n : Z) : Z :=
  let size := 3 * n * n * so_dbl + 1 * n * so_int in
  let size_legendre := legendre_work n in
  make_int_multiple_of 8 (if size >? size_legendre then size else size_legendre).
(** carved by sim_collocation_utils.c:484-499 and, for the Gauss-Legendre nodes, :180-198 *)
Definition tableau_ops (n : Z) : list op :=
  [Take KDouble (n * n * so_dbl) (* can_vm *); Take KDouble (n * n * so_dbl) (* rhs *);
   Take KDouble (n * n * so_dbl) (* lu_work *); Take KInt (n * so_int) (* perm *)].
Definition legendre_ops (n : Z) : list op :=
  [Take KDouble (n * so_dbl) (* x_init *); Take KDouble (n * so_dbl) (* y *);
   Take KDouble (n * so_dbl) (* y_prev *); Take KDouble (n * (n + 1) * so_dbl) (* lgvm *);
   Take KDouble (n * so_dbl) (* der_lgvm *)].
Definition tableau_work_obj (n : Z) : obj := mkObj "butcher_tableau_work" (butcher_work n) (tableau_ops n).
Definition legendre_work_obj (n : Z) : obj := mkObj "gauss_legendre_work" (butcher_work n) (legendre_ops n).

(** ** options: sim_erk_integrator.c:214-254; sim_irk_integrator.c:250-292,
    sim_lifted_irk_integrator.c:195-239 (work array first); sim_gnsf.c:264-307 (work array last) *)
Definition tableau_dbl : list op :=
  [Take KDouble (NS_MAX * NS_MAX * so_dbl); Take KDouble (NS_MAX * so_dbl); Take KDouble (NS_MAX * so_dbl)].
Definition erk_opts_obj : obj := mkObj "sim_erk_opts"
  (make_int_multiple_of 8
     (so E "sim_opts" + NS_MAX * NS_MAX * so_dbl + NS_MAX * so_dbl + NS_MAX * so_dbl) + 1 * 8)
  ([Take KStruct (so E "sim_opts"); Align 8] ++ tableau_dbl).
Definition coll_opts_size : Z :=
  make_int_multiple_of 8
    (so E "sim_opts" + NS_MAX * NS_MAX * so_dbl + NS_MAX * so_dbl + NS_MAX * so_dbl + butcher_work NS_MAX)
  + 1 * 8.
Definition irk_opts_obj : obj := mkObj "sim_irk_opts" coll_opts_size
  ([Take KStruct (so E "sim_opts"); Align 8; Take KSub8 (butcher_work NS_MAX)] ++ tableau_dbl).
Definition gnsf_opts_obj : obj := mkObj "sim_gnsf_opts" coll_opts_size
  ([Take KStruct (so E "sim_opts"); Align 8] ++ tableau_dbl ++ [Take KSub8 (butcher_work NS_MAX)]).

(** ** models of ERK, IRK and lifted IRK: structs of function pointers.
    sim_erk_integrator.c:146-171, sim_irk_integrator.c:154-181, sim_lifted_irk_integrator.c:143-164 *)
Definition fun_model_obj (s : string) : obj := mkObj s (so E s) [Take KStruct (so E s)].

(** ** ERK memory: sim_erk_integrator.c:336-349 and :353-372 *)
Definition erk_mem_obj : obj := mkObj "sim_erk_memory"
  (so E "sim_erk_memory" + (if sens_forw_p o then nx * np * so_dbl else 0))
  ([Take KStruct (so E "sim_erk_memory")] ++ when (sens_forw_p o) [Take KDouble (nx * np * so_dbl)]).

(** ** ERK workspace: sim_erk_integrator.c:447-498 and :502-584 *)
Definition erk_nf : Z := if (negb (sens_forw_x o) && negb (sens_forw_p o))%bool then 0 else num_forw_sens o.
Definition erk_nX : Z := nx * (1 + erk_nf + (if sens_forw_p o then np else 0)).
Definition erk_nhess : Z := (erk_nf + 1) * erk_nf / 2.
Definition erk_ws_obj : obj := mkObj "sim_erk_workspace"
  (make_int_multiple_of 8
    (so E "sim_erk_workspace" + (erk_nX + nu) * so_dbl
     + (if (sens_adj o || sens_hess o)%bool
        then steps * ns * erk_nX * so_dbl + (steps + 1) * erk_nX * so_dbl
        else ns * erk_nX * so_dbl + erk_nX * so_dbl)
     + (if sens_hess o
        then (erk_nX + nx + nu) * so_dbl + (nx + nu + erk_nhess) * so_dbl
             + ns * (nx + nu + erk_nhess) * so_dbl
        else if sens_adj o
        then (nx * 2 + nu) * so_dbl + (nx + nu) * so_dbl + ns * (nx + nu) * so_dbl
        else 0)) + 1 * 8)
  ([Take KStruct (so E "sim_erk_workspace"); Align 8; Take KDouble ((erk_nX + nu) * so_dbl)]
   ++ (if (sens_adj o || sens_hess o)%bool
       then [Take KDouble (ns * steps * erk_nX * so_dbl); Take KDouble ((steps + 1) * erk_nX * so_dbl)]
       else [Take KDouble (ns * erk_nX * so_dbl); Take KDouble (erk_nX * so_dbl)])
   ++ (if sens_hess o
       then [Take KDouble ((nx + erk_nX + nu) * so_dbl); Take KDouble ((nx + nu + erk_nhess) * so_dbl);
             Take KDouble (ns * (nx + nu + erk_nhess) * so_dbl)]
       else if sens_adj o
       then [Take KDouble ((2 * nx + nu) * so_dbl); Take KDouble ((nu + nx) * so_dbl);
             Take KDouble (ns * (nu + nx) * so_dbl)]
       else [])).

(** ** IRK memory: sim_irk_integrator.c:390-424 and :427-477 *)
Definition irk_mem_obj : obj := mkObj "sim_irk_memory"
  (make_int_multiple_of 8
    (so E "sim_irk_memory" + nx * so_dbl + nz * so_dbl + 8
     + (if cost_computation o then 1 * so E "blasfeo_dmat" + 1 * ms_dmat E (nx + nu) (nx + nu) + 64 else 0)
     + (if sens_forw_p o then 1 * ms_dmat E nx np + 1 * so E "blasfeo_dmat" + 64 else 0)))
  ([Take KStruct (so E "sim_irk_memory"); Align 8]
   ++ when (cost_computation o) [Take KDmatS (1 * so E "blasfeo_dmat")]
   ++ when (sens_forw_p o) [Take KDmatS (1 * so E "blasfeo_dmat"); Align 64; Take KDmatMem (ms_dmat E nx np)]
   ++ [Take KDouble (nz * so_dbl); Take KDouble (nx * so_dbl)]
   ++ when (cost_computation o) [Align 64; Take KDmatMem (ms_dmat E (nx + nu) (nx + nu))]).

(** ** IRK workspace: sim_irk_integrator.c:626-748 and :750-916 *)
Definition irk_nK : Z := (nx + nz) * ns.
Definition irk_ws_obj : obj := mkObj "sim_irk_workspace"
  (make_int_multiple_of 64
    (so E "sim_irk_workspace"
     + (if (sens_algebraic o || output_z o)%bool then (nx + nz) * so_int + ns * so_dbl else 0)
     + 4 * so E "blasfeo_dvec"
     + (if (sens_adj o || sens_hess o)%bool then 2 * steps * so E "blasfeo_dvec" else 0)
     + 2 * so E "blasfeo_dvec"
     + (if negb (sens_hess o) then 4 * so E "blasfeo_dmat" else (4 * steps + 1) * so E "blasfeo_dmat")
     + (if sens_forw_p o then 2 * so E "blasfeo_dmat" else 0)
     + (if cost_computation o
        then 4 * so E "blasfeo_dmat" + 2 * so E "blasfeo_dvec"
             + (if cost_conl o then 3 * so E "blasfeo_dmat" else 0)
        else 0)
     + (if cost_computation o
        then 1 * ms_dmat E ny (nx + nu) + 2 * ms_dmat E (nx + nu) ny + 2 * ms_dvec E ny
             + 1 * ms_dmat E nx (nx + nu)
             + (if cost_conl o
                then 1 * ms_dmat E (nx + nu) ny + 1 * ms_dmat E ny ny + 1 * ms_dmat E nz ny else 0)
        else 0)
     + ms_dvec E irk_nK + ms_dvec E irk_nK + 3 * ms_dvec E nx + 1 * ms_dvec E (nx + nu)
     + 1 * ms_dvec E irk_nK
     + (if negb (sens_hess o)
        then 1 * ms_dmat E irk_nK (nx + nu) + 1 * ms_dmat E irk_nK irk_nK
             + 1 * ms_dmat E irk_nK (nx + nu) + 1 * ms_dmat E nx (nx + nu) + irk_nK * so_int
        else steps * ms_dmat E irk_nK (nx + nu) + steps * ms_dmat E irk_nK irk_nK
             + steps * ms_dmat E irk_nK (nx + nu) + (steps + 1) * ms_dmat E nx (nx + nu)
             + steps * irk_nK * so_int
             + 1 * ms_dmat E (2 * nx + nz + nu) (2 * nx + nz + nu)
             + 2 * ms_dmat E (2 * nx + nz + nu) (nx + nu) + 1 * ms_dmat E (nx + nu) (nx + nu))
     + (if sens_forw_p o then 1 * ms_dmat E irk_nK np + 1 * ms_dmat E (nx + nz) np else 0)
     + (if (sens_adj o || sens_hess o)%bool then steps * ms_dvec E nx + steps * ms_dvec E irk_nK else 0)
     + 2 * ms_dmat E (nx + nz) nx + ms_dmat E (nx + nz) nu + ms_dmat E (nx + nz) nz
     + (if (sens_algebraic o && exact_z_output o)%bool
        then ms_dmat E (nx + nz) (nx + nz) + ms_dmat E (nx + nz) (nx + nu) else 0)
     + 1 * 8) + 1 * 64)
  ([Align 8; Take KStruct (so E "sim_irk_workspace")]
   ++ when (sens_adj o || sens_hess o)%bool
        [Take KDvecS (steps * so E "blasfeo_dvec"); Take KDvecS (steps * so E "blasfeo_dvec")]
   ++ [Take KDvecS (1 * so E "blasfeo_dvec"); Take KDvecS (1 * so E "blasfeo_dvec");
       Take KDvecS (1 * so E "blasfeo_dvec"); Take KDvecS (1 * so E "blasfeo_dvec")]
   ++ (if negb (sens_hess o)
       then [Take KDmatS (1 * so E "blasfeo_dmat"); Take KDmatS (1 * so E "blasfeo_dmat");
             Take KDmatS (1 * so E "blasfeo_dmat"); Take KDmatS (1 * so E "blasfeo_dmat")]
       else [Take KDmatS (steps * so E "blasfeo_dmat"); Take KDmatS (steps * so E "blasfeo_dmat");
             Take KDmatS (steps * so E "blasfeo_dmat"); Take KDmatS ((steps + 1) * so E "blasfeo_dmat")])
   ++ when (sens_forw_p o) [Take KDmatS (1 * so E "blasfeo_dmat"); Take KDmatS (1 * so E "blasfeo_dmat")]
   ++ [Take KDvecS (1 * so E "blasfeo_dvec"); Take KDvecS (1 * so E "blasfeo_dvec")]
   ++ when (cost_computation o)
        ([Take KDmatS (1 * so E "blasfeo_dmat"); Take KDmatS (1 * so E "blasfeo_dmat");
          Take KDmatS (1 * so E "blasfeo_dmat"); Take KDmatS (1 * so E "blasfeo_dmat")]
         ++ when (cost_conl o)
              [Take KDmatS (1 * so E "blasfeo_dmat"); Take KDmatS (1 * so E "blasfeo_dmat");
               Take KDmatS (1 * so E "blasfeo_dmat")]
         ++ [Take KDvecS (1 * so E "blasfeo_dvec"); Take KDvecS (1 * so E "blasfeo_dvec")])
   ++ [Align 64]
   ++ when (cost_computation o)
        ([Take KDmatMem (ms_dmat E ny (nx + nu)) (* J_y_tilde *);
          Take KDmatMem (ms_dmat E (nx + nu) ny); Take KDmatMem (ms_dmat E (nx + nu) ny);
          Take KDmatMem (ms_dmat E nx (nx + nu)) (* S_forw_stage *)]
         ++ when (cost_conl o)
              [Take KDmatMem (ms_dmat E (nx + nu) ny); Take KDmatMem (ms_dmat E ny ny);
               Take KDmatMem (ms_dmat E nz ny)])
   ++ (if negb (sens_hess o)
       then [Take KDmatMem (ms_dmat E irk_nK (nx + nu)); Take KDmatMem (ms_dmat E irk_nK irk_nK);
             Take KDmatMem (ms_dmat E irk_nK (nx + nu)); Take KDmatMem (ms_dmat E nx (nx + nu))]
       else for_ops (num_steps o) (fun _ =>
              [Take KDmatMem (ms_dmat E irk_nK (nx + nu)); Take KDmatMem (ms_dmat E irk_nK irk_nK);
               Take KDmatMem (ms_dmat E irk_nK (nx + nu)); Take KDmatMem (ms_dmat E nx (nx + nu))])
            ++ [Take KDmatMem (ms_dmat E nx (nx + nu));
                Take KDmatMem (ms_dmat E (2 * nx + nz + nu) (2 * nx + nz + nu)) (* f_hess *);
                Take KDmatMem (ms_dmat E (2 * nx + nz + nu) (nx + nu));
                Take KDmatMem (ms_dmat E (2 * nx + nz + nu) (nx + nu));
                Take KDmatMem (ms_dmat E (nx + nu) (nx + nu)) (* Hess *)])
   ++ when (sens_forw_p o) [Take KDmatMem (ms_dmat E irk_nK np); Take KDmatMem (ms_dmat E (nx + nz) np)]
   ++ [Take KDmatMem (ms_dmat E (nx + nz) nx); Take KDmatMem (ms_dmat E (nx + nz) nx);
       Take KDmatMem (ms_dmat E (nx + nz) nu); Take KDmatMem (ms_dmat E (nx + nz) nz)]
   ++ when (sens_algebraic o && exact_z_output o)%bool
        [Take KDmatMem (ms_dmat E (nx + nz) (nx + nz)); Take KDmatMem (ms_dmat E (nx + nz) (nx + nu))]
   ++ when (cost_computation o) [Take KDvecMem (ms_dvec E ny); Take KDvecMem (ms_dvec E ny)]
   ++ [Take KDvecMem (ms_dvec E irk_nK) (* rG *); Take KDvecMem (ms_dvec E irk_nK) (* K *);
       Take KDvecMem (ms_dvec E nx); Take KDvecMem (ms_dvec E nx); Take KDvecMem (ms_dvec E nx);
       Take KDvecMem (ms_dvec E (nx + nu)) (* lambda *); Take KDvecMem (ms_dvec E irk_nK) (* lambdaK *)]
   ++ when (sens_adj o || sens_hess o)%bool
        (for_ops (num_steps o) (fun _ => [Take KDvecMem (ms_dvec E nx); Take KDvecMem (ms_dvec E irk_nK)]))
   ++ when (sens_algebraic o || output_z o)%bool
        [Take KDouble (ns * so_dbl); Take KInt ((nx + nz) * so_int)]
   ++ (if negb (sens_hess o) then [Take KInt (irk_nK * so_int)] else [Take KInt (steps * irk_nK * so_int)])).

(** ** lifted IRK memory: sim_lifted_irk_integrator.c:320-353 and :357-427 *)
Definition lirk_mem_obj : obj := mkObj "sim_lifted_irk_memory"
  (make_int_multiple_of 64
    (so E "sim_lifted_irk_memory" + 1 * so E "blasfeo_dmat" + 2 * so E "blasfeo_dmat"
     + steps * so E "blasfeo_dmat" + steps * so E "blasfeo_dvec" + 2 * so E "blasfeo_dvec"
     + ms_dmat E nx (nx + nu) + ms_dmat E (nx * ns) (nx * ns) + 1 * ms_dmat E (nx * ns) (nx + nu)
     + steps * ms_dmat E (nx * ns) (nx + nu) + steps * ms_dvec E (nx * ns)
     + 1 * ms_dvec E nx + 1 * ms_dvec E nu + 1 * 8) + 1 * 64)
  ([Align 8; Take KStruct (so E "sim_lifted_irk_memory");
    Take KDmatS (so E "blasfeo_dmat"); Take KDmatS (so E "blasfeo_dmat"); Take KDmatS (so E "blasfeo_dmat");
    Take KDmatS (steps * so E "blasfeo_dmat"); Take KDvecS (steps * so E "blasfeo_dvec");
    Take KDvecS (so E "blasfeo_dvec"); Take KDvecS (so E "blasfeo_dvec"); Align 64;
    Take KDmatMem (ms_dmat E nx (nx + nu)); Take KDmatMem (ms_dmat E (nx * ns) (nx * ns));
    Take KDmatMem (ms_dmat E (nx * ns) (nx + nu))]
   ++ for_ops (num_steps o) (fun _ => [Take KDmatMem (ms_dmat E (nx * ns) (nx + nu))])
   ++ for_ops (num_steps o) (fun _ => [Take KDvecMem (ms_dvec E (nx * ns))])
   ++ [Take KDvecMem (ms_dvec E nx); Take KDvecMem (ms_dvec E nu)]).

(** ** lifted IRK workspace: sim_lifted_irk_integrator.c:519-549 and :553-615 *)
Definition lirk_ws_obj : obj := mkObj "sim_lifted_irk_workspace"
  (make_int_multiple_of 64
    (so E "sim_lifted_irk_workspace" + 3 * so E "blasfeo_dmat" + 5 * so E "blasfeo_dvec"
     + 1 * so E "blasfeo_dvec" + 2 * ms_dmat E nx nx + ms_dmat E nx nu + 1 * ms_dvec E (nx * ns)
     + 4 * ms_dvec E nx + ms_dvec E (nx + nu) + nx * ns * so_int) + 1 * 64)
  [Take KStruct (so E "sim_lifted_irk_workspace");
   Take KDmatS (so E "blasfeo_dmat"); Take KDmatS (so E "blasfeo_dmat"); Take KDmatS (so E "blasfeo_dmat");
   Take KDvecS (so E "blasfeo_dvec"); Take KDvecS (so E "blasfeo_dvec"); Take KDvecS (so E "blasfeo_dvec");
   Take KDvecS (so E "blasfeo_dvec"); Take KDvecS (so E "blasfeo_dvec"); Take KDvecS (so E "blasfeo_dvec");
   Align 64; Take KDmatMem (ms_dmat E nx nx); Take KDmatMem (ms_dmat E nx nx); Take KDmatMem (ms_dmat E nx nu);
   Take KDvecMem (ms_dvec E (nx * ns)); Take KDvecMem (ms_dvec E nx); Take KDvecMem (ms_dvec E nx);
   Take KDvecMem (ms_dvec E nx); Take KDvecMem (ms_dvec E nx); Take KDvecMem (ms_dvec E (nx + nu));
   Take KInt (nx * ns * so_int)].

(** ** GNSF *)
Let nx1 := g_nx1 d.
Let nz1 := g_nz1 d.
Let n_out := g_nout d.
Let nuhat := g_nuhat d.
Let nx2 := s_nx d - g_nx1 d.
Let nz2 := s_nz d - g_nz1 d.
Let nxz2 := nx2 + nz2.
Let nvv := ns * n_out.
Let nyy := ns * ny.
Let nK1 := ns * nx1.
Let nK2 := ns * nxz2.
Let nZ1 := ns * nz1.

(** model: sim_gnsf.c:389-427 and :431-492 *)
Definition gnsf_model_obj : obj := mkObj "gnsf_model"
  (make_int_multiple_of 64
    (so E "gnsf_model"
     + (nx1 + nz1) * (nx1 + nu + n_out + (nx1 + nz1)) * so_dbl
     + ny * (2 * nx1 + nz1) * so_dbl + nuhat * nu * so_dbl + (nx2 + nz2) * nx2 * so_dbl
     + (nx1 + nz1) * so_dbl + (nx2 + nz2) * so_dbl + (nx2 + nz2) * (nx2 + nz2) * so_dbl
     + (nx2 + nz2) * nu * so_dbl + (nx + nz) * so_int + (nx + nz) * so_dbl) + 1 * 64)
  [Align 8; Take KStruct (so E "gnsf_model");
   Take KDouble ((nx1 + nz1) * nx1 * so_dbl); Take KDouble ((nx1 + nz1) * nu * so_dbl);
   Take KDouble ((nx1 + nz1) * n_out * so_dbl); Take KDouble ((nx1 + nz1) * (nx1 + nz1) * so_dbl);
   Take KDouble ((nx1 + nz1) * so_dbl); Take KDouble ((nx2 + nz2) * so_dbl);
   Take KDouble (ny * nx1 * so_dbl); Take KDouble (ny * nx1 * so_dbl); Take KDouble (ny * nz1 * so_dbl);
   Take KDouble (nuhat * nu * so_dbl); Take KDouble ((nx2 + nz2) * nx2 * so_dbl);
   Take KDouble ((nx2 + nz2) * nu * so_dbl); Take KDouble ((nx2 + nz2) * (nx2 + nz2) * so_dbl);
   Take KDouble (nx * so_dbl); Take KDouble (nz * so_dbl); Take KInt (nx * so_int); Take KInt (nz * so_int)].

(** memory: sim_gnsf.c:1186-1287 and :1291-1424 *)
Definition gnsf_mem_obj : obj := mkObj "sim_gnsf_memory"
  (make_int_multiple_of 64
    (so E "sim_gnsf_memory" + ns * ns * so_dbl + 2 * ns * so_dbl + n_out * so_dbl + nK2 * so_int
     + (if sens_algebraic o
        then nxz2 * so_int + 9 * so E "blasfeo_dmat" + 2 * so E "blasfeo_dmat" + 3 * so E "blasfeo_dmat" else 0)
     + ms_dmat E nK1 nvv + ms_dmat E nK1 nx1 + ms_dmat E nK1 nu
     + ms_dmat E nyy nvv + ms_dmat E nyy nx1 + ms_dmat E nyy nu
     + ms_dmat E nZ1 nvv + ms_dmat E nZ1 nx1 + ms_dmat E nZ1 nu
     + ms_dmat E (nx2 + nz2) nx2 + ms_dmat E (nx2 + nz2) nu + ms_dmat E nK2 nK2
     + ms_dmat E nK2 nx2 + ms_dmat E nK2 nu + ms_dmat E nx2 (nx2 + nu) + ms_dmat E nuhat nu
     + ms_dmat E nx (nx + nu) + ms_dmat E nz (nx + nu)
     + ms_dvec E nZ1 + ms_dvec E nK1 + ms_dvec E nyy + 1 * 64 + 2 * 8))
  [Align 8; Take KStruct (so E "sim_gnsf_memory"); Take KInt (nK2 * so_int); Align 8;
   Take KDouble (ns * ns * so_dbl); Take KDouble (ns * so_dbl); Take KDouble (ns * so_dbl);
   Take KDouble (n_out * so_dbl); Align 64;
   Take KDmatMem (ms_dmat E nK1 nvv); Take KDmatMem (ms_dmat E nK1 nx1); Take KDmatMem (ms_dmat E nK1 nu);
   Take KDmatMem (ms_dmat E nyy nvv); Take KDmatMem (ms_dmat E nyy nx1); Take KDmatMem (ms_dmat E nyy nu);
   Take KDmatMem (ms_dmat E nZ1 nvv); Take KDmatMem (ms_dmat E nZ1 nx1); Take KDmatMem (ms_dmat E nZ1 nu);
   Take KDmatMem (ms_dmat E (nx2 + nz2) nx2); Take KDmatMem (ms_dmat E (nx2 + nz2) nu);
   Take KDmatMem (ms_dmat E nK2 nK2); Take KDmatMem (ms_dmat E nK2 nx2); Take KDmatMem (ms_dmat E nK2 nu);
   Take KDmatMem (ms_dmat E nx2 (nx2 + nu)); Take KDmatMem (ms_dmat E nuhat nu);
   Take KDmatMem (ms_dmat E nx (nx + nu)); Take KDmatMem (ms_dmat E nz (nx + nu));
   Take KDvecMem (ms_dvec E nZ1); Take KDvecMem (ms_dvec E nyy); Take KDvecMem (ms_dvec E nK1)].

(** the two uses of the workspace: sim_gnsf.c:1503-1668; the precomputation carves it by
    :535-614, the simulation by :1672-1794 *)
Definition gnsf_pre_size : Z :=
  make_int_multiple_of 8
   (make_int_multiple_of 64
     (make_int_multiple_of 8 (so E "gnsf_pre_workspace") + 1 * 8 + (2 * nZ1 + nK1) * so_int)
    + 1 * 64
    + ms_dmat E nx1 nx1 + ms_dmat E nx1 nz1 + ms_dmat E nz1 nx1 + ms_dmat E nz1 nz1
    + ms_dmat E nx1 nx1 + ms_dmat E nz1 nx1 + ms_dmat E nx1 nu + ms_dmat E nz1 nu
    + ms_dmat E nx1 n_out + ms_dmat E nz1 n_out
    + ms_dmat E nK1 nx1 + ms_dmat E nZ1 nx1 + ms_dmat E nK1 nu + ms_dmat E nZ1 nu
    + ms_dmat E nK1 nvv + ms_dmat E nZ1 nvv + ms_dmat E nK1 nZ1 + ms_dmat E nZ1 nK1
    + ms_dmat E nK1 nK1 + ms_dmat E nZ1 nZ1 + ms_dmat E nZ1 nZ1
    + ms_dmat E nyy nZ1 + ms_dmat E nyy nx1 + ms_dmat E nyy nK1
    + ms_dvec E nK1 + ms_dvec E nZ1) + 1 * 8.
Definition gnsf_sim_size : Z :=
  make_int_multiple_of 8
   (make_int_multiple_of 64
     (make_int_multiple_of 8
        (make_int_multiple_of 8 (so E "gnsf_workspace") + 1 * 8 + ns * so_dbl
         + 2 * steps * so E "blasfeo_dvec" + steps * so E "blasfeo_dmat" + nvv * so_int) + 1 * 8
      + steps * ms_dvec E nvv + steps * ms_dvec E nyy
      + ms_dvec E nZ1 + 2 * ms_dvec E nK1 + ms_dvec E nK2 + ms_dvec E nK2
      + ms_dvec E (nx * (steps + 1)) + ms_dvec E nvv + ms_dvec E nu + ms_dvec E (nx + nu)
      + ms_dvec E (nx + nu) + ms_dvec E nyy + ms_dvec E (nyy * steps) + ms_dvec E nK1 + ms_dvec E nZ1
      + 2 * ms_dvec E nxz2 + ms_dvec E nuhat + ms_dvec E nz)
    + 1 * 64
    + steps * ms_dmat E nK2 (2 * nx1 + nu + nz1)
    + ms_dmat E nvv nvv + ms_dmat E nvv (nx1 + nu)
    + ms_dmat E nK1 nx1 + ms_dmat E nK1 nu + ms_dmat E nZ1 nx1 + ms_dmat E nZ1 nu + ms_dmat E nK2 nK1
    + ms_dmat E nK2 nx1 + ms_dmat E nK2 nvv + ms_dmat E nx (nx + nu) + ms_dmat E nx (nx + nu)
    + ms_dmat E nx nvv + ms_dmat E nx nx + ms_dmat E nx nu
    + ms_dmat E nvv (ny + nuhat) + ms_dmat E nz (nx + nu)) + 1 * 8.
Definition gnsf_ws_size : Z := if gnsf_sim_size >? gnsf_pre_size then gnsf_sim_size else gnsf_pre_size.
Definition gnsf_pre_ops : list op :=
  [Align 8; Take KStruct (so E "gnsf_pre_workspace");
   Take KInt (nK1 * so_int); Take KInt (nZ1 * so_int); Take KInt (nZ1 * so_int); Align 64;
   Take KDmatMem (ms_dmat E nx1 nx1); Take KDmatMem (ms_dmat E nx1 nz1); Take KDmatMem (ms_dmat E nz1 nx1);
   Take KDmatMem (ms_dmat E nz1 nz1);
   Take KDmatMem (ms_dmat E nx1 nx1); Take KDmatMem (ms_dmat E nz1 nx1); Take KDmatMem (ms_dmat E nx1 nu);
   Take KDmatMem (ms_dmat E nz1 nu); Take KDmatMem (ms_dmat E nx1 n_out); Take KDmatMem (ms_dmat E nz1 n_out);
   Take KDmatMem (ms_dmat E nK1 nx1); Take KDmatMem (ms_dmat E nZ1 nx1); Take KDmatMem (ms_dmat E nK1 nu);
   Take KDmatMem (ms_dmat E nZ1 nu); Take KDmatMem (ms_dmat E nK1 nvv); Take KDmatMem (ms_dmat E nZ1 nvv);
   Take KDmatMem (ms_dmat E nK1 nZ1); Take KDmatMem (ms_dmat E nZ1 nK1); Take KDmatMem (ms_dmat E nK1 nK1);
   Take KDmatMem (ms_dmat E nZ1 nZ1); Take KDmatMem (ms_dmat E nZ1 nZ1); Take KDmatMem (ms_dmat E nyy nZ1);
   Take KDmatMem (ms_dmat E nyy nx1); Take KDmatMem (ms_dmat E nyy nK1);
   Take KDvecMem (ms_dvec E nK1); Take KDvecMem (ms_dvec E nZ1)].
Definition gnsf_sim_ops : list op :=
  [Take KStruct (so E "gnsf_workspace"); Align 8; Take KDouble (ns * so_dbl); Take KInt (nvv * so_int); Align 8;
   Take KDmatS (steps * so E "blasfeo_dmat"); Take KDvecS (steps * so E "blasfeo_dvec");
   Take KDvecS (steps * so E "blasfeo_dvec")]
  ++ for_ops (num_steps o) (fun _ => [Take KDvecMem (ms_dvec E nvv); Take KDvecMem (ms_dvec E nyy)])
  ++ [Take KDvecMem (ms_dvec E nK2); Take KDvecMem (ms_dvec E nK1); Take KDvecMem (ms_dvec E nK1);
      Take KDvecMem (ms_dvec E nZ1); Take KDvecMem (ms_dvec E nK2); Take KDvecMem (ms_dvec E ((steps + 1) * nx));
      Take KDvecMem (ms_dvec E nvv); Take KDvecMem (ms_dvec E nu); Take KDvecMem (ms_dvec E (nx + nu));
      Take KDvecMem (ms_dvec E (nx + nu)); Take KDvecMem (ms_dvec E nyy); Take KDvecMem (ms_dvec E (nyy * steps));
      Take KDvecMem (ms_dvec E nK1); Take KDvecMem (ms_dvec E nZ1); Take KDvecMem (ms_dvec E nxz2);
      Take KDvecMem (ms_dvec E nxz2); Take KDvecMem (ms_dvec E nuhat); Take KDvecMem (ms_dvec E nz); Align 64]
  ++ for_ops (num_steps o) (fun _ => [Take KDmatMem (ms_dmat E nK2 (2 * nx1 + nu + nz1))])
  ++ [Take KDmatMem (ms_dmat E nvv (nx1 + nu)); Take KDmatMem (ms_dmat E nvv nvv);
      Take KDmatMem (ms_dmat E nK1 nx1); Take KDmatMem (ms_dmat E nK1 nu); Take KDmatMem (ms_dmat E nZ1 nx1);
      Take KDmatMem (ms_dmat E nZ1 nu); Take KDmatMem (ms_dmat E nK2 nK1); Take KDmatMem (ms_dmat E nvv (ny + nuhat));
      Take KDmatMem (ms_dmat E nK2 nx1); Take KDmatMem (ms_dmat E nK2 nvv); Take KDmatMem (ms_dmat E nx (nx + nu));
      Take KDmatMem (ms_dmat E nx (nx + nu)); Take KDmatMem (ms_dmat E nx nvv); Take KDmatMem (ms_dmat E nx nx);
      Take KDmatMem (ms_dmat E nx nu); Take KDmatMem (ms_dmat E nz (nx + nu))].
Definition gnsf_pre_obj : obj := mkObj "gnsf_pre_workspace" gnsf_ws_size gnsf_pre_ops.
Definition gnsf_ws_obj : obj := mkObj "gnsf_workspace" gnsf_ws_size gnsf_sim_ops.

Definition sim_objects : list obj :=
  [sim_in_obj; sim_out_obj; erk_opts_obj; irk_opts_obj; gnsf_opts_obj;
   fun_model_obj "erk_model"; fun_model_obj "irk_model"; fun_model_obj "lifted_irk_model";
   erk_mem_obj; erk_ws_obj; irk_mem_obj; irk_ws_obj; lirk_mem_obj; lirk_ws_obj;
   gnsf_model_obj; gnsf_mem_obj; gnsf_pre_obj; gnsf_ws_obj].
End M.

(** ** the integrators selectable for the continuous-time dynamics (ocp_nlp plan, sim_interface.c:44-80) *)
Inductive integrator := ERK | IRK | LIFTED_IRK | GNSF.
(** dims: structs of 4, 5, 3 and 8 ints: sim_erk_integrator.c:47-71, sim_irk_integrator.c:57-80,
    sim_lifted_irk_integrator.c:56-77, sim_gnsf.c:61-84 *)
Definition sim_dims_size (k : integrator) : Z :=
  match k with ERK => 4 | IRK => 5 | LIFTED_IRK => 3 | GNSF => 8 end * so_int.
Definition sim_dims_obj (k : integrator) : obj :=
  mkObj "sim_dims" (sim_dims_size k) [Take KIntStruct (sim_dims_size k)].
Definition sim_opts_obj (E : cenv) (k : integrator) : obj :=
  match k with ERK => erk_opts_obj E | IRK | LIFTED_IRK => irk_opts_obj E | GNSF => gnsf_opts_obj E end.
Definition sim_model_obj (E : cenv) (d : sim_dims) (k : integrator) : obj :=
  match k with
  | ERK => fun_model_obj E "erk_model" | IRK => fun_model_obj E "irk_model"
  | LIFTED_IRK => fun_model_obj E "lifted_irk_model" | GNSF => gnsf_model_obj E d
  end.
Definition sim_mem_obj (E : cenv) (d : sim_dims) (o : sim_opts) (k : integrator) : obj :=
  match k with
  | ERK => erk_mem_obj E d o | IRK => irk_mem_obj E d o | LIFTED_IRK => lirk_mem_obj E d o
  | GNSF => gnsf_mem_obj E d o
  end.
Definition sim_ws_obj (E : cenv) (d : sim_dims) (o : sim_opts) (k : integrator) : obj :=
  match k with
  | ERK => erk_ws_obj E d o | IRK => irk_ws_obj E d o | LIFTED_IRK => lirk_ws_obj E d o
  | GNSF => gnsf_ws_obj E d o
  end.

(** ** options changed between allocation and evaluation.
    ocp_nlp_dynamics_cont.c:968-977: residual evaluation, all sensitivities off;
    :1043-1053: residual and adjoint (level C of SQP_RTI), only adjoint sensitivities.  The workspace
    was announced with the original options and is carved by [evaluate] with the changed ones. *)
Definition with_sens (o : sim_opts) (f a h : bool) : sim_opts :=
  mkSimOpts (s_ns o) (num_steps o) (num_forw_sens o) f (sens_forw_p o) a h (sens_algebraic o)
    (output_z o) (exact_z_output o) (cost_computation o) (cost_conl o).
Definition no_sens (o : sim_opts) : sim_opts := with_sens o false false false.
Definition adj_only (o : sim_opts) : sim_opts := with_sens o false true false.
