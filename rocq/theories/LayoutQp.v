(** calculate_size / assign pairs of the QP modules: dense and OCP QPs, condensing, the condensing
    solver and the interfaces to HPIPM, qpOASES, DAQP, OSQP and Clarabel, in the layout model of Layout.v.

    HPIPM and qpOASES memory sizes are [sub E name i]; [i] tells QPs of different dimensions apart
    (0 original, 1 reduced, 2 partially condensed, 3 fully condensed, 4 stacked). *)
From Coq Require Import ZArith List String.
From Verif Require Import Layout LayoutNlp LayoutSolver.
Import ListNotations.
Open Scope string_scope.
Open Scope Z_scope.

(** dimensions of a dense QP (d_dense_qp_dim) *)
Record dqd := mkDqd { q_nv : Z; q_ne : Z; q_nb : Z; q_ng : Z; q_ns : Z }.
Definition dqd_ok (d : dqd) : Prop := 0 <= q_nv d /\ 0 <= q_ne d /\ 0 <= q_nb d /\ 0 <= q_ng d /\ 0 <= q_ns d.
(** sizes of the sparse problem handed to OSQP and Clarabel: variables, rows, nonzeros of P and A *)
Record spd := mkSpd { s_n : Z; s_m : Z; s_P : Z; s_A : Z }.
Definition spd_ok (d : spd) : Prop := 0 <= s_n d /\ 0 <= s_m d /\ 0 <= s_P d /\ 0 <= s_A d.

Section Q.
Variable E : cenv.
Variable N : Z.
Variable dd : dqd.
Variable sd : spd.
(** sizeof(c_int) of OSQP: 8 with DLONG (its default), 4 without *)
Variable ci : Z.

(** ** dense_qp_common.c *)
(** dense_qp_common.c:64-83 *)
Definition dense_config_obj := mkObj "dense_qp_solver_config" (so E "qp_solver_config") [Take KStruct (so E "qp_solver_config")].
(** dense_qp_common.c:91-115 *)
Definition dense_dims_obj := mkObj "dense_qp_dims" (so E "dense_qp_dims" + sub E "d_dense_qp_dim" 0)
  [Take KStruct (so E "dense_qp_dims"); Take KSub8 (sub E "d_dense_qp_dim" 0)].
(** dense_qp_common.c:156-192 *)
Definition dense_in_size (i : nat) : Z := make_int_multiple_of 8 (so E "dense_qp_in" + so E "dense_qp_dims" + sub E "d_dense_qp" i + 8).
Definition dense_in_obj (i : nat) := mkObj "dense_qp_in" (dense_in_size i)
  [Take KStruct (so E "dense_qp_in"); Align 8; Take KSub8 (sub E "d_dense_qp" i); Take KStruct (so E "dense_qp_dims")].
(** dense_qp_common.c:200-230 *)
Definition dense_out_size (i : nat) : Z := make_int_multiple_of 8 (so E "dense_qp_out" + sub E "d_dense_qp_sol" i + so E "qp_info" + 8).
Definition dense_out_obj (i : nat) := mkObj "dense_qp_out" (dense_out_size i)
  [Take KStruct (so E "dense_qp_out"); Align 8; Take KSub8 (sub E "d_dense_qp_sol" i); Take KStruct (so E "qp_info")].
(** dense_qp_common.c:254-278, :285-309, :313-340: no room for the alignment *)
Definition dense_small_size (s h : string) (i : nat) : Z := make_int_multiple_of 8 (so E s + sub E h i).
Definition dense_small_obj (s h : string) (i : nat) := mkObj s (dense_small_size s h i) [Take KStruct (so E s); Align 8; Take KSub8 (sub E h i)].
Definition dense_seed_obj := dense_small_obj "dense_qp_seed" "d_dense_qp_seed".
Definition dense_res_obj := dense_small_obj "dense_qp_res" "d_dense_qp_res".
Definition dense_res_ws_obj := dense_small_obj "dense_qp_res_ws" "d_dense_qp_res_ws".

(** ** ocp_qp_common.c *)
(** ocp_qp_common.c:60-79 and :83-102 *)
Definition ocp_config_obj := mkObj "ocp_qp_solver_config" (so E "qp_solver_config") [Take KStruct (so E "qp_solver_config")].
Definition cond_config_obj := mkObj "ocp_qp_condensing_config" (so E "ocp_qp_xcond_config") [Take KStruct (so E "ocp_qp_xcond_config")].
(** ocp_qp_common.c:110-143 *)
Definition ocp_dims_size : Z := make_int_multiple_of 8 (so E "ocp_qp_dims" + sub E "d_ocp_qp_dim" 0) + 8.
Definition ocp_dims_obj := mkObj "ocp_qp_dims" ocp_dims_size [Take KStruct (so E "ocp_qp_dims"); Align 8; Take KSub8 (sub E "d_ocp_qp_dim" 0)].
(** ocp_qp_common.c:175-211 *)
Definition ocp_in_size (i : nat) : Z := make_int_multiple_of 8 (so E "ocp_qp_in" + sub E "d_ocp_qp" i + ocp_dims_size + 2 * 8).
Definition ocp_in_obj (i : nat) := mkObj "ocp_qp_in" (ocp_in_size i)
  [Align 8; Take KStruct (so E "ocp_qp_in"); Align 8; Take KSub8 (sub E "d_ocp_qp" i); Take KSub8 ocp_dims_size].
(** ocp_qp_common.c:219-260 *)
Definition ocp_out_size (i : nat) : Z := make_int_multiple_of 8 (so E "ocp_qp_out" + sub E "d_ocp_qp_sol" i + ocp_dims_size + so E "qp_info" + 2 * 8).
Definition ocp_out_obj (i : nat) := mkObj "ocp_qp_out" (ocp_out_size i)
  [Align 8; Take KStruct (so E "ocp_qp_out"); Align 8; Take KSub8 (sub E "d_ocp_qp_sol" i); Take KStruct (so E "qp_info"); Align 8; Take KSub8 ocp_dims_size].
(** ocp_qp_common.c:285-307, :507-529, :533-555 *)
Definition ocp_small_size (s h : string) (i : nat) : Z := so E s + sub E h i.
Definition ocp_small_obj (s h : string) (i : nat) := mkObj s (ocp_small_size s h i) [Take KStruct (so E s); Take KSub8 (sub E h i)].
Definition ocp_seed_obj := ocp_small_obj "ocp_qp_seed" "d_ocp_qp_seed".
Definition ocp_res_obj := ocp_small_obj "ocp_qp_res" "d_ocp_qp_res".
Definition ocp_res_ws_obj := ocp_small_obj "ocp_qp_res_ws" "d_ocp_qp_res_ws".

(** ** HPIPM interfaces: dense_qp_hpipm.c:53-91, :190-233; ocp_qp_hpipm.c:59-98, :201-248 *)
Definition hpipm_size (s t h : string) : Z := make_int_multiple_of 8 (so E s + so E t + sub E h 0 + 1 * 8).
Definition hpipm_obj (s t h : string) := mkObj s (hpipm_size s t h) [Take KStruct (so E s); Take KStruct (so E t); Align 8; Take KSub8 (sub E h 0)].
Definition dense_hpipm_opts_obj := hpipm_obj "dense_qp_hpipm_opts" "d_dense_qp_ipm_arg" "d_dense_qp_ipm_arg".
Definition dense_hpipm_mem_obj := hpipm_obj "dense_qp_hpipm_memory" "d_dense_qp_ipm_ws" "d_dense_qp_ipm_ws".
Definition ocp_hpipm_opts_obj := hpipm_obj "ocp_qp_hpipm_opts" "d_ocp_qp_ipm_arg" "d_ocp_qp_ipm_arg".
Definition ocp_hpipm_mem_obj := hpipm_obj "ocp_qp_hpipm_memory" "d_ocp_qp_ipm_ws" "d_ocp_qp_ipm_ws".

(** ** qpOASES interface *)
(** dense_qp_qpoases.c:84-108 *)
Definition qpoases_opts_obj := mkObj "dense_qp_qpoases_opts" (make_int_multiple_of 8 (so E "dense_qp_qpoases_opts")) [Take KStruct (so E "dense_qp_qpoases_opts")].
(** dense_qp_common.c:435-442 and dense_qp_qpoases.c:233-246 *)
Definition nv2 : Z := if 0 <? q_ns dd then q_nv dd + 2 * q_ns dd else q_nv dd.
Definition nb2 : Z := if 0 <? q_ns dd then q_nb dd + 2 * q_ns dd else q_nb dd.
Definition ng2 : Z := if 0 <? q_ns dd then q_ng dd + q_nb dd else q_ng dd.
Definition stacked_size : Z := if 0 <? q_ns dd then dense_in_size 4 else 0.
(** dense_qp_qpoases.c:270-273 and :352-361 *)
Definition qproblem_size : Z := if orb (0 <? q_ng dd) (0 <? q_ns dd) then sub E "QProblem" 0 else sub E "QProblemB" 0.
(** dense_qp_qpoases.c:218-278 *)
Definition qpoases_mem_size : Z :=
  let nv := q_nv dd in let ne := q_ne dd in let nb := q_nb dd in let ng := q_ng dd in let ns := q_ns dd in
  make_int_multiple_of 8 (so E "dense_qp_qpoases_memory" + stacked_size
    + 1 * nv * nv * so_dbl + 1 * nv2 * nv2 * so_dbl + 1 * nv2 * nv2 * so_dbl + 1 * nv2 * ne * so_dbl + 1 * nv * ng * so_dbl + 1 * nv2 * ng2 * so_dbl
    + 1 * nv * so_dbl + 1 * nv2 * so_dbl + 2 * nv2 * so_dbl + 1 * ne * so_dbl + 2 * nb2 * so_dbl + 2 * ng * so_dbl + 2 * ng2 * so_dbl
    + 1 * nb * so_int + 1 * nb2 * so_int + 1 * (nb + ng) * so_int + 1 * ns * so_int
    + 1 * nv2 * so_dbl + 1 * (nv2 + ng2) * so_dbl + 6 * ns * so_dbl + qproblem_size).
(** dense_qp_qpoases.c:282-375 *)
Definition qpoases_mem_ops : list op :=
  let nv := q_nv dd in let ne := q_ne dd in let nb := q_nb dd in let ng := q_ng dd in let ns := q_ns dd in
  let dbl n := Take KDouble (n * so_dbl) in let int n := Take KInt (n * so_int) in
  [Take KStruct (so E "dense_qp_qpoases_memory"); Take KSub8 stacked_size;
   dbl (nv * nv); dbl (nv2 * nv2); dbl (nv2 * nv2); dbl (nv2 * ne); dbl (nv * ng); dbl (nv2 * ng2);
   dbl nv; dbl nv2; dbl ne; dbl nb2; dbl nb2; dbl nv2; dbl nv2; dbl ng; dbl ng; dbl ng2; dbl ng2;
   dbl ns; dbl ns; dbl ns; dbl ns; dbl ns; dbl ns; dbl nv2; dbl (nv2 + ng2);
   Take KSub8 qproblem_size; int nb; int nb2; int ns; int (nb + ng)].
Definition qpoases_mem_obj := mkObj "dense_qp_qpoases_memory" qpoases_mem_size qpoases_mem_ops.

(** ** DAQP interface *)
(** dense_qp_daqp.c:66-94 *)
Definition daqp_opts_obj := mkObj "dense_qp_daqp_opts" (make_int_multiple_of 8 (so E "dense_qp_daqp_opts" + so E "DAQPSettings"))
  [Take KStruct (so E "dense_qp_daqp_opts"); Take KStruct (so E "DAQPSettings")].
(** dense_qp_daqp.c:207-210: n = nv, m = nb + ng + ne, ms = 0 *)
Definition q_m : Z := q_nb dd + q_ng dd + q_ne dd.
(** dense_qp_daqp.c:174-202; c_float is double *)
Definition daqp_work_size (n m ms ns : Z) : Z :=
  make_int_multiple_of 8 (so E "DAQPWorkspace" + n * (m - ms) * so_dbl + 2 * m * so_dbl + n * so_dbl + m * so_dbl
    + n * so_dbl + 2 * (n + ns + 1) * so_dbl + n * so_dbl + (n + ns + 2) * (n + ns + 1) / 2 * so_dbl + (n + ns + 1) * so_dbl + 2 * (n + ns + 1) * so_dbl
    + 4 * m * so_dbl + m * so_int + (n + ns + 1) * so_int).
(** dense_qp_daqp.c:238-320 *)
Definition daqp_work_ops (n m ms ns : Z) : list op :=
  let dbl k := Take KDouble (k * so_dbl) in let int k := Take KInt (k * so_int) in
  [Take KStruct (so E "DAQPWorkspace"); Align 8; dbl (n * (m - ms)); dbl m; dbl m; dbl n; dbl m; dbl n; dbl (n + ns + 1); dbl (n + ns + 1); dbl n;
   dbl (n + ns + 1); dbl (n + ns + 1); dbl (n + ns + 1); dbl ((n + ns + 2) * (n + ns + 1) / 2); dbl m; dbl m; dbl m; dbl m; int m; int (n + ns + 1)].
Definition daqp_work_obj := mkObj "DAQPWorkspace" (daqp_work_size (q_nv dd) q_m 0 (q_ns dd)) (daqp_work_ops (q_nv dd) q_m 0 (q_ns dd)).
(** dense_qp_daqp.c:57 *)
Definition daqp_align : Z := 64.
(** dense_qp_daqp.c:205-235 *)
Definition daqp_mem_size : Z :=
  let n := q_nv dd in let m := q_m in let ns := q_ns dd in
  make_int_multiple_of 8 (so E "dense_qp_daqp_memory" + 2 * so E "blasfeo_dmat" + 3 * so E "blasfeo_dvec" + daqp_work_size n m 0 ns
    + m * 2 * so_dbl + ns * 1 * so_int + ns * 6 * so_dbl + daqp_align + ms_dmat E n n + ms_dmat E n m + 2 * ms_dvec E n + ms_dvec E m).
(** dense_qp_daqp.c:348-425, in three parts: up to the integers, the six arrays of doubles after them, the matrices *)
Definition daqp_mem_head : list op :=
  let n := q_nv dd in let m := q_m in let ns := q_ns dd in
  [Take KStruct (so E "dense_qp_daqp_memory"); Take KDmatS (so E "blasfeo_dmat"); Take KDmatS (so E "blasfeo_dmat");
   Take KDvecS (so E "blasfeo_dvec"); Take KDvecS (so E "blasfeo_dvec"); Take KDvecS (so E "blasfeo_dvec");
   Take KSub8 (daqp_work_size n m 0 ns); Take KDouble (m * so_dbl); Take KDouble (m * so_dbl); Take KInt (ns * 1 * so_int)].
Definition daqp_mem_slack : list op := repeat (Take KDouble (q_ns dd * 1 * so_dbl)) 6.
Definition daqp_mem_tail : list op :=
  let n := q_nv dd in let m := q_m in
  [Align daqp_align; Take KDmatMem (ms_dmat E n n); Take KDmatMem (ms_dmat E n m); Take KDvecMem (ms_dvec E n); Take KDvecMem (ms_dvec E n); Take KDvecMem (ms_dvec E m)].
Definition daqp_mem_obj := mkObj "dense_qp_daqp_memory" daqp_mem_size (daqp_mem_head ++ daqp_mem_slack ++ daqp_mem_tail)%list.

(** ** OSQP interface *)
(** ocp_qp_osqp.c:959-985 *)
Definition osqp_opts_obj := mkObj "ocp_qp_osqp_opts" (so E "ocp_qp_osqp_opts" + so E "OSQPSettings") [Take KStruct (so E "ocp_qp_osqp_opts"); Take KStruct (so E "OSQPSettings")].
(** an array of c_int *)
Definition KCint : kind := if ci =? 8 then KDouble else KInt.
(** ocp_qp_osqp.c:1095-1165 *)
Definition osqp_work_size (n m P A : Z) : Z :=
  so E "OSQPWorkspace" + so E "OSQPData" + 2 * so E "csc" + 1 * n * so_dbl + 2 * m * so_dbl + P * so_dbl + P * ci + (n + 1) * ci + A * so_dbl + A * ci + (n + 1) * ci
  + 2 * m * so_dbl + m * ci + n * so_dbl + m * so_dbl + (n + m) * so_dbl + n * so_dbl + m * so_dbl + m * so_dbl + m * so_dbl + n * so_dbl + n * so_dbl
  + m * so_dbl + n * so_dbl + n * so_dbl + n * so_dbl + m * so_dbl + so E "OSQPSettings" + so E "OSQPScaling" + n * so_dbl + n * so_dbl + m * so_dbl + m * so_dbl
  + n * so_dbl + n * so_dbl + m * so_dbl + so E "OSQPPolish" + m * ci + m * ci + m * ci + m * ci + n * so_dbl + m * so_dbl + m * so_dbl
  + so E "OSQPSolution" + n * so_dbl + m * so_dbl + so E "OSQPInfo" + 1 * 8.
(** ocp_qp_osqp.c:1203-1369 *)
Definition osqp_work_ops (n m P A : Z) : list op :=
  let st s := Take KStruct (so E s) in let dbl k := Take KDouble (k * so_dbl) in let int k := Take KCint (k * ci) in
  [st "OSQPWorkspace"; st "OSQPData"; st "csc"; st "csc"; st "OSQPSettings"; st "OSQPScaling"; st "OSQPPolish"; st "OSQPSolution"; st "OSQPInfo"; Align 8;
   dbl n; dbl m; dbl m; dbl P; dbl A; dbl m; dbl m; dbl n; dbl m; dbl (n + m); dbl n; dbl m; dbl m; dbl m; dbl n; dbl n; dbl m; dbl n; dbl n; dbl n; dbl m;
   dbl n; dbl n; dbl m; dbl m; dbl n; dbl n; dbl m; dbl n; dbl m; dbl m; dbl n; dbl m;
   int P; int (n + 1); int A; int (n + 1); int m; int m; int m; int m; int m].
Definition osqp_work_obj := mkObj "OSQPWorkspace" (osqp_work_size (s_n sd) (s_m sd) (s_P sd) (s_A sd)) (osqp_work_ops (s_n sd) (s_m sd) (s_P sd) (s_A sd)).
(** ocp_qp_osqp.c:1168-1199 *)
Definition osqp_mem_size : Z :=
  let n := s_n sd in let m := s_m sd in let P := s_P sd in let A := s_A sd in
  so E "ocp_qp_osqp_memory" + 1 * n * so_dbl + 2 * m * so_dbl + P * so_dbl + P * ci + (n + 1) * ci + A * so_dbl + A * ci + (n + 1) * ci
  + so E "OSQPData" + 2 * so E "csc" + osqp_work_size n m P A + 1 * 8.
(** ocp_qp_osqp.c:1486-1568, in two parts: up to the integers, the structs after them *)
Definition osqp_mem_head : list op :=
  let n := s_n sd in let m := s_m sd in let P := s_P sd in let A := s_A sd in
  let dbl k := Take KDouble (k * so_dbl) in let int k := Take KCint (k * ci) in
  [Take KStruct (so E "ocp_qp_osqp_memory"); Align 8; dbl n; dbl m; dbl m; dbl P; dbl A; int P; int (n + 1); int A; int (n + 1)].
Definition osqp_mem_tail : list op :=
  [Take KStruct (so E "OSQPData"); Take KStruct (so E "csc"); Take KStruct (so E "csc"); Take KSub8 (osqp_work_size (s_n sd) (s_m sd) (s_P sd) (s_A sd))].
Definition osqp_mem_obj := mkObj "ocp_qp_osqp_memory" osqp_mem_size (osqp_mem_head ++ osqp_mem_tail)%list.

(** ** Clarabel interface *)
(** ocp_qp_clarabel.c:747-773 *)
Definition clarabel_opts_obj := mkObj "ocp_qp_clarabel_opts" (so E "ocp_qp_clarabel_opts" + so E "ClarabelDefaultSettings")
  [Take KStruct (so E "ocp_qp_clarabel_opts"); Take KStruct (so E "ClarabelDefaultSettings")].
(** ocp_qp_clarabel.c:874-901; uintptr_t has the size of a pointer *)
Definition clarabel_mem_size : Z :=
  let n := s_n sd in let m := s_m sd in let P := s_P sd in let A := s_A sd in
  so E "ocp_qp_clarabel_memory" + A * so_dbl + A * so_ptr + (n + 1) * so_ptr + P * so_dbl + P * so_ptr + (n + 1) * so_ptr + n * so_dbl + m * so_dbl + 1 * 8.
(** ocp_qp_clarabel.c:906-958 *)
Definition clarabel_mem_ops : list op :=
  let n := s_n sd in let m := s_m sd in let P := s_P sd in let A := s_A sd in
  let dbl k := Take KDouble (k * so_dbl) in let ptr k := Take KPtr (k * so_ptr) in
  [Take KStruct (so E "ocp_qp_clarabel_memory"); Align 8; dbl n; dbl m; dbl P; dbl A; ptr P; ptr (n + 1); ptr A; ptr (n + 1)].
Definition clarabel_mem_obj := mkObj "ocp_qp_clarabel_memory" clarabel_mem_size clarabel_mem_ops.

(** ** condensing *)
(** ocp_qp_full_condensing.c:58-110 *)
Definition fcond_dims_size : Z := make_int_multiple_of 8 (so E "ocp_qp_full_condensing_dims" + 2 * so E "ocp_qp_dims" + 2 * sub E "d_ocp_qp_dim" 0 + so E "dense_qp_dims" + 1 * 8).
Definition fcond_dims_obj := mkObj "ocp_qp_full_condensing_dims" fcond_dims_size
  [Take KStruct (so E "ocp_qp_full_condensing_dims"); Take KStruct (so E "ocp_qp_dims"); Take KStruct (so E "ocp_qp_dims"); Take KStruct (so E "dense_qp_dims"); Align 8;
   Take KSub8 (sub E "d_ocp_qp_dim" 0); Take KSub8 (sub E "d_ocp_qp_dim" 0)].
(** ocp_qp_full_condensing.c:153-218 *)
Definition fcond_opts_size : Z := make_int_multiple_of 8 (so E "ocp_qp_full_condensing_opts" + so E "d_cond_qp_arg" + sub E "d_cond_qp_arg" 0
  + so E "d_ocp_qp_reduce_eq_dof_arg" + sub E "d_ocp_qp_reduce_eq_dof_arg" 0 + 1 * 8).
Definition fcond_opts_obj := mkObj "ocp_qp_full_condensing_opts" fcond_opts_size
  [Take KStruct (so E "ocp_qp_full_condensing_opts"); Take KStruct (so E "d_cond_qp_arg"); Take KStruct (so E "d_ocp_qp_reduce_eq_dof_arg"); Align 8;
   Take KSub8 (sub E "d_cond_qp_arg" 0); Take KSub8 (sub E "d_ocp_qp_reduce_eq_dof_arg" 0)].
(** ocp_qp_full_condensing.c:298-388 *)
Definition fcond_mem_size : Z := so E "ocp_qp_full_condensing_memory" + dense_in_size 3 + dense_out_size 3 + dense_small_size "dense_qp_seed" "d_dense_qp_seed" 3
  + ocp_in_size 1 + ocp_out_size 1 + ocp_small_size "ocp_qp_seed" "d_ocp_qp_seed" 1 + so E "d_cond_qp_ws" + sub E "d_cond_qp_ws" 0
  + so E "d_ocp_qp_reduce_eq_dof_ws" + sub E "d_ocp_qp_reduce_eq_dof_ws" 0 + 3 * 8.
Definition fcond_mem_obj := mkObj "ocp_qp_full_condensing_memory" fcond_mem_size
  [Align 8; Take KStruct (so E "ocp_qp_full_condensing_memory"); Align 8; Take KStruct (so E "d_cond_qp_ws"); Take KStruct (so E "d_ocp_qp_reduce_eq_dof_ws"); Align 8;
   Take KSub8 (sub E "d_cond_qp_ws" 0); Take KSub8 (sub E "d_ocp_qp_reduce_eq_dof_ws" 0); Take KSub8 (dense_in_size 3); Take KSub8 (dense_out_size 3);
   Take KSub8 (dense_small_size "dense_qp_seed" "d_dense_qp_seed" 3); Take KSub8 (ocp_in_size 1); Take KSub8 (ocp_out_size 1);
   Take KSub8 (ocp_small_size "ocp_qp_seed" "d_ocp_qp_seed" 1)].
(** ocp_qp_partial_condensing.c:57-121 *)
Definition pcond_dims_size : Z := make_int_multiple_of 8 (so E "ocp_qp_partial_condensing_dims" + 2 * so E "ocp_qp_dims" + 2 * sub E "d_ocp_qp_dim" 0
  + so E "ocp_qp_dims" + sub E "d_ocp_qp_dim" 0 + (N + 1) * so_int + 2 * 8).
Definition pcond_dims_obj := mkObj "ocp_qp_partial_condensing_dims" pcond_dims_size
  [Take KStruct (so E "ocp_qp_partial_condensing_dims"); Take KStruct (so E "ocp_qp_dims"); Take KStruct (so E "ocp_qp_dims"); Take KStruct (so E "ocp_qp_dims"); Align 8;
   Take KSub8 (sub E "d_ocp_qp_dim" 0); Take KSub8 (sub E "d_ocp_qp_dim" 0); Take KSub8 (sub E "d_ocp_qp_dim" 0); Take KInt ((N + 1) * so_int); Align 8].
(** ocp_qp_partial_condensing.c:163-239 *)
Definition pcond_opts_size : Z := make_int_multiple_of 8 (so E "ocp_qp_partial_condensing_opts" + (N + 1) * so_int + so E "d_part_cond_qp_arg" + sub E "d_part_cond_qp_arg" 0
  + so E "d_ocp_qp_reduce_eq_dof_arg" + sub E "d_ocp_qp_reduce_eq_dof_arg" 0 + 3 * 8).
Definition pcond_opts_obj := mkObj "ocp_qp_partial_condensing_opts" pcond_opts_size
  [Take KStruct (so E "ocp_qp_partial_condensing_opts"); Align 8; Take KStruct (so E "d_part_cond_qp_arg"); Take KStruct (so E "d_ocp_qp_reduce_eq_dof_arg"); Align 8;
   Take KSub8 (sub E "d_part_cond_qp_arg" 0); Take KSub8 (sub E "d_ocp_qp_reduce_eq_dof_arg" 0); Take KInt ((N + 1) * so_int); Align 8].
(** ocp_qp_partial_condensing.c:380-463 *)
Definition pcond_mem_size : Z := make_int_multiple_of 8 (so E "ocp_qp_partial_condensing_memory" + ocp_in_size 2 + ocp_out_size 2 + ocp_small_size "ocp_qp_seed" "d_ocp_qp_seed" 2
  + ocp_in_size 1 + ocp_out_size 1 + ocp_small_size "ocp_qp_seed" "d_ocp_qp_seed" 1 + so E "d_part_cond_qp_ws" + sub E "d_part_cond_qp_ws" 0
  + so E "d_ocp_qp_reduce_eq_dof_ws" + sub E "d_ocp_qp_reduce_eq_dof_ws" 0 + 3 * 8).
Definition pcond_mem_obj := mkObj "ocp_qp_partial_condensing_memory" pcond_mem_size
  [Align 8; Take KStruct (so E "ocp_qp_partial_condensing_memory"); Align 8; Take KStruct (so E "d_part_cond_qp_ws"); Take KStruct (so E "d_ocp_qp_reduce_eq_dof_ws"); Align 8;
   Take KSub8 (sub E "d_part_cond_qp_ws" 0); Take KSub8 (sub E "d_ocp_qp_reduce_eq_dof_ws" 0); Take KSub8 (ocp_in_size 2); Take KSub8 (ocp_out_size 2);
   Take KSub8 (ocp_small_size "ocp_qp_seed" "d_ocp_qp_seed" 2); Take KSub8 (ocp_in_size 1); Take KSub8 (ocp_out_size 1);
   Take KSub8 (ocp_small_size "ocp_qp_seed" "d_ocp_qp_seed" 1)].

(** ** ocp_qp_xcond_solver.c, for the sizes of a condensing and a solver *)
(** ocp_qp_xcond_solver.c:53-81 *)
Definition xcond_config_obj := mkObj "ocp_qp_xcond_solver_config" (so E "ocp_qp_xcond_solver_config" + so E "qp_solver_config" + so E "ocp_qp_xcond_config")
  [Take KStruct (so E "ocp_qp_xcond_solver_config"); Take KSub8 (so E "qp_solver_config"); Take KSub8 (so E "ocp_qp_xcond_config")].
(** ocp_qp_xcond_solver.c:89-126 *)
Definition xcond_dims_obj (c : Z) := mkObj "ocp_qp_xcond_solver_dims" (so E "ocp_qp_xcond_solver_dims" + ocp_dims_size + c)
  [Take KStruct (so E "ocp_qp_xcond_solver_dims"); Take KSub8 ocp_dims_size; Take KSub8 c].
(** ocp_qp_xcond_solver.c:188-238 *)
Definition xcond_opts_obj (c s : Z) := mkObj "ocp_qp_xcond_solver_opts" (make_int_multiple_of 8 (so E "ocp_qp_xcond_solver_opts" + c + s + 8))
  [Take KStruct (so E "ocp_qp_xcond_solver_opts"); Align 8; Take KSub8 c; Take KSub8 s].
(** ocp_qp_xcond_solver.c:331-391 *)
Definition xcond_mem_obj (c s : Z) := mkObj "ocp_qp_xcond_solver_memory" (so E "ocp_qp_xcond_solver_memory" + c + s + 8)
  [Take KStruct (so E "ocp_qp_xcond_solver_memory"); Align 8; Take KSub8 c; Take KSub8 s].
(** ocp_qp_xcond_solver.c:474-521; all workspaces of the modelled modules have size 0 *)
Definition xcond_ws_obj := mkObj "ocp_qp_xcond_solver_workspace" (so E "ocp_qp_xcond_solver_workspace" + 0 + 0)
  [Take KStruct (so E "ocp_qp_xcond_solver_workspace"); Take KSub 0; Take KSub 0].

(** ** everything *)
Definition dense_objects : list obj := ([dense_config_obj; dense_dims_obj]
  ++ map dense_in_obj [3; 4]%nat ++ [dense_out_obj 3; dense_seed_obj 3; dense_res_obj 3; dense_res_ws_obj 3])%list.
Definition ocp_objects : list obj := ([ocp_config_obj; cond_config_obj; ocp_dims_obj] ++ map ocp_in_obj [0; 1; 2]%nat ++ map ocp_out_obj [0; 1; 2]%nat
  ++ map ocp_seed_obj [0; 1; 2]%nat ++ [ocp_res_obj 0; ocp_res_ws_obj 0])%list.
Definition cond_dims_objects : list obj := [fcond_dims_obj; pcond_dims_obj].
Definition cond_opts_objects : list obj := [fcond_opts_obj; pcond_opts_obj].
Definition cond_mem_objects : list obj := [fcond_mem_obj; pcond_mem_obj].
Definition qp_opts_objects : list obj := [dense_hpipm_opts_obj; ocp_hpipm_opts_obj; qpoases_opts_obj; daqp_opts_obj; osqp_opts_obj; clarabel_opts_obj].
(** without OSQP and DAQP *)
Definition qp_mem_objects : list obj := [dense_hpipm_mem_obj; ocp_hpipm_mem_obj; qpoases_mem_obj; clarabel_mem_obj].
Definition work_objects : list obj := [daqp_work_obj; osqp_work_obj].
End Q.
