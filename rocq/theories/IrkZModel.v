(** Algebraic variables at the start of the interval and their sensitivities: acados/sim/sim_irk_integrator.c:960-1167
    sim_irk_compute_z_and_algebraic_sens, called after the first step (:2041-2044).  Conventions as in IrkModel. *)
From Coq Require Import ZArith List Bool.
From Verif Require Import Arith Vec LinModel CollModel IrkModel.
Import ListNotations.

Section Z.
Variable A : arith.
Notation T := (num A).
Notation vec := (nat -> T).
Notation mat := (nat -> nat -> T).
Local Open Scope num_scope.
Record z_opts := mkZO { z_output : bool; z_sens : bool; z_exact : bool }.

Section Run.
Variable M : irk_model A.
Variable o : irk_opts A.
Variable inp : irk_in A.
Variable lu_solve : nat -> mat -> vec -> vec.
Notation nx := (o_nx o). Notation nu := (o_nu o). Notation nz := (o_nz o). Notation ns := (o_ns o).
Notation nf := (nx + nz)%nat.
(** neville_algorithm(0.0, ns - 1, c_vec, Z_work) *)
Definition interp (v : vec) : T := neville 0 (ns - 1) (o_c o) v.
(** :1023-1032 and :1084-1096 *)
Definition z_start (K : vec) : vec := fun i => interp (fun j => K (nx * ns + nz * j + i)%nat).
Definition xdot_start (K : vec) : vec := fun i => interp (fun j => K (nx * j + i)%nat).
(** df_dxdotz, :1108-1110 and :1143-1144 *)
Definition dxdotz (xd z : vec) : mat := fun r c => if (c <? nx)%nat then m_fk M (n_x inp) xd (n_u inp) z (n_t0 inp) r c else m_fz M (n_x inp) xd (n_u inp) z (n_t0 inp) r (c - nx)%nat.
(** :1098-1129; the arguments are df_dxdotz, rG, xtdot, zn.  xtdot is updated (:1122) and then overwritten by the step (:1123) *)
Fixpoint z_newton (n it : nat) (F : mat) (r xd z : vec) : vec * vec :=
  match n with
  | O => (xd, z)
  | S n =>
      let new := (it =? 0)%nat || negb (o_jac_reuse o) in
      let r := if new then m_f M (n_x inp) xd (n_u inp) z (n_t0 inp) else r in
      let F := if new then dxdotz xd z else F in
      let r := lu_solve nf F r in
      let xd : vec := fun k => if (k <? nx)%nat then - (1) * r k + xd k else xd k in
      let xd : vec := fun k => if (k <? nx)%nat then r k else xd k in
      let z : vec := fun k => if (k <? nz)%nat then z k - r (nx + k)%nat else z k in
      z_newton n (S it) F r xd z
  end.
(** :1001-1019 *)
Definition S_interp (dK : mat) : mat := fun i j => - interp (fun k => dK (nx * ns + k * nz + i)%nat j).
(** :1132-1163 *)
Definition dk0_rhs (xd z : vec) : mat := fun r c => if (c <? nx)%nat then m_fx M (n_x inp) xd (n_u inp) z (n_t0 inp) r c else m_fu M (n_x inp) xd (n_u inp) z (n_t0 inp) r (c - nx)%nat.
Definition S_exact (xd z : vec) : mat := fun i j => - (1) * lu_solve nf (dxdotz xd z) (fun r => dk0_rhs xd z r j) (nx + i)%nat.

Inductive z_res := ZOk (zn : vec) (S : mat) | ZUnassigned.
(** [dK] is the content of dK_dxu; [zn0], [S0] the contents of the output before.  The workspace contains df_dxdotz only if
    sens_algebraic && exact_z_output (:737-741, :869-873); using it otherwise is [ZUnassigned].  Before the Newton iterations rG
    holds the last step of the integrator; it is overwritten in iteration 0. *)
Definition compute_z (q : z_opts) (K : vec) (dK : mat) (zn0 : vec) (S0 : mat) : z_res :=
  let S1 := if z_sens q && negb (z_exact q) then S_interp dK else S0 in
  let zn := if z_output q || z_sens q then z_start K else zn0 in
  if z_exact q && (z_output q || z_sens q) then
    if z_sens q then
      let '(xd, zn) := z_newton (o_newton_iter o) 0 (fun _ _ => 0) (fun _ => 0) (xdot_start K) zn in
      ZOk zn (S_exact xd zn)
    else match o_newton_iter o with O => ZOk zn S1 | _ => ZUnassigned end
  else ZOk zn S1.
(** the call, after the first step; without forward sensitivities nothing has been written to dK_dxu (:1632-1655), [D0] is what it contains *)
Definition irk_z (q : z_opts) (m : irk_mem A) (F0 D0 : mat) (zn0 : vec) (S0 : mat) : z_res :=
  let s := forward M o inp lu_solve m F0 1 in
  compute_z q (s_K s) (if with_sens o then r_dK (s_rec s 0%nat) else D0) zn0 S0.
End Run.
End Z.
Arguments interp {A}. Arguments z_start {A}. Arguments xdot_start {A}. Arguments dxdotz {A}. Arguments z_newton {A}. Arguments S_interp {A}. Arguments dk0_rhs {A}. Arguments S_exact {A}.
Arguments ZOk {A}. Arguments ZUnassigned {A}. Arguments compute_z {A}. Arguments irk_z {A}.
