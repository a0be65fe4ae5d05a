(** The implicit Runge-Kutta integrator: acados/sim/sim_irk_integrator.c:1175-2267 sim_irk.

    Vectors and matrices are functions of the indices.  The generated functions impl_ode_fun, impl_ode_fun_jac_x_xdot_z and
    impl_ode_jac_x_xdot_u_z are one record of functions, so they are assumed to agree with one another.  A matrix after
    blasfeo_dgetrf_rp is represented by the matrix that was factorized; the solves with the factors are the functions [lu_solve]
    (permutation, dtrsv_lnu, dtrsv_unn, or the corresponding trsm) and [lu_solve_t] (dtrsv_utn, dtrsv_ltu, inverse permutation).
    Work arrays that are completely overwritten before they are read start with zeros.
    Left out here: cost propagation (IrkCostModel), the algebraic output (IrkZModel), timings. *)
From Coq Require Import ZArith List Bool.
From Verif Require Import Arith Vec LinModel CollModel.
Import ListNotations.

Section I.
Variable A : arith.
Notation T := (num A).
Notation vec := (nat -> T).
Notation mat := (nat -> nat -> T).
Local Open Scope num_scope.

(** arguments x, xdot, u, z, t; nx + nz rows; the parameters live inside *)
Record irk_model := mkIM {
  m_f : vec -> vec -> vec -> vec -> T -> vec;
  m_fx : vec -> vec -> vec -> vec -> T -> mat; m_fk : vec -> vec -> vec -> vec -> T -> mat;
  m_fu : vec -> vec -> vec -> vec -> T -> mat; m_fz : vec -> vec -> vec -> vec -> T -> mat;
  m_fp : vec -> vec -> vec -> vec -> T -> mat;
  m_hess : vec -> vec -> vec -> vec -> vec -> T -> mat }. (* x xdot u z lambda t; order of the variables x, xdot, z, u *)
Record irk_opts := mkIO {
  o_nx : nat; o_nu : nat; o_nz : nat; o_np : nat; o_ns : nat; o_num_steps : nat; o_newton_iter : nat;
  o_A : nat -> nat -> T;  (** [o_A i j] is A_mat[i + ns*j] *)
  o_b : vec; o_c : vec; o_jac_reuse : bool; o_newton_tol : T;
  o_sens_forw : bool; o_sens_forw_p : bool; o_sens_adj : bool; o_sens_hess : bool }.
Record irk_in := mkII { n_x : vec; n_u : vec; n_T : T; n_t0 : T; n_S_forw : mat; n_S_adj : vec; n_identity_seed : bool }.
(** mem->xdot and mem->z, the guess for the next call *)
Record irk_mem := mkIMem { g_xdot : vec; g_z : vec }.

(** blasfeo_dgead, blasfeo_dgecp on a block *)
Definition inblk (o n k : nat) : bool := (o <=? k)%nat && (k <? o + n)%nat.
Definition gead (m n : nat) (al : T) (X Y : mat) (bi bj : nat) : mat :=
  fun r c => if inblk bi m r && inblk bj n c then Y r c + al * X (r - bi)%nat (c - bj)%nat else Y r c.
Definition gecp (m n : nat) (X Y : mat) (bi bj : nat) : mat :=
  fun r c => if inblk bi m r && inblk bj n c then X (r - bi)%nat (c - bj)%nat else Y r c.
Definition shift (o : nat) (v : vec) : vec := fun k => v (o + k)%nat.
Definition rows (o : nat) (M : mat) : mat := fun r c => M (o + r)%nat c.

Section Run.
Variable M : irk_model.
Variable o : irk_opts.
Variable inp : irk_in.
Variable lu_solve : nat -> mat -> vec -> vec.
Variable lu_solve_t : nat -> mat -> vec -> vec.
Notation nx := (o_nx o). Notation nu := (o_nu o). Notation nz := (o_nz o). Notation np := (o_np o). Notation ns := (o_ns o).
Notation nf := (nx + nz)%nat.
Notation nK := ((nx + nz) * ns)%nat.
Notation u := (n_u inp).
Definition step : T := n_T inp / of_nat (o_num_steps o).

(** stage value, e.g. :1489-1497; stage time *)
Definition stage_x (x K : vec) (i : nat) : vec :=
  loop ns (fun j xt => let a := o_A o i j * step in fun r => if (r <? nx)%nat then a * K (j * nx + r)%nat + xt r else xt r) x.
Definition stage_t (ss i : nat) : T := (n_t0 inp + of_nat ss * step) + o_c o i * step.
Definition at_stage {B} (g : vec -> vec -> vec -> vec -> T -> B) (ss : nat) (x K : vec) (i : nat) : B :=
  g (stage_x x K i) (shift (i * nx) K) u (shift (ns * nx + i * nz) K) (stage_t ss i).
(** rG, :1485-1541 *)
Definition residual (ss : nat) (x K : vec) : vec :=
  loop ns (fun i r => let v := at_stage (m_f M) ss x K i in fun k => if inblk (i * nf) nf k then v (k - i * nf)%nat else r k) (fun _ => 0).
(** dG_dK, :1482, :1515-1528 and again :1584-1623 *)
Definition dG_dK (ss : nat) (x K : vec) : mat :=
  loop ns (fun i D => loop ns (fun j D =>
      let D := gead nf nx (o_A o i j * step) (at_stage (m_fx M) ss x K i) D (i * nf) (j * nx) in
      if (j =? i)%nat then gead nf nz 1 (at_stage (m_fz M) ss x K i) (gead nf nx 1 (at_stage (m_fk M) ss x K i) D (i * nf) (j * nx)) (i * nf) (nx * ns + j * nz) else D) D)
    (fun _ _ => 0).
(** dG_dxu, :1608-1609 *)
Definition dG_dxu (ss : nat) (x K : vec) : mat :=
  loop ns (fun i D => gecp nf nu (at_stage (m_fu M) ss x K i) (gecp nf nx (at_stage (m_fx M) ss x K i) D (i * nf) 0) (i * nf) nx) (fun _ _ => 0).
(** blasfeo_dvecnrm_inf *)
Definition nrm_inf (n : nat) (v : vec) : T := loop n (fun k m => nmax m (nabs (v k))) 0.
(** Newton iterations, :1477-1574; [it] the number of this iteration *)
Fixpoint newton (n it ss : nat) (x K : vec) (F : mat) : vec * mat :=
  match n with
  | O => (K, F)
  | S n =>
      let F := if (o_jac_reuse o && (ss =? 0)%nat && (it =? 0)%nat) || negb (o_jac_reuse o) then dG_dK ss x K else F in
      let d := lu_solve nK F (residual ss x K) in
      let K' : vec := fun k => if (k <? nK)%nat then - (1) * d k + K k else K k in
      if (0 <? o_newton_tol o) && (nrm_inf nK d <? o_newton_tol o) then (K', F) else newton n (S it) ss x K' F
  end.

(** what is kept of a step *)
Record irk_rec := mkIR { r_x : vec; r_K : vec; r_F : mat; r_G : mat; r_dK : mat; r_S : mat }.
Record irk_st := mkIS { s_x : vec; s_K : vec; s_F : mat; s_S : mat; s_Sp : mat; s_rec : nat -> irk_rec }.
Definition with_sens : bool := o_sens_forw o || o_sens_hess o.
(** columns of a right-hand side *)
Definition lu_cols (F : mat) (R : mat) : mat := fun r c => lu_solve nK F (fun k => R k c) r.
(** :1636-1648 *)
Definition dK_rhs (ss : nat) (G S : mat) : mat :=
  if n_identity_seed inp && (ss =? 0)%nat then G
  else gead nK nu 1 (fun r c => G r (nx + c)%nat) (fun r c => 1 * vsum nx (fun k => G r k * S k c)) 0 nx.
Definition add_stages (n : nat) (D S : mat) : mat :=
  loop ns (fun j S => gead nx n (- step * o_b o j) (rows (j * nx) D) S 0 0) S.
(** :1659-1682 *)
Definition dK_dp (ss : nat) (x K : vec) (G Sp : mat) : mat :=
  loop ns (fun i D => gead nf np 1 (at_stage (m_fp M) ss x K i) D (i * nf) 0) (fun r c => 1 * vsum nx (fun k => G r k * Sp k c)).
(** :1442-2053 one step *)
Definition irk_step (ss : nat) (s : irk_st) : irk_st :=
  let '(K, F) := newton (o_newton_iter o) 0 ss (s_x s) (s_K s) (s_F s) in
  let F := if with_sens || o_sens_forw_p o then dG_dK ss (s_x s) K else F in
  let G := dG_dxu ss (s_x s) K in
  let dK := lu_cols F (dK_rhs ss G (s_S s)) in
  let Sn := if with_sens then add_stages (nx + nu) dK (s_S s) else s_S s in
  let Spn := if o_sens_forw_p o && (0 <? np)%nat then add_stages np (lu_cols F (dK_dp ss (s_x s) K G (s_Sp s))) (s_Sp s) else s_Sp s in
  let xn := loop ns (fun i x => let a := step * o_b o i in fun r => if (r <? nx)%nat then a * K (i * nx + r)%nat + x r else x r) (s_x s) in
  mkIS xn K F Sn Spn (fun k => if (k =? ss)%nat then mkIR (s_x s) K F G dK (s_S s) else s_rec s k).
(** :1400-1426 *)
Definition guess (m : irk_mem) : vec :=
  loop ns (fun i K k => if inblk (nx * ns + i * nz) nz k then g_z m (k - (nx * ns + i * nz))%nat
                        else if inblk (nx * i) nx k then g_xdot m (k - nx * i)%nat else K k) (fun _ => 0).
Definition irk_init (m : irk_mem) (F0 : mat) : irk_st :=
  mkIS (n_x inp) (guess m) F0 (n_S_forw inp) (fun _ _ => 0) (fun _ => mkIR (fun _ => 0) (fun _ => 0) (fun _ _ => 0) (fun _ _ => 0) (fun _ _ => 0) (fun _ _ => 0)).
Definition forward (m : irk_mem) (F0 : mat) (n : nat) : irk_st := loop n irk_step (irk_init m F0).

(** (2155-2168) right-hand side and solution for the multipliers of the stage equations *)
Definition lamK (F : mat) (lam : vec) : vec :=
  lu_solve_t nK F (loop ns (fun j l k => if inblk (j * nx) nx k then (- step * o_b o j) * lam (k - j * nx)%nat else l k) (fun _ => 0)).
(** :2183-2202 dxkzu_dw0 *)
Definition dw (S dK : mat) (i : nat) : mat :=
  let D := loop ns (fun j D => gead nx (nx + nu) (- (o_A o i j * step)) (rows (j * nx) dK) D 0 0) S in
  let D := gecp nx (nx + nu) (fun r c => - (1) * dK (i * nx + r)%nat c) D nx 0 in
  let D := gecp nz (nx + nu) (fun r c => - (1) * dK (ns * nx + i * nz + r)%nat c) D (2 * nx) 0 in
  let D := gecp nu (nx + nu) (fun _ _ => 0) D (2 * nx + nz) 0 in
  fun r c => if inblk (2 * nx + nz) nu r && (c =? nx + (r - (2 * nx + nz)))%nat then 1 else D r c.
(** :2234-2237 Hessian contribution of a stage, the lower part is not written by dsyrk_ut *)
Definition hess_stage (Hf D : mat) (H : mat) : mat :=
  let t : mat := fun r c => 1 * vsum (2 * nx + nz) (fun k => Hf r k * D k c) in
  let t := gead (2 * nx + nz + nu) nu 1 (fun r c => Hf r (2 * nx + nz + c)%nat) t 0 nx in
  let H : mat := fun r c => if (r <? nx + nu)%nat && (c <? nx + nu)%nat && (r <=? c)%nat then 1 * H r c + 1 * vsum (2 * nx + nz) (fun k => D k r * t k c) else H r c in
  gead nu (nx + nu) 1 (rows (2 * nx + nz) t) H nx 0.
(** :2074-2245 *)
Definition back_step (ss : nat) (r : irk_rec) (p : vec * mat) : vec * mat :=
  let '(lam, H) := p in
  let F := if o_sens_hess o then r_F r else dG_dK ss (r_x r) (r_K r) in
  let G := if o_sens_hess o then r_G r else dG_dxu ss (r_x r) (r_K r) in
  let l := lamK F lam in
  let lam' : vec := fun k => if (k <? nx + nu)%nat then 1 * mvt nK G l k + 1 * lam k else lam k in
  let H := if o_sens_hess o then
      loop ns (fun i H => hess_stage (m_hess M (stage_x (r_x r) (r_K r) i) (shift (i * nx) (r_K r)) u (shift (ns * nx + i * nz) (r_K r)) (shift (i * nf) l) (stage_t ss i))
                            (dw (r_S r) (r_dK r) i) H) H else H in
  (lam', H).
Fixpoint backward (n : nat) (recs : nat -> irk_rec) (p : vec * mat) : vec * mat :=
  match n with O => p | S k => backward k recs (back_step k (recs k) p) end.
Record irk_out := mkIOut { q_x : vec; q_S : mat; q_Sp : mat; q_adj : vec; q_hess : mat; q_mem : irk_mem }.
(** blasfeo_dtrtr_u *)
Definition mirror_u (H : mat) : mat := fun r c => if (c <? r)%nat then H c r else H r c.
Definition irk (m : irk_mem) (F0 : mat) : irk_out :=
  let s := forward m F0 (o_num_steps o) in
  let '(lam, H) := if o_sens_adj o || o_sens_hess o then backward (o_num_steps o) (s_rec s) (n_S_adj inp, fun _ _ => 0) else (n_S_adj inp, fun _ _ => 0) in
  mkIOut (s_x s) (s_S s) (s_Sp s) lam (mirror_u H)
    (if (0 <? o_num_steps o)%nat then mkIMem (shift ((ns - 1) * nx) (s_K s)) (shift ((ns - 1) * nz + ns * nx) (s_K s)) else m).
End Run.
End I.
Arguments mkIM {A}. Arguments m_f {A}. Arguments m_fx {A}. Arguments m_fk {A}. Arguments m_fu {A}. Arguments m_fz {A}. Arguments m_fp {A}. Arguments m_hess {A}.
Arguments mkIO {A}. Arguments o_nx {A}. Arguments o_nu {A}. Arguments o_nz {A}. Arguments o_np {A}. Arguments o_ns {A}. Arguments o_num_steps {A}. Arguments o_newton_iter {A}.
Arguments o_A {A}. Arguments o_b {A}. Arguments o_c {A}. Arguments o_jac_reuse {A}. Arguments o_newton_tol {A}. Arguments o_sens_forw {A}. Arguments o_sens_forw_p {A}. Arguments o_sens_adj {A}. Arguments o_sens_hess {A}.
Arguments mkII {A}. Arguments n_x {A}. Arguments n_u {A}. Arguments n_T {A}. Arguments n_t0 {A}. Arguments n_S_forw {A}. Arguments n_S_adj {A}. Arguments n_identity_seed {A}.
Arguments mkIMem {A}. Arguments g_xdot {A}. Arguments g_z {A}. Arguments gead {A}. Arguments gecp {A}. Arguments shift {A}. Arguments rows {A}.
Arguments step {A}. Arguments stage_x {A}. Arguments stage_t {A}. Arguments at_stage {A} o inp {B}. Arguments residual {A}. Arguments dG_dK {A}. Arguments dG_dxu {A}. Arguments nrm_inf {A}. Arguments newton {A}.
Arguments mkIR {A}. Arguments r_x {A}. Arguments r_K {A}. Arguments r_F {A}. Arguments r_G {A}. Arguments r_dK {A}. Arguments r_S {A}.
Arguments mkIS {A}. Arguments s_x {A}. Arguments s_K {A}. Arguments s_F {A}. Arguments s_S {A}. Arguments s_Sp {A}. Arguments s_rec {A}.
Arguments with_sens {A}. Arguments lu_cols {A}. Arguments dK_rhs {A}. Arguments add_stages {A}. Arguments dK_dp {A}. Arguments irk_step {A}. Arguments guess {A}. Arguments irk_init {A}. Arguments forward {A}.
Arguments lamK {A}. Arguments dw {A}. Arguments hess_stage {A}. Arguments back_step {A}. Arguments backward {A}. Arguments q_x {A}. Arguments q_S {A}. Arguments q_Sp {A}. Arguments q_adj {A}. Arguments q_hess {A}. Arguments q_mem {A}.
Arguments mirror_u {A}. Arguments irk {A}.
