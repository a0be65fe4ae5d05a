(** C85: the algebraic variables at the start of the interval, and their sensitivities. *)
From Coq Require Import ZArith List Bool Reals.
From Coquelicot Require Import Coquelicot.
From Verif Require Import FP Arith Vec RSum Poly CollModel IrkModel IrkSpec IrkZModel IrkZSpec IrkZTop IrkZCases.
Open Scope R_scope.

Theorem C85_interpolated : forall M o inp lu q m F0 D0 zn0 S0, (0 < o_ns o)%nat -> distinct (o_ns o) (o_c o) -> asks q = true -> z_exact q = false ->
  exists zn SA, irk_z M o inp lu q m F0 D0 zn0 S0 = ZOk zn SA /\
  forall i a, (i < o_nz o)%nat -> through_z o (s_K (forward M o inp lu m F0 1)) i a -> zn i = poly (o_ns o - 1) a 0.
Proof. exact z_interp_top. Qed.
Print Assumptions C85_interpolated.

Theorem C85_interpolated_derivative : forall MM p o inp lu q m F0 D0 zn0 S0 U X KK (d : vecR) (dk : nat -> vecR), (0 < o_ns o)%nat -> (0 < o_num_steps o)%nat -> distinct (o_ns o) (o_c o) ->
  z_sens q = true -> z_exact q = false -> o_sens_forw o || o_sens_hess o = true ->
  irk_consistent MM (o_nx o) (o_nu o) (o_nz o) (o_np o) -> lu_ok ((o_nx o + o_nz o) * o_ns o) lu -> irk_regular o inp lu m F0 (MM p) -> irk_seed_ok o inp ->
  irk_through o inp lu m F0 MM p (fun _ => p) U X KK ->
  (forall n k, (n < o_num_steps o)%nat -> (k < (o_nx o + o_nz o) * o_ns o)%nat -> is_derive (fun e => KK n e k) 0 (dk n k)) ->
  (forall r, (r < o_nx o)%nat -> is_derive (fun e => X 0%nat e r) 0 (sum (o_nx o + o_nu o) (fun c => n_S_forw inp r c * d c))) ->
  (forall c, (c < o_nu o)%nat -> is_derive (fun e => U e c) 0 (d (o_nx o + c)%nat)) ->
  exists zn SA, irk_z (MM p) o inp lu q m F0 D0 zn0 S0 = ZOk zn SA /\
  forall i (a : R -> vecR), (i < o_nz o)%nat -> locally 0 (fun e => through_z o (KK 0%nat e) i (a e)) ->
    is_derive (fun e => poly (o_ns o - 1) (a e) 0) 0 (sum (o_nx o + o_nu o) (fun c => SA i c * d c)).
Proof. exact z_sens_top. Qed.
Print Assumptions C85_interpolated_derivative.

Theorem C85_exact_newton : forall M o inp lu q m F0 D0 zn0 S0, (0 < o_ns o)%nat -> distinct (o_ns o) (o_c o) -> z_sens q = true -> z_exact q = true -> o_jac_reuse o = false ->
  xdot_linear M (o_nx o) (o_nu o) (o_nz o) -> lu_ok (o_nx o + o_nz o) lu -> (forall z, index_one M (o_nx o) (o_nz o) (n_x inp) (fun _ => 0) (n_u inp) z (n_t0 inp)) ->
  exists zn SA (zz : nat -> vecR), irk_z M o inp lu q m F0 D0 zn0 S0 = ZOk zn SA /\ zz (o_newton_iter o) = zn /\
    (forall i a, (i < o_nz o)%nat -> through_z o (s_K (forward M o inp lu m F0 1)) i a -> zz 0%nat i = poly (o_ns o - 1) a 0) /\
    (forall k, (k < o_newton_iter o)%nat -> z_newton_step M (o_nx o) (o_nz o) (n_x inp) (n_u inp) (n_t0 inp) (zz k) (zz (S k))) /\
    (z_affine M (o_nx o) (o_nz o) -> (0 < o_newton_iter o)%nat -> z_solves M (o_nx o) (o_nz o) (n_x inp) (n_u inp) (n_t0 inp) zn).
Proof. exact z_exact_top. Qed.
Print Assumptions C85_exact_newton.

Theorem C85_exact_derivative : forall MM p o inp lu q m F0 D0 zn0 S0, z_sens q = true -> z_exact q = true ->
  irk_consistent MM (o_nx o) (o_nu o) (o_nz o) (o_np o) -> xdot_linear (MM p) (o_nx o) (o_nu o) (o_nz o) -> lu_ok (o_nx o + o_nz o) lu ->
  (forall z, index_one (MM p) (o_nx o) (o_nz o) (n_x inp) (fun _ => 0) (n_u inp) z (n_t0 inp)) ->
  exists zn SA, irk_z (MM p) o inp lu q m F0 D0 zn0 S0 = ZOk zn SA /\
  forall (X Kc U Z : R -> vecR) (d dK dZ : vecR), (forall r, (r < o_nx o)%nat -> is_derive (fun e => X e r) 0 (d r)) -> (forall c, (c < o_nu o)%nat -> is_derive (fun e => U e c) 0 (d (o_nx o + c)%nat)) ->
  (forall r, (r < o_nx o)%nat -> is_derive (fun e => Kc e r) 0 (dK r)) -> (forall r, (r < o_nz o)%nat -> is_derive (fun e => Z e r) 0 (dZ r)) ->
  agree (o_nx o) (X 0) (n_x inp) -> agree (o_nu o) (U 0) (n_u inp) -> agree (o_nz o) (Z 0) zn -> locally 0 (fun e => forall r, (r < o_nx o + o_nz o)%nat -> m_f (MM p) (X e) (Kc e) (U e) (Z e) (n_t0 inp) r = 0) ->
  forall i, (i < o_nz o)%nat -> is_derive (fun e => Z e i) 0 (sum (o_nx o + o_nu o) (fun c => SA i c * d c)).
Proof. exact z_exact_sens_top. Qed.
Print Assumptions C85_exact_derivative.

Theorem C85_unassigned_workspace : forall (M : irk_model real) o inp lu q m F0 D0 zn0 S0, z_output q = true -> z_exact q = true -> z_sens q = false -> (0 < o_newton_iter o)%nat ->
  irk_z M o inp lu q m F0 D0 zn0 S0 = ZUnassigned.
Proof. exact z_unassigned_top. Qed.
Print Assumptions C85_unassigned_workspace.

Theorem C85_stale_sensitivity : forall (M : irk_model real) o inp lu q m F0 zn0 S0 (v : vecR), z_sens q = true -> z_exact q = false -> o_sens_forw o = false -> o_sens_hess o = false -> (0 < o_ns o)%nat -> distinct (o_ns o) (o_c o) ->
  exists D0 zn SA, irk_z M o inp lu q m F0 D0 zn0 S0 = ZOk zn SA /\ forall i c, (i < o_nz o)%nat -> SA i c = v c.
Proof. exact z_stale_top. Qed.
Print Assumptions C85_stale_sensitivity.

Theorem C85_jac_reuse_refuted : exists MM p o inp lu m F0 zn SA x1, irk_consistent MM (o_nx o) (o_nu o) (o_nz o) (o_np o) /\ xdot_linear (MM p) (o_nx o) (o_nu o) (o_nz o) /\ z_affine (MM p) (o_nx o) (o_nz o) /\
  lu_ok (o_nx o + o_nz o) lu /\ (forall z, index_one (MM p) (o_nx o) (o_nz o) (n_x inp) (fun _ => 0) (n_u inp) z (n_t0 inp)) /\ o_jac_reuse o = true /\ o_newton_iter o = 3%nat /\
  rk_eqs o (irk_h o inp) (MM p) (n_t0 inp) (n_x inp) (n_u inp) (s_K (forward (MM p) o inp lu m F0 1)) x1 /\
  irk_z (MM p) o inp lu (mkZO true true true) m F0 (fun _ _ => 0) (fun _ => 0) (fun _ _ => 0) = ZOk zn SA /\
  ~ z_solves (MM p) (o_nx o) (o_nz o) (n_x inp) (n_u inp) (n_t0 inp) zn /\ z_solves (MM p) (o_nx o) (o_nz o) (n_x inp) (n_u inp) (n_t0 inp) (fun _ => 1).
Proof. exact z_reuse_refuted_top. Qed.
Print Assumptions C85_jac_reuse_refuted.

Theorem C85_xdot_refuted : exists MM p o inp lu m F0 zn SA x1, irk_consistent MM (o_nx o) (o_nu o) (o_nz o) (o_np o) /\ lu_ok (o_nx o + o_nz o) lu /\
  (forall k z, index_one (MM p) (o_nx o) (o_nz o) (n_x inp) k (n_u inp) z (n_t0 inp)) /\ o_jac_reuse o = false /\ o_newton_iter o = 3%nat /\
  rk_eqs o (irk_h o inp) (MM p) (n_t0 inp) (n_x inp) (n_u inp) (s_K (forward (MM p) o inp lu m F0 1)) x1 /\
  irk_z (MM p) o inp lu (mkZO true true true) m F0 (fun _ _ => 0) (fun _ => 0) (fun _ _ => 0) = ZOk zn SA /\
  ~ z_solves (MM p) (o_nx o) (o_nz o) (n_x inp) (n_u inp) (n_t0 inp) zn /\
  exists X Kc Z : R -> vecR, is_derive (fun e => X e 0%nat) 0 1 /\ agree 1 (X 0) (n_x inp) /\
    (forall e q, (q < 2)%nat -> m_f (MM p) (X e) (Kc e) (n_u inp) (Z e) (n_t0 inp) q = 0) /\ is_derive (fun e => Z e 0%nat) 0 2 /\ SA 0%nat 0%nat = - (2) /\ o_nx o = 1%nat /\ o_nz o = 1%nat.
Proof. exact z_xdot_refuted_top. Qed.
Print Assumptions C85_xdot_refuted.

Theorem C85_explicit_tableau_refuted : exists (o : irk_opts dbl) (A : list (list (num dbl))) b c, explicit_tableau (A := dbl) (o_ns o) = Some (A, b, c) /\ (forall i, (i < o_ns o)%nat -> o_c o i = nth i c (n0 (a := dbl))) /\
  isnan (z_start (A := dbl) o (fun _ => n1 (a := dbl)) 0%nat) = true.
Proof. exact z_erk4_refuted_top. Qed.
Print Assumptions C85_explicit_tableau_refuted.

Example C85_interpolated_case : exists zn SA, irk_z (zM p0) (zo false 1) zin zlu (mkZO true true false) zm I2 (fun _ _ => 0) (fun _ => 0) (fun _ _ => 0) = ZOk zn SA /\ zn 0%nat = 2 /\ SA 0%nat 0%nat = 2.
Proof. exact z_interp_case. Qed.
Example C85_exact_case : exists zn SA, zres false 1 = ZOk zn SA /\ zn 0%nat = 1 /\ SA 0%nat 0%nat = 1.
Proof. exact z_exact_case. Qed.
Example C85_exact_case3 : fst (zout (zres false 3)) 0%nat = 1.
Proof. exact z_case. Qed.
Example C85_case_hypotheses : irk_consistent zM 1 0 1 0 /\ xdot_linear (zM p0) 1 0 1 /\ lu_ok 2 zlu /\ z_affine (zM p0) 1 1.
Proof. exact (conj z_consistent (conj z_linear (conj zlu_ok z_aff))). Qed.
