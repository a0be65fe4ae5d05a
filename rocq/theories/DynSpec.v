(** What the dynamics modules should deliver, over the reals. *)
From Coq Require Import ZArith List Bool Arith Lia Reals Lra.
From Coquelicot Require Import Coquelicot.
From Verif Require Import Arith Vec RSum IrkModel IrkSpec DynModel.
Import ListNotations.
Open Scope R_scope.

Section D.
Variable d : dims.
Notation nx := (d_nx d). Notation nu := (d_nu d). Notation nz := (d_nz d). Notation nx1 := (d_nx1 d).
(** the flat outputs of the integrator as matrices; the columns are (x, u) *)
Definition out_J (o : sim_out real) : matR := fun r c => s_S_forw o (r + nx * c)%nat.
Definition out_Z (o : sim_out real) : matR := fun r c => s_S_alg o (r + nz * c)%nat.
Definition out_H (o : sim_out real) : matR := fun r c => s_S_hess o (r + (nx + nu) * c)%nat.
(** the integrator is asked for the right point, with the seeds [I 0] and (pi, 0) *)
Definition point_ok (y : dyn_in real) (i : sim_in real) : Prop := agree nx (i_x i) (fun k => y_ux y (nu + k)%nat) /\ agree nu (i_u i) (y_ux y) /\ i_T i = y_T y.
Definition fseed_ok (i : sim_in real) : Prop := i_id i = true /\ forall r c, (r < nx)%nat -> (c < nx + nu)%nat -> i_S_forw i (r + nx * c)%nat = if (r =? c)%nat then 1 else 0.
Definition aseed_ok (y : dyn_in real) (i : sim_in real) : Prop := forall k, (k < nx + nu)%nat -> i_S_adj i k = if (k <? nx)%nat then y_pi y k else 0.
(** its adjoint is the transposed Jacobian J times the seed *)
Definition adjoint_ok (J : matR) (i : sim_in real) (o : sim_out real) : Prop := forall c, (c < nx + nu)%nat -> s_S_adj o c = sum nx (fun r => i_S_adj i r * J r c).
(** J in direction (dx, du) *)
Definition along (J : matR) (dx du : vecR) : vecR := fun r => sum nx (fun c => J r c * dx c) + sum nu (fun c => J r (nx + c)%nat * du c).
(** a vector over (u, x, x1) in a direction *)
Definition dot3 (a du dx dx1 : vecR) : R := sum nu (fun k => a k * du k) + sum nx (fun k => a (nu + k)%nat * dx k) + sum nx1 (fun k => a (nu + nx + k)%nat * dx1 k).
(** a column of a matrix whose rows are (u, x) *)
Definition dot2 (B : matR) (du dx : vecR) (r : nat) : R := sum nu (fun k => B k r * du k) + sum nx (fun k => B (nu + k)%nat r * dx k).
(** quadratic form of the matrix whose lower triangle is given; variables (u, x) *)
Definition lowquad (Q : matR) (du dx : vecR) : R :=
  let v k := if (k <? nu)%nat then du k else dx (k - nu)%nat in
  sum (nu + nx) (fun a => sum (nu + nx) (fun b => v a * (if (b <=? a)%nat then Q a b else Q b a) * v b)).
(** quadratic form over (x, u) *)
Definition quad_xu (H : matR) (dx du : vecR) : R :=
  let v k := if (k <? nx)%nat then dx k else du (k - nx)%nat in sum (nx + nu) (fun a => sum (nx + nu) (fun b => v a * H a b * v b)).
End D.

(** the implicit integrator as a solver of the dynamics module: flat arrays in and out; what an option switches off stays as it was *)
Definition irk_options (o : irk_opts real) (s : sopts) : irk_opts real :=
  mkIO (o_nx o) (o_nu o) (o_nz o) (o_np o) (o_ns o) (o_num_steps o) (o_newton_iter o) (o_A o) (o_b o) (o_c o) (o_jac_reuse o) (o_newton_tol o) (so_forw s) false (so_adj s) (so_hess s).
Definition irk_call (o : irk_opts real) (t0 : R) (i : sim_in real) : irk_in real :=
  mkII (i_x i) (i_u i) (i_T i) t0 (fun r c => i_S_forw i (r + o_nx o * c)%nat) (i_S_adj i) (i_id i).
Definition irk_eval (M : irk_model real) (o : irk_opts real) (t0 : R) (lu lut : nat -> matR -> vecR -> vecR) (F0 : matR)
    (s : sopts) (i : sim_in real) (out : sim_out real) (m : irk_mem real) : sim_out real * irk_mem real :=
  let q := irk M (irk_options o s) (irk_call o t0 i) lu lut m F0 in
  let n := (o_nx o + o_nu o)%nat in
  (mkSR (q_x q) (s_zn out)
     (if so_forw s || so_hess s then fun k => q_S q (k mod o_nx o)%nat (k / o_nx o)%nat else s_S_forw out)
     (if so_adj s || so_hess s then q_adj q else s_S_adj out)
     (if so_hess s then fun k => q_hess q (k mod n)%nat (k / n)%nat else s_S_hess out) (s_S_alg out), q_mem q).

(** discrete dynamics: the Jacobian the generated function returns (transposed, rows u and x) is the derivative *)
Definition disc_consistent (M : disc_model real) (nx nu nx1 : nat) : Prop :=
  (forall x x' u u', agree nx x x' -> agree nu u u' -> agree nx1 (phi M x u) (phi M x' u') /\ agree2 (nu + nx) nx1 (phi_jt M x u) (phi_jt M x' u')) /\
  forall (X U : R -> vecR) (dX dU : vecR), (forall c, (c < nx)%nat -> is_derive (fun e => X e c) 0 (dX c)) -> (forall c, (c < nu)%nat -> is_derive (fun e => U e c) 0 (dU c)) ->
    forall r, (r < nx1)%nat -> is_derive (fun e => phi M (X e) (U e) r) 0 (sum nu (fun c => phi_jt M (X 0) (U 0) c r * dU c) + sum nx (fun c => phi_jt M (X 0) (U 0) (nu + c)%nat r * dX c)).
