(** What the propagated cost, its gradient and its Gauss-Newton Hessian should be, over the reals. *)
From Coq Require Import ZArith List Bool Arith Lia Reals Lra.
From Coquelicot Require Import Coquelicot.
From Verif Require Import Arith Vec RSum IrkModel IrkSpec IrkCostModel.
Import ListNotations.
Open Scope R_scope.

(** the quadrature of a stage cost l(x, u, t) along an integration with N steps of length h *)
Section Q.
Variable o : irk_opts real.
Variable h t0 : R.
Notation N := (o_num_steps o). Notation ns := (o_ns o).
Definition at_t (n i : nat) : R := t0 + INR n * h + o_c o i * h.
Definition quadrature (l : vecR -> vecR -> R -> R) (X : nat -> vecR) (u : vecR) (K : nat -> vecR) : R :=
  sum N (fun n => sum ns (fun i => o_b o i / INR N * l (rk_stage o h (X n) (K n) i) u (at_t n i))).
End Q.
Definition quadf (n : nat) (W : matR) (v : vecR) : R := sum n (fun a => sum n (fun b => v a * W a b * v b)).
(** half the squared residual in the norm of W *)
Definition nls_cost (ny : nat) (F : nls_fun real) (yref : vecR) (W : matR) (x u : vecR) (t : R) : R :=
  1 / 2 * quadf ny W (fun q => y_fun F x u t q - yref q).
(** what the cost module stores for W: the roots of its diagonal, or a lower triangular factor *)
Definition weight_ok (ny : nat) (W : matR) (w : weight real) : Prop :=
  if w_is_diag w then forall a b, (a < ny)%nat -> (b < ny)%nat -> W a b = if (a =? b)%nat then w_diag w a * w_diag w a else 0
  else forall a b, (a < ny)%nat -> (b < ny)%nat -> W a b = sum ny (fun k => (if (k <=? a)%nat then w_chol w a k else 0) * (if (k <=? b)%nat then w_chol w b k else 0)).
(** a residual with its transposed Jacobian (rows u, x): local, and the derivative along every differentiable curve *)
Record jac_ok (y : vecR -> vecR -> R -> vecR) (J : vecR -> vecR -> R -> matR) (nx nu ny : nat) : Prop := mkJO {
  jo_loc : forall x x' u u' t q, agree nx x x' -> agree nu u u' -> (q < ny)%nat -> y x u t q = y x' u' t q;
  jo_jac : forall x x' u u' t c q, agree nx x x' -> agree nu u u' -> (c < nu + nx)%nat -> (q < ny)%nat -> J x u t c q = J x' u' t c q;
  jo_diff : forall (X U : R -> vecR) (dX dU : vecR) t, (forall c, (c < nx)%nat -> is_derive (fun e => X e c) 0 (dX c)) -> (forall c, (c < nu)%nat -> is_derive (fun e => U e c) 0 (dU c)) ->
    forall q, (q < ny)%nat -> is_derive (fun e => y (X e) (U e) t q) 0 (sum nu (fun c => J (X 0) (U 0) t c q * dU c) + sum nx (fun c => J (X 0) (U 0) t (nu + c)%nat q * dX c)) }.
(** a convex-over-nonlinear cost psi(y(x,u,t), t): gradient of psi, Jacobian of y; the flag only claims a diagonal Hessian of psi when it is diagonal *)
Record conl_ok (F : conl_fun real) (y : vecR -> vecR -> R -> vecR) (psi : vecR -> R -> R) (nx nu ny : nat) : Prop := mkCK {
  ck_jac : jac_ok y (l_jac F) nx nu ny;
  ck_val : forall x u t, l_val F x u t = psi (y x u t) t;
  ck_psi : forall v v' t, agree ny v v' -> psi v t = psi v' t;
  ck_loc : forall x x' u u' t q, agree nx x x' -> agree nu u u' -> (q < ny)%nat -> l_grad F x u t q = l_grad F x' u' t q;
  ck_grad : forall (Y : R -> vecR) (dY : vecR) x u t, agree ny (Y 0) (y x u t) -> (forall q, (q < ny)%nat -> is_derive (fun e => Y e q) 0 (dY q)) ->
    is_derive (fun e => psi (Y e) t) 0 (sum ny (fun q => l_grad F x u t q * dY q));
  ck_diag : forall x u t, l_diag F x u t = true -> forall a b, (a < ny)%nat -> (b < ny)%nat -> 0 <= l_hess F x u t a a /\ (a <> b -> l_hess F x u t a b = 0) }.
(** the Cholesky factorization *)
Definition potrf_ok (ny : nat) (potrf : nat -> matR -> matR) (W : matR) : Prop :=
  forall a b, (a < ny)%nat -> (b < ny)%nat -> W a b = sum ny (fun k => (if (k <=? a)%nat then potrf ny W a k else 0) * (if (k <=? b)%nat then potrf ny W b k else 0)).
(** gradients and Hessians are in the order u, x, directions d in the order x, u *)
Definition dir (nx nu : nat) (d : vecR) : vecR := fun c => if (c <? nu)%nat then d (nx + c)%nat else d (c - nu)%nat.
(** the symmetric matrix whose lower triangle is given *)
Definition of_lower (H : matR) : matR := fun r c => if (c <=? r)%nat then H r c else H c r.
(** a differentiable family of exact integrations through the computed one, leaving it in the direction d (order x, u; states seeded by S_forw) *)
Record moves (MM : vecR -> irk_model real) (p : vecR) (o : irk_opts real) (inp : irk_in real) (lu : nat -> matR -> vecR -> vecR) (m : irk_mem real) (F0 : matR)
    (d : vecR) (U : R -> vecR) (X KK : nat -> R -> vecR) : Prop := mkMoves {
  mv_cons : irk_consistent MM (o_nx o) (o_nu o) (o_nz o) (o_np o);
  mv_lu : lu_ok ((o_nx o + o_nz o) * o_ns o) lu;
  mv_reg : irk_regular o inp lu m F0 (MM p);
  mv_seed : irk_seed_ok o inp;
  mv_thr : irk_through o inp lu m F0 MM p (fun _ => p) U X KK;
  mv_K : exists dk : nat -> vecR, forall n k, (n < o_num_steps o)%nat -> (k < (o_nx o + o_nz o) * o_ns o)%nat -> is_derive (fun e => KK n e k) 0 (dk n k);
  mv_X : forall r, (r < o_nx o)%nat -> is_derive (fun e => X 0%nat e r) 0 (sum (o_nx o + o_nu o) (fun c => n_S_forw inp r c * d c));
  mv_U : forall c, (c < o_nu o)%nat -> is_derive (fun e => U e c) 0 (d (o_nx o + c)%nat) }.
(** the cost of the code, for the records of its own integration *)
Definition cost_run (M : irk_model real) (o : irk_opts real) (inp : irk_in real) (lu : nat -> matR -> vecR -> vecR) (m : irk_mem real) (F0 : matR)
    (ny : nat) (cs : R) (potrf : nat -> matR -> matR) (stale : nat -> matR) (c : cost real) : option (cost_out real) :=
  irk_cost o inp ny cs potrf sqrt c stale (s_rec (forward M o inp lu m F0 (o_num_steps o))).
(** the quadrature along the computed integration, and along a family *)
Definition quad_at (M : irk_model real) (o : irk_opts real) (inp : irk_in real) (lu : nat -> matR -> vecR -> vecR) (m : irk_mem real) (F0 : matR) (l : vecR -> vecR -> R -> R) : R :=
  quadrature o (irk_h o inp) (n_t0 inp) l (fun n => s_x (forward M o inp lu m F0 n)) (n_u inp) (fun n => s_K (forward M o inp lu m F0 (S n))).
Definition quad_along (o : irk_opts real) (inp : irk_in real) (l : vecR -> vecR -> R -> R) (U : R -> vecR) (X KK : nat -> R -> vecR) (e : R) : R :=
  quadrature o (irk_h o inp) (n_t0 inp) l (fun n => X n e) (U e) (fun n => KK n e).
(** derivatives of a residual at the stages *)
Definition residual_moves (o : irk_opts real) (inp : irk_in real) (ny : nat) (y : vecR -> vecR -> R -> vecR) (U : R -> vecR) (X KK : nat -> R -> vecR) (DY : nat -> nat -> vecR) : Prop :=
  forall n i q, (n < o_num_steps o)%nat -> (i < o_ns o)%nat -> (q < ny)%nat ->
  is_derive (fun e => y (rk_stage o (irk_h o inp) (X n e) (KK n e) i) (U e) (at_t o (irk_h o inp) (n_t0 inp) n i) q) 0 (DY n i q).
(** the same options with other sensitivities *)
Definition with_flags (o : irk_opts real) (f fp a hs : bool) : irk_opts real :=
  mkIO (A := real) (o_nx o) (o_nu o) (o_nz o) (o_np o) (o_ns o) (o_num_steps o) (o_newton_iter o) (o_A o) (o_b o) (o_c o) (o_jac_reuse o) (o_newton_tol o) f fp a hs.
