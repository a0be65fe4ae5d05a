(** What an implicit Runge-Kutta step with its sensitivities should compute, over the reals. *)
From Coq Require Import ZArith List Bool Arith Lia Reals Lra.
From Coquelicot Require Import Coquelicot.
From Verif Require Import Arith Vec RSum IrkModel.
Import ListNotations.
Open Scope R_scope.

Definition agree (n : nat) (v w : vecR) := forall k, (k < n)%nat -> v k = w k.
Definition agree2 (m n : nat) (v w : matR) := forall r c, (r < m)%nat -> (c < n)%nat -> v r c = w r c.

(** the equations of one step of length [h] from time [t]: K holds the ns stage derivatives and then the ns stage values of z *)
Section Eqs.
Variable o : irk_opts real.
Variable h : R.
Notation nx := (o_nx o). Notation nu := (o_nu o). Notation nz := (o_nz o). Notation ns := (o_ns o).
Definition rk_stage (x K : vecR) (i : nat) : vecR := fun r => x r + h * sum ns (fun j => o_A o i j * K (j * nx + r)%nat).
Definition rk_next (x K : vecR) : vecR := fun r => x r + h * sum ns (fun j => o_b o j * K (j * nx + r)%nat).
Definition rk_arg {B} (g : vecR -> vecR -> vecR -> vecR -> R -> B) (t : R) (x u K : vecR) (i : nat) : B :=
  g (rk_stage x K i) (fun k => K (i * nx + k)%nat) u (fun k => K (ns * nx + i * nz + k)%nat) (t + o_c o i * h).
Definition rk_eqs (M : irk_model real) (t : R) (x u K x' : vecR) : Prop :=
  (forall i q, (i < ns)%nat -> (q < nx + nz)%nat -> rk_arg (m_f M) t x u K i q = 0) /\ agree nx x' (rk_next x K).
(** the stage equations linearized at a point, in direction (dx, dK, du) *)
Definition rk_lin (M : irk_model real) (t : R) (x u K : vecR) (i q : nat) (dx dK du : vecR) : R :=
  sum nx (fun c => rk_arg (m_fx M) t x u K i q c * rk_stage dx dK i c) + sum nx (fun c => rk_arg (m_fk M) t x u K i q c * dK (i * nx + c)%nat) +
  sum nu (fun c => rk_arg (m_fu M) t x u K i q c * du c) + sum nz (fun c => rk_arg (m_fz M) t x u K i q c * dK (ns * nx + i * nz + c)%nat).
(** the linearized stage equations determine the stage variables *)
Definition rk_regular (M : irk_model real) (t : R) (x u K : vecR) : Prop :=
  forall y : vecR, (forall i q, (i < ns)%nat -> (q < nx + nz)%nat -> rk_lin M t x u K i q (fun _ => 0) y (fun _ => 0) = 0) -> agree ((nx + nz) * ns) y (fun _ => 0).
End Eqs.

(** the Jacobians only look at the entries that exist, and are the derivatives along every differentiable curve; [MM p] is the model for parameter values p *)
Record irk_consistent (MM : vecR -> irk_model real) (nx nu nz np : nat) : Prop := mkIC {
  ic_loc : forall p x x' k k' u u' z z' t, agree nx x x' -> agree nx k k' -> agree nu u u' -> agree nz z z' ->
    agree2 (nx + nz) nx (m_fx (MM p) x k u z t) (m_fx (MM p) x' k' u' z' t) /\ agree2 (nx + nz) nx (m_fk (MM p) x k u z t) (m_fk (MM p) x' k' u' z' t) /\
    agree2 (nx + nz) nu (m_fu (MM p) x k u z t) (m_fu (MM p) x' k' u' z' t) /\ agree2 (nx + nz) nz (m_fz (MM p) x k u z t) (m_fz (MM p) x' k' u' z' t) /\
    agree2 (nx + nz) np (m_fp (MM p) x k u z t) (m_fp (MM p) x' k' u' z' t);
  ic_diff : forall (P X K U Z : R -> vecR) (dP dX dK dU dZ : vecR) t,
    (forall c, (c < np)%nat -> is_derive (fun e => P e c) 0 (dP c)) -> (forall c, (c < nx)%nat -> is_derive (fun e => X e c) 0 (dX c)) ->
    (forall c, (c < nx)%nat -> is_derive (fun e => K e c) 0 (dK c)) -> (forall c, (c < nu)%nat -> is_derive (fun e => U e c) 0 (dU c)) ->
    (forall c, (c < nz)%nat -> is_derive (fun e => Z e c) 0 (dZ c)) -> forall q, (q < nx + nz)%nat ->
    is_derive (fun e => m_f (MM (P e)) (X e) (K e) (U e) (Z e) t q) 0
      (sum nx (fun c => m_fx (MM (P 0)) (X 0) (K 0) (U 0) (Z 0) t q c * dX c) + sum nx (fun c => m_fk (MM (P 0)) (X 0) (K 0) (U 0) (Z 0) t q c * dK c) +
       sum nu (fun c => m_fu (MM (P 0)) (X 0) (K 0) (U 0) (Z 0) t q c * dU c) + sum nz (fun c => m_fz (MM (P 0)) (X 0) (K 0) (U 0) (Z 0) t q c * dZ c) +
       sum np (fun c => m_fp (MM (P 0)) (X 0) (K 0) (U 0) (Z 0) t q c * dP c)) }.

(** a regular square matrix, and what an exact LU factorization with its solves delivers *)
Definition nonsing (n : nat) (F : matR) : Prop := forall y, (forall r, (r < n)%nat -> sum n (fun k => F r k * y k) = 0) -> forall k, (k < n)%nat -> y k = 0.
Definition lu_ok (n : nat) (lu : nat -> matR -> vecR -> vecR) : Prop := forall F b, nonsing n F -> forall r, (r < n)%nat -> sum n (fun k => F r k * lu n F b k) = b r.
Definition lu_t_ok (n : nat) (lu : nat -> matR -> vecR -> vecR) : Prop := forall F b, nonsing n F -> forall c, (c < n)%nat -> sum n (fun k => F k c * lu n F b k) = b c.

(** a curve: twice differentiable at 0, with first derivative [d] near 0 *)
Definition twice (n : nat) (X d : R -> vecR) (dd : vecR) : Prop :=
  (forall c, (c < n)%nat -> locally 0 (fun e => is_derive (fun e => X e c) e (d e c))) /\ (forall c, (c < n)%nat -> is_derive (fun e => d e c) 0 (dd c)).
(** the variables of the model function in the order of the Hessian: x, xdot, z, u *)
Definition var4 (nx nz : nat) (x k z u : vecR) : vecR :=
  fun a => if (a <? nx)%nat then x a else if (a <? 2 * nx)%nat then k (a - nx)%nat else if (a <? 2 * nx + nz)%nat then z (a - 2 * nx)%nat else u (a - (2 * nx + nz))%nat.
(** impl_ode_hess: symmetric, local, and the second derivative of lambda . f along every twice differentiable curve *)
Record irk_hess_ok (M : irk_model real) (nx nu nz : nat) : Prop := mkIH {
  ih_sym : forall x k u z l t a b, m_hess M x k u z l t a b = m_hess M x k u z l t b a;
  ih_loc : forall x x' k k' u u' z z' l l' t, agree nx x x' -> agree nx k k' -> agree nu u u' -> agree nz z z' -> agree (nx + nz) l l' ->
    agree2 (2 * nx + nz + nu) (2 * nx + nz + nu) (m_hess M x k u z l t) (m_hess M x' k' u' z' l' t);
  ih_second : forall (X K U Z X1 K1 U1 Z1 : R -> vecR) (X2 K2 U2 Z2 : vecR) t (l : vecR),
    twice nx X X1 X2 -> twice nx K K1 K2 -> twice nu U U1 U2 -> twice nz Z Z1 Z2 ->
    exists phi : R -> R, locally 0 (fun e => is_derive (fun e => sum (nx + nz) (fun q => l q * m_f M (X e) (K e) (U e) (Z e) t q)) e (phi e)) /\
      is_derive phi 0
        (sum (nx + nz) (fun q => l q * (sum nx (fun c => m_fx M (X 0) (K 0) (U 0) (Z 0) t q c * X2 c) + sum nx (fun c => m_fk M (X 0) (K 0) (U 0) (Z 0) t q c * K2 c) +
           sum nu (fun c => m_fu M (X 0) (K 0) (U 0) (Z 0) t q c * U2 c) + sum nz (fun c => m_fz M (X 0) (K 0) (U 0) (Z 0) t q c * Z2 c))) +
         sum (2 * nx + nz + nu) (fun a => sum (2 * nx + nz + nu) (fun b =>
           var4 nx nz (X1 0) (K1 0) (Z1 0) (U1 0) a * m_hess M (X 0) (K 0) (U 0) (Z 0) l t a b * var4 nx nz (X1 0) (K1 0) (Z1 0) (U1 0) b))) }.
(** a family of exact integrations over N steps: for every e near 0 the stage variables [KK n e] solve the equations for parameters P e and controls U e *)
Definition irk_curve (o : irk_opts real) (h t0 : R) (N : nat) (MM : vecR -> irk_model real) (P U : R -> vecR) (X KK : nat -> R -> vecR) : Prop :=
  locally 0 (fun e => forall n, (n < N)%nat -> rk_eqs o h (MM (P e)) (t0 + INR n * h) (X n e) (U e) (KK n e) (X (S n) e)).
(** step length; the equations along the trajectory that was computed are regular; the curve passes through it at 0 *)
Definition irk_h (o : irk_opts real) (inp : irk_in real) : R := n_T inp / INR (o_num_steps o).
Section Traj.
Variable o : irk_opts real.
Variable inp : irk_in real.
Variable lu : nat -> matR -> vecR -> vecR.
Variable m : irk_mem real.
Variable F0 : matR.
Notation fwd M := (forward M o inp lu m F0).
Definition irk_regular (M : irk_model real) : Prop := forall n, (n < o_num_steps o)%nat ->
  rk_regular o (irk_h o inp) M (n_t0 inp + INR n * irk_h o inp) (s_x (fwd M n)) (n_u inp) (s_K (fwd M (S n))).
Definition irk_through (MM : vecR -> irk_model real) (p : vecR) (P U : R -> vecR) (X KK : nat -> R -> vecR) : Prop :=
  irk_curve o (irk_h o inp) (n_t0 inp) (o_num_steps o) MM P U X KK /\ P 0 = p /\ agree (o_nu o) (U 0) (n_u inp) /\ agree (o_nx o) (X 0%nat 0) (n_x inp) /\
  (forall n, (n < o_num_steps o)%nat -> agree ((o_nx o + o_nz o) * o_ns o) (KK n 0) (s_K (fwd (MM p) (S n)))).
(** the flag identity_seed may only be set together with the seed [I 0] *)
Definition irk_seed_ok : Prop := n_identity_seed inp = true -> forall r c, (r < o_nx o)%nat -> (c < o_nx o + o_nu o)%nat -> n_S_forw inp r c = if (r =? c)%nat then 1 else 0.
End Traj.
(** models that are affine in x, xdot, z, with constant coefficients *)
Definition irk_affine (M : irk_model real) (nx nz : nat) : Prop := exists (Cx Ck Cz : matR) (f0 : vecR -> R -> vecR),
  m_fx M = (fun _ _ _ _ _ => Cx) /\ m_fk M = (fun _ _ _ _ _ => Ck) /\ m_fz M = (fun _ _ _ _ _ => Cz) /\
  forall x k u z t q, (q < nx + nz)%nat -> m_f M x k u z t q = f0 u t q + sum nx (fun c => Cx q c * x c) + sum nx (fun c => Ck q c * k c) + sum nz (fun c => Cz q c * z c).
