(** What the algebraic output of the implicit integrator should be. *)
From Coq Require Import ZArith List Bool Arith Lia Reals Lra.
From Coquelicot Require Import Coquelicot.
From Verif Require Import Arith Vec RSum Poly IrkModel IrkSpec IrkZModel.
Open Scope R_scope.

Definition distinct (n : nat) (c : vecR) : Prop := forall i j, (i < j < n)%nat -> c i <> c j.
(** [a]: coefficients of a polynomial of degree below ns through the stage values of z_i *)
Definition through_z (o : irk_opts real) (K : vecR) (i : nat) (a : vecR) : Prop := forall j, (j < o_ns o)%nat -> poly (o_ns o - 1) a (o_c o j) = K (o_ns o * o_nx o + j * o_nz o + i)%nat.
(** xdot enters linearly with a matrix that depends on time only, e.g. semi-explicit systems *)
Definition xdot_linear (M : irk_model real) (nx nu nz : nat) : Prop := exists E : R -> matR,
  (forall x k u z t q, (q < nx + nz)%nat -> m_f M x k u z t q = m_f M x (fun _ => 0) u z t q + sum nx (fun c => E t q c * k c)) /\
  (forall x k u z t, agree2 (nx + nz) nx (m_fk M x k u z t) (E t)) /\ (forall x k u z t, agree2 (nx + nz) nx (m_fx M x k u z t) (m_fx M x (fun _ => 0) u z t)) /\
  (forall x k u z t, agree2 (nx + nz) nu (m_fu M x k u z t) (m_fu M x (fun _ => 0) u z t)) /\ (forall x k u z t, agree2 (nx + nz) nz (m_fz M x k u z t) (m_fz M x (fun _ => 0) u z t)).
(** the system determines xdot and z *)
Definition index_one (M : irk_model real) (nx nz : nat) (x k u z : vecR) (t : R) : Prop := forall yk yz : vecR,
  (forall q, (q < nx + nz)%nat -> sum nx (fun c => m_fk M x k u z t q c * yk c) + sum nz (fun c => m_fz M x k u z t q c * yz c) = 0) -> agree nx yk (fun _ => 0) /\ agree nz yz (fun _ => 0).
(** [z'] is a Newton step from [z] for the system f(x, ., u, ., t) = 0 in which xdot enters linearly *)
Definition z_newton_step (M : irk_model real) (nx nz : nat) (x u : vecR) (t : R) (z z' : vecR) : Prop := exists w : vecR, forall q, (q < nx + nz)%nat ->
  m_f M x w u z t q + sum nz (fun c => m_fz M x w u z t q c * (z' c - z c)) = 0.
Definition z_solves (M : irk_model real) (nx nz : nat) (x u : vecR) (t : R) (z : vecR) : Prop := exists w : vecR, forall q, (q < nx + nz)%nat -> m_f M x w u z t q = 0.
Definition z_affine (M : irk_model real) (nx nz : nat) : Prop := forall x k u z z' t q, (q < nx + nz)%nat -> m_f M x k u z' t q = m_f M x k u z t q + sum nz (fun c => m_fz M x k u z t q c * (z' c - z c)).
(** the switches under which the algebraic variables are asked for *)
Definition asks (q : z_opts) : bool := z_output q || z_sens q.
