(** Property theorems C33, C34: Butcher tableaux. *)
From Coq Require Import ZArith List Bool Reals.
From Coquelicot Require Import Coquelicot.
From Verif Require Import Arith Vec LinModel RSum Poly PadeProofs PadeTop CollModel CollProofs CollTop CollRadau CollGauss CollCases.
Import ListNotations.
Open Scope R_scope.

(** lu_system_solve solves every system with a nonsingular matrix *)
Theorem C33_solver : forall n (M B : matR), ~ singular n M -> forall r c, (r < n)%nat -> (c < n)%nat ->
  sum n (fun k => M r k * lu_system_solve (A := real) n M B k c) = B r c.
Proof. exact lus_solves. Qed.
Print Assumptions C33_solver.

(** C33: for distinct nodes the tableau integrates every polynomial of degree < s exactly, over [0, 1] with
    weights b and over [0, c_k] with the k-th row *)
Theorem C33_tableau : forall n (c : vecR), (forall i j, (i < j < S n)%nat -> c i <> c j) -> forall a : vecR,
  is_RInt (poly n a) 0 1 (sum (S n) (fun i => bt_b (A := real) (S n) c i * poly n a (c i))) /\
  forall k, is_RInt (poly n a) 0 (c k) (sum (S n) (fun i => bt_A (A := real) (S n) c i k * poly n a (c i))).
Proof. exact coll_BC. Qed.
Print Assumptions C33_tableau.
(** and no other weights do *)
Theorem C33_unique : forall n (c : vecR), (forall i j, (i < j < S n)%nat -> c i <> c j) -> forall (w : vecR) x,
  (forall a : vecR, is_RInt (poly n a) 0 x (sum (S n) (fun i => w i * poly n a (c i)))) ->
  (x = 1 -> forall i, (i <= n)%nat -> w i = bt_b (A := real) (S n) c i) /\
  (forall k, x = c k -> forall i, (i <= n)%nat -> w i = bt_A (A := real) (S n) c i k).
Proof. exact coll_unique. Qed.
Print Assumptions C33_unique.
(** the two-stage Radau tableau *)
Example C33_case : let c := fun i : nat => match i with O => 1 / 3 | _ => 1 end in
  bt_b (A := real) 2 c 0 = 3 / 4 /\ bt_b (A := real) 2 c 1 = 1 / 4 /\
  bt_A (A := real) 2 c 0 0 = 5 / 12 /\ bt_A (A := real) 2 c 1 0 = - (1 / 12) /\ bt_A (A := real) 2 c 0 1 = 3 / 4 /\ bt_A (A := real) 2 c 1 1 = 1 / 4.
Proof. exact radau2. Qed.

(** C33 for the Radau IIA table: increasing nodes, each within 1e-15 of the nodes of a rule that integrates
    polynomials of degree 2 s - 2 *)
Theorem C33_radau : forall s, (1 <= s <= 9)%nat ->
  (forall i j, (i < j < s)%nat -> radau_node (A := real) s i < radau_node (A := real) s j) /\
  exists c : vecR, (forall i, (i < s)%nat -> Rabs (radau_node (A := real) s i - c i) <= 1 / 10 ^ 15) /\
    (forall i j, (i < j < s)%nat -> c i < c j) /\ 0 < c 0%nat /\ c (s - 1)%nat = 1 /\
    forall a : vecR, is_RInt (poly (2 * s - 2) a) 0 1 (sum s (fun i => bt_b (A := real) s c i * poly (2 * s - 2) a (c i))).
Proof. exact radau_all. Qed.
Print Assumptions C33_radau.

(** C33 for Gauss-Legendre: whatever distinct points the iteration stops at exactly, the rule built on them
    integrates polynomials of degree 2 s - 1 *)
Theorem C33_gauss : forall s (y : vecR), (1 <= s)%nat -> (forall i j, (i < j < s)%nat -> y i <> y j) ->
  (forall i, (i < s)%nat -> gl_der (A := real) s (y i) <> 0 /\ gl_step (A := real) s (y i) = y i) ->
  let c := fun i => gl_node (A := real) (y i) in
  forall a : vecR, is_RInt (poly (2 * s - 1) a) 0 1 (sum s (fun i => bt_b (A := real) s c i * poly (2 * s - 1) a (c i))).
Proof. exact gl_all. Qed.
Print Assumptions C33_gauss.
Example C33_gauss_case : (forall i j, (i < j < 2)%nat -> gl2 i <> gl2 j) /\ forall i, gl_der (A := real) 2 (gl2 i) <> 0 /\ gl_step (A := real) 2 (gl2 i) = gl2 i.
Proof. exact gl2_ok. Qed.
(** Finding: the step is not Newton's.  With N2 in place of N1 the derivative of the step map at every
    stationary point is 1/(s+1), not 0 *)
Theorem C33_newton_refuted : forall s y, (1 <= s)%nat -> gl_der (A := real) s y <> 0 -> gl_step (A := real) s y = y ->
  is_derive (gl_step (A := real) s) y (1 / INR (s + 1)).
Proof. exact gl_rate_fix. Qed.
Print Assumptions C33_newton_refuted.

(** C34 *)
Theorem C34_explicit : forall s, (1 <= s <= 4)%nat -> exists A b c, explicit_tableau (A := real) s = Some (A, b, c) /\
  order_conditions s s (row A) (ent b) (ent c) /\
  (forall i j, (i <= j)%nat -> (i < s)%nat -> (j < s)%nat -> row A i j = 0) /\ (forall i, (i < s)%nat -> sum s (row A i) = ent c i).
Proof. exact explicit_ok. Qed.
Print Assumptions C34_explicit.
Theorem C34_rejected : forall s, ~ (1 <= s <= 4)%nat -> explicit_tableau (A := real) s = None.
Proof. exact explicit_none. Qed.
Print Assumptions C34_rejected.
(** the order is not higher than promised *)
Example C34_sharp : forall A b c, explicit_tableau (A := real) 2 = Some (A, b, c) -> ~ order_conditions 2 3 (row A) (ent b) (ent c).
Proof. exact explicit2_sharp. Qed.
