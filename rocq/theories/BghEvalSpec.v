(** The constraints of a stage as functions of the stage variables, over the reals. *)
From Coq Require Import ZArith List Bool Reals.
From Coquelicot Require Import Coquelicot.
From Verif Require Import Arith Vec LinModel BghEvalModel RSum.
Open Scope R_scope.

Section S.
Variable b : bgh_in real.
Variable C : matR.                     (* transposed matrix of the linear constraints *)
Variable h : vecR -> vecR.             (* the nonlinear constraints as a function of (u, x, slacks) *)
Notation nv := (bnu b + bnx b)%nat.
Notation nc := (bnb b + bng b + bnh b)%nat.
(** value of constraint i at v *)
Definition val (i : nat) (v : vecR) : R :=
  if (i <? bnb b)%nat then v (b_idxb b i) else if (i <? bnb b + bng b)%nat then sum nv (fun k => C k (i - bnb b)%nat * v k) else h v (i - (bnb b + bng b))%nat.
(** slack that relaxes constraint i; o selects lower or upper slacks *)
Definition relax (o i : nat) (v : vecR) : R :=
  if b_use_rev b then (if (0 <=? b_idxs_rev b i)%Z then v (nv + o + Z.to_nat (b_idxs_rev b i))%nat else 0)
  else sum (bns b) (fun j => if (b_idxs b j =? i)%nat then v (nv + o + j)%nat else 0).
(** inequalities, feasible when at most 0: lower bounds, upper bounds, bounds on the slacks *)
Definition ineq (i : nat) (v : vecR) : R :=
  if (i <? nc)%nat then b_d b i - val i v - relax 0 i v
  else if (i <? 2 * nc)%nat then val (i - nc) v - b_d b i - relax (bns b) (i - nc) v
  else b_d b i - v (nv + (i - 2 * nc))%nat.
(** index data that stay inside the vectors *)
Definition in_range : Prop :=
  (forall j, (j < bnb b)%nat -> (b_idxb b j < nv)%nat) /\ (forall j, (j < bns b)%nat -> (b_idxs b j < nc)%nat) /\ (forall i, (i < nc)%nat -> (b_idxs_rev b i < Z.of_nat (bns b))%Z).
End S.

(** the two ways to declare slacks describe the same *)
Definition same_slacks (b : bgh_in real) : Prop :=
  forall i j, (i < bnb b + bng b + bnh b)%nat -> (j < bns b)%nat -> (b_idxs b j = i <-> b_idxs_rev b i = Z.of_nat j).
Definition with_rev (b : bgh_in real) (u : bool) : bgh_in real :=
  mkBI (bnu b) (bnx b) (bnz b) (bnb b) (bng b) (bnh b) (bns b) (b_idxb b) (b_idxs b) (b_idxs_rev b) u (b_d b) (b_mask b) (b_h b) (b_Jux b) (b_Jz b) (b_hess b) (b_hess_z b) (b_compute_hess b).

(** Jux and Jz are the derivatives of h at (ux, z): along every differentiable curve through that point *)
Definition is_jac (b : bgh_in real) (ux z : vecR) : Prop :=
  forall (p q : R -> vecR) (dp dq : vecR) j, (j < bnh b)%nat ->
    (forall k, p 0 k = ux k) -> (forall k, q 0 k = z k) ->
    (forall k, is_derive (fun t => p t k) 0 (dp k)) -> (forall k, (k < bnz b)%nat -> is_derive (fun t => q t k) 0 (dq k)) ->
    is_derive (fun t => b_h b (p t) (q t) j) 0 (sum (bnu b + bnx b) (fun r => b_Jux b ux z r j * dp r) + sum (bnz b) (fun k => b_Jz b ux z k j * dq k)).
(** dz is the derivative of the algebraic variables zf *)
Definition is_sens (b : bgh_in real) (zf : vecR -> vecR) (dz : matR) (ux : vecR) : Prop :=
  forall (d : vecR) k, (k < bnz b)%nat -> is_derive (fun t => zf (fun r => ux r + t * d r) k) 0 (sum (bnu b + bnx b) (fun r => dz r k * d r)).

(** a sequence of evaluations after initialisation *)
Record call := mkCall { c_ux : vecR; c_z : vecR; c_lam : vecR; c_dz : matR }.
Definition step (b : bgh_in real) (m : bgh_mem real) (c : call) : bgh_mem real :=
  update_qp_vectors b (c_ux c) (update_qp_matrices b (c_ux c) (c_z c) (c_lam c) (c_dz c) m).
Definition run (b : bgh_in real) (D0 : matR) (m : bgh_mem real) (cs : list call) : bgh_mem real := fold_left (step b) cs (init_DCt b D0 m).
