(** Quadratic programs in the form of OSQP with compressed-column matrices, over the reals; well-formed index maps of an OCP QP. *)
From Coq Require Import ZArith List Bool Reals.
From Verif Require Import Arith QpsModel RSum QpsSpec OsqpModel.
Import ListNotations.
Open Scope R_scope.

(** entry (r, c) of a matrix in compressed-column form *)
Definition cent (p i : list nat) (x : list R) (r c : nat) : R :=
  let a := nth c p 0%nat in
  sum (nth (S c) p 0 - a)%nat (fun e => if (nth (a + e) i 0 =? r)%nat then nth (a + e) x 0 else 0).

(** optimality conditions of: minimise 1/2 z'Pz + q'z subject to l <= Az <= u, with P given by its upper triangle *)
Definition above (l : ebound real) (v : R) : Prop := match l with MInf => True | Fin b => b <= v | PInf => False end.
Definition below (v : R) (u : ebound real) : Prop := match u with PInf => True | Fin b => v <= b | MInf => False end.
Record osqp_kkt (n m : nat) (P A : nat -> nat -> R) (g : nat -> R) (l u : nat -> ebound real) (z y : nat -> R) : Prop := mkOk {
  k_stat : forall c, (c < n)%nat ->
    sum n (fun e => (if (c <=? e)%nat then P c e else P e c) * z e) + g c + sum m (fun r => A r c * y r) = 0;
  k_low : forall r, (r < m)%nat -> above (l r) (sum n (fun c => A r c * z c));
  k_up : forall r, (r < m)%nat -> below (sum n (fun c => A r c * z c)) (u r);
  k_neg : forall r, (r < m)%nat -> y r < 0 -> l r = Fin (A := real) (sum n (fun c => A r c * z c));
  k_pos : forall r, (r < m)%nat -> 0 < y r -> u r = Fin (A := real) (sum n (fun c => A r c * z c)) }.

Section W.
Variable d : qdims.
Variable q : rqp.
(** every bounded variable exists and has one bound *)
Definition wf_bounds : Prop := forall k i, (k <= qN d)%nat -> (i < qnb d k)%nat ->
  (q_idxb q k i < nv d k)%nat /\ forall j, (j < qnb d k)%nat -> q_idxb q k j = q_idxb q k i -> j = i.
(** slack indices are -1 or valid, and there are as many softened constraints as slacks *)
Definition wf_soft : Prop := forall k, (k <= qN d)%nat ->
  (forall i, (i < nrow d k)%nat -> q_rev q k i = (-1)%Z \/ (0 <= q_rev q k i < Z.of_nat (qns d k))%Z) /\
  length (filter (fun i => 0 <=? q_rev q k i)%Z (seq 0 (nrow d k))) = qns d k.
Definition unmasked : Prop := forall k m, (k <= qN d)%nat -> (m < nall d k)%nat -> q_mask q k m <> 0.
End W.

(** the QP held in the memory of the interface *)
Definition mem_kkt (d : qdims) (m : omem real) (z y : nat -> R) : Prop :=
  osqp_kkt (CscModel.num_vars d) (num_constr d) (cent (P_p m) (P_i m) (P_x m)) (cent (A_p m) (A_i m) (A_x m))
    (fun c => nth c (lin_q m) 0) (lb m) (ub m) z y.
(** two QPs of one problem: the same index maps *)
Definition same_maps (d : qdims) (q q' : rqp) : Prop := forall k, (k <= qN d)%nat ->
  (forall i, (i < qnb d k)%nat -> q_idxb q' k i = q_idxb q k i) /\ (forall i, (i < nrow d k)%nat -> q_rev q' k i = q_rev q k i).
(** the memory after a number of calls *)
Definition calls (d : qdims) (qs : list rqp) (m : omem real) : omem real := fold_left (fun m q => update_memory d q m) qs m.
(** the same QP with every inequality present *)
Definition all_rows (q : rqp) : rqp := mkQp (A := real) (q_rqz q) (q_Z q) (q_H q) (q_BA q) (q_b q) (q_d q) (fun _ _ => 1) (q_DC q) (q_idxb q) (q_rev q).
