(** What it means to solve an OCP QP, over the reals: constraint rows, objective, KKT conditions; admissible slack maps. *)
From Coq Require Import ZArith Bool Reals.
From Verif Require Import Arith QpsModel RSum.
Open Scope R_scope.

Notation rqp := (qp real).
Notation rsol := (qsol real).

Section K.
Variable d : qdims.
Definition nv (i : nat) : nat := (qnu d i + qnx d i)%nat.
Definition nrow (i : nat) : nat := (qnb d i + qng d i)%nat.       (* softenable rows per side *)
Definition nall (i : nat) : nat := (2 * (qnb d i + qng d i + qns d i))%nat.

Section P.
Variable q : rqp.
(** the Hessian is stored in the lower triangle *)
Definition sym (i : nat) : matR := fun r c => if (c <=? r)%nat then q_H q i r c else q_H q i c r.
(** coefficient of variable [r] in row [k] *)
Definition coef (i k r : nat) : R :=
  if (k <? qnb d i)%nat then (if (q_idxb q i k =? r)%nat then 1 else 0) else q_DC q i r (k - qnb d i)%nat.
Definition lin (ux : nat -> vecR) (i k : nat) : R := sum (nv i) (fun r => coef i k r * ux i r).
(** the slack entering row [k]; side 0 lower, 1 upper *)
Definition slack (ux : nat -> vecR) (i k : nat) (up : bool) : R :=
  if (0 <=? q_rev q i k)%Z then ux i (nv i + (if up then qns d i else 0) + Z.to_nat (q_rev q i k))%nat else 0.
(** value of inequality number [m]: lower rows, upper rows, slack bounds; satisfied when nonnegative *)
Definition ineq (ux : nat -> vecR) (i m : nat) : R :=
  if (m <? nrow i)%nat then lin ux i m + slack ux i m false - q_d q i m
  else if (m <? 2 * nrow i)%nat then - lin ux i (m - nrow i) + slack ux i (m - nrow i) true - q_d q i m
  else ux i (nv i + (m - 2 * nrow i))%nat - q_d q i m.
Definition dyn (ux : nat -> vecR) (i c : nat) : R :=
  sum (nv i) (fun r => q_BA q i r c * ux i r) + q_b q i c - ux (S i) (qnu d (S i) + c)%nat.

(** gradient of the Lagrangian: states and controls, then slacks *)
Definition stat (s : rsol) (i r : nat) : R :=
  sum (nv i) (fun c => sym i r c * s_ux s i c) + q_rqz q i r
  + (if (i <? qN d)%nat then sum (qnx d (S i)) (fun c => q_BA q i r c * s_pi s i c) else 0)
  - (if (0 <? i)%nat && (qnu d i <=? r)%nat then s_pi s (i - 1)%nat (r - qnu d i)%nat else 0)
  - sum (nrow i) (fun k => coef i k r * (s_lam s i k - s_lam s i (nrow i + k)%nat)).
Definition stat_slack (s : rsol) (i k : nat) (up : bool) : R :=
  let e := ((if up then qns d i else 0) + k)%nat in
  q_Z q i e * s_ux s i (nv i + e)%nat + q_rqz q i (nv i + e)%nat
  - sum (nrow i) (fun l => if (q_rev q i l =? Z.of_nat k)%Z then s_lam s i ((if up then nrow i else 0) + l)%nat else 0)
  - s_lam s i (2 * nrow i + e)%nat.

(** masked inequalities are absent from the problem: no bound on the point, no multiplier *)
Definition kkt (s : rsol) : Prop :=
  (forall i r, (i <= qN d)%nat -> (r < nv i)%nat -> stat s i r = 0) /\
  (forall i k up, (i <= qN d)%nat -> (k < qns d i)%nat -> stat_slack s i k up = 0) /\
  (forall i c, (i < qN d)%nat -> (c < qnx d (S i))%nat -> dyn (s_ux s) i c = 0) /\
  (forall i m, (i <= qN d)%nat -> (m < nall i)%nat ->
     (q_mask q i m <> 0 -> 0 <= ineq (s_ux s) i m /\ 0 <= s_lam s i m /\ s_lam s i m * ineq (s_ux s) i m = 0) /\
     (q_mask q i m = 0 -> s_lam s i m = 0)).

Definition feasible (ux : nat -> vecR) : Prop :=
  (forall i c, (i < qN d)%nat -> (c < qnx d (S i))%nat -> dyn ux i c = 0) /\
  (forall i m, (i <= qN d)%nat -> (m < nall i)%nat -> q_mask q i m <> 0 -> 0 <= ineq ux i m).
Definition cost (ux : nat -> vecR) : R :=
  sum (S (qN d)) (fun i =>
    / 2 * sum (nv i) (fun r => sum (nv i) (fun c => ux i r * sym i r c * ux i c))
    + / 2 * sum (2 * qns d i) (fun e => q_Z q i e * (ux i (nv i + e)%nat * ux i (nv i + e)%nat))
    + sum (nv i + 2 * qns d i) (fun r => q_rqz q i r * ux i r)).
(** global minimiser *)
Definition minimiser (ux : nat -> vecR) : Prop := feasible ux /\ forall y, feasible y -> cost ux <= cost y.

(** residuals of the KKT conditions: stationarity, dynamics, violation in the first [n] stages, complementarity *)
Definition res_stat (s : rsol) (t : R) : Prop :=
  (forall i r, (i <= qN d)%nat -> (r < nv i)%nat -> Rabs (stat s i r) <= t) /\
  (forall i k up, (i <= qN d)%nat -> (k < qns d i)%nat -> Rabs (stat_slack s i k up) <= t).
Definition res_dyn (ux : nat -> vecR) (t : R) : Prop :=
  forall i c, (i < qN d)%nat -> (c < qnx d (S i))%nat -> Rabs (dyn ux i c) <= t.
Definition res_ineq (n : nat) (ux : nat -> vecR) (t : R) : Prop :=
  forall i m, (i < n)%nat -> (i <= qN d)%nat -> (m < nall i)%nat -> q_mask q i m <> 0 -> - t <= ineq ux i m.
Definition res_comp (s : rsol) (t : R) : Prop :=
  forall i m, (i <= qN d)%nat -> (m < nall i)%nat -> q_mask q i m <> 0 -> Rabs (s_lam s i m * ineq (s_ux s) i m) <= t.

(** every slack index is valid, and the slack of a general constraint softens no other row *)
Definition own_slacks : Prop := forall i k, (i <= qN d)%nat -> (k < nrow i)%nat ->
  (q_rev q i k = -1 \/ 0 <= q_rev q i k < Z.of_nat (qns d i))%Z /\
  ((0 <= q_rev q i k)%Z -> (qnb d i <= k)%nat -> forall l, (l < nrow i)%nat -> l <> k -> q_rev q i l <> q_rev q i k).
Definition masks01 : Prop := forall i m, (i <= qN d)%nat -> (m < nall i)%nat -> q_mask q i m = 0 \/ q_mask q i m = 1.
End P.
End K.

(** what is used of blasfeo_dvecnrm_inf *)
Definition nrm_ok (nrm : nat -> vecR -> R) : Prop := forall n x, 0 <= nrm n x /\ forall k, (k < n)%nat -> Rabs (x k) <= nrm n x.
(** all residuals within the tolerances of the QP solver *)
Definition within (d : qdims) (q : rqp) (s : rsol) (t : tols real) : Prop :=
  res_stat d q s (t_stat t) /\ res_dyn d q (s_ux s) (t_eq t) /\ res_ineq d q (S (qN d)) (s_ux s) (t_ineq t) /\ res_comp d q s (t_comp t).
