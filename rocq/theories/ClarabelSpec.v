(** Conic quadratic programs in the form of Clarabel with compressed-column matrices, over the reals; histories of calls. *)
From Coq Require Import ZArith List Bool Reals.
From Verif Require Import Arr Arith QpsModel CscModel RSum QpsSpec OsqpModel OsqpSpec ClarabelModel.
Import ListNotations.
Open Scope R_scope.

(** optimality conditions of: minimise 1/2 x'Px + q'x subject to Ax + s = b, the first e entries of s zero, the others
    nonnegative; P is given by its upper triangle, y are the multipliers *)
Record conic_kkt (n e m : nat) (P A : nat -> nat -> R) (g b x y : nat -> R) : Prop := mkCk {
  ck_stat : forall c, (c < n)%nat -> sum n (fun j => (if (c <=? j)%nat then P c j else P j c) * x j) + g c + sum m (fun r => A r c * y r) = 0;
  ck_eq : forall r, (r < e)%nat -> sum n (fun c => A r c * x c) = b r;
  ck_ineq : forall r, (e <= r < m)%nat -> let s := b r - sum n (fun c => A r c * x c) in 0 <= s /\ 0 <= y r /\ y r * s = 0 }.

(** entry (r, c) of a compressed-column matrix whose values start at x *)
Definition entry (p i : list nat) (x : nat -> R) (r c : nat) : R :=
  let a := nth c p 0%nat in sum (nth (S c) p 0 - a)%nat (fun e => if (nth (a + e) i 0 =? r)%nat then x (a + e)%nat else 0).

Definition P_nzval (d : qdims) (m : cmem real) (i : nat) : R := arena m (c_constr d + i)%nat.
Definition A_nzval (d : qdims) (m : cmem real) (i : nat) : R := arena m (c_constr d + c_nnzmax_P d + i)%nat.
Definition c_mem_kkt (d : qdims) (m : cmem real) (x y : nat -> R) : Prop :=
  conic_kkt (num_vars d) (con_start d) (c_constr d) (entry (c_Pp m) (c_Pi m) (P_nzval d m)) (entry (c_Ap m) (c_Ai m) (A_nzval d m))
    (fun c => nth c (c_q m) 0) (arena m) x y.

(** slack indices are -1 or valid; several constraints may share one *)
Definition wf_rev (d : qdims) (q : rqp) : Prop := forall k i, (k <= qN d)%nat -> (i < nrow d k)%nat ->
  q_rev q k i = (-1)%Z \/ (0 <= q_rev q k i < Z.of_nat (qns d k))%Z.
(** the sign loop of update_bounds stays inside b *)
Definition roomy (d : qdims) : Prop := forall k, (k < qN d)%nat -> (off_dyn d k + 2 * qnx d (S k) <= c_constr d)%nat.
(** how often it flips the sign of entry i of P_nzval *)
Definition flips (d : qdims) (i : nat) : nat :=
  nsum (qN d) (fun k => if (c_constr d + i <? off_dyn d k + 2 * qnx d (S k))%nat then 1%nat else 0%nat).

(** a row of calls on one memory, with the option first_run passed along *)
Fixpoint c_calls (d : qdims) (qs : list rqp) (st : bool * cmem real) : outcome (bool * cmem real) :=
  match qs with
  | [] => Done st
  | q :: r => match clarabel d q (fst st) (snd st) with Done st' => c_calls d r st' | Exit => Exit | UB => UB end
  end.

(** a compressed-column matrix as in CscSpec, except that the row numbers of a column need only be distinct *)
Record csc_set (m n nzmax : nat) (p i : list nat) (written : nat) : Prop := mkCset {
  s_len : (n < length p)%nat;
  s_zero : nth 0 p 0%nat = 0%nat;
  s_mono : forall c, (c < n)%nat -> (nth c p 0 <= nth (S c) p 0)%nat;
  s_max : (nth n p 0 <= nzmax)%nat;
  s_written : (nth n p 0 <= length i)%nat /\ nth n p 0%nat = written;
  s_row : forall c e, (c < n)%nat -> (nth c p 0 <= e < nth (S c) p 0)%nat -> (nth e i 0 < m)%nat;
  s_distinct : forall c e e', (c < n)%nat -> (nth c p 0 <= e)%nat -> (e < e' < nth (S c) p 0)%nat -> nth e i 0%nat <> nth e' i 0%nat }.
