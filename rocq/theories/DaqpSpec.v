(** What the linear algebra routines and DAQP are trusted to return to the interface, over the reals. *)
From Coq Require Import ZArith List Bool Reals.
From Verif Require Import Arith DenseModel QpoModel DaqpModel RSum DenseSpec.
Import ListNotations.
Open Scope R_scope.

Notation rdmem := (dmem real).

(** BLASFEO on the data of one call: H = L L' for the symmetric matrix stored in the lower triangle, and solutions with L and L' *)
Record tri_ok (n m : nat) (Hs : matR) (L : matR) (trsm : matR -> matR -> matR) (trsv_n trsv_t : matR -> vecR -> vecR) : Prop := mkTri {
  tr_chol : forall r c, (r < n)%nat -> (c < n)%nat -> sum n (fun k => L r k * L c k) = Hs r c;
  tr_m : forall B r c, (r < n)%nat -> (c < m)%nat -> sum n (fun k => L r k * trsm L B k c) = B r c;
  tr_n : forall b r, (r < n)%nat -> sum n (fun k => L r k * trsv_n L b k) = b r;
  tr_t : forall b r, (r < n)%nat -> sum n (fun k => L k r * trsv_t L b k) = b r }.

(** A KKT point of the LDP  min |u|^2/2, dlower <= M u <= dupper  with multipliers positive at upper bounds.  A soft row may exceed its
    bound by rho * max(0, lambda - d): its own slack is at the bound d until the multiplier reaches d.  Rows that are
    IMMUTABLE and not ACTIVE take no part, those that are both are equalities. *)
Record ldp_kkt (n mm : nat) (m : rdmem) (u lam : vecR) : Prop := mkLk {
  lk_u : forall r, (r < n)%nat -> u r = - sum mm (fun j => w_M m r j * lam j);
  lk_drop : forall j, (j < mm)%nat -> sn_imm (w_sense m j) = true -> sn_act (w_sense m j) = false -> lam j = 0;
  lk_eq : forall j, (j < mm)%nat -> sn_imm (w_sense m j) = true -> sn_act (w_sense m j) = true -> sum n (fun r => w_M m r j * u r) = w_dup m j;
  lk_hard : forall j, (j < mm)%nat -> sn_imm (w_sense m j) = false -> sn_soft (w_sense m j) = false -> let a := sum n (fun r => w_M m r j * u r) in
    w_dlo m j <= a <= w_dup m j /\ (0 < lam j -> a = w_dup m j) /\ (lam j < 0 -> a = w_dlo m j);
  lk_soft : forall j, (j < mm)%nat -> sn_imm (w_sense m j) = false -> sn_soft (w_sense m j) = true -> let a := sum n (fun r => w_M m r j * u r) in
    let hi := w_dup m j + w_rus m j * Rmax 0 (lam j - w_dus m j) in let lw := w_dlo m j - w_rls m j * Rmax 0 (- lam j - w_dls m j) in
    lw <= a <= hi /\ (0 < lam j -> a = hi) /\ (lam j < 0 -> a = lw) }.

(** the working set with its multipliers, and the multiplier of a row *)
Definition ws_lam (ws : list (nat * R)) (j : nat) : R := fold_right (fun e a => if (fst e =? j)%nat then snd e else a) 0 ws.
Definition ws_ok (mm : nat) (ws : list (nat * R)) : Prop := NoDup (map fst ws) /\ forall e, In e ws -> (fst e < mm)%nat.

(** coefficients of the rows: bounds, general constraints, equalities *)
Definition acoef (d : ddims) (q : rdqp) (j r : nat) : R := if (j <? drows d)%nat then dcoef d q j r else dq_A q (j - drows d)%nat r.

(** the conditions on the soft constraints: penalties not below the clipping value 1e-8, nonnegative marginal penalty at the bound of the
    slack, no masked slack bounds *)
Record soft_able (d : ddims) (q : rdqp) : Prop := mkSa {
  sa_Z : forall e, (e < 2 * dns d)%nat -> / 100000000 <= dq_Z q e;
  sa_z : forall e, (e < 2 * dns d)%nat -> 0 <= dq_g q (dnv d + e)%nat + dq_Z q e * dq_d q (2 * drows d + e)%nat;
  sa_mask : forall e, (e < 2 * dns d)%nat -> dq_mask q (2 * drows d + e)%nat <> 0 }.
(** the value that stands for infinity is not reached by masked constraints *)
Definition inf_free (inf : R) (d : ddims) (q : rdqp) (x : vecR) : Prop := forall k, (k < drows d)%nat ->
  let dl := if (0 <=? dq_rev q k)%Z then dq_d q (2 * drows d + Z.to_nat (dq_rev q k))%nat else 0 in
  let du := if (0 <=? dq_rev q k)%Z then dq_d q (2 * drows d + (dns d + Z.to_nat (dq_rev q k)))%nat else 0 in
  (dq_mask q k = 0 -> - inf < dlin d q x k + dl) /\ (dq_mask q (drows d + k)%nat = 0 -> dlin d q x k - du < inf).

(** no row of the LDP is dropped: the norm of L^-1 a_j is at least the tolerance *)
Definition big_rows (tol : R) (d : ddims) (q : rdqp) (L : matR) : Prop := forall j y, (j < mrows d)%nat ->
  (forall r, (r < dnv d)%nat -> sum (dnv d) (fun k => L r k * y k) = acoef d q j r) -> tol <= sum (dnv d) (fun r => y r * y r).
(** a QP the interface handles *)
Record daqp_able (tol : R) (potrf : matR -> matR) (trsm : matR -> matR -> matR) (trsv_n trsv_t : matR -> vecR -> vecR) (d : ddims) (q : rdqp) : Prop := mkAble {
  ab_idx : forall i, (i < dnb d)%nat -> (dq_idxb q i < dnv d)%nat;
  ab_rows : one_row_each d q;
  ab_soft : soft_able d q;
  ab_tri : tri_ok (dnv d) (mrows d) (dsym q) (potrf (dq_H q)) trsm trsv_n trsv_t;
  ab_big : big_rows tol d q (potrf (dq_H q)) }.
(** two QPs that differ in vectors only *)
Definition same_mats (d : ddims) (q p : rdqp) : Prop := dq_H q = dq_H p /\ dq_A q = dq_A p /\ dq_C q = dq_C p /\ dq_idxb q = dq_idxb p /\
  forall k, (k < drows d)%nat -> (dq_rev q k =? -1)%Z = (dq_rev p k =? -1)%Z.
(** a sequence of calls: (return codes of DAQP's check and activate, warm_start, QP); every hot start (2) finds the matrices of the call before *)
Definition call := (Z * Z * Z * rdqp)%type.
Fixpoint hot_ok (d : ddims) (prev : option rdqp) (l : list call) : Prop :=
  match l with
  | [] => True
  | (c, a, w, q) :: r => (0 <= c)%Z /\ (0 <= a)%Z /\ (w = 2%Z -> match prev with Some p => same_mats d q p | None => True end) /\ hot_ok d (Some q) r
  end.
