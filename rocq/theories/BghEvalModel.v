(** Constraint evaluation: acados/ocp_nlp/ocp_nlp_constraints_bgh.c:1274-1497 update_qp_matrices, :1500-1610 compute_fun, :1618-1673 update_qp_vectors.
    The nonlinear function is a parameter [h] with Jacobians [Jux], [Jz] (transposed, as the code stores them) and contracted Hessians; its point of
    evaluation is (ux, z).  BLASFEO matrices are functions of their indices; [dgead] reports when it leaves the matrix it updates. *)
From Coq Require Import ZArith List Bool.
From Verif Require Import Arith Vec LinModel.

Section S.
Variable A : arith.
Notation T := (num A).
Notation vec := (nat -> T).
Notation mat := (nat -> nat -> T).
Local Open Scope num_scope.

Record bgh_in := mkBI {
  bnu : nat; bnx : nat; bnz : nat; bnb : nat; bng : nat; bnh : nat; bns : nat;
  b_idxb : nat -> nat; b_idxs : nat -> nat; b_idxs_rev : nat -> Z; b_use_rev : bool;      (* model->idxb, model->idxs, memory->idxs_rev, model->use_idxs_rev *)
  b_d : vec; b_mask : vec;                                                                (* model->d, model->dmask *)
  b_h : vec -> vec -> vec; b_Jux : vec -> vec -> mat; b_Jz : vec -> vec -> mat;           (* nl_constr_h_fun_jac at (ux, z): h, dh/d(u,x)^T, dh/dz^T *)
  b_hess : vec -> vec -> vec -> mat; b_hess_z : vec -> vec -> vec -> mat;                 (* nl_constr_h_fun_jac_hess at (ux, z, multipliers) *)
  b_compute_hess : bool }.
Variable b : bgh_in.
Notation nv := (bnu b + bnx b)%nat.
Notation nc := (bnb b + bng b + bnh b)%nat.

(** blasfeo_dgead(m, n, alpha, X, 0, 0, Y, bi, bj) for Y with rows x cols entries; the flag tells that an entry outside Y is accessed *)
Definition dgead (rows cols m n : nat) (al : T) (X Y : mat) (bi bj : nat) : mat * bool :=
  (fun r c => if (bi <=? r)%nat && (r <? bi + m)%nat && (bj <=? c)%nat && (c <? bj + n)%nat then Y r c + al * X (r - bi)%nat (c - bj)%nat else Y r c,
   (0 <? m)%nat && (0 <? n)%nat && ((rows <? bi + m)%nat || (cols <? bj + n)%nat)).
(** blasfeo_dvecex_sp(m, alpha, idx, x, xi, z, zi): z[zi+j] = alpha * x[xi + idx[j]] *)
Definition dvecex_sp (m : nat) (al : T) (idx : nat -> nat) (x : vec) (xi : nat) (z : vec) (zi : nat) : vec :=
  loop m (fun j z => vset z (zi + j)%nat (al * x (xi + idx j)%nat)) z.
(** blasfeo_dvecad_sp(m, alpha, x, xi, idx, z, zi): z[zi + idx[j]] += alpha * x[xi+j] *)
Definition dvecad_sp (m : nat) (al : T) (x : vec) (xi : nat) (idx : nat -> nat) (z : vec) (zi : nat) : vec :=
  loop m (fun j z => vset z (zi + idx j)%nat (z (zi + idx j)%nat + al * x (xi + j)%nat)) z.
(** blasfeo_daxpy(m, alpha, x, xi, y, yi, z, zi): z[zi+j] = y[yi+j] + alpha * x[xi+j] *)
Definition daxpyv (m : nat) (al : T) (x : vec) (xi : nat) (y : vec) (yi : nat) (z : vec) (zi : nat) : vec :=
  fun k => if (zi <=? k)%nat && (k <? zi + m)%nat then y (yi + (k - zi))%nat + al * x (xi + (k - zi))%nat else z k.
(** blasfeo_dvecse(m, alpha, x, xi) *)
Definition dvecse (m : nat) (al : T) (x : vec) (xi : nat) : vec := fun k => if (xi <=? k)%nat && (k <? xi + m)%nat then al else x k.

(** memory of the module, of the QP and the workspace, as far as the functions use it *)
Record bgh_mem := mkBM { m_DCt : mat; m_RSQ : mat; m_eval : vec; m_fun : vec; m_adj : vec; m_oob : bool }.

(** ** update_qp_matrices, :1298-1452 *)
Definition box_eval (ux ev : vec) : vec := dvecex_sp (bnb b) 1 (b_idxb b) ux 0 ev 0.
(** blasfeo_dgemv_t with beta = 0 *)
Definition lin_eval (D : mat) (ux ev : vec) : vec := fun k =>
  if (bnb b <=? k)%nat && (k <? bnb b + bng b)%nat then 1 * mvt nv D ux (k - bnb b)%nat else ev k.
Definition h_eval (hv ev : vec) : vec := fun k => if (bnb b + bng b <=? k)%nat && (k <? nc)%nat then hv (k - (bnb b + bng b))%nat else ev k.
(** the function writes its Jacobian at column ng of DCt *)
Definition h_jac (J D : mat) : mat := fun r c => if (r <? nv)%nat && (bng b <=? c)%nat && (c <? bng b + bnh b)%nat then J r (c - bng b)%nat else D r c.
(** tmp_nv_nh = dzduxt * jac_z_tran *)
Definition z_jac (dz Jz : mat) : mat := fun r c => 1 * vsum (bnz b) (fun k => dz r k * Jz k c).
(** tmp_nv_nv = hess + dzduxt * (hess_z * dzduxt^T) *)
Definition z_hess (dz H Hz : mat) : mat := fun r c =>
  H r c + 1 * vsum (bnz b) (fun k => dz r k * (1 * vsum (bnz b) (fun l => Hz k l * dz c l))).
Definition nonlinear (ux z lam : vec) (dz : mat) (m : bgh_mem) : bgh_mem :=
  if (0 <? bnh b)%nat then
    let ev := h_eval (b_h b ux z) (m_eval m) in
    let D := h_jac (b_Jux b ux z) (m_DCt m) in
    let mult := daxpyv (bnh b) (- (1)) lam (bnb b + bng b) lam (2 * bnb b + 2 * bng b + bnh b) (fun _ => 0) 0 in
    let '(Q, o1) := if b_compute_hess b then dgead (nv + 1) nv nv nv 1 (z_hess dz (b_hess b ux z mult) (b_hess_z b ux z mult)) (m_RSQ m) 0 0 else (m_RSQ m, false) in
    let '(D, o2) := dgead nv (bng b + bnh b) nv (bnh b) 1 (z_jac dz (b_Jz b ux z)) D (bng b) 0 in
    mkBM D Q ev (m_fun m) (m_adj m) (m_oob m || o1 || o2)
  else m.
(** :1436-1443; tmp_nv_nh is the matrix computed before *)
Definition z_fun (ux z : vec) (dz : mat) (m : bgh_mem) : bgh_mem :=
  if (0 <? bnz b)%nat then
    mkBM (m_DCt m) (m_RSQ m) (m_eval m) (fun k => if (k <? bnh b)%nat then m_fun m k + - (1) * mvt nv (z_jac dz (b_Jz b ux z)) ux k else m_fun m k) (m_adj m) (m_oob m)
  else m.

(** ** adjoint, :1446-1485 *)
Definition tmp_ni (lam : vec) : vec := daxpyv nc (- (1)) lam nc lam 0 (fun _ => 0) 0.
Definition slack_rev (lam adj : vec) : vec :=
  loop nc (fun ii adj =>
    let is := b_idxs_rev b ii in
    if (0 <=? is)%Z then
      let adj := vset adj (nv + Z.to_nat is)%nat (adj (nv + Z.to_nat is)%nat + lam ii) in
      vset adj (nv + bns b + Z.to_nat is)%nat (adj (nv + bns b + Z.to_nat is)%nat + lam (nc + ii)%nat)
    else adj) (dvecse (2 * bns b) 0 adj nv).
Definition slack_idx (lam adj : vec) : vec :=
  let adj := dvecex_sp (bns b) 1 (b_idxs b) lam 0 adj nv in
  dvecex_sp (bns b) 1 (b_idxs b) lam nc adj (nv + bns b).
Definition adjoint (D : mat) (lam adj : vec) : vec :=
  let adj := dvecse (nv + 2 * bns b) 0 adj 0 in
  let t := tmp_ni lam in
  let adj := dvecad_sp (bnb b) 1 t 0 (b_idxb b) adj 0 in
  let adj : vec := let a := adj in fun k => if (k <? nv)%nat then 1 * a k + 1 * mvn (bng b + bnh b) D (fun j => t (bnb b + j)%nat) k else a k in
  let adj := if b_use_rev b then slack_rev lam adj else slack_idx lam adj in
  daxpyv (2 * bns b) 1 lam (2 * bnb b + 2 * bng b + 2 * bnh b) adj nv adj nv.

Definition update_qp_matrices (ux z lam : vec) (dz : mat) (m : bgh_mem) : bgh_mem :=
  let m := mkBM (m_DCt m) (m_RSQ m) (lin_eval (m_DCt m) ux (box_eval ux (m_eval m))) (m_fun m) (m_adj m) (m_oob m) in
  let m := nonlinear ux z lam dz m in
  let m := z_fun ux z dz m in
  mkBM (m_DCt m) (m_RSQ m) (m_eval m) (m_fun m) (adjoint (m_DCt m) lam (m_adj m)) (m_oob m).

(** ** update_qp_vectors, :1637-1670; the same text in compute_fun, :1570-1606, with work->tmp_ni instead of constr_eval_no_bounds *)
Definition soft_rev (ux f : vec) : vec :=
  loop nc (fun ii f =>
    let is := b_idxs_rev b ii in
    if (0 <=? is)%Z then
      let f := vset f ii (f ii - ux (nv + Z.to_nat is)%nat) in
      vset f (nc + ii)%nat (f (nc + ii)%nat - ux (nv + bns b + Z.to_nat is)%nat)
    else f) f.
Definition soft_idx (ux f : vec) : vec :=
  let f := dvecad_sp (bns b) (- (1)) ux nv (b_idxs b) f 0 in
  dvecad_sp (bns b) (- (1)) ux (nv + bns b) (b_idxs b) f nc.
Definition values (ux ev f : vec) : vec :=
  let f := daxpyv nc (- (1)) ev 0 (b_d b) 0 f 0 in
  let f := daxpyv nc (- (1)) (b_d b) nc ev 0 f nc in
  let f := if b_use_rev b then soft_rev ux f else soft_idx ux f in
  let f := daxpyv (2 * bns b) (- (1)) ux nv (b_d b) (2 * bnb b + 2 * bng b + 2 * bnh b) f (2 * bnb b + 2 * bng b + 2 * bnh b) in
  fun k => if (k <? 2 * (nc + bns b))%nat then b_mask b k * f k else f k.
Definition update_qp_vectors (ux : vec) (m : bgh_mem) : bgh_mem :=
  mkBM (m_DCt m) (m_RSQ m) (m_eval m) (values ux (m_eval m) (m_fun m)) (m_adj m) (m_oob m).
(** compute_fun; [None]: it exits when there are algebraic variables.  [t] is the old content of work->tmp_ni *)
Definition compute_fun (ux z t : vec) (m : bgh_mem) : option bgh_mem :=
  if (0 <? bnh b)%nat && (0 <? bnz b)%nat then None else
    let ev := lin_eval (m_DCt m) ux (box_eval ux t) in
    let ev := if (0 <? bnh b)%nat then h_eval (b_h b ux z) ev else ev in
    Some (mkBM (m_DCt m) (m_RSQ m) (m_eval m) (values ux ev (m_fun m)) (m_adj m) (m_oob m)).
(** initialize, :1266: the linear rows *)
Definition init_DCt (D0 : mat) (m : bgh_mem) : bgh_mem :=
  mkBM (fun r c => if (r <? nv)%nat && (c <? bng b)%nat then D0 r c else m_DCt m r c) (m_RSQ m) (m_eval m) (m_fun m) (m_adj m) (m_oob m).
End S.
Arguments mkBI {A}. Arguments mkBM {A}. Arguments bnu {A}. Arguments bnx {A}. Arguments bnz {A}. Arguments bnb {A}. Arguments bng {A}. Arguments bnh {A}. Arguments bns {A}.
Arguments b_idxb {A}. Arguments b_idxs {A}. Arguments b_idxs_rev {A}. Arguments b_use_rev {A}. Arguments b_d {A}. Arguments b_mask {A}. Arguments b_h {A}. Arguments b_Jux {A}. Arguments b_Jz {A}.
Arguments b_hess {A}. Arguments b_hess_z {A}. Arguments b_compute_hess {A}. Arguments m_DCt {A}. Arguments m_RSQ {A}. Arguments m_eval {A}. Arguments m_fun {A}. Arguments m_adj {A}. Arguments m_oob {A}.
Arguments dgead {A}. Arguments dvecex_sp {A}. Arguments dvecad_sp {A}. Arguments daxpyv {A}. Arguments dvecse {A}. Arguments box_eval {A}. Arguments lin_eval {A}. Arguments h_eval {A}. Arguments h_jac {A}.
Arguments z_jac {A}. Arguments z_hess {A}. Arguments nonlinear {A}. Arguments z_fun {A}. Arguments tmp_ni {A}. Arguments slack_rev {A}. Arguments slack_idx {A}. Arguments adjoint {A}. Arguments update_qp_matrices {A}.
Arguments soft_rev {A}. Arguments soft_idx {A}. Arguments values {A}. Arguments update_qp_vectors {A}. Arguments compute_fun {A}. Arguments init_DCt {A}.
