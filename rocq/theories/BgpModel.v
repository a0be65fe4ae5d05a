(** Evaluation of convex-over-nonlinear constraints: acados/ocp_nlp/ocp_nlp_constraints_bgp.c:1177-1180 initialize (linear rows), :1186-1356
    update_qp_matrices, :1360-1470 compute_fun, :1474-1530 update_qp_vectors.
    The record of the module bgh is used for the dimensions, the index data, the bounds and the function: [bnh] is nphi, [b_h] is phi(r(.)).
    compute_hess = 0 (otherwise the function exits, :1349-1353), compute_adj = 1. *)
From Coq Require Import ZArith List Bool.
From Verif Require Import Arith Vec LinModel BghEvalModel.

Section S.
Variable A : arith.
Notation T := (num A).
Notation vec := (nat -> T).
Notation mat := (nat -> nat -> T).
Local Open Scope num_scope.
(** nr, and the outputs tmp_nr_nphi_nr (Hessians of the phi_i with respect to r, stacked) and jac_r_ux_tran at (ux, z) *)
Record bgp_in := mkGI { g_b : bgh_in A; g_nr : nat; g_Hr : vec -> vec -> mat; g_Jr : vec -> vec -> mat }.
Variable g : bgp_in.
Notation b := (g_b g).
Notation nv := (bnu b + bnx b)%nat.
Notation nc := (bnb b + bng b + bnh b)%nat.

(** :1214-1299 *)
Definition p_nonlinear (ux z : vec) (dz : mat) (m : bgh_mem A) : bgh_mem A :=
  if (0 <? bnh b)%nat then
    let ev := h_eval b (b_h b ux z) (m_eval m) in
    let D := h_jac b (b_Jux b ux z) (m_DCt m) in
    let t := z_jac b dz (b_Jz b ux z) in
    let '(D, o) := dgead nv (bng b + bnh b) nv (bnh b) 1 t D (bng b) 0 in
    let f : vec := fun k => if (k <? bnh b)%nat then 1 * m_fun m k + - (1) * mvt nv t ux k else m_fun m k in
    mkBM D (m_RSQ m) ev f (m_adj m) (m_oob m || o)
  else m.
(** :1301-1313, constraint i: tmp_nv_nr = lam_i J H_i^T, lower triangle of RSQrq += tmp_nv_nr J^T *)
Definition scqp (ux z lam : vec) (i : nat) (Q : mat) : mat :=
  let lam_i := lam (2 * (bnb b + bng b) + bnh b + i)%nat in
  let t : mat := fun r q => lam_i * vsum (g_nr g) (fun p => g_Jr g ux z r p * g_Hr g ux z (g_nr g * i + q)%nat p) in
  fun r c => if (r <? nv)%nat && (c <=? r)%nat then 1 * Q r c + 1 * vsum (g_nr g) (fun q => t r q * g_Jr g ux z c q) else Q r c.
(** :1316-1347 *)
Definition p_adjoint (D : mat) (lam adj : vec) : vec :=
  let adj := dvecse (nv + 2 * bns b) 0 adj 0 in
  let t := tmp_ni b lam in
  let adj := dvecad_sp (bnb b) 1 t 0 (b_idxb b) adj 0 in
  let adj : vec := let a := adj in fun k => if (k <? nv)%nat then 1 * a k + 1 * mvn (bng b + bnh b) D (fun j => t (bnb b + j)%nat) k else a k in
  if b_use_rev b then slack_rev b lam adj
  else
    let adj := slack_idx b lam adj in
    daxpyv (2 * bns b) 1 lam (2 * bnb b + 2 * bng b + 2 * bnh b) adj nv adj nv.
Definition p_update_qp_matrices (ux z lam : vec) (dz : mat) (m : bgh_mem A) : bgh_mem A :=
  let m := mkBM (m_DCt m) (m_RSQ m) (lin_eval b (m_DCt m) ux (box_eval b ux (m_eval m))) (m_fun m) (m_adj m) (m_oob m) in
  let m := p_nonlinear ux z dz m in
  mkBM (m_DCt m) (loop (bnh b) (scqp ux z lam) (m_RSQ m)) (m_eval m) (m_fun m) (p_adjoint (m_DCt m) lam (m_adj m)) (m_oob m).

(** :1474-1530 and :1435-1466; [n] the number of masked entries *)
Definition p_values (n : nat) (ux ev f : vec) : vec :=
  let f := daxpyv nc (- (1)) ev 0 (b_d b) 0 f 0 in
  let f := daxpyv nc (- (1)) (b_d b) nc ev 0 f nc in
  let f := if b_use_rev b then soft_rev b ux f else soft_idx b ux f in
  let f := daxpyv (2 * bns b) (- (1)) ux nv (b_d b) (2 * bnb b + 2 * bng b + 2 * bnh b) f (2 * bnb b + 2 * bng b + 2 * bnh b) in
  fun k => if (k <? n)%nat then b_mask b k * f k else f k.
Definition p_update_qp_vectors (ux : vec) (m : bgh_mem A) : bgh_mem A :=
  mkBM (m_DCt m) (m_RSQ m) (m_eval m) (p_values (2 * (nc + bns b)) ux (m_eval m) (m_fun m)) (m_adj m) (m_oob m).
Definition p_compute_fun (ux z t : vec) (m : bgh_mem A) : option (bgh_mem A) :=
  if (0 <? bnh b)%nat && (0 <? bnz b)%nat then None else
    let ev := lin_eval b (m_DCt m) ux (box_eval b ux t) in
    let ev := if (0 <? bnh b)%nat then h_eval b (b_h b ux z) ev else ev in
    Some (mkBM (m_DCt m) (m_RSQ m) (m_eval m) (p_values (2 * nc) ux ev (m_fun m)) (m_adj m) (m_oob m)).
End S.
Arguments mkGI {A}. Arguments g_b {A}. Arguments g_nr {A}. Arguments g_Hr {A}. Arguments g_Jr {A}. Arguments p_nonlinear {A}. Arguments scqp {A}.
Arguments p_adjoint {A}. Arguments p_update_qp_matrices {A}. Arguments p_values {A}. Arguments p_update_qp_vectors {A}. Arguments p_compute_fun {A}.
