(** Evaluation of convex-over-nonlinear constraints, over the reals. *)
From Coq Require Import ZArith List Bool Reals.
From Coquelicot Require Import Coquelicot.
From Verif Require Import Arith Vec LinModel BghEvalModel RSum BghEvalSpec BghEvalProofs BghEvalTop BghEvalCases BgpModel BgpProofs BgpFun BgpCases.
Import ListNotations.
Open Scope R_scope.

(** The values handed to the QP are the masked inequalities, after any history of evaluations. *)
Theorem C83_values : forall g D0 m cs c i, let b := g_b g in
  b_compute_hess b = false -> in_range b -> bnz b = 0%nat \/ bng b = 0%nat \/ bnh b = 0%nat ->
  (i < 2 * (bnb b + bng b + bnh b + bns b))%nat ->
  m_fun (prun g D0 m (cs ++ [c])) i = b_mask b i * ineq b D0 (fun v => b_h b v (c_z c)) i (c_ux c).
Proof. intros g D0 m cs c i b NH R. exact (prun_fun g NH R D0 m cs c i). Qed.
Print Assumptions C83_values.
(** The matrix update subtracts dphi/dz dz/d(u,x) (u,x) from the first nphi values. *)
Theorem C83_fun_correction : forall (g : bgp_in real) ux z lam dz m k, let b := g_b g in
  m_fun (p_update_qp_matrices g ux z lam dz m) k =
  if (k <? bnh b)%nat then m_fun m k - sum (bnu b + bnx b) (fun r => sum (bnz b) (fun q => dz r q * b_Jz b ux z q k) * ux r) else m_fun m k.
Proof. exact fun_correction. Qed.
Print Assumptions C83_fun_correction.
(** Those of the line search agree on the constraints; the bounds of the slacks are not masked. *)
Theorem C83_compute_fun : forall g D0 m cs ux z t, let b := g_b g in
  b_compute_hess b = false -> in_range b -> bnz b = 0%nat \/ bnh b = 0%nat ->
  exists M, p_compute_fun g ux z t (prun g D0 m cs) = Some M /\
    (forall i, (i < 2 * (bnb b + bng b + bnh b))%nat -> m_fun M i = b_mask b i * ineq b D0 (fun v => b_h b v z) i ux) /\
    (forall i, (2 * (bnb b + bng b + bnh b) <= i)%nat -> (i < 2 * (bnb b + bng b + bnh b + bns b))%nat -> m_fun M i = ineq b D0 (fun v => b_h b v z) i ux).
Proof. intros g D0 m cs ux z t b NH R. exact (p_compute_fun_ok g NH R D0 m cs ux z t). Qed.
Print Assumptions C83_compute_fun.
Theorem C83_mask_refuted : exists g D0 m c t M i,
  b_compute_hess (g_b g) = false /\ in_range (g_b g) /\ (i < 2 * (bnb (g_b g) + bng (g_b g) + bnh (g_b g) + bns (g_b g)))%nat /\
  p_compute_fun g (c_ux c) (c_z c) t (prun g D0 m [c]) = Some M /\ b_mask (g_b g) i = 0 /\ m_fun (prun g D0 m [c]) i = 0 /\ m_fun M i <> 0.
Proof. exact mask_refuted. Qed.
Print Assumptions C83_mask_refuted.

(** The adjoint is minus the derivative of the weighted inequalities in every direction exactly when idxs_rev is not used or the multipliers of the slack bounds are zero. *)
Theorem C83_adjoint : forall g D0 m cs c (zf : vecR -> vecR), let b := g_b g in
  b_compute_hess b = false -> in_range b -> bnz b = 0%nat \/ bng b = 0%nat \/ bnh b = 0%nat ->
  c_z c = zf (c_ux c) -> is_jac b (c_ux c) (c_z c) -> is_sens b zf (c_dz c) (c_ux c) ->
  (forall i, (i < 2 * (bnb b + bng b + bnh b + bns b))%nat -> c_lam c i * b_mask b i = c_lam c i) ->
  (forall d : vecR,
    is_derive (fun t => sum (2 * (bnb b + bng b + bnh b + bns b)) (fun i => c_lam c i * (b_mask b i * ineq b D0 (fun v => b_h b v (zf v)) i (fun r => c_ux c r + t * d r)))) 0
      (- sum (bnu b + bnx b + 2 * bns b) (fun k => m_adj (prun g D0 m (cs ++ [c])) k * d k))) <->
  b_use_rev b = false \/ (forall j, (j < 2 * bns b)%nat -> c_lam c (2 * (bnb b + bng b + bnh b) + j)%nat = 0).
Proof. intros g D0 m cs c zf b NH R. exact (p_adjoint_exact g NH R D0 m cs c zf). Qed.
Print Assumptions C83_adjoint.
Theorem C83_adjoint_refuted : exists g D0 m c zf,
  b_compute_hess (g_b g) = false /\ in_range (g_b g) /\ (bnz (g_b g) = 0%nat \/ bng (g_b g) = 0%nat \/ bnh (g_b g) = 0%nat) /\
  c_z c = zf (c_ux c) /\ is_jac (g_b g) (c_ux c) (c_z c) /\ is_sens (g_b g) zf (c_dz c) (c_ux c) /\
  (forall i, c_lam c i * b_mask (g_b g) i = c_lam c i) /\
  ~ (forall d : vecR,
    is_derive (fun t => sum (2 * (bnb (g_b g) + bng (g_b g) + bnh (g_b g) + bns (g_b g))) (fun i => c_lam c i * (b_mask (g_b g) i * ineq (g_b g) D0 (fun v => b_h (g_b g) v (zf v)) i (fun r => c_ux c r + t * d r)))) 0
      (- sum (bnu (g_b g) + bnx (g_b g) + 2 * bns (g_b g)) (fun k => m_adj (prun g D0 m [c]) k * d k))).
Proof. exact slack_refuted. Qed.
Print Assumptions C83_adjoint_refuted.

(** The rows of the QP, and the same two defects as in the module bgh: the correction for the algebraic variables goes to the rows of the linear constraints, and the call is out of bounds whenever there are linear constraints. *)
Theorem C83_jacobian : forall g D0 m cs c, let b := g_b g in
  b_compute_hess b = false -> bnz b = 0%nat \/ bng b = 0%nat \/ bnh b = 0%nat ->
  (forall r j, (r < bnu b + bnx b)%nat -> (j < bng b)%nat -> m_DCt (prun g D0 m (cs ++ [c])) r j = D0 r j) /\
  (forall r j, (r < bnu b + bnx b)%nat -> (j < bnh b)%nat -> m_DCt (prun g D0 m (cs ++ [c])) r (bng b + j)%nat =
     b_Jux b (c_ux c) (c_z c) r j + sum (bnz b) (fun k => c_dz c r k * b_Jz b (c_ux c) (c_z c) k j)).
Proof. intros g D0 m cs c. exact (p_jacobian g D0 m cs c). Qed.
Print Assumptions C83_jacobian.
Theorem C83_jacobian_refuted : exists b zf dz ux z lam,
  (0 < bng b)%nat /\ (0 < bnh b)%nat /\ (0 < bnz b)%nat /\ in_range b /\ is_jac b ux z /\ z = zf ux /\ is_sens b zf dz ux /\
  forall nr Hr Jr D0 m,
    (forall n, exists r c, (r < bnu b + bnx b)%nat /\ (c < bng b)%nat /\
      m_DCt (prun (mkGI b nr Hr Jr) D0 m (repeat (mkCall ux z lam dz) n)) r c = D0 r c + INR n) /\
    (forall cs, exists r j, (r < bnu b + bnx b)%nat /\ (j < bnh b)%nat /\
      m_DCt (prun (mkGI b nr Hr Jr) D0 m (cs ++ [mkCall ux z lam dz])) r (bng b + j)%nat <> b_Jux b ux z r j + sum (bnz b) (fun k => dz r k * b_Jz b ux z k j)).
Proof. exact p_z_refuted. Qed.
Print Assumptions C83_jacobian_refuted.
Theorem C83_out_of_bounds : forall g D0 m cs c, b_compute_hess (g_b g) = false -> (0 < bnh (g_b g))%nat -> (0 < bnu (g_b g) + bnx (g_b g))%nat -> (0 < bng (g_b g))%nat ->
  m_oob (prun g D0 m (cs ++ [c])) = true.
Proof. exact p_oob. Qed.
Print Assumptions C83_out_of_bounds.

(** The lower triangle of the Hessian grows by the curvature of the outer functions weighted with the upper multipliers, the rest is unchanged. *)
Theorem C83_hessian : forall g D0 m cs c r k, let b := g_b g in
  m_RSQ (prun g D0 m (cs ++ [c])) r k = m_RSQ (prun g D0 m cs) r k + (if (r <? bnu b + bnx b)%nat && (k <=? r)%nat then
    sum (bnh b) (fun i => c_lam c (2 * (bnb b + bng b) + bnh b + i)%nat * sum (g_nr g) (fun q =>
      sum (g_nr g) (fun p => g_Jr g (c_ux c) (c_z c) r p * g_Hr g (c_ux c) (c_z c) (g_nr g * i + q)%nat p) * g_Jr g (c_ux c) (c_z c) k q)) else 0).
Proof. intros g D0 m cs c r k. exact (prun_hess g D0 m cs c r k). Qed.
Print Assumptions C83_hessian.
(** For convex outer functions and nonnegative upper multipliers the matrix behind that triangle is symmetric and positive semidefinite. *)
Theorem C83_semidefinite : forall g ux z lam, let b := g_b g in
  (forall i, (i < bnh b)%nat ->
    (forall p q, (p < g_nr g)%nat -> (q < g_nr g)%nat -> g_Hr g ux z (g_nr g * i + p)%nat q = g_Hr g ux z (g_nr g * i + q)%nat p) /\
    (forall v : vecR, 0 <= sum (g_nr g) (fun p => sum (g_nr g) (fun q => v p * g_Hr g ux z (g_nr g * i + p)%nat q * v q)))) ->
  (forall i, (i < bnh b)%nat -> 0 <= lam (2 * (bnb b + bng b) + bnh b + i)%nat) ->
  (forall v : vecR, 0 <= sum (bnu b + bnx b) (fun r => sum (bnu b + bnx b) (fun c => v r * curv g ux z lam r c * v c))) /\
  (forall r c, curv g ux z lam r c = curv g ux z lam c r).
Proof. intros g ux z lam. exact (curv_psd g ux z lam). Qed.
Print Assumptions C83_semidefinite.
(** The stored matrix is not symmetric. *)
Theorem C83_symmetry_refuted : exists g D0 m c, b_compute_hess (g_b g) = false /\ convex_phi g (c_ux c) (c_z c) /\
  (forall r k, m_RSQ m r k = m_RSQ m k r) /\
  exists r k, (r < bnu (g_b g) + bnx (g_b g))%nat /\ (k < bnu (g_b g) + bnx (g_b g))%nat /\ m_RSQ (prun g D0 m [c]) r k <> m_RSQ (prun g D0 m [c]) k r.
Proof. exact triangle_refuted. Qed.
Print Assumptions C83_symmetry_refuted.
(** A soft bound on x and u^2 <= 4, at u = 2, x = 5 with all multipliers different. *)
Example C83_case : forall rev, let g := gb rev (fun _ => 1) in
  b_compute_hess (g_b g) = false /\ in_range (g_b g) /\ is_jac (g_b g) eux (fun _ => 0) /\ is_sens (g_b g) (fun _ _ => 0) (fun _ _ => 0) eux /\ convex_phi g eux (fun _ => 0) /\
  let M := prun g (fun _ _ => 0) em [gcall] in
  map (m_adj M) (seq 0 4) = [-24; -3; if rev then 2 else 18; if rev then 8 else 40] /\
  map (m_fun M) (seq 0 6) = [-1; -7; 1; -11; -3; -7] /\ map (m_RSQ M 0%nat) (seq 0 2) = [16; 0] /\ map (m_RSQ M 1%nat) (seq 0 2) = [0; 0].
Proof. intro rev. exact (conj eq_refl (conj (gb_range _ _) (conj (gb_jac _ _ _ _) (conj (gb_sens _ _ _ _ _) (conj (gb_convex _ _ _ _) (gb_value rev)))))). Qed.
