(** Evaluation of the constraints of a stage: values, Jacobian and adjoint, over the reals. *)
From Coq Require Import ZArith List Bool Reals.
From Coquelicot Require Import Coquelicot.
From Verif Require Import Arith Vec LinModel BghEvalModel RSum BghEvalSpec BghEvalProofs BghEvalTop BghEvalCases.
Import ListNotations.
Open Scope R_scope.

(** The adjoint is minus the derivative of the multiplier-weighted inequalities in every direction, with the algebraic variables eliminated, after any history of evaluations. *)
Theorem C41_adjoint : forall b D0 m cs c (zf : vecR -> vecR),
  bnz b = 0%nat \/ bng b = 0%nat \/ bnh b = 0%nat -> in_range b ->
  c_z c = zf (c_ux c) -> is_jac b (c_ux c) (c_z c) -> is_sens b zf (c_dz c) (c_ux c) ->
  (forall i, (i < 2 * (bnb b + bng b + bnh b + bns b))%nat -> c_lam c i * b_mask b i = c_lam c i) ->
  forall d : vecR,
    is_derive (fun t => sum (2 * (bnb b + bng b + bnh b + bns b)) (fun i => c_lam c i * (b_mask b i * ineq b D0 (fun v => b_h b v (zf v)) i (fun r => c_ux c r + t * d r)))) 0
      (- sum (bnu b + bnx b + 2 * bns b) (fun k => m_adj (run b D0 m (cs ++ [c])) k * d k)).
Proof. intros b D0 m cs c zf G R. exact (adjoint_derivative b R D0 m cs c zf G). Qed.
Print Assumptions C41_adjoint.
(** The values handed to the QP and the residuals are the masked inequalities. *)
Theorem C41_values : forall b D0 m cs c i,
  bnz b = 0%nat \/ bng b = 0%nat \/ bnh b = 0%nat -> in_range b -> (i < 2 * (bnb b + bng b + bnh b + bns b))%nat ->
  m_fun (run b D0 m (cs ++ [c])) i = b_mask b i * ineq b D0 (fun v => b_h b v (c_z c)) i (c_ux c).
Proof. intros b D0 m cs c i G R H. exact (run_fun b R D0 m cs c i G H). Qed.
Print Assumptions C41_values.
(** The values of the line search are the same ones; with algebraic variables the function stops the program. *)
Theorem C41_compute_fun : forall b D0 m cs ux z t,
  bnz b = 0%nat \/ bnh b = 0%nat -> in_range b ->
  exists M, compute_fun b ux z t (run b D0 m cs) = Some M /\
    forall i, (i < 2 * (bnb b + bng b + bnh b + bns b))%nat -> m_fun M i = b_mask b i * ineq b D0 (fun v => b_h b v z) i ux.
Proof. intros b D0 m cs ux z t G R. exact (compute_fun_ok b R D0 m cs ux z t G). Qed.
Print Assumptions C41_compute_fun.
Theorem C41_compute_fun_stops : forall b (ux z t : vecR) m, bnz b <> 0%nat -> bnh b <> 0%nat -> compute_fun b ux z t m = None.
Proof. exact compute_fun_exits. Qed.
Print Assumptions C41_compute_fun_stops.
(** The two declarations of softened constraints agree. *)
Theorem C41_slack_declarations : forall b D0 m cs c,
  bnz b = 0%nat \/ bng b = 0%nat \/ bnh b = 0%nat -> in_range b -> same_slacks b ->
  (forall k, (k < bnu b + bnx b + 2 * bns b)%nat -> m_adj (run (with_rev b true) D0 m (cs ++ [c])) k = m_adj (run (with_rev b false) D0 m (cs ++ [c])) k) /\
  (forall i, (i < 2 * (bnb b + bng b + bnh b + bns b))%nat -> m_fun (run (with_rev b true) D0 m (cs ++ [c])) i = m_fun (run (with_rev b false) D0 m (cs ++ [c])) i).
Proof. exact same_all. Qed.
Print Assumptions C41_slack_declarations.
(** A soft bound and a nonlinear constraint u * z with z = 3 x, at u = 2, x = 5. *)
Example C41_case : forall rev,
  (bnz (eb rev) = 0%nat \/ bng (eb rev) = 0%nat \/ bnh (eb rev) = 0%nat) /\ in_range (eb rev) /\ same_slacks (eb rev) /\
  is_jac (eb rev) eux (fun _ => 3 * eux 1%nat) /\ is_sens (eb rev) (fun v _ => 3 * v 1%nat) edz eux /\
  let M := run (eb rev) (fun _ _ => 0) em [ecall] in
  map (m_adj M) (seq 0 4) = [-90; -39; 18; 40] /\ map (m_fun M) (seq 0 6) = [-5; -37; 5; 19; -7; -11].
Proof. intro rev. exact (conj (or_intror (or_introl eq_refl)) (conj (eb_range rev) (conj (eb_same rev) (conj (eb_jac rev eux _) (conj (eb_sens rev eux) (eb_value rev)))))). Qed.

(** The exact Hessian contribution: multipliers upper minus lower. *)
Theorem C41_hessian : forall b D0 m cs c r k,
  (0 < bnh b)%nat -> b_compute_hess b = true -> (r < bnu b + bnx b)%nat -> (k < bnu b + bnx b)%nat ->
  exists mult, (forall j, (j < bnh b)%nat -> mult j = c_lam c (2 * (bnb b + bng b) + bnh b + j)%nat - c_lam c (bnb b + bng b + j)%nat) /\
  m_RSQ (run b D0 m (cs ++ [c])) r k = m_RSQ (run b D0 m cs) r k + (b_hess b (c_ux c) (c_z c) mult r k
    + sum (bnz b) (fun p => sum (bnz b) (fun q => c_dz c r p * b_hess_z b (c_ux c) (c_z c) mult p q * c_dz c k q))).
Proof. exact hessian_ok. Qed.
Print Assumptions C41_hessian.
(** With algebraic variables it is not the Hessian of the weighted constraint, whatever the generated function returns: for h = x z and z = a x the second derivative is 2 a. *)
Theorem C41_hessian_refuted : forall H Hz D0 m (lam : vecR), lam 1%nat - lam 0%nat <> 0 ->
  (forall ux z, is_jac (hb H Hz) ux z) /\
  (forall a ux, is_sens (hb H Hz) (fun v _ => a * v 0%nat) (fun _ _ => a) ux) /\
  (forall a (u : vecR), is_derive (fun t => Derive (fun s => b_h (hb H Hz) (fun _ => s) (fun _ => a * s) 0%nat) t) (u 0%nat) (2 * a)) /\
  exists a, m_RSQ (run (hb H Hz) D0 m [hcall a lam]) 0%nat 0%nat - m_RSQ m 0%nat 0%nat <> (lam 1%nat - lam 0%nat) * (2 * a).
Proof. exact hessian_refuted. Qed.
Print Assumptions C41_hessian_refuted.

(** Without one of: algebraic variables, linear constraints, nonlinear constraints, the rows of the QP are the eliminated Jacobian after any history. *)
Theorem C42_jacobian : forall b D0 m cs c, bnz b = 0%nat \/ bng b = 0%nat \/ bnh b = 0%nat ->
  (forall r j, (r < bnu b + bnx b)%nat -> (j < bng b)%nat -> m_DCt (run b D0 m (cs ++ [c])) r j = D0 r j) /\
  (forall r j, (r < bnu b + bnx b)%nat -> (j < bnh b)%nat -> m_DCt (run b D0 m (cs ++ [c])) r (bng b + j)%nat =
     b_Jux b (c_ux c) (c_z c) r j + sum (bnz b) (fun k => c_dz c r k * b_Jz b (c_ux c) (c_z c) k j)).
Proof. exact jacobian_ok. Qed.
Print Assumptions C42_jacobian.
(** With all three the correction goes to the linear rows, once more with every evaluation, and is missing in the nonlinear ones. *)
Theorem C42_jacobian_refuted : exists b zf dz ux z lam,
  (0 < bng b)%nat /\ (0 < bnh b)%nat /\ (0 < bnz b)%nat /\ in_range b /\ is_jac b ux z /\ z = zf ux /\ is_sens b zf dz ux /\
  forall D0 m,
    (forall n, exists r c, (r < bnu b + bnx b)%nat /\ (c < bng b)%nat /\
      m_DCt (run b D0 m (repeat (mkCall ux z lam dz) n)) r c = D0 r c + INR n) /\
    (forall cs, exists r j, (r < bnu b + bnx b)%nat /\ (j < bnh b)%nat /\
      m_DCt (run b D0 m (cs ++ [mkCall ux z lam dz])) r (bng b + j)%nat <> b_Jux b ux z r j + sum (bnz b) (fun k => dz r k * b_Jz b ux z k j)).
Proof. exact z_refuted. Qed.
Print Assumptions C42_jacobian_refuted.
(** The update touches rows behind the last one exactly when there are linear and nonlinear constraints, with or without algebraic variables. *)
Theorem C42_out_of_bounds : forall b D0 m cs c, (0 < bnh b)%nat -> (0 < bnu b + bnx b)%nat -> (0 < bng b)%nat -> m_oob (run b D0 m (cs ++ [c])) = true.
Proof. exact run_oob. Qed.
Print Assumptions C42_out_of_bounds.
Theorem C42_bounds : forall b D0 m cs, m_oob m = false -> bnh b = 0%nat \/ (bnu b + bnx b = 0)%nat \/ bng b = 0%nat -> m_oob (run b D0 m cs) = false.
Proof. exact run_in. Qed.
Print Assumptions C42_bounds.
