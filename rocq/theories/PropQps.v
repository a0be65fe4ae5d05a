(** C46, C47, C65: scaling of the QP, the scaling factor, tolerances for the scaled QP. *)
From Coq Require Import ZArith List Bool Reals.
From Flocq Require Import IEEE754.BinarySingleNaN.
From Verif Require Import FP Arith Vec LinModel QpsModel RSum QpsSpec QpsTop QpsWhole InterpProofs QpsFactor QpsTol QpsCases QpsCases2.
Open Scope R_scope.

(** a point solves the scaled QP exactly when the point returned by the unscaling solves the original QP *)
Theorem C46_kkt : forall nrm o d m q, own_slacks d q -> masks01 d q -> let m1 := scale_qp (A := real) nrm o d m q in 0 < m_fac m1 ->
  forall s' out, kkt d (m_in m1) s' <-> kkt d q (rescale_solution (A := real) o d (solved m1 s') q out).
Proof. exact kkt_ok. Qed.
Print Assumptions C46_kkt.
Theorem C46_minimiser : forall nrm o d m q, own_slacks d q -> masks01 d q -> let m1 := scale_qp (A := real) nrm o d m q in 0 < m_fac m1 ->
  forall s' out, minimiser d (m_in m1) (s_ux s') <-> minimiser d q (s_ux (rescale_solution (A := real) o d (solved m1 s') q out)).
Proof. exact minimiser_ok. Qed.
Print Assumptions C46_minimiser.
(** a soft constraint with objective factor 1/2 and constraint factor 1/4 *)
Example C46_case : own_slacks dA qA /\ masks01 dA qA /\ m_fac (scale_qp (A := real) vnrm oA dA mem0 qA) = / 2 /\ sf dA qA 0 0 = / 4 /\
  kkt dA (m_in (scale_qp (A := real) vnrm oA dA mem0 qA)) sA' /\ kkt dA qA sA.
Proof. exact (conj A_own (conj A_masks (conj (proj1 A_fac) (conj A_sf (conj A_scaled A_kkt))))). Qed.
(** two constraints softened by the same slack *)
Theorem C46_shared_slack_refuted : forall nrm, exists o d m q s' out, masks01 d q /\ let m1 := scale_qp (A := real) nrm o d m q in
  0 < m_fac m1 /\ kkt d (m_in m1) s' /\ ~ kkt d q (rescale_solution (A := real) o d (solved m1 s') q out).
Proof. exact shared_slack. Qed.
Print Assumptions C46_shared_slack_refuted.
(** the feasibility QP of the feasible-QP solver is unscaled with the memory of the nominal QP *)
Theorem C46_feasibility_refuted : exists nrm o d m qn qf sn sf out, nrm_ok nrm /\ own_slacks d qf /\ masks01 d qf /\
  let mn := scale_qp (A := real) nrm o d m qn in let mf := scale_qp (A := real) nrm o d m qf in 0 < m_fac mn /\ 0 < m_fac mf /\
  kkt d (m_in mn) sn /\ kkt d (m_in mf) sf /\ ~ kkt d qf (feasibility_solution (A := real) o d (solved mn sn) qf sf out).
Proof. exact feasibility_wrong. Qed.
Print Assumptions C46_feasibility_refuted.
(** with constraint scaling what is returned for the feasibility QP does not depend on its solution *)
Theorem C46_feasibility_ignored_refuted : forall o d m q sf1 sf2 out, o_con o = true -> feasibility_solution (A := real) o d m q sf1 out = feasibility_solution (A := real) o d m q sf2 out.
Proof. exact feasibility_ignored. Qed.
Print Assumptions C46_feasibility_ignored_refuted.
(** DDP solves the scaled QP without ever filling it *)
Theorem C46_ddp_refuted : exists o d, forall m, ~ forall q s' out, own_slacks d q -> masks01 d q ->
  (kkt d (alias_in (A := real) o q (m_in m)) s' <-> kkt d q (rescale_solution (A := real) o d (solved m s') q out)).
Proof. exact (ex_intro _ oO (ex_intro _ dD D_wrong)). Qed.
Print Assumptions C46_ddp_refuted.

(** positive factor; eigenvalue estimate at most the upper limit; status 0 exactly when some scaled gradient exceeds the lower limit *)
Theorem C47_factor : forall nrm o d m q, nrm_ok nrm -> o_obj o = true -> 0 < o_ub o ->
  let eg := eig_grad (A := real) nrm d q in 0 < fst eg -> 0 < snd eg ->
  let m1 := scale_qp (A := real) nrm o d m q in let g i := m_fac m1 * nrm (qnx d i + qnu d i + 2 * qns d i)%nat (q_rqz q i) in
  0 < m_fac m1 /\ m_fac m1 * fst eg <= o_ub o /\
  (m_status m1 = 0%Z /\ m_fac m1 = Rmin 1 (o_ub o / fst eg) /\ (exists i, (i <= qN d)%nat /\ o_lb o < g i) \/
   m_status m1 = 8%Z /\ (m_fac m1 * snd eg = o_lb o \/ m_fac m1 * fst eg = o_ub o) /\ (forall i, (i <= qN d)%nat -> g i <= o_lb o)).
Proof. exact status_ok. Qed.
Print Assumptions C47_factor.
Example C47_factor_case : obj_factor (A := real) 100000 (/ 10000) 1000000 1000 = (/ 10, false).
Proof. exact factor_case. Qed.
(** the eigenvalues of the scaled Hessian, as stored, respect the limit *)
Theorem C47_eigenvalues : forall nrm o d m q i lam v, nrm_ok nrm -> own_slacks d q -> masks01 d q -> o_obj o = true -> 0 < o_ub o ->
  let eg := eig_grad (A := real) nrm d q in 0 < fst eg -> 0 < snd eg -> (i <= qN d)%nat ->
  let q' := m_in (scale_qp (A := real) nrm o d m q) in
  (eigenpair (nv d i) (q_H q' i) lam v -> Rabs lam <= o_ub o) /\
  (o_con o = false -> forall k, (k < 2 * qns d i)%nat -> Rabs (q_Z q' i k) <= o_ub o).
Proof. exact hessian_limit. Qed.
Print Assumptions C47_eigenvalues.
(** doubles: without a reported violation the factor is positive, finite and at most one *)
Theorem C47_doubles : forall (ub lb eig grad f : double), is_finite ub = true -> flt f0 ub = true -> fle f0 lb = true ->
  is_finite eig = true -> fle f0 eig = true -> is_finite grad = true ->
  obj_factor (A := dbl) ub lb eig grad = (f, false) -> flt f0 f = true /\ fle f f1 = true /\ is_finite f = true.
Proof. exact dbl_factor. Qed.
Print Assumptions C47_doubles.
(** only the lower triangle of the Hessian holds data: the limit is violated and no status tells *)
Theorem C47_triangle_refuted : exists nrm o d m q lam v, nrm_ok nrm /\ o_obj o = true /\ let m1 := scale_qp (A := real) nrm o d m q in
  eigenpair (nv d 0) (sym (m_in m1) 0) lam v /\ o_ub o < lam /\ m_status m1 = 0%Z.
Proof. exact triangle. Qed.
Print Assumptions C47_triangle_refuted.
(** the violation is reported although the gradient was lifted to its limit *)
Theorem C47_status_refuted : exists ub lb eig grad f, 0 < ub /\ 0 < lb /\ 0 < eig /\ 0 < grad /\ obj_factor (A := real) ub lb eig grad = (f, true) /\ lb <= f * grad /\ f * eig <= ub.
Proof. exact lifted. Qed.
Print Assumptions C47_status_refuted.
(** zero Hessian and gradient with the default limits: infinite factor, the scaled gradient is not a number; a zero lower limit: the factor is not a number *)
Theorem C47_finite_refuted : isinf (fst (obj_factor (A := dbl) (dcst 1 5) (dcst 1 (-4)) f0 f0)) = true /\
  isnan (q_rqz (m_in (scale_qp (A := dbl) dnrm o0 dD mm0 q0)) 0%nat 0%nat) = true /\
  isnan (fst (obj_factor (A := dbl) (dcst 1 5) f0 f1 f0)) = true.
Proof. exact (conj (proj1 zero_inf) (conj zero_qp_nan zero_nan)). Qed.
Print Assumptions C47_finite_refuted.

(** residuals of the scaled QP within the adapted tolerances, seen in the original QP; inequalities before the last stage only *)
Theorem C65_residuals : forall nrm o d m q, own_slacks d q -> masks01 d q -> let m1 := scale_qp (A := real) nrm o d m q in 0 < m_fac m1 ->
  forall mc, min_scaling (A := real) o d m1 = Some mc -> forall s' out safety nlp floor t, adaptive_tols (A := real) safety nlp floor o d m1 = Some t ->
  0 <= safety * t_stat nlp /\ 0 <= safety * t_ineq nlp /\ 0 <= t_stat floor /\ 0 <= t_ineq floor ->
  let s1 := rescale_solution (A := real) o d (solved m1 s') q out in
  (res_stat d (m_in m1) s' (t_stat t) -> res_stat d q s1 (Rmax (safety * t_stat nlp) (t_stat floor / m_fac m1))) /\
  (res_dyn d (m_in m1) (s_ux s') (t_eq t) -> res_dyn d q (s_ux s1) (Rmax (safety * t_eq nlp) (t_eq floor))) /\
  (res_ineq d (m_in m1) (qN d) (s_ux s') (t_ineq t) -> res_ineq d q (qN d) (s_ux s1) (Rmax (safety * t_ineq nlp) (t_ineq floor / mc))) /\
  (res_comp d (m_in m1) s' (t_comp t) -> res_comp d q s1 (Rmax (safety * t_comp nlp * mc) (t_comp floor) / m_fac m1)).
Proof. exact residuals_ok. Qed.
Print Assumptions C65_residuals.
Theorem C65_complementarity_refuted : exists nrm o d m q s' out nlp floor t, own_slacks d q /\ masks01 d q /\ let m1 := scale_qp (A := real) nrm o d m q in
  0 < m_fac m1 /\ adaptive_tols (A := real) 1 nlp floor o d m1 = Some t /\ within d (m_in m1) s' t /\
  ~ res_comp d q (rescale_solution (A := real) o d (solved m1 s') q out) (t_comp nlp).
Proof. exact comp_wrong. Qed.
Print Assumptions C65_complementarity_refuted.
Theorem C65_terminal_refuted : exists nrm o d m q s' out nlp floor t, own_slacks d q /\ masks01 d q /\ let m1 := scale_qp (A := real) nrm o d m q in
  0 < m_fac m1 /\ adaptive_tols (A := real) 1 nlp floor o d m1 = Some t /\ within d (m_in m1) s' t /\
  ~ res_ineq d q (S (qN d)) (s_ux (rescale_solution (A := real) o d (solved m1 s') q out)) (t_ineq nlp).
Proof. exact term_wrong. Qed.
Print Assumptions C65_terminal_refuted.
(** objective scaling alone and a general constraint before the last stage: a null pointer is read *)
Theorem C65_null_refuted : forall (o : qopts real) d m i, o_con o = false -> (i < qN d)%nat -> (0 < qng d i)%nat -> forall safety nlp floor, adaptive_tols (A := real) safety nlp floor o d m = None.
Proof. exact min_null. Qed.
Print Assumptions C65_null_refuted.
