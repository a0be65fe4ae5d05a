(** Property theorems C88: convexification of the QP. *)
From Coq Require Import ZArith List Bool Reals.
From Verif Require Import Arith Vec LinModel RSum InterpProofs RegModel RegProofs CvxModel CvxSpec CvxProofs CvxTop CvxConvex CvxCases CvxSplit.
Open Scope R_scope.

(** C88.  Whatever the eigendecomposition and the factorisation return: on trajectories of the linear dynamics the
    objective of the convexified QP and that of the QP kept in original_RSQrq differ by a constant and a function of x_0. *)
Theorem C88_objective : forall eig potrf trsm N nx nu delta bv (s : cmem real), (forall k, (k < N)%nat -> (nx (k + 1) <= nx k)%nat) ->
  let f := cvx_regularize (A := real) eig potrf trsm N nx nu delta bv s in
  forall w w', dynamic N nx nu (c_BAbt s) bv w -> dynamic N nx nu (c_BAbt s) bv w' ->
  (forall j, (j < nx 0%nat)%nat -> w 0%nat (nu 0%nat + j)%nat = w' 0%nat (nu 0%nat + j)%nat) ->
  objective N nx nu (c_org f) (c_rq s) w' - objective N nx nu (c_org f) (c_rq s) w = objective N nx nu (c_RSQ f) (c_rq f) w' - objective N nx nu (c_RSQ f) (c_rq f) w.
Proof. exact objective_same. Qed.
Print Assumptions C88_objective.
(** original_RSQrq is the given QP, with its gradient in the last row, when no stage was projected *)
Theorem C88_original : forall eig potrf trsm N nx nu delta bv (s : cmem real) k i j,
  (forall t, (t < N)%nat -> needs (A := real) eig nx nu bv true (N - 1 - t) (sweep (A := real) eig potrf trsm N nx nu delta bv true true true t s) = false) ->
  (k <= N)%nat -> (i < nu k + nx k)%nat -> (j < nu k + nx k)%nat -> c_org (cvx_regularize (A := real) eig potrf trsm N nx nu delta bv s) k i j = c_RSQ s k i j.
Proof. exact org_kept. Qed.
Print Assumptions C88_original.
(** a stationary point of the convexified QP is, with the multipliers of correct_dual_sol, one of the original QP,
    in all components except the state of stage 0 *)
Theorem C88_kkt : forall eig potrf trsm N nx nu delta bv (s : cmem real) nbu nbx ng idxb DCt ux lam, (forall k, (k < N)%nat -> (nx (k + 1) <= nx k)%nat) ->
  forall tmp pi0 pi', dynamic N nx nu (c_BAbt s) bv ux ->
  let f := cvx_regularize (A := real) eig potrf trsm N nx nu delta bv s in
  let con := ineq_grad (fun k => nbu k + nbx k)%nat ng idxb DCt lam in
  (forall k i, not_x0 N nx nu k i -> lagr N nx nu (c_RSQ f) (c_rq f) (c_BAbt s) pi' con ux k i = 0) ->
  forall k i, not_x0 N nx nu k i ->
  lagr N nx nu (c_org f) (c_rq s) (c_BAbt s) (snd (cvx_correct (A := real) N nx nu nbu nbx ng idxb DCt ux lam f tmp pi0)) con ux k i = 0.
Proof. exact kkt. Qed.
Print Assumptions C88_kkt.
(** correct_dual_sol gives the original gradient back after the combined call *)
Theorem C88_gradient : forall eig potrf trsm N nx nu delta bv nbu nbx ng idxb DCt ux lam tmp pi0 (s : cmem real) k j, (k <= N)%nat -> (j < nu k + nx k)%nat ->
  fst (cvx_correct (A := real) N nx nu nbu nbx ng idxb DCt ux lam (cvx_regularize (A := real) eig potrf trsm N nx nu delta bv s) tmp pi0) k j = c_rq s k j.
Proof. exact joint_rq. Qed.
Print Assumptions C88_gradient.
(** with at most one input, or where the projection was made, the stage Hessian is positive definite *)
Theorem C88_convex : forall eig potrf trsm N nx nu delta bv, potrf_ok potrf -> trsm_ok trsm -> 0 < delta -> eig_ok eig ->
  forall ins bak ext (s : cmem real) k, (k < N)%nat ->
  (nu k <= 1)%nat \/ needs (A := real) eig nx nu bv ins k (sweep (A := real) eig potrf trsm N nx nu delta bv ins bak ext (N - 1 - k) s) = true ->
  posdef (nu k + nx k) (lowsym (c_RSQ (sweep (A := real) eig potrf trsm N nx nu delta bv ins bak ext N s) k)).
Proof. exact sweep_posdef. Qed.
Print Assumptions C88_convex.
Theorem C88_convex_last : forall eig potrf trsm N nx nu delta bv, 0 < delta -> forall ins bak ext (s : cmem real), nu N = 0%nat ->
  posdef (nu N + nx N) (lowsym (c_RSQ (sweep (A := real) eig potrf trsm N nx nu delta bv ins bak ext N s) N)).
Proof. exact sweep_posdef_last. Qed.
Print Assumptions C88_convex_last.
(** false with two inputs, whatever correct decomposition is used *)
Theorem C88_convex_refuted : forall eig potrf trsm, eig_ok eig -> exists N nx nu bv s, (0 < N)%nat /\ (forall k, (k < N)%nat -> nx (k + 1)%nat = nx k) /\ nu N = 0%nat /\
  ~ posdef (nu 0%nat + nx 0%nat) (lowsym (c_RSQ (cvx_regularize (A := real) eig potrf trsm N nx nu 1 bv s) 0)).
Proof. exact convex_refuted. Qed.
Print Assumptions C88_convex_refuted.
(** C88_objective is false when the number of states grows along the horizon *)
Theorem C88_growing_refuted : exists eig potrf trsm N nx nu delta bv s w w', dynamic N nx nu (c_BAbt s) bv w /\ dynamic N nx nu (c_BAbt s) bv w' /\
  (forall j, (j < nx 0%nat)%nat -> w 0%nat (nu 0 + j)%nat = w' 0%nat (nu 0 + j)%nat) /\
  let f := cvx_regularize (A := real) eig potrf trsm N nx nu delta bv s in
  (forall t, (t < N)%nat -> needs (A := real) eig nx nu bv true (N - 1 - t) (sweep (A := real) eig potrf trsm N nx nu delta bv true true true t s) = false) /\
  objective N nx nu (c_RSQ s) (c_rq s) w' - objective N nx nu (c_RSQ s) (c_rq s) w <> objective N nx nu (c_RSQ f) (c_rq f) w' - objective N nx nu (c_RSQ f) (c_rq f) w.
Proof. exact growing_refuted. Qed.
Print Assumptions C88_growing_refuted.
(** the multipliers of the constraints on x_0 are those of the convexified QP, not of the original one *)
Theorem C88_x0_refuted : exists eig potrf trsm N nx nu delta bv s nbu nbx ng idxb DCt ux lam tmp pi0 pi', (0 < N)%nat /\
  (forall k, (k < N)%nat -> (nx (k + 1) <= nx k)%nat) /\ dynamic N nx nu (c_BAbt s) bv ux /\
  let f := cvx_regularize (A := real) eig potrf trsm N nx nu delta bv s in
  let con := ineq_grad (fun k => nbu k + nbx k)%nat ng idxb DCt lam in
  (forall k i, (k <= N)%nat -> (i < nu k + nx k)%nat -> lagr N nx nu (c_RSQ f) (c_rq f) (c_BAbt s) pi' con ux k i = 0) /\
  (forall k i j, (k <= N)%nat -> (i < nu k + nx k)%nat -> (j < nu k + nx k)%nat -> c_org f k i j = c_RSQ s k i j) /\
  exists i, (i < nu 0%nat + nx 0%nat)%nat /\
    lagr N nx nu (c_RSQ s) (c_rq s) (c_BAbt s) (snd (cvx_correct (A := real) N nx nu nbu nbx ng idxb DCt ux lam f tmp pi0)) con ux 0 i <> 0.
Proof. exact x0_refuted. Qed.
Print Assumptions C88_x0_refuted.
(** preparation and feedback: rq and the multipliers come out of what was in the last row of RSQrq before the preparation *)
Theorem C88_split_gradient : forall eig potrf trsm N nx nu delta bv nbu nbx ng idxb DCt ux lam tmp pi0 (s : cmem real) k j, (k < N)%nat -> (j < nu k + nx k)%nat ->
  fst (cvx_correct (A := real) N nx nu nbu nbx ng idxb DCt ux lam (cvx_rhs (A := real) eig potrf trsm N nx nu delta bv (cvx_lhs (A := real) eig potrf trsm N nx nu delta bv s)) tmp pi0) k j = c_RSQ s k (nu k + nx k)%nat j.
Proof. exact split_rq. Qed.
Print Assumptions C88_split_gradient.
(** the terminal Hessian kept for the multipliers is the one given to the preparation phase *)
Theorem C88_split_terminal : forall eig potrf trsm N nx nu delta bv (s : cmem real) i j, (i < nu N + nx N)%nat -> (j < nu N + nx N)%nat ->
  c_org (cvx_rhs (A := real) eig potrf trsm N nx nu delta bv (cvx_lhs (A := real) eig potrf trsm N nx nu delta bv s)) N i j = c_RSQ s N i j.
Proof. exact split_terminal. Qed.
Print Assumptions C88_split_terminal.
Theorem C88_split_refuted : exists eig potrf trsm N nx nu delta bv s nbu nbx ng idxb DCt ux lam tmp pi0,
  let correct := fun f => cvx_correct (A := real) N nx nu nbu nbx ng idxb DCt ux lam f tmp pi0 in
  let joint := correct (cvx_regularize (A := real) eig potrf trsm N nx nu delta bv s) in
  let split := correct (cvx_rhs (A := real) eig potrf trsm N nx nu delta bv (cvx_lhs (A := real) eig potrf trsm N nx nu delta bv s)) in
  snd joint 0%nat 0%nat = 5 /\ snd split 0%nat 0%nat = 0 /\ fst joint 1%nat 1%nat = 5 /\ fst split 1%nat 1%nat = 0.
Proof. exact split_refuted. Qed.
Print Assumptions C88_split_refuted.

(** a step x_1 = u + x_0 + 1 with stage Hessian [2 1; 1 -5] and terminal weight 3, delta = 1: the new Hessian is [4 3; 3 13/4] *)
Example C88_case_hessian : c_RSQ a_f 0 0%nat 0%nat = 4 /\ c_RSQ a_f 0 1%nat 0%nat = 3 /\ c_RSQ a_f 0 1%nat 1%nat = 13 / 4 /\ c_RSQ a_f 1 0%nat 0%nat = 1.
Proof. exact (conj a_H00 (conj a_H10 (conj a_H11 (proj1 a_HN)))). Qed.
Example C88_case_dynamic : dynamic 1 ones (u_but_last 1) (c_BAbt a_s) a_b a_w.
Proof. exact a_dyn. Qed.
Example C88_case_stationary : forall k i, (k <= 1)%nat -> (i < u_but_last 1 k + 1)%nat -> lagr 1 ones (u_but_last 1) (c_RSQ a_f) (c_rq a_f) (c_BAbt a_s) a_pi' a_con a_w k i = 0.
Proof. exact a_stat_new. Qed.
Example C88_case_pi : a_pi 0 0%nat = 6 / 5.
Proof. exact a_pi_val. Qed.
