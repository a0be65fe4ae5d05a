(** Property theorems C92: adaptive tolerances of the QP solver. *)
From Coq Require Import ZArith List Bool Reals.
From Verif Require Import FP Arith QpTolModel QpTolProofs.
Import ListNotations.
Open Scope R_scope.

(** C92.  Over the reals the tolerance of every kind is the larger of the safety fraction of the NLP tolerance and the
    reduced largest residual, capped at 1/100. *)
Theorem C92_formula : forall rf sf (tol res : tols real) k, 0 <= rf ->
  adaptive (A := real) rf sf tol res k = Rmax (sf * tol k) (Rmin (rf * Rmax (res KStat) (Rmax (res KEq) (Rmax (res KIneq) (res KComp)))) (1 / 100)).
Proof. exact formula. Qed.
Print Assumptions C92_formula.
(** As long as the NLP is not converged some residual exceeds its QP tolerance, so a QP solver that meets its
    tolerances cannot return the current iterate; the NLP tolerances must be within a factor rf * sf of each other. *)
Theorem C92_progress : forall rf sf (tol res : tols real),
  0 <= rf < 1 -> 0 <= sf < 1 -> (forall k, 0 < tol k) -> (forall j k, rf * (sf * tol j) < tol k) ->
  (exists k, tol k <= res k) -> exists k, adaptive (A := real) rf sf tol res k < res k.
Proof. exact progress. Qed.
Print Assumptions C92_progress.
(** without that factor it is false, with the default factors 0.1 *)
Theorem C92_progress_refuted : exists tol res : tols real, (forall k, 0 < tol k) /\ (exists k, tol k < res k) /\
  (forall k, res k <= adaptive (A := real) (1 / 10)%R (1 / 10)%R tol res k).
Proof. exact stall. Qed.
Print Assumptions C92_progress_refuted.
(** close to the solution the tolerances are the safety fraction of the NLP tolerances *)
Theorem C92_near : forall rf sf (tol res : tols real), 0 <= rf -> (forall j k, rf * res j <= sf * tol k) ->
  forall k, adaptive (A := real) rf sf tol res k = (sf * tol k)%R.
Proof. exact near. Qed.
Print Assumptions C92_near.
(** in binary64 no tolerance is ever NaN, whatever residuals, tolerances and factors are *)
Theorem C92_not_nan : forall (rf sf : double) (tol res : tols dbl) k, isnan (adaptive (A := dbl) rf sf tol res k) = false.
Proof. exact not_nan. Qed.
Print Assumptions C92_not_nan.
(** but one NaN residual loosens all of them to 1e-2 or more *)
Theorem C92_nan_loose : forall (rf sf : double) (tol res : tols dbl) j, isnan (res j) = true ->
  forall k, fle (dcst 1 (-2)) (adaptive (A := dbl) rf sf tol res k) = true.
Proof. exact nan_loose. Qed.
Print Assumptions C92_nan_loose.
(** qpOASES keeps one tolerance and never loosens it: after any number of iterations it is at most the initial one and
    at most everything that was ever asked for *)
Theorem C92_qpoases_tightest : forall rf sf (tol : tols real) (hist : list (tols real)) (s : R),
  let r := iterations R (@qpoases_set1 real) rf sf tol hist s in
  r <= s /\ forall res, In res hist -> forall k, r <= adaptive (A := real) rf sf tol res k.
Proof. exact qpoases_tightest. Qed.
Print Assumptions C92_qpoases_tightest.
(** so, with the default 1e-4, the tolerance in use need not be one of those the strategy asks for *)
Theorem C92_qpoases_refuted : exists tol res : tols real,
  forall k, iterations R (@qpoases_set1 real) (1 / 10)%R (1 / 10)%R tol [res] (ncst (a := real) 1 (-4)) < adaptive (A := real) (1 / 10)%R (1 / 10)%R tol res k.
Proof. exact qpoases_never_loose. Qed.
Print Assumptions C92_qpoases_refuted.
(** OSQP and Clarabel forget tol_eq and tol_comp, in any arithmetic *)
Theorem C92_osqp_forgets : forall (A : arith) (t t' : tols A) s, t KStat = t' KStat -> t KIneq = t' KIneq ->
  in_order (osqp A) osqp_set1 t s = in_order (osqp A) osqp_set1 t' s.
Proof. exact osqp_forgets. Qed.
Print Assumptions C92_osqp_forgets.
Theorem C92_clarabel_forgets : forall (A : arith) (t t' : tols A) s, t KStat = t' KStat -> t KIneq = t' KIneq ->
  in_order (clarabel A) clarabel_set1 t s = in_order (clarabel A) clarabel_set1 t' s.
Proof. exact clarabel_forgets. Qed.
Print Assumptions C92_clarabel_forgets.
Theorem C92_clarabel_kept : forall (A : arith) (t : tols A) s,
  let r := in_order (clarabel A) clarabel_set1 t s in c_tol_gap_abs r = t KStat /\ c_tol_infeas_abs r = t KIneq.
Proof. exact clarabel_kept. Qed.
Print Assumptions C92_clarabel_kept.
(** what OSQP is left with; polishing, once on, stays on *)
Theorem C92_osqp_fields : forall (t : tols real) s, let r := in_order (osqp real) osqp_set1 t s in
  o_eps_rel r = Rmax (t KStat) (1 / 100000) /\ o_eps_dual_inf r = Rmax (t KStat) (1 / 100000) /\ o_eps_prim_inf r = t KIneq /\
  (o_polish r = true <-> t KStat <= 1 / 1000 \/ o_polish s = true).
Proof. exact osqp_fields. Qed.
Print Assumptions C92_osqp_fields.
(** OSQP never works below 1e-5, DAQP uses tol_ineq only *)
Theorem C92_osqp_floor : forall (t : tols real) s, 1 / 100000 <= o_eps_rel (in_order (osqp real) osqp_set1 t s).
Proof. exact osqp_floor. Qed.
Print Assumptions C92_osqp_floor.
Theorem C92_daqp_only : forall (A : arith) (t : tols A) s, in_order (num A) daqp_set1 t s = t KIneq.
Proof. exact daqp_only. Qed.
Print Assumptions C92_daqp_only.

(** a case: default factors, NLP tolerances 1e-6, only the equalities unconverged *)
Example C92_case : forall k, adaptive (A := real) (1 / 10)%R (1 / 10)%R (fun _ => 1 / 1000000)%R (fun k => match k with KEq => 1 / 1000 | _ => 1 / 10000000 end)%R k = 1 / 10000.
Proof. exact some_case. Qed.
Print Assumptions C92_case.
