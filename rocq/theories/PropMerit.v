(** Property theorems for the merit-function and DDP line searches. *)
From Coq Require Import ZArith List Bool Reals.
From Flocq Require Import IEEE754.BinarySingleNaN.
From Verif Require Import FP Arith SqpModel RtiModel FunnelIeee MeritModel MeritProofs MeritWeights MeritCases.
Import ListNotations.

(** C14, merit part: when find_acceptable_iterate reports anything but SUCCESS the iterate and the
    recorded step length are untouched, and the status is one of two. *)
Theorem C14_merit_failure : forall A (o : mopts A) iterate qpsol n (P : prob A iterate qpsol) it q (s s' : mstate A iterate) q' st,
  merit_find o n P it q s = Some (s', q', st) -> st <> ACADOS_SUCCESS ->
  ms_out s' = ms_out s /\ ms_step s' = ms_step s /\ ms_status s' = st /\ (st = ACADOS_QP_FAILURE \/ st = ACADOS_NAN_DETECTED).
Proof. exact merit_find_failure. Qed.
Print Assumptions C14_merit_failure.
(** on SUCCESS the iterate is the old one moved by the recorded step, and the weights were updated
    exactly once, with the multipliers of the QP solution the step comes from *)
Theorem C14_merit_success : forall A (o : mopts A) iterate qpsol n (P : prob A iterate qpsol) it q (s s' : mstate A iterate) q',
  merit_find o n P it q s = Some (s', q', ACADOS_SUCCESS) ->
  ms_out s' = p_step P q' (ms_out s) (ms_step s') /\ ms_alpha s' = ms_step s' /\ ms_status s' = ms_status s /\
  ms_w s' = weights_at it (ms_w s) (p_duals P q').
Proof. exact merit_find_step. Qed.
Print Assumptions C14_merit_success.

(** C21, DDP and merit line searches on doubles: a bound on the number of trials that depends on the
    options only. *)
Theorem C21_ddp : forall (o : mopts dbl), flt f0 (mo_alpha_reduction o) = true -> flt (mo_alpha_reduction o) f1 = true ->
  flt dbl_min (mo_alpha_min o) = true -> forall iterate,
  exists n, forall trial qc (s : dstate dbl iterate), ddp_find o n trial qc s <> None.
Proof. exact ddp_terminates. Qed.
Print Assumptions C21_ddp.
Theorem C21_merit : forall (o : mopts dbl), flt f0 (mo_alpha_reduction o) = true -> flt (mo_alpha_reduction o) f1 = true ->
  flt dbl_min (mo_alpha_min o) = true -> exists n, forall mer m0 g, merit_search o n mer m0 g <> None.
Proof. exact merit_terminates. Qed.
Print Assumptions C21_merit.
Example C21_defaults : flt f0 (mo_alpha_min mopts_d) = true /\ flt f0 (mo_alpha_reduction mopts_d) = true /\ flt (mo_alpha_reduction mopts_d) f1 = true /\
  flt dbl_min (mo_alpha_min mopts_d) = true.
Proof. exact merit_defaults. Qed.
(** with alpha_min = 0 the DDP search never stops on a flat cost; with reduction 1 the merit search
    never stops.  No option setter rejects these values. *)
Theorem C21_ddp_zero_refuted : exists (o : mopts dbl) (trial : unit -> double -> unit * double) s, forall fuel, ddp_find o fuel trial f0 s = None.
Proof. exact ddp_loops_zero. Qed.
Print Assumptions C21_ddp_zero_refuted.
Theorem C21_merit_one_refuted : exists (o : mopts dbl) (mer : double -> double), forall fuel, merit_search o fuel mer f1 f0 = None.
Proof. exact merit_loops_one. Qed.
Print Assumptions C21_merit_one_refuted.

(** C23 on doubles: over any sequence of QP solutions, if equality multipliers are not NaN and
    inequality multipliers are nonnegative, the weights cover the multipliers of the last QP and one
    more update loses at most half of a weight. *)
Theorem C23_double : forall q0 qs, qp_duals q0 -> Forall (fun q => shaped q0 q /\ qp_duals q) qs ->
  dominates (weights_run q0 qs) (last qs q0) /\ nonneg_weights (weights_run q0 qs) /\
  (forall q, shaped q0 q -> qp_duals q -> keeps_half (weights_run q0 qs) (weights_run q0 (qs ++ [q]))).
Proof. exact weights_run_spec. Qed.
Print Assumptions C23_double.
Theorem C23_real : forall t w : R, Rmax t ((t + w) / 2) = upd_weight (A := real) t w.
Proof. exact upd_weight_real. Qed.
Print Assumptions C23_real.
Example C23_case : exists q0 q1 : duals dbl, qp_duals q0 /\ shaped q0 q1 /\ qp_duals q1 /\
  match du_pi (weights_run q0 [q1]), du_lam (weights_run q0 [q1]) with
  | [[a]], [[b]] => feq a (dcst 3 0) && feq b (dcst 4 0) | _, _ => false end = true.
Proof.
  exists (mkDuals [[dcst (-3) 0]] [[dcst 1 0]]), (mkDuals [[dcst 3 0]] [[dcst 4 0]]).
  split; [split; repeat constructor|]. split; [split; repeat constructor|]. split; [split; repeat constructor|].
  vm_compute. reflexivity.
Qed.
(** a negative inequality multiplier is not covered, in absolute value, by its weight *)
Theorem C23_negative_refuted : exists (w q : duals dbl), shaped w q /\ nonneg_weights w /\
  ~ covers (fun t w => fle (fabs t) (fabs w) = true) (du_lam q) (du_lam (update_weights w q)).
Proof. exact weights_negative. Qed.
Print Assumptions C23_negative_refuted.

(** C24: the ways the solver can continue with a step - the tested decrease, the full step tested
    before a second order correction, or the minimum step, which is not tested. *)
Theorem C24_cases : forall A (o : mopts A) iterate qpsol n (P : prob A iterate qpsol) it q (s s' : mstate A iterate) q',
  merit_find o n P it q s = Some (s', q', ACADOS_SUCCESS) ->
  let m := p_merit P q' (ms_w s') (ms_out s) in
  let a := ms_step s' in
  (finite (m a) = true /\ exists dm, nltb (m a) (nadd (m n0) (nmul (nmul (mo_eps o) dm) a)) = true /\
     dm = (if mo_suff o then (if nltb n0 (p_grad P q' (ms_w s') (ms_out s)) then n0 else p_grad P q' (ms_w s') (ms_out s)) else n0)) \/
  (mo_soc o = true /\ a = n1 /\ finite (m n1) = true /\ nltb (m n1) (m n0) = true /\
     nltb (p_viol P q' (ms_out s) n1) (p_viol P q' (ms_out s) n0) = true) \/
  nltb (mo_alpha_min o) (nmul a (mo_alpha_reduction o)) = false.
Proof. exact merit_find_cases. Qed.
Print Assumptions C24_cases.
Example C24_accepts : match merit_search mopts_d 20 good_merit (good_merit f0) (dcst (-1) 0) with Some (st, a) => Z.eqb st ACADOS_SUCCESS && feq a f1 | None => false end = true.
Proof. exact merit_accepts. Qed.
(** the claim itself is false: with the default options the solver continues with SUCCESS at a step
    that was never evaluated, where the merit function is NaN *)
Theorem C24_refuted : exists (P : prob dbl double unit) s s',
  merit_find mopts_d 20 P 3 tt s = Some (s', tt, ACADOS_SUCCESS) /\
  ms_out s' = p_step P tt (ms_out s) (ms_step s') /\
  merit_search mopts_d 20 (p_merit P tt (ms_w s) (ms_out s)) (p_merit P tt (ms_w s) (ms_out s) f0) f0 = Some (ACADOS_MINSTEP, ms_step s') /\
  isnan (p_merit P tt (ms_w s) (ms_out s) (ms_step s')) = true.
Proof. exact merit_minstep_taken. Qed.
Print Assumptions C24_refuted.
(** and with a reduction factor not above alpha_min the full step is taken without any evaluation *)
Theorem C24_full_step_refuted : exists (o : mopts dbl), flt f0 (mo_alpha_min o) = true /\ flt (mo_alpha_reduction o) f1 = true /\
  forall n mer m0 g, merit_search o (S n) mer m0 g = Some (ACADOS_MINSTEP, f1).
Proof. exact merit_full_step_unchecked. Qed.
Print Assumptions C24_full_step_refuted.

(** C25 on doubles (infinities and NaN included). *)
Theorem C25_accept : forall (o : mopts dbl) iterate n trial qc (s s' : dstate dbl iterate),
  ddp_find o n trial qc s = Some (s', ACADOS_SUCCESS) ->
  fle (ds_cost s') (ds_cost s) = true /\ trial (ds_out s) (ds_step s') = (ds_out s', ds_cost s').
Proof. exact ddp_cost_dbl. Qed.
Print Assumptions C25_accept.
Theorem C25_failure : forall A (o : mopts A) iterate n trial qc (s s' : dstate A iterate) st,
  ddp_find o n trial qc s = Some (s', st) -> st <> ACADOS_SUCCESS ->
  st = ACADOS_MINSTEP /\ ds_out s' = ds_out s /\ ds_cost s' = ds_cost s /\ ds_step s' = ds_step s /\ ds_alpha s' = n0.
Proof. exact ddp_fail. Qed.
Print Assumptions C25_failure.
(** in exact arithmetic the accepted cost also satisfies the sufficient-decrease condition *)
Theorem C25_armijo : forall (o : mopts real) iterate n trial qc (s s' : dstate real iterate),
  ddp_find o n trial qc s = Some (s', ACADOS_SUCCESS) ->
  (ds_cost s' <= ds_cost s /\ ds_cost s' <= ds_cost s - mo_eps o * ds_step s' * Rmax (- qc) 0 + / 10 ^ 18)%R.
Proof. exact ddp_armijo_real. Qed.
Print Assumptions C25_armijo.
Example C25_case : match ddp_find mopts_d 20 ddp_trial (dcst (-4) 0) (mkD f1 f1 f0 f0) with
  Some (s, st) => Z.eqb st ACADOS_SUCCESS && feq (ds_out s) f0 && feq (ds_cost s) f0 | None => false end = true.
Proof. exact ddp_accepts. Qed.

