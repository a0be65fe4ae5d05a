(** C75, C76: the qpOASES interface. *)
From Coq Require Import ZArith List Bool Reals.
From Verif Require Import Arr Arith RSum DenseModel QpoModel DenseSpec DenseProofs StackProofs QpoKkt QpoRun QpoCases QpoEnd.
Import ListNotations.
Open Scope R_scope.

(** Every KKT point of the QP handed to qpOASES, with the slacks turned into bounded variables, is turned into a KKT point of the dense QP,
    when the conditions [stackable] hold, nothing is masked, there are no equality constraints, and no artificial bound is active. *)
Theorem C75_kkt : forall inf d (q o : rdqp) x y, own_bounds d q -> one_row_each d q -> stackable d q -> dne d = 0%nat -> (forall m, (m < dall d)%nat -> dq_mask q m = 1) ->
  box_kkt (qpo_in inf d q o) x y -> (forall r, (r < dnv d)%nat -> - inf < x r < inf) -> (forall e, (e < 2 * dns d)%nat -> x (dnv d + e)%nat < 1000000) ->
  forall i0 ct out sg, dkkt d q sg (qpo_out d q i0 ct x y out).
Proof. exact qpo_kkt. Qed.
Print Assumptions C75_kkt.

(** The slacks t are the values of the inequality constraints; the equality multipliers are not written. *)
Theorem C75_t : forall d (q : rdqp) i0 x y out, own_bounds d q -> one_row_each d q -> let s := qpo_out d q i0 true x y out in
  (forall m, (m < dall d)%nat -> ds_t s m = dineq d q (ds_v s) m) /\ ds_pi s = ds_pi out.
Proof. exact qpo_t. Qed.
Print Assumptions C75_t.

(** The assertions in the stacking of the slacks hold ... *)
Theorem C75_asserts : forall d (q o : rdqp), one_row_each d q -> (0 < dns d)%nat -> stack_asserts d q o = true.
Proof. exact asserts_hold. Qed.
Print Assumptions C75_asserts.
(** ... the one in the function that undoes it only without general and without softened bounds. *)
Theorem C75_unstack_assert : forall d (q : rdqp), (0 < dns d)%nat -> unstack_assert d q = true <-> dng d = 0%nat /\ nsb_of d q = 0%nat.
Proof. exact unstack_contradicts. Qed.
Print Assumptions C75_unstack_assert.

Example C75_example : own_bounds dV qV /\ one_row_each dV qV /\ stackable dV qV /\ (forall m, (m < dall dV)%nat -> dq_mask qV m = 1) /\ box_kkt (qpo_in 1000 dV qV o0) xV yV /\ -1000 < xV 0%nat < 1000 /\
  (forall e, (e < 2 * dns dV)%nat -> xV (dnv dV + e)%nat < 1000000) /\
  ds_v outV 0%nat = -2 /\ ds_v outV 1%nat = 2 /\ ds_lam outV 0%nat = 3 /\ ds_lam outV 5%nat = 1 /\ ds_t outV 0%nat = 0 /\ ds_t outV 2%nat = 12.
Proof. exact V_all. Qed.

(** The conditions are needed.  With slacks present, the bound of variable idxb[0] = 1 is put on variable 0. *)
Theorem C75_idxb_refuted : own_bounds dB qB /\ one_row_each dB qB /\
  (forall e, (e < 2 * dns dB)%nat -> dq_d qB (2 * drows dB + e)%nat = 0 /\ 0 <= dq_Z qB e /\ 0 <= dq_g qB (dnv dB + e)%nat) /\ (forall m, (m < dall dB)%nat -> dq_mask qB m = 1) /\
  (forall i j, (i < j < dnb dB)%nat -> False) /\ (forall r, (r < 4)%nat -> -1000 < xB r < 1000) /\
  box_kkt (qpo_in 1000 dB qB o0) xB yB /\ forall sg i0 ct out, ~ dkkt dB qB sg (qpo_out dB qB i0 ct xB yB out).
Proof. exact qpo_idxb_refuted. Qed.
Print Assumptions C75_idxb_refuted.

(** Masked bounds are handed to the solver; their multipliers are masked afterwards. *)
Theorem C75_mask_refuted : own_bounds dW qW /\ one_row_each dW qW /\ stackable dW qW /\ box_kkt (qpo_in 1000 dW qW o0) (lr [0]) (lr [1]) /\
  (exists s, dkkt dW qW (-1) s) /\ forall sg i0 ct out, ~ dkkt dW qW sg (qpo_out dW qW i0 ct (lr [0]) (lr [1]) out).
Proof. exact qpo_mask_refuted. Qed.
Print Assumptions C75_mask_refuted.

(** Lower bounds of the slacks other than zero: one row gets both slacks, lower and upper. *)
Theorem C75_slack_bound_refuted : own_bounds dZ qZ /\ one_row_each dZ qZ /\ (forall i j, (i < j < dnb dZ)%nat -> False) /\ (forall i, (i < dnb dZ)%nat -> dq_idxb qZ i = i) /\
  (forall e, (e < 2 * dns dZ)%nat -> 0 < dq_Z qZ e /\ 0 < dq_g qZ (dnv dZ + e)%nat) /\ (forall m, (m < dall dZ)%nat -> dq_mask qZ m = 1) /\
  box_kkt (qpo_in 1000 dZ qZ o0) xZ yZ /\ forall sg i0 ct out, ~ dkkt dZ qZ sg (qpo_out dZ qZ i0 ct xZ yZ out).
Proof. exact qpo_slack_bound_refuted. Qed.
Print Assumptions C75_slack_bound_refuted.

(** Slacks of softened bounds that are not numbered in the order of the bounds: multipliers go to the wrong bound. *)
Theorem C75_slack_order_refuted : own_bounds dP qP /\ one_row_each dP qP /\ (forall i, (i < dnb dP)%nat -> dq_idxb qP i = i) /\
  (forall e, (e < 2 * dns dP)%nat -> dq_d qP (2 * drows dP + e)%nat = 0 /\ 0 <= dq_Z qP e /\ 0 <= dq_g qP (dnv dP + e)%nat) /\ (forall m, (m < dall dP)%nat -> dq_mask qP m = 1) /\
  box_kkt (qpo_in 1000 dP qP o0) xP yP /\ forall sg i0 ct out, ~ dkkt dP qP sg (qpo_out dP qP i0 ct xP yP out).
Proof. exact qpo_slack_order_refuted. Qed.
Print Assumptions C75_slack_order_refuted.

(** Slacks are capped at 1e6: a solvable dense QP becomes infeasible. *)
Theorem C75_slack_cap_refuted : own_bounds dC qC /\ one_row_each dC qC /\ stackable dC qC /\ (forall m, (m < dall dC)%nat -> dq_mask qC m = 1) /\
  (exists s, forall sg, dkkt dC qC sg s) /\ forall inf o x y, ~ box_kkt (qpo_in inf dC qC o) x y.
Proof. exact qpo_cap_refuted. Qed.
Print Assumptions C75_slack_cap_refuted.

(** Equality constraints are not handed over. *)
Theorem C75_equality_refuted : own_bounds dE qE /\ one_row_each dE qE /\ stackable dE qE /\ (forall m, (m < dall dE)%nat -> dq_mask qE m = 1) /\
  box_kkt (qpo_in 1000 dE qE o0) (lr [0]) (lr [0]) /\ forall sg i0 ct out, ~ dkkt dE qE sg (qpo_out dE qE i0 ct (lr [0]) (lr [0]) out).
Proof. exact qpo_equality_refuted. Qed.
Print Assumptions C75_equality_refuted.

(** Without hotstarts, or with general or soft constraints, the status is that of the solver; success means the solver reported success. *)
Theorem C76_status : (forall o gen first solver st f c, qo_hot o = false \/ gen = true -> qpo_run o gen first solver = Done (st, f, c) -> st = qpo_status (solver c)) /\
  (forall r, qpo_status r = 0%Z <-> r = SUCCESSFUL_RETURN).
Proof. exact (conj run_honest status_zero). Qed.
Print Assumptions C76_status.

(** With hotstarts and bounds only, success is reported whatever the solver says. *)
Theorem C76_status_refuted : forall o first solver, qo_hot o = true -> first = false \/ qo_acado o = false -> exists c, qpo_run o false first solver = Done (0%Z, false, c).
Proof. exact run_blind. Qed.
Print Assumptions C76_status_refuted.

(** Exactly the first hotstarted call with bounds only and the default options passes an indeterminate pointer. *)
Theorem C76_defined : forall o gen first solver, qpo_run o gen first solver = UB <-> qo_hot o = true /\ gen = false /\ first = true /\ qo_acado o = true.
Proof. exact run_defined. Qed.
Print Assumptions C76_defined.
Example C76_warm_start_2 : exists o, qpo_set_warm 2 qpo_default = Done o /\ qpo_run o false true (fun _ => SUCCESSFUL_RETURN) = UB.
Proof. eexists. split; reflexivity. Qed.

(** Without hotstarts every call solves the QP it is given. *)
Theorem C76_cold : forall o (l : list (box real)) b st, qo_hot o = false -> snd (qpo_calls o (l ++ [b]) st) = b.
Proof. exact calls_cold. Qed.
Print Assumptions C76_cold.
(** With hotstarts the matrices of the first QP are kept, the vectors are those of the last one; *)
Theorem C76_hot : forall o (b : box real) l s0, qo_hot o = true -> let r := qpo_calls o (b :: l) (true, s0) in
  fst r = false /\ bx_H (snd r) = bx_H b /\ bx_C (snd r) = bx_C b /\
  let n := last l b in bx_nv (snd r) = bx_nv n /\ bx_ng (snd r) = bx_ng n /\ bx_g (snd r) = bx_g n /\ bx_lb (snd r) = bx_lb n /\ bx_ub (snd r) = bx_ub n /\ bx_lg (snd r) = bx_lg n /\ bx_ug (snd r) = bx_ug n.
Proof. exact calls_hot. Qed.
Print Assumptions C76_hot.
(** so a new Hessian is not used. *)
Theorem C76_hessian_refuted : (forall h, own_bounds dH (qH h) /\ one_row_each dH (qH h) /\ stackable dH (qH h) /\ (forall m, (m < dall dH)%nat -> dq_mask (qH h) m = 1)) /\
  box_kkt (snd B2) (lr [2]) (lr [0; 0]) /\ forall sg i0 ct out, ~ dkkt dH (qH 2) sg (qpo_out dH (qH 2) i0 ct (lr [2]) (lr [0; 0]) out).
Proof. exact qpo_hessian_refuted. Qed.
Print Assumptions C76_hessian_refuted.
