(** Property theorems: iterate updates of the SQP family and of DDP. *)
From Coq Require Import ZArith List Bool Lia Reals Lra.
From Verif Require Import Arith Vec RSum StepModel StepTop StepCases.
Open Scope R_scope.

(** C26: the update is old + alpha * step, the multipliers the convex combination (or the QP multipliers), for
    every step length and whether the destination is the source or another object *)
Theorem C26_primal : forall d zd src qp dst, dst <> qp -> forall (alpha : R) full (h : heap real) i k, in_iterate d Fux i k ->
  update_variables_sqp d zd src qp dst alpha full h dst Fux i k = h src Fux i k + alpha * h qp Fux i k.
Proof. exact upd_ux. Qed.
Print Assumptions C26_primal.
Theorem C26_dual : forall d zd src qp dst, dst <> qp -> forall (alpha : R) full (h : heap real) f i k, f = Flam \/ f = Fpi -> in_iterate d f i k ->
  update_variables_sqp d zd src qp dst alpha full h dst f i k = if full then h qp f i k else (1 - alpha) * h src f i k + alpha * h qp f i k.
Proof. exact upd_dual. Qed.
Print Assumptions C26_dual.
Theorem C26_algebraic : forall d (zd : zdata real) src qp dst, dst <> qp -> forall (alpha : R) full (h : heap real) i k, in_iterate d Fz i k ->
  update_variables_sqp d zd src qp dst alpha full h dst Fz i k = z_alg zd i k + alpha * sum (snu d i + snx d i) (fun r => dzduxt zd i r k * h qp Fux i r).
Proof. exact upd_z. Qed.
Print Assumptions C26_algebraic.
Theorem C26_nothing_else : forall d zd src qp dst, dst <> qp -> forall (alpha : R) full (h : heap real) ob f i k, ob <> dst \/ ~ in_iterate d f i k ->
  update_variables_sqp d zd src qp dst alpha full h ob f i k = h ob f i k.
Proof. exact upd_frame. Qed.
Print Assumptions C26_nothing_else.
Theorem C26_nonnegative : forall d zd src qp dst, dst <> qp -> forall (alpha : R) full (h : heap real) i k, 0 <= alpha <= 1 -> in_iterate d Flam i k ->
  0 <= h src Flam i k -> 0 <= h qp Flam i k -> 0 <= update_variables_sqp d zd src qp dst alpha full h dst Flam i k.
Proof. exact upd_nonneg. Qed.
Print Assumptions C26_nonnegative.
Example C26_case : forall dst, dst <> 1%nat -> let h' := update_variables_sqp d2 zd2 0 1 dst (1 / 2)%R false h2 in
  h' dst Fux 1%nat 0%nat = 5 / 2 /\ h' dst Flam 2%nat 1%nat = 2 /\ h' dst Fpi 1%nat 0%nat = 2 /\ h' dst Fz 0%nat 0%nat = 5.
Proof. exact half_step. Qed.

(** C18: the DDP trial trajectory is a rollout of the dynamics, for every step length, gains and dynamics *)
Theorem C18_rollout : forall d zd src qp dst, dst <> qp -> forall (alpha : R) K kff phi full (h : heap real) i r, (i < sN d)%nat -> (r < snx d (S i))%nat ->
  let h' := ddp_trial d zd src qp dst alpha K kff phi full h in h' dst Fux (S i) (snu d (S i) + r)%nat = phi i (h' dst Fux i) r.
Proof. exact trial_rollout. Qed.
Print Assumptions C18_rollout.
Theorem C18_initial_state : forall d zd src qp dst, dst <> qp -> forall (alpha : R) K kff phi full (h : heap real) k, (k < snx d 0)%nat ->
  ddp_trial d zd src qp dst alpha K kff phi full h dst Fux 0%nat (snu d 0 + k)%nat = h src Fux 0%nat (snu d 0 + k)%nat + alpha * h qp Fux 0%nat (snu d 0 + k)%nat.
Proof. exact trial_x0. Qed.
Print Assumptions C18_initial_state.
Theorem C18_feedback : forall d zd src qp dst, dst <> qp -> forall (alpha : R) K kff phi full (h : heap real) i r, src <> dst -> (i < sN d)%nat -> (r < snu d i)%nat ->
  let h' := ddp_trial d zd src qp dst alpha K kff phi full h in
  h' dst Fux i r = h src Fux i r + alpha * kff i r + sum (snx d i) (fun c => K i r c * (h' dst Fux i (snu d i + c)%nat - h src Fux i (snu d i + c)%nat)).
Proof. exact trial_control. Qed.
Print Assumptions C18_feedback.
Theorem C18_source_kept : forall d zd src qp dst (alpha : R) K kff phi full (h : heap real) ob f st, ob <> dst -> ddp_trial d zd src qp dst alpha K kff phi full h ob f st = h ob f st.
Proof. exact trial_others. Qed.
Print Assumptions C18_source_kept.
Example C18_case : let h' := ddp_trial d2 zd2 0 1 2 1%R K2 k2 phi2 false h2 in
  h' 2%nat Fux 0%nat 1%nat = 4 /\ h' 2%nat Fux 0%nat 0%nat = 17 /\ h' 2%nat Fux 1%nat 1%nat = 25.
Proof. exact trial_values. Qed.
(** finding: updating the iterate in place (fixed step globalization) drops the feedback term *)
Theorem C18_in_place : forall d zd src qp dst, dst <> qp -> forall (alpha : R) K kff phi full (h : heap real) i r, src = dst -> (i < sN d)%nat -> (r < snu d i)%nat ->
  ddp_trial d zd src qp dst alpha K kff phi full h dst Fux i r = h src Fux i r + alpha * kff i r.
Proof. exact trial_control_in_place. Qed.
Print Assumptions C18_in_place.
Theorem C18_in_place_refuted : exists d zd out qp (alpha : R) K kff phi full (h : heap real) i r, out <> qp /\ (i < sN d)%nat /\ (r < snu d i)%nat /\
  let h' := ddp_trial d zd out qp out alpha K kff phi full h in
  h' out Fux i r <> h out Fux i r + alpha * kff i r + sum (snx d i) (fun c => K i r c * (h' out Fux i (snu d i + c)%nat - h out Fux i (snu d i + c)%nat)).
Proof. exact in_place_refuted. Qed.
Print Assumptions C18_in_place_refuted.

(** C19: the blend of old and new multipliers holds when the buffer holds the iterate's multipliers ... *)
Theorem C19_blend : forall d zd src qp dst, dst <> qp -> forall (alpha : R) K kff phi full (h : heap real) f i k,
  (forall f i k, h dst f i k = h src f i k) \/ src = dst -> f = Flam \/ f = Fpi -> in_iterate d f i k ->
  ddp_trial d zd src qp dst alpha K kff phi full h dst f i k = if full then h qp f i k else (1 - alpha) * h src f i k + alpha * h qp f i k.
Proof. exact trial_blend. Qed.
Print Assumptions C19_blend.
(** ... and in general blends with whatever the buffer held *)
Theorem C19_buffer : forall d zd src qp dst, dst <> qp -> forall (alpha : R) K kff phi full (h : heap real) f i k, f = Flam \/ f = Fpi -> in_iterate d f i k ->
  ddp_trial d zd src qp dst alpha K kff phi full h dst f i k = if full then h qp f i k else (1 - alpha) * h dst f i k + alpha * h qp f i k.
Proof. exact trial_duals. Qed.
Print Assumptions C19_buffer.
Theorem C19_refuted : exists d zd src qp dst (alpha : R) K kff phi (h : heap real) i k, dst <> qp /\ in_iterate d Flam i k /\
  ddp_trial d zd src qp dst alpha K kff phi false h dst Flam i k <> (1 - alpha) * h src Flam i k + alpha * h qp Flam i k.
Proof. exact blend_refuted. Qed.
Print Assumptions C19_refuted.
(** in the line search the first trial has length 1, so every later trial carries the full QP multipliers *)
Theorem C19_after_full_trial : forall d zd src qp dst K kff phi K2 kff2 phi2 (alpha2 : R) full (h : heap real) f i k, dst <> qp -> f = Flam \/ f = Fpi -> in_iterate d f i k ->
  ddp_trial d zd src qp dst alpha2 K2 kff2 phi2 full (ddp_trial d zd src qp dst 1%R K kff phi full h) dst f i k = h qp f i k.
Proof. exact second_trial. Qed.
Print Assumptions C19_after_full_trial.
Example C19_case : let h1 := ddp_trial d2 zd2 0 1 2 1%R K2 k2 phi2 false h2 in let h' := ddp_trial d2 zd2 0 1 2 (1 / 2)%R K2 k2 phi2 false h1 in
  h' 2%nat Flam 0%nat 0%nat = 3 /\ (1 - 1 / 2) * h2 0%nat Flam 0%nat 0%nat + 1 / 2 * h2 1%nat Flam 0%nat 0%nat = 2.
Proof. exact backtracked_blend. Qed.
(** finding: the option full_step_dual is read through the wrong struct *)
Theorem C19_flag_refuted : exists g, full_step_dual (glob_common g) = 1%Z /\ ddp_full_flag g = false.
Proof. exact flag_ignored. Qed.
Print Assumptions C19_flag_refuted.
Theorem C19_flag_soc_refuted : exists g, full_step_dual (glob_common g) = 0%Z /\ use_SOC (glob_common g) = 1%Z /\ ddp_full_flag g = true.
Proof. exact flag_from_soc. Qed.
Print Assumptions C19_flag_soc_refuted.
Theorem C19_flag_fixed_step : forall g p, p <> 0%Z -> ddp_full_flag (FixedStep p g) = true.
Proof. exact flag_from_pointer. Qed.
Print Assumptions C19_flag_fixed_step.
