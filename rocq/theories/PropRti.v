(** Properties C05, C15, C16 of the real-time-iteration solver (acados/ocp_nlp/ocp_nlp_sqp_rti.c). *)
From Coq Require Import ZArith List Bool Lia.
From Verif Require Import FP SqpModel RtiModel RtiSpec RtiProofs RtiTop RtiExact RtiCases.
Import ListNotations.
Open Scope Z_scope.

(** C05, standard RTI: a call history stays inside the statistics table exactly when no prefix has
    more than as_rti_iter + 1 feedbacks since the last preparation. *)
Theorem C05_standard : forall iterate world (Or : rti_oracles iterate world) opts s l,
  as_level opts = STANDARD_RTI -> 0 <= as_rti_iter opts -> rti_created opts s ->
  (exists s', rti_calls Or opts l s = Ok s') <->
  (forall p q, l = p ++ q -> feedbacks_since p <= as_rti_iter opts + 1).
Proof. exact rti_standard. Qed.
Print Assumptions C05_standard.

Example C05_standard_case :
  rsum (rti_calls (rtoy 9 0 true) (rtoy_opts STANDARD_RTI 1 true)
     [Call FEEDBACK; Call PREPARATION; Call FEEDBACK; ResetQp; Call FEEDBACK; Call PREPARATION_AND_FEEDBACK]
     (rtoy_mem (rtoy_opts STANDARD_RTI 1 true) 4)) = Some (0, 1, -795, 8).
Proof. vm_compute. reflexivity. Qed.

(** C05, advanced-step levels: preparation and feedback alternating (at most one feedback per
    preparation) never writes outside the table. *)
Theorem C05_advanced : forall iterate world (Or : rti_oracles iterate world) opts s l,
  as_level opts <> STANDARD_RTI -> 0 <= as_rti_iter opts ->
  (as_level opts = LEVEL_A -> 1 <= as_rti_iter opts) -> rti_created opts s ->
  (forall p q, l = p ++ q -> feedbacks_since p <= 1) -> rti_calls Or opts l s <> UB.
Proof. exact rti_advanced. Qed.
Print Assumptions C05_advanced.

Example C05_advanced_case :
  rsum (rti_calls (rtoy 9 0 true) (rtoy_opts LEVEL_D 3 true)
     [Call PREPARATION; Call FEEDBACK; Call PREPARATION; Call FEEDBACK]
     (rtoy_mem (rtoy_opts LEVEL_D 3 true) 4)) <> None.
Proof. vm_compute. discriminate. Qed.

(** C05, advanced-step levels, exactly which histories are safe: those along which the row reached in the
    least favourable case, all submodules succeeding, stays in the table. *)
Theorem C05_advanced_exact : forall opts l, as_level opts <> STANDARD_RTI -> 0 <= as_rti_iter opts ->
  (forall (iterate world : Type) (Or : rti_oracles iterate world) s, rti_created opts s -> rti_calls Or opts l s <> UB) <->
  (forall p q, l = p ++ q -> ~ In (Call PREPARATION_AND_FEEDBACK) p -> rows_used opts p <= as_rti_iter opts + 1).
Proof. exact rti_advanced_exact. Qed.
Print Assumptions C05_advanced_exact.
(** with two inner iterations: two feedbacks after the first preparation, one after the second, then a second one too many *)
Example C05_advanced_exact_case : map (rows_used (rtoy_opts LEVEL_B 2 true))
  [[Call PREPARATION; Call FEEDBACK; Call FEEDBACK];
   [Call PREPARATION; Call FEEDBACK; Call FEEDBACK; Call PREPARATION; Call FEEDBACK];
   [Call PREPARATION; Call FEEDBACK; Call FEEDBACK; Call PREPARATION; Call FEEDBACK; Call FEEDBACK];
   [Call PREPARATION; Call FEEDBACK; ResetQp; Call PREPARATION; Call FEEDBACK]] = [2; 3; 4; 1].
Proof. vm_compute. reflexivity. Qed.

(** C05 as stated (any history) is false: a second feedback, LEVEL_A with as_rti_iter = 0, and
    residual logging enabled after creation all write behind the table. *)
Theorem C05_two_feedbacks_refuted : exists (Or : rti_oracles Z tw) opts s,
  as_level opts = STANDARD_RTI /\ 0 <= as_rti_iter opts /\ rti_created opts s /\
  rti_calls Or opts [Call PREPARATION; Call FEEDBACK; Call FEEDBACK] s = UB.
Proof. exact rti_two_feedbacks. Qed.
Print Assumptions C05_two_feedbacks_refuted.

Theorem C05_level_a_refuted : exists (Or : rti_oracles Z tw) opts s,
  as_level opts = LEVEL_A /\ 0 <= as_rti_iter opts /\ rti_created opts s /\
  rti_calls Or opts [Call PREPARATION; Call FEEDBACK; Call PREPARATION; Call FEEDBACK] s = UB.
Proof. exact rti_level_a_zero. Qed.
Print Assumptions C05_level_a_refuted.

Theorem C05_log_toggled_refuted : exists (Or : rti_oracles Z tw) created opts s,
  as_level opts = STANDARD_RTI /\ as_rti_iter opts = as_rti_iter created /\ 0 <= as_rti_iter opts /\
  log_res created = false /\ log_res opts = true /\ rti_created created s /\
  rti_calls Or opts [Call PREPARATION_AND_FEEDBACK] s = UB.
Proof. exact rti_log_toggled. Qed.
Print Assumptions C05_log_toggled_refuted.

(** C15: after any history, a feedback or combined call solves exactly one QP and reports success
    iff that QP ended with success or iteration limit, QP failure otherwise. *)
Theorem C15_status : forall iterate world (Or : rti_oracles iterate world) opts s0 l s ph s',
  0 <= as_rti_iter opts -> rti_created opts s0 -> rti_calls Or opts l s0 = Ok s ->
  ph = FEEDBACK \/ ph = PREPARATION_AND_FEEDBACK -> rti_call Or opts ph s = Ok s' ->
  exists st tr, m_tr s' = tr ++ RQp st :: m_tr s /\ (tr = [] \/ exists g, tr = [RGlob g]) /\
   (m_status s' = ACADOS_SUCCESS <-> st = ACADOS_SUCCESS \/ st = ACADOS_MAXITER) /\
   (m_status s' = ACADOS_QP_FAILURE <-> st <> ACADOS_SUCCESS /\ st <> ACADOS_MAXITER).
Proof. exact rti_status_history. Qed.
Print Assumptions C15_status.

Example C15_case :
  rsum (rti_calls (rtoy 2 0 true) (rtoy_opts STANDARD_RTI 0 true)
     [Call PREPARATION_AND_FEEDBACK; Call PREPARATION; Call FEEDBACK; Call PREPARATION; Call FEEDBACK]
     (rtoy_mem (rtoy_opts STANDARD_RTI 0 true) 4)) = Some (4, 1, -427, 5).
Proof. vm_compute. reflexivity. Qed.

(** C15, finding: the outcome of the globalization is ignored. *)
Theorem C15_globalization_refuted : exists (Or : rti_oracles Z tw) opts s s' g,
  rti_created opts s /\ m_tr s = [] /\ rti_calls Or opts [Call PREPARATION_AND_FEEDBACK] s = Ok s' /\
  In (RGlob g) (m_tr s') /\ g = ACADOS_MINSTEP /\ m_status s' = ACADOS_SUCCESS.
Proof. exact rti_glob_ignored. Qed.
Print Assumptions C15_globalization_refuted.

(** C15, finding: a preparation call returns the status of the call before it. *)
Theorem C15_preparation_refuted : exists (Or : rti_oracles Z tw) opts s s1 s2,
  as_level opts = STANDARD_RTI /\ rti_created opts s /\
  rti_calls Or opts [Call PREPARATION_AND_FEEDBACK] s = Ok s1 /\
  rti_call Or opts PREPARATION s1 = Ok s2 /\ m_tr s2 = m_tr s1 /\ m_status s2 = ACADOS_QP_FAILURE.
Proof. exact rti_prep_stale. Qed.
Print Assumptions C15_preparation_refuted.

(** C16: preparation then feedback leaves the same memory (iterate, status, statistics, QP data) as
    the combined call when the submodules split exactly ([split_laws]). *)
Theorem C16_split : forall iterate world (Or : rti_oracles iterate world) opts s,
  as_level opts = STANDARD_RTI -> split_laws iterate world Or ->
  rti_calls Or opts [Call PREPARATION; Call FEEDBACK] s = rti_calls Or opts [Call PREPARATION_AND_FEEDBACK] s.
Proof. exact rti_split. Qed.
Print Assumptions C16_split.

Example C16_laws_hold : split_laws Z tw (rtoy 9 0 true).
Proof. exact (rtoy_split 9 0 true). Qed.
Example C16_case :
  rsum (rti_calls (rtoy 9 0 true) (rtoy_opts STANDARD_RTI 0 true) [Call PREPARATION; Call FEEDBACK] (rtoy_mem (rtoy_opts STANDARD_RTI 0 true) 4))
   = Some (0, 1, -82, 2).
Proof. vm_compute. reflexivity. Qed.
(** the laws are needed *)
Example C16_laws_needed :
  rsum (rti_calls bad (rtoy_opts STANDARD_RTI 0 true) [Call PREPARATION; Call FEEDBACK] (rtoy_mem (rtoy_opts STANDARD_RTI 0 true) 4)) <>
  rsum (rti_calls bad (rtoy_opts STANDARD_RTI 0 true) [Call PREPARATION_AND_FEEDBACK] (rtoy_mem (rtoy_opts STANDARD_RTI 0 true) 4)).
Proof. exact rti_split_needed. Qed.
