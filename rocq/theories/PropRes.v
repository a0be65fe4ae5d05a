(** Property theorems: KKT residual norms. *)
From Coq Require Import ZArith List Bool Lia Reals Lra.
From Verif Require Import FP Arith Vec RSum ResModel ResProofs ResTop.
Open Scope R_scope.

(** C11: the norms are the largest entries over every stage, for every previous content of the scratch vector.
    [nrm] is BLASFEO's infinity norm. *)
Theorem C11_stationarity : forall nrm, (forall n v, largest (fun x => exists k, (k < n)%nat /\ x = Rabs (v k)) (nrm n v)) -> forall (r : res_in real) tmp,
  largest (fun x => exists i k, (i <= rN r)%nat /\ (k < rnv r i)%nat /\ x = Rabs (cost_grad r i k - ineq_adj r i k - (if (k <? rnu r i + rnx r i)%nat then dyn_adj r i k else 0)))
    (inf_norm_res_stat (res_compute nrm r tmp)).
Proof. exact stat_norm. Qed.
Print Assumptions C11_stationarity.
Theorem C11_dynamics : forall nrm, (forall n v, largest (fun x => exists k, (k < n)%nat /\ x = Rabs (v k)) (nrm n v)) -> forall (r : res_in real) tmp,
  largest (fun x => exists i k, (i < rN r)%nat /\ (k < rnx r (S i))%nat /\ x = Rabs (dyn_fun r i k)) (inf_norm_res_eq (res_compute nrm r tmp)).
Proof. exact eq_norm. Qed.
Print Assumptions C11_dynamics.
Theorem C11_inequalities : forall nrm (r : res_in real) tmp,
  largest (fun x => exists i k, (i <= rN r)%nat /\ (k < 2 * rni r i)%nat /\ x = ineq_fun r i k) (inf_norm_res_ineq (res_compute nrm r tmp)).
Proof. exact ineq_norm_largest. Qed.
Print Assumptions C11_inequalities.
Theorem C11_complementarity : forall nrm, (forall n v, largest (fun x => exists k, (k < n)%nat /\ x = Rabs (v k)) (nrm n v)) -> forall (r : res_in real) tmp, tau_min r = 0 ->
  largest (fun x => exists i k, (i <= rN r)%nat /\ (k < 2 * rni r i)%nat /\ x = Rabs (rlam r i k * ineq_fun r i k)) (inf_norm_res_comp (res_compute nrm r tmp)).
Proof. exact comp_norm. Qed.
Print Assumptions C11_complementarity.
(** with a barrier parameter: the unmasked entries that belong to no equality, provided every stage has constraints and no
    stage has both equalities and slacks; the upper entry of constraint j is ni - ns behind the lower one *)
Theorem C11_complementarity_barrier : forall nrm, (forall n v, largest (fun x => exists k, (k < n)%nat /\ x = Rabs (v k)) (nrm n v)) -> forall (r : res_in real) tmp ns, tau_min r <> 0 ->
  (forall i, (i <= rN r)%nat -> (0 < rni r i)%nat /\ (ns i = 0%nat \/ rne r i = 0%nat)) ->
  largest (fun x => exists i k, (i <= rN r)%nat /\ (k < 2 * rni r i)%nat /\ ~ (exists j, (j < rne r i)%nat /\ (k = idxe r i j \/ k = (idxe r i j + (rni r i - ns i))%nat)) /\
             x = Rabs (dmask r i k * (rlam r i k * ineq_fun r i k + tau_min r))) (inf_norm_res_comp (res_compute nrm r tmp)).
Proof. exact comp_tau_good. Qed.
Print Assumptions C11_complementarity_barrier.
(** what the code computes in every case with a barrier parameter: leftovers of the other residuals come in *)
Theorem C11_complementarity_actual : forall nrm, (forall n v, largest (fun x => exists k, (k < n)%nat /\ x = Rabs (v k)) (nrm n v)) -> forall (r : res_in real) tmp, tau_min r <> 0 ->
  largest (fun x => comp_tau_set r x \/ stale_set r x) (inf_norm_res_comp (res_compute nrm r tmp)).
Proof. exact comp_tau_norm. Qed.
Print Assumptions C11_complementarity_actual.
(** finding: a stage without inequalities contributes its dynamics gap to the complementarity norm *)
Theorem C11_barrier_refuted : forall nrm, (forall n v, largest (fun x => exists k, (k < n)%nat /\ x = Rabs (v k)) (nrm n v)) ->
  exists r, (forall i, rne r i = 0%nat) /\ forall tmp, ~ largest (comp_intended r (fun _ => 0%nat)) (inf_norm_res_comp (res_compute nrm r tmp)).
Proof. exact stale_refuted. Qed.
Print Assumptions C11_barrier_refuted.
(** finding: with soft constraints the wrong entry is taken for the upper side of an equality *)
Theorem C11_equality_offset_refuted : forall nrm, (forall n v, largest (fun x => exists k, (k < n)%nat /\ x = Rabs (v k)) (nrm n v)) ->
  exists r ns, (forall i, (0 < rni r i)%nat) /\ forall tmp, ~ largest (comp_intended r ns) (inf_norm_res_comp (res_compute nrm r tmp)).
Proof. exact soft_refuted. Qed.
Print Assumptions C11_equality_offset_refuted.
Theorem C11_total : forall nrm (r : res_in real) tmp, let o := res_compute nrm r tmp in let m := res_get_inf_norm o in
  inf_norm_res_stat o <= m /\ inf_norm_res_eq o <= m /\ inf_norm_res_ineq o <= m /\ inf_norm_res_comp o <= m /\ (m = inf_norm_res_stat o \/ m = inf_norm_res_eq o \/ m = inf_norm_res_ineq o \/ m = inf_norm_res_comp o).
Proof. exact total_norm. Qed.
Print Assumptions C11_total.
Example C11_norm_exists : forall n v, largest (fun x => exists k, (k < n)%nat /\ x = Rabs (v k)) (nrmR n v).
Proof. exact nrmR_max. Qed.
Example C11_case : forall tmp, let o := res_compute nrmR r_ex tmp in inf_norm_res_stat o = 3 /\ inf_norm_res_eq o = 5 /\ inf_norm_res_ineq o = 4 /\ inf_norm_res_comp o = 8.
Proof. exact ex_norms. Qed.

(** C10: in double arithmetic the inequality norm is never NaN, whatever the constraint values *)
Theorem C10_never_nan : forall r, isnan (ineq_norm r) = false.
Proof. exact ineq_norm_not_nan. Qed.
Print Assumptions C10_never_nan.
Theorem C10_refuted : exists r : res_in dbl, (exists i k, (i <= rN r)%nat /\ (k < 2 * rni r i)%nat /\ isnan (ineq_fun r i k) = true) /\
  forall nrm tmp, isnan (inf_norm_res_ineq (res_compute nrm r tmp)) = false.
Proof. exact nan_ineq_lost. Qed.
Print Assumptions C10_refuted.
(** a NaN still shows in the complementarity norm, which SQP tests too, if BLASFEO's norm propagates NaN ... *)
Theorem C10_complementarity : forall nrm, nan_norm nrm -> forall (r : res_in dbl) tmp i k, (i <= rN r)%nat -> (k < 2 * rni r i)%nat -> isnan (ineq_fun r i k) = true ->
  ~ (exists j, (j < rne r i)%nat /\ (k = idxe r i j \/ k = (idxe r i j + rni r i)%nat)) -> isnan (inf_norm_res_comp (res_compute nrm r tmp)) = true.
Proof. exact nan_in_comp_tau. Qed.
Print Assumptions C10_complementarity.
(** ... but with a barrier parameter a NaN equality constraint leaves every norm without NaN *)
Theorem C10_equality_refuted : exists r : res_in dbl, (exists i k, (i <= rN r)%nat /\ (k < 2 * rni r i)%nat /\ isnan (ineq_fun r i k) = true) /\
  forall nrm tmp, nan_norm nrm -> let o := res_compute nrm r tmp in
  isnan (inf_norm_res_stat o) = false /\ isnan (inf_norm_res_eq o) = false /\ isnan (inf_norm_res_ineq o) = false /\ isnan (inf_norm_res_comp o) = false.
Proof. exact nan_equality_lost. Qed.
Print Assumptions C10_equality_refuted.
Example C10_norm_exists : nan_norm nrmD.
Proof. exact nrmD_nan. Qed.
