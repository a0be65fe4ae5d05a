(** Property theorems: SQP with feasible QP. *)
From Coq Require Import ZArith List Bool Reals.
From Verif Require Import Arith Vec RSum FP SqpModel SqpSpec SqpCases WfqpModel WfqpProofs WfqpDriver WfqpRun WfqpTop.
Import ListNotations.

(** C54: which constraints get a slack of their own, and the numbering of all slacks of the feasibility QP *)
Theorem C54_numbering : forall d idxs, valid_idxs d idxs -> forall idxns0, exists idxns, precompute_idxns d idxs idxns0 = Some (idxns, Z.to_nat (w_nns d)) /\
  (forall i, (exists j, (j < Z.to_nat (w_nns d))%nat /\ idxns j = i) <-> (i < w_n d)%nat /\ (thr d <= i)%nat /\ forall j, (j < w_ns d)%nat -> idxs j <> i) /\
  (forall j k, (j < k < Z.to_nat (w_nns d))%nat -> (idxns j < idxns k)%nat) /\
  (let rev := relaxed_idxs_rev d idxs idxns (fun _ => -1)%Z in
   (forall j, (j < w_ns d)%nat -> rev (idxs j) = Z.of_nat j) /\
   (forall j, (j < Z.to_nat (w_nns d))%nat -> rev (idxns j) = Z.of_nat (j + w_ns d)) /\
   (forall s, (s < w_ns d + Z.to_nat (w_nns d))%nat -> exists i, (i < w_n d)%nat /\ rev i = Z.of_nat s /\ forall i', rev i' = Z.of_nat s -> i' = i) /\
   (forall i, (i < w_n d)%nat -> (rev i = -1)%Z <-> (i < thr d)%nat /\ forall j, (j < w_ns d)%nat -> idxs j <> i)).
Proof. exact numbering. Qed.
Print Assumptions C54_numbering.
(** finding: slacks declared through idxs_rev write outside the index array *)
Theorem C54_idxs_rev_refuted : exists d, (w_nbu d + w_nbx d <= w_n d)%nat /\ (w_ns d <= w_n d)%nat /\ w_nsbu d = 0%nat /\ w_nsbx d = 0%nat /\ precompute_idxns d (fun _ => 0%nat) (fun _ => 0%nat) = None.
Proof. exact idxs_rev_overflow. Qed.
Print Assumptions C54_idxs_rev_refuted.
Example C54_hypotheses : valid_idxs wd1 idxs1.
Proof. exact wd1_valid. Qed.
Example C54_case : match precompute_idxns wd1 idxs1 (fun _ => 0%nat) with
  | Some (idxns, k) => (map idxns (seq 0 k), map (relaxed_idxs_rev wd1 idxs1 idxns (fun _ => -1)%Z) (seq 0 5)) = ([2; 3]%nat, [0; -1; 2; 3; 1]%Z)
  | None => False end.
Proof. exact numbering_case. Qed.

Open Scope R_scope.
(** C53: a step feasible for the feasibility QP is feasible for the nominal QP with relaxed bounds *)
Theorem C53_feasible : forall d idxs idxns0 idxns cnt nrev (f : R) (mask dn relaxed0 mask0 val sl su : vecR),
  valid_idxs d idxs -> precompute_idxns d idxs idxns0 = Some (idxns, cnt) ->
  (forall j, (j < w_ns d)%nat -> nrev (idxs j) = Z.of_nat j) -> (forall i, (forall j, (j < w_ns d)%nat -> idxs j <> i) -> (nrev i < 0)%Z) ->
  (forall k, relaxed0 k = 0) -> 1 <= f ->
  let rev := relaxed_idxs_rev d idxs idxns (fun _ => -1)%Z in
  qp_feasible (w_n d) (w_ns d + cnt) (relaxed_mask (A := real) d mask mask0) (relaxed_d (A := real) d dn relaxed0) rev val sl su ->
  qp_feasible (w_n d) (w_ns d) mask (byrd_omojokun_bounds (A := real) d idxns rev f sl su dn) nrev val sl su.
Proof. exact relaxed_feasible. Qed.
Print Assumptions C53_feasible.
(** the bound on the factor is needed; the option is not validated *)
Theorem C53_factor_refuted : exists d idxs idxns cnt nrev (f : R) mask dn val sl su,
  valid_idxs d idxs /\ precompute_idxns d idxs (fun _ => 0%nat) = Some (idxns, cnt) /\
  (forall j, (j < w_ns d)%nat -> nrev (idxs j) = Z.of_nat j) /\ (forall i, (forall j, (j < w_ns d)%nat -> idxs j <> i) -> (nrev i < 0)%Z) /\ 0 < f < 1 /\
  let rev := relaxed_idxs_rev d idxs idxns (fun _ => -1)%Z in
  qp_feasible (w_n d) (w_ns d + cnt) (relaxed_mask (A := real) d mask (fun _ => 0)) (relaxed_d (A := real) d dn (fun _ => 0)) rev val sl su /\
  ~ qp_feasible (w_n d) (w_ns d) mask (byrd_omojokun_bounds (A := real) d idxns rev f sl su dn) nrev val sl su.
Proof. exact factor_below_one. Qed.
Print Assumptions C53_factor_refuted.
Example C53_case : let rev := relaxed_idxs_rev wd3 (fun _ => 0%nat) (fun _ => 0%nat) (fun _ => -1)%Z in
  byrd_omojokun_bounds (A := real) wd3 (fun _ => 0%nat) rev 1 (fun _ => 1) (fun _ => 1) dn3 0%nat = 0 /\ byrd_omojokun_bounds (A := real) wd3 (fun _ => 0%nat) rev 1 (fun _ => 1) (fun _ => 1) dn3 1%nat = -3.
Proof. exact factor_case. Qed.
Close Scope R_scope.
Open Scope Z_scope.

(** C55: the nominal QP is tried first and after every nominal step; the relaxed QPs are entered exactly when it failed *)
Theorem C55_enter : forall iterate world (Or : woracles iterate world) o, 0 < w_max o -> 0 <= max_iter (wb_opts o) -> w_mode o = NOMINAL_QP ->
  forall s0 s, wfqp_call Or o s0 = Some s ->
  (forall x r, rev (w_log s) = x :: r -> nominal_tried (typ x) = true) /\
  (forall a x y r, rev (w_log s) = a ++ x :: y :: r -> typ x = TypeN -> nominal_tried (typ y) = true) /\
  (forall x, In x (w_log s) -> (typ x = TypeN -> nominal_ok (inp x) = true) /\ (typ x = TypeNFN -> nominal_ok (inp x) = false) /\ typ x <> TypeF).
Proof. exact drv_enter. Qed.
Print Assumptions C55_enter.
(** C55: after a relaxed phase (x :: b) the nominal QP is tried again exactly when the phase had w_max iterations with zero slacks *)
Theorem C55_return : forall iterate world (Or : woracles iterate world) o, 0 < w_max o -> 0 <= max_iter (wb_opts o) -> w_mode o = NOMINAL_QP ->
  forall s0 s, wfqp_call Or o s0 = Some s -> forall a x b y c, rev (w_log s) = a ++ (x :: b) ++ y :: c -> typ x = TypeNFN -> Forall (fun z => typ z = TypeFN) b ->
  (nominal_tried (typ y) = true <-> w_allow o = true /\ zeros (x :: b) = w_max o) /\ (w_allow o = true -> zeros (removelast (x :: b)) < w_max o).
Proof. exact drv_return. Qed.
Print Assumptions C55_return.
(** finding: they need not be consecutive, contrary to the comment in the source *)
Theorem C55_consecutive_refuted : exists l m al x1 x2 x3 x4, is_run true 2 (sd_start NOMINAL_QP) l m al /\ l = [x1; x2; x3; x4] /\
  typ x1 = TypeNFN /\ typ x2 = TypeFN /\ typ x3 = TypeFN /\ slacks_zero (inp x2) = false /\ nominal_tried (typ x4) = true.
Proof. exact not_consecutive. Qed.
Print Assumptions C55_consecutive_refuted.
Example C55_case : map typ (fst (sd_run true 2 (sd_start NOMINAL_QP) [in_of true true true; in_of false true true; in_of true true true; in_of true true false])) = [TypeN; TypeNFN; TypeFN; TypeN].
Proof. exact mode_case. Qed.

(** C09: NaN residuals of this solver *)
Theorem C09_wfqp_nan : forall iterate world (Or : woracles iterate world) o s0 s, 0 <= max_iter (wb_opts o) -> wfqp_call Or o s0 = Some s ->
  any_nan (nlp_res (w_b s)) = true -> status (w_b s) = ACADOS_NAN_DETECTED.
Proof. exact wfqp_nan. Qed.
Print Assumptions C09_wfqp_nan.
Example C09_wfqp_case : wsummary (wfqp_call (wtoy 2) (wtoy_opts 10 NOMINAL_QP) (wtoy_mem 3 10)) = Some (1, 1, 2, 1, [TypeN]).
Proof. exact wfqp_nan_case. Qed.

(** C63: the feasible-QP driver *)
Theorem C63_success : forall iterate world (Or : woracles iterate world) o s0 s, 0 <= max_iter (wb_opts o) -> wfqp_call Or o s0 = Some s -> status (w_b s) = ACADOS_SUCCESS ->
  flt (r_stat (nlp_res (w_b s))) (tol_stat (wb_opts o)) = true /\ flt (r_eq (nlp_res (w_b s))) (tol_eq (wb_opts o)) = true /\
  flt (r_ineq (nlp_res (w_b s))) (tol_ineq (wb_opts o)) = true /\ flt (r_comp (nlp_res (w_b s))) (tol_comp (wb_opts o)) = true /\
  exists ck older, trace (w_b s) = ck ++ EvRes (nlp_out (w_b s)) (nlp_res (w_b s)) :: older /\ Forall (fun e => is_clock e = true) ck.
Proof. exact wfqp_success. Qed.
Print Assumptions C63_success.
Theorem C63_bounded : forall iterate world (Or : woracles iterate world) o s0 s, 0 <= max_iter (wb_opts o) -> wfqp_call Or o s0 = Some s ->
  exists new, trace (w_b s) = new ++ trace (w_b s0) /\ qp_count new <= 3 * max_iter (wb_opts o) /\ 0 <= iter (w_b s) <= max_iter (wb_opts o) /\
  (In (status (w_b s)) [ACADOS_SUCCESS; ACADOS_NAN_DETECTED; ACADOS_MAXITER; ACADOS_MINSTEP; ACADOS_QP_FAILURE; ACADOS_UNBOUNDED; ACADOS_TIMEOUT] \/
   (exists x a older, new = EvGlob x (nlp_out (w_b s)) (status (w_b s)) a :: older /\ status (w_b s) <> ACADOS_SUCCESS) \/
   (w_mode o = FEASIBILITY_QP /\ status (w_b s) = ACADOS_READY /\ qp_count new = 0)).
Proof. exact wfqp_bounded. Qed.
Print Assumptions C63_bounded.
Theorem C63_no_oob : forall iterate world (Or : woracles iterate world) o s0, w_allocated o s0 -> exists s, wfqp_call Or o s0 = Some s.
Proof. exact wfqp_no_oob. Qed.
Print Assumptions C63_no_oob.
(** finding: the third search direction mode returns "ready" *)
Theorem C63_ready_refuted : exists (Or : woracles Z (list Z)) opts s0 s, 0 <= max_iter (wb_opts opts) /\ w_allocated opts s0 /\ wfqp_call Or opts s0 = Some s /\ status (w_b s) = ACADOS_READY.
Proof. exact feasibility_mode. Qed.
Print Assumptions C63_ready_refuted.
(** a limit raised after creation gives a store outside the statistics array *)
Theorem C63_raised_limit_refuted : wfqp_call (wtoy 100) (mkWopts (mkSqpOpts 5 true fhalf fhalf fhalf fhalf f0 (z2f (-10000000000)) f0 LAST false false false false false 0) NOMINAL_QP true 2 false false) (wtoy_mem 9 2) = None.
Proof. exact raised_limit. Qed.
Print Assumptions C63_raised_limit_refuted.
Example C63_case : wsummary (wfqp_call (wtoy 100) (wtoy_opts 10 NOMINAL_QP) (wtoy_mem 7 10)) = Some (4, 6, 1, 13, [TypeNFN; TypeFN; TypeFN; TypeFN; TypeN; TypeN; TypeNFN]).
Proof. exact wfqp_case. Qed.
