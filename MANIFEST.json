{
 "claims": [
  {
   "property": "C01",
   "status": "proved",
   "theorems": [
    "C01_objects_fit",
    "C01_dims_fit"
   ],
   "note": "All NLP-level objects, every dimension set, options set and base address."
  },
  {
   "property": "C02",
   "status": "proved",
   "theorems": [
    "C02_alignment_refuted",
    "C02_alignment_partial",
    "C02_dims_odd_partial",
    "C02_dims_even_refuted",
    "C02_opts_discrete",
    "C02_opts_mixed_refuted",
    "C02_dims_qp_refuted"
   ],
   "note": "False as stated: the dims object is misaligned exactly for even horizons, the QP dims after 20-byte cost dims, and continuous options after an odd number of discrete ones. Every other object is proved aligned (config and workspace from an 8-aligned base)."
  },
  {
   "property": "C03",
   "status": "proved",
   "theorems": [
    "C03_solver_objects",
    "C03_module_objects",
    "C03_external_functions",
    "C03_ls_model_refuted",
    "C03_ls_model_partial",
    "C03_wfqp_refuted",
    "C03_sizes",
    "C03_nested",
    "C03_disc_jacobian_refuted",
    "C03_disc_jacobian_partial"
   ],
   "note": "All solver, regularization, globalization, constraint, cost, dynamics and external-function objects fit and do not overlap. Refuted for the least-squares model (transposed Vz size) and for the feasible-QP memory with shared slacks on control bounds (negative number of non-slacked constraints); the discrete-dynamics temporary is too small for its Jacobian when nx1 > nu+nx."
  },
  {
   "property": "C04",
   "status": "proved",
   "theorems": [
    "C04_zero_refuted",
    "C04_exact",
    "C04_inside",
    "C04_zero_partial"
   ],
   "note": "Refuted as stated: the last loop iteration writes nu[0] doubles through the first multiplier header. C04_exact lists every write; C04_inside: all written bytes belong to vectors of the iterate exactly if nu[0] doubles fit into the multipliers."
  },
  {
   "property": "C05",
   "status": "proved",
   "theorems": [
    "C05_standard",
    "C05_advanced",
    "C05_advanced_exact",
    "C05_two_feedbacks_refuted",
    "C05_level_a_refuted",
    "C05_log_toggled_refuted"
   ],
   "note": "The unrestricted statement is false (three witnesses). Exact criterion for standard RTI histories and, over all submodule behaviours, for histories at every advanced-step level."
  },
  {
   "property": "C06",
   "status": "proved",
   "theorems": [
    "C06_no_out_of_bounds",
    "C06_report",
    "C06_iterate_log",
    "C06_untouched_rows",
    "C06_stale_row_refuted",
    "C06_raised_limit_refuted"
   ],
   "note": "Bounds, contents of the statistics matrix and of the iterate log proved for every run; the residual columns of the last row after a QP failure hold the data from before the call (refutation of the literal property), and raising max_iter after creation writes out of bounds."
  },
  {
   "property": "C07",
   "status": "proved",
   "theorems": [
    "C07_success",
    "C07_success_point",
    "C07_negative_limit_refuted"
   ],
   "note": "Success implies residuals of the returned iterate, computed from its own linearisation, below tolerance (max_iter >= 0). Finding: negative max_iter accepted and returns success."
  },
  {
   "property": "C08",
   "status": "proved",
   "theorems": [
    "C06_no_out_of_bounds",
    "C08_bounded"
   ],
   "note": "Termination is totality of the model loop; QP count, iteration count and status bounds."
  },
  {
   "property": "C09",
   "status": "proved",
   "theorems": [
    "C09_sqp_nan",
    "C09_nan_compare",
    "C09_ddp_nan",
    "C09_ddp_comp_refuted",
    "C09_wfqp_nan"
   ],
   "note": "SQP and feasible-QP SQP: proved. DDP: proved for three norms, refuted for the complementarity norm (never tested)."
  },
  {
   "property": "C10",
   "status": "proved",
   "theorems": [
    "C10_never_nan",
    "C10_refuted",
    "C10_complementarity",
    "C10_equality_refuted"
   ],
   "note": "Refuted as stated: the inequality norm is never NaN; NaN shows in the complementarity norm, except for an equality with a barrier parameter."
  },
  {
   "property": "C11",
   "status": "proved",
   "theorems": [
    "C11_stationarity",
    "C11_dynamics",
    "C11_inequalities",
    "C11_complementarity",
    "C11_complementarity_barrier",
    "C11_complementarity_actual",
    "C11_barrier_refuted",
    "C11_equality_offset_refuted",
    "C11_total"
   ],
   "note": "Proved for every norm without barrier parameter; with a barrier parameter the complementarity norm is refuted (stale scratch entries, wrong equality offset) and the exact value is proved. BLASFEO infinity norm is assumed."
  },
  {
   "property": "C12",
   "status": "proved",
   "theorems": [
    "C12_timeout"
   ],
   "note": ""
  },
  {
   "property": "C13",
   "status": "proved",
   "theorems": [
    "C13_last",
    "C13_zero",
    "C13_max_call",
    "C13_max_overall",
    "C13_average_refuted"
   ],
   "note": "AVERAGE heuristic deviates (first duration halved), recorded as refutation."
  },
  {
   "property": "C14",
   "status": "proved",
   "theorems": [
    "C14_qp_failure",
    "C14_funnel_failure",
    "C14_funnel_success",
    "C14_merit_failure",
    "C14_merit_success"
   ],
   "note": "Driver and funnel line search."
  },
  {
   "property": "C15",
   "status": "proved",
   "theorems": [
    "C15_status",
    "C15_globalization_refuted",
    "C15_preparation_refuted"
   ],
   "note": "Status of feedback/combined calls after any history. Findings: globalization outcome ignored, preparation returns the previous status."
  },
  {
   "property": "C16",
   "status": "proved",
   "theorems": [
    "C16_split"
   ],
   "note": "Whole-memory equality under stated split laws of regularisation, condensing and QP solver."
  },
  {
   "property": "C17",
   "status": "proved",
   "theorems": [
    "C17_success",
    "C17_stale_zero_refuted",
    "C17_stale_last_refuted",
    "C17_negative_cost_refuted",
    "C17_bounded",
    "C17_negative_limit"
   ],
   "note": "Refuted as stated in two corners: at the iteration limit without the residual evaluation there, success can rest on residuals of an earlier call (limit zero) or of the previous iterate (adaptive Levenberg-Marquardt). C17_success is the exact guarantee. The zero-residual tolerance is never set, so it is 0 and only a negative cost passes."
  },
  {
   "property": "C18",
   "status": "proved",
   "theorems": [
    "C18_rollout",
    "C18_initial_state",
    "C18_feedback",
    "C18_source_kept",
    "C18_in_place",
    "C18_in_place_refuted"
   ],
   "note": "Rollout holds in every case (exact arithmetic). Finding: updated in place (fixed step globalization), the feedback term K(x - xbar) is lost."
  },
  {
   "property": "C19",
   "status": "proved",
   "theorems": [
    "C19_blend",
    "C19_buffer",
    "C19_refuted",
    "C19_after_full_trial",
    "C19_flag_refuted",
    "C19_flag_soc_refuted",
    "C19_flag_fixed_step"
   ],
   "note": "False as stated: the old multipliers are those of the trial buffer, refuted with a witness; holds when the buffer is a copy of the iterate or the iterate itself. The full_step_dual option is read through the wrong struct."
  },
  {
   "property": "C20",
   "status": "proved",
   "theorems": [
    "C20_accept",
    "C20_width_real",
    "C20_width_double",
    "C20_ordinary_refuted",
    "C20_subnormal_refuted",
    "C20_nan_option_refuted"
   ],
   "note": "Monotone positive width in exact arithmetic for all valid options and on doubles for widths >= 2^-900 and kappa, decrease away from 0 and 1. The unrestricted statement on doubles is false: witnesses with an ordinary width and with a subnormal width."
  },
  {
   "property": "C21",
   "status": "proved",
   "theorems": [
    "C21_funnel",
    "C21_ddp",
    "C21_merit",
    "C21_zero_refuted",
    "C21_reduction_one_refuted",
    "C21_positive_min_refuted",
    "C21_ddp_zero_refuted",
    "C21_merit_one_refuted"
   ],
   "note": "Termination on IEEE doubles for reduction in (0,1) and alpha_min above the smallest normal double; nontermination witnesses otherwise (options are not validated)."
  },
  {
   "property": "C22",
   "status": "proved",
   "theorems": [
    "C22_state",
    "C22_refuted"
   ],
   "note": "Refuted: the penalty mode flag survives; everything else is reset."
  },
  {
   "property": "C23",
   "status": "proved",
   "theorems": [
    "C23_double",
    "C23_real",
    "C23_negative_refuted"
   ],
   "note": "Nonnegative inequality multipliers; a negative one is not covered (witness)."
  },
  {
   "property": "C24",
   "status": "proved",
   "theorems": [
    "C24_cases",
    "C24_refuted",
    "C24_full_step_refuted"
   ],
   "note": "Refuted as stated: the minimum step is taken unevaluated. C24_cases gives the exact alternatives."
  },
  {
   "property": "C25",
   "status": "proved",
   "theorems": [
    "C25_accept",
    "C25_failure",
    "C25_armijo"
   ],
   "note": ""
  },
  {
   "property": "C26",
   "status": "proved",
   "theorems": [
    "C26_primal",
    "C26_dual",
    "C26_algebraic",
    "C26_nothing_else",
    "C26_nonnegative"
   ],
   "note": "Exact arithmetic; source and destination may be the same object."
  },
  {
   "property": "C27",
   "status": "proved",
   "theorems": [
    "C27_solver"
   ],
   "note": "exact real arithmetic; flags exactly the singular matrices"
  },
  {
   "property": "C28",
   "status": "proved",
   "theorems": [
    "C28_pade",
    "C28_degree13_refuted",
    "C28_degree13_actual",
    "C28_degree3_garbage_refuted",
    "C28_norm",
    "C28_expm_degree",
    "C28_expm_scaling"
   ],
   "note": "degrees 3,5,7,9 correct over the reals; degree 13 refuted (coefficient of the eighth power is 1); degree 3 reads uninitialised memory"
  },
  {
   "property": "C29",
   "status": "proved",
   "theorems": [
    "C29_neville"
   ],
   "note": "exact real arithmetic"
  },
  {
   "property": "C30",
   "status": "proved",
   "theorems": [
    "C30_max_abs",
    "C30_min",
    "C30_quadratic_form",
    "C30_nan_refuted"
   ],
   "note": "exact real arithmetic; NaN entries can be lost in double arithmetic"
  },
  {
   "property": "C31",
   "status": "proved",
   "theorems": [
    "C31_symmetric",
    "C31_eigenvalues",
    "C31_positive_definite",
    "C31_unchanged",
    "C31_condition",
    "C31_all_stages"
   ],
   "note": "exact arithmetic, given an exact eigensystem (math.c eigendecomposition is an oracle)"
  },
  {
   "property": "C32",
   "status": "proved",
   "theorems": [
    "C32_positive_definite",
    "C32_symmetric",
    "C32_unchanged",
    "C32_symmetrise"
   ],
   "note": "exact arithmetic"
  },
  {
   "property": "C33",
   "status": "proved",
   "theorems": [
    "C33_solver",
    "C33_tableau",
    "C33_unique",
    "C33_radau",
    "C33_gauss",
    "C33_newton_refuted"
   ],
   "note": "exact arithmetic; pow as repeated multiplication; initial guess and termination of the Gauss-Legendre iteration not modelled; finding: its step uses N2 for N1, so convergence is linear with factor 1/(s+1)"
  },
  {
   "property": "C34",
   "status": "proved",
   "theorems": [
    "C34_explicit",
    "C34_rejected"
   ],
   "note": "exact rational arithmetic"
  },
  {
   "property": "C35",
   "status": "proved",
   "theorems": [
    "C35_forward_state",
    "C35_forward_sensitivity",
    "C35_parameter_sensitivity",
    "C35_runge_kutta"
   ],
   "note": "exact reals; generated functions assumed consistent (Hadamard derivative along curves)"
  },
  {
   "property": "C36",
   "status": "proved",
   "theorems": [
    "C36_adjoint_gradient",
    "C36_transposed"
   ],
   "note": "exact reals"
  },
  {
   "property": "C37",
   "status": "proved",
   "theorems": [
    "C37_unpack",
    "C37_pack",
    "C37_round_trip",
    "C37_is_dense",
    "C37_nnz",
    "C37_colmaj_args_refuted",
    "C37_colmaj_args_oob_refuted",
    "C37_empty_vector_refuted"
   ],
   "note": "Proved for all patterns and all argument types except dense rectangular COLMAJ_ARGS blocks and n x 0 results taken as vectors, where it is refuted (findings)."
  },
  {
   "property": "C38",
   "status": "proved",
   "theorems": [
    "C38_sparse",
    "C38_function_sparse",
    "C38_round_trip",
    "C38_blocks",
    "C38_index_refuted",
    "C38_generated_sparse"
   ],
   "note": "Proved for indices inside the stage; indices are not checked by the code (refuted for an index equal to np)."
  },
  {
   "property": "C39",
   "status": "proved",
   "theorems": [
    "C39_round_trip",
    "C39_multipliers",
    "C39_mask_one",
    "C39_mask_zero",
    "C39_masked_zero_refuted",
    "C39_others",
    "C39_slices",
    "C39_stage_round_trip",
    "C39_stage_multipliers",
    "C39_stage_others",
    "C39_totals"
   ],
   "note": "Flat and per stage access. Refuted part: an infinite multiplier of a masked constraint reads back as NaN. The last stage of u and z is not covered by the flat vectors, as in the code."
  },
  {
   "property": "C40",
   "status": "proved",
   "theorems": [
    "C40_history",
    "C40_cover",
    "C40_multipliers",
    "C40_masked_multipliers",
    "C40_get_bound",
    "C40_get_idxbx",
    "C40_get_idxbu",
    "C40_get_idxs",
    "C40_get_C",
    "C40_get_D",
    "C40_initialize",
    "C40_stale_slack_refuted",
    "C40_accepts"
   ],
   "note": "Holds for the constraint data. The reverse slack map handed to the QP is not reset, so a slack index set a second time leaves the old constraint softened (refuted for the QP data)."
  },
  {
   "property": "C41",
   "status": "proved",
   "theorems": [
    "C41_adjoint",
    "C41_values",
    "C41_compute_fun",
    "C41_compute_fun_stops",
    "C41_slack_declarations",
    "C41_hessian",
    "C41_hessian_refuted"
   ],
   "note": "Over the reals, for every history of evaluations. Assumes not all of linear constraints, nonlinear constraints and algebraic variables are present (C42 refutes that case). The exact Hessian with algebraic variables lacks mixed derivatives (C41_hessian_refuted)."
  },
  {
   "property": "C42",
   "status": "proved",
   "theorems": [
    "C42_jacobian",
    "C42_jacobian_refuted",
    "C42_out_of_bounds",
    "C42_bounds"
   ],
   "note": "The statement is false when linear constraints, nonlinear constraints and algebraic variables occur together: the correction is added at row ng, column 0 instead of row 0, column ng. C42_jacobian covers all other cases."
  },
  {
   "property": "C43",
   "status": "proved",
   "theorems": [
    "C43_linearisation",
    "C43_hessian",
    "C43_hessian_frame",
    "C43_slack_hessian",
    "C43_line_search",
    "C43_expansion",
    "C43_stale_refuted"
   ],
   "note": "Exact arithmetic, dpotrf/sqrt exact (weight_ok). Value and gradient hold after every history; the cached Hessian and the line-search value hold when an initialisation follows the last change. Without it (ocp_nlp_eval_cost after cost_model_set W) the value is that of the old weight: refuted with a witness."
  },
  {
   "property": "C44",
   "status": "proved",
   "theorems": [
    "C44_linearisation",
    "C44_hessian",
    "C44_line_search",
    "C44_integrated",
    "C44_integrated_refuted",
    "C44_shape_refuted"
   ],
   "note": "Holds without cost integration for all setter histories. With integrated cost and scaling <> 1 the slack gradient is scaled and the value is not: refuted. With algebraic variables the Jacobian wrt z goes into a workspace matrix of the transposed shape."
  },
  {
   "property": "C45",
   "status": "proved",
   "theorems": [
    "C45_no_slack_step",
    "C45_actual",
    "C45_refuted",
    "C45_gradient"
   ],
   "note": "Refuted as stated: the value has an extra squared slack step; exact value proved."
  },
  {
   "property": "C46",
   "status": "proved",
   "theorems": [
    "C46_kkt",
    "C46_minimiser",
    "C46_shared_slack_refuted",
    "C46_feasibility_refuted",
    "C46_feasibility_ignored_refuted",
    "C46_ddp_refuted"
   ],
   "note": "Over the reals. The equivalence holds for slacks not shared by general constraints and QPs scaled in this iteration; refuted for shared slacks, for the feasibility QP of the feasible-QP solver (unscaled with the nominal memory) and for DDP (scaled QP never filled)."
  },
  {
   "property": "C47",
   "status": "proved",
   "theorems": [
    "C47_factor",
    "C47_eigenvalues",
    "C47_doubles",
    "C47_triangle_refuted",
    "C47_status_refuted",
    "C47_finite_refuted"
   ],
   "note": "Limits and status over the reals, finiteness over doubles when no violation is reported. Refuted: the Gershgorin estimate reads the unfilled upper triangle; status 8 although the gradient was lifted to the limit; infinite or NaN factor for zero Hessian/gradient."
  },
  {
   "property": "C48",
   "status": "proved",
   "theorems": [
    "C48_totals",
    "C48_stage",
    "C48_solvers",
    "C48_ni",
    "C48_precompute",
    "C48_accepted",
    "C48_ni_refuted"
   ],
   "note": "Totals and all derived dimensions after any history of setter calls. Refuted part: ns given after the constraint dimensions leaves the number of inequalities stale and precompute does not notice. Constraint module bgh; dims of the dynamics modules not modelled."
  },
  {
   "property": "C49",
   "status": "proved",
   "theorems": [
    "C49_accepted",
    "C49_options",
    "C49_history_free",
    "C49_orderly",
    "C49_generated",
    "C49_history_refuted",
    "C49_fixed_refuted",
    "C49_conl_refuted"
   ],
   "note": "The options of every module are those of the last call; the Hessians are history free as long as exact_hess_dyn is not switched on after being off. Refuted for exact_hess_dyn 0 then 1, for fixed_hess 1 then 0, and the options demanded for convex-over-nonlinear costs with exact Hessians exit."
  },
  {
   "property": "C50",
   "status": "proved",
   "theorems": [
    "C50_hard_constraints",
    "C50_hard_bounds",
    "C50_dynamics_actual",
    "C50_dynamics_refuted",
    "C50_lower_actual",
    "C50_upper_actual",
    "C50_soft_refuted",
    "C50_soft_bound_refuted"
   ],
   "note": "Holds for hard inequality constraints and bounds; refuted for dynamics (sign), soft constraints (slack sign) and soft bounds."
  },
  {
   "property": "C51",
   "status": "proved",
   "theorems": [
    "C51_alias",
    "C51_stage_loops",
    "C51_equal_dims",
    "C51_axpy_refuted",
    "C51_set_to_zero_refuted",
    "C51_sc_refuted",
    "C51_add_refuted",
    "C51_hessians_refuted",
    "C51_initial_setup_refuted",
    "C51_ddot_refuted",
    "C51_shared_workspace_refuted"
   ],
   "note": "All linearisation, update, trial-point and sensitivity loops: any number of threads, distribution and interleaving of single accesses gives cell by cell the sequential memory, without getting stuck. False for ocp_qp_out_axpy/set_to_zero/sc/add (shared ni_stage), ocp_qp_out_ddot (unreduced sum, shared scratch) and two wfqp loops (shared nxu): schedules exhibited. With equal dimensions at all stages the ni_stage and nxu loops are fine."
  },
  {
   "property": "C52",
   "status": "proved",
   "theorems": [
    "C52_range",
    "C52_shortened_step",
    "C52_two_full_steps",
    "C52_full_step_refuted",
    "C52_term",
    "C52_negative_cost"
   ],
   "note": "Range and growth proved; shrinking after a good step refuted for a single full step, proved over two; over the reals."
  },
  {
   "property": "C53",
   "status": "proved",
   "theorems": [
    "C53_feasible",
    "C53_factor_refuted"
   ],
   "note": "Exact arithmetic, one stage; the option is not validated, so factors below one are possible (refuted then)."
  },
  {
   "property": "C54",
   "status": "proved",
   "theorems": [
    "C54_numbering",
    "C54_idxs_rev_refuted"
   ],
   "note": "For softened constraints declared through idxs. Refuted for the idxs_rev declaration: the index array overflows."
  },
  {
   "property": "C55",
   "status": "proved",
   "theorems": [
    "C55_enter",
    "C55_return",
    "C55_consecutive_refuted"
   ],
   "note": "On every run of the driver model. The zero-slack iterations are counted in total, not consecutively as the source comment says."
  },
  {
   "property": "C56",
   "status": "proved",
   "theorems": [
    "C56_actual",
    "C56_refuted"
   ],
   "note": "Refuted: the terminal constraint contribution is missing; exact value proved."
  },
  {
   "property": "C57",
   "status": "proved",
   "theorems": [
    "C57_update",
    "C57_solve"
   ],
   "note": ""
  },
  {
   "property": "C58",
   "status": "proved",
   "theorems": [
    "C58_real",
    "C58_double",
    "C58_nan_dynamics",
    "C58_nan_constraint_refuted"
   ],
   "note": "The NaN clause is false for constraints (finding)."
  },
  {
   "property": "C59",
   "status": "proved",
   "theorems": [
    "C59_gradient",
    "C59_no_lower",
    "C59_refuted"
   ],
   "note": "Refuted as stated: wrong sign for violated lower constraints; exact error term proved, equality when no lower constraint is violated."
  },
  {
   "property": "C60",
   "status": "proved",
   "theorems": [
    "C60_hessian",
    "C60_symmetric",
    "C60_no_forward_refuted"
   ],
   "note": "derivative and symmetry proved; the memory part is false: sens_hess without sens_forw runs past the work arrays"
  },
  {
   "property": "C61",
   "status": "proved",
   "theorems": [
    "C61_simulation"
   ],
   "note": ""
  },
  {
   "property": "C62",
   "status": "proved",
   "theorems": [
    "C62_no_oob",
    "C62_ext_res_refuted"
   ],
   "note": "Refuted with external QP residuals: work->qp_res is never assigned."
  },
  {
   "property": "C63",
   "status": "proved",
   "theorems": [
    "C63_success",
    "C63_bounded",
    "C63_no_oob",
    "C63_ready_refuted",
    "C63_raised_limit_refuted"
   ],
   "note": "Documented-final-status part refuted for the FEASIBILITY_QP mode (returns READY)."
  },
  {
   "property": "C64",
   "status": "proved",
   "theorems": [
    "C64_conl",
    "C64_conl_hessian",
    "C64_conl_integrated",
    "C64_conl_integrated_refuted",
    "C64_external",
    "C64_external_hessian",
    "C64_external_hessian_refuted",
    "C64_external_shape_refuted"
   ],
   "note": "Values and gradients consistent. Refuted parts: integrated cost with scaling <> 1; the external Hessian with algebraic variables (blasfeo_dsyr2k_ln on the transposed matrix, out of shape unless nz = nu+nx)."
  },
  {
   "property": "C65",
   "status": "proved",
   "theorems": [
    "C65_residuals",
    "C65_complementarity_refuted",
    "C65_terminal_refuted",
    "C65_null_refuted"
   ],
   "note": "Stationarity, equalities and inequalities before the last stage; refuted for complementarity, terminal constraints and (null pointer) objective scaling with general constraints."
  },
  {
   "property": "C66",
   "status": "proved",
   "theorems": [
    "C66_sum",
    "C66_lost",
    "C66_accumulates",
    "C66_dynamics_refuted",
    "C66_stage_refuted"
   ],
   "note": "Holds when the cost is told to add exactly where the dynamics contribute; exact_hess_dyn alone loses the dynamics Hessian, add_hess_contribution at a stage accumulates over iterations."
  },
  {
   "property": "C67",
   "status": "proved",
   "theorems": [
    "C67_fixed",
    "C67_constraints_refuted"
   ],
   "note": "Holds without exact dynamics and constraint Hessians; the Levenberg-Marquardt term is dropped. With exact constraint Hessians every iteration adds again."
  },
  {
   "property": "C68",
   "status": "proved",
   "theorems": [
    "C68_wfqp",
    "C68_integrated_refuted",
    "C68_levenberg_refuted"
   ],
   "note": "Holds for any history without integrated cost. With integrated cost the dynamics Hessian is lost and the feasibility QP gets the cost Hessian; the Levenberg-Marquardt term meant for the feasibility QP goes to the nominal QP a second time."
  },
  {
   "property": "C69",
   "status": "proved",
   "theorems": [
    "C69_objects",
    "C69_tableau_work",
    "C69_dynamics"
   ],
   "note": "C integer overflow of the size computations is not modelled; library buffer sizes are parameters with alignment assumptions (env_ok)."
  },
  {
   "property": "C70",
   "status": "proved",
   "theorems": [
    "C70_compute_fun",
    "C70_compute_adj_partial",
    "C70_adj_erk_exact",
    "C70_adj_irk_refuted",
    "C70_adj_module_refuted"
   ],
   "note": "False in general: with the default forward-only options the adjoint evaluation of AS-RTI level C overruns the ERK and IRK workspaces (exact condition for ERK); true for residual evaluations and when adjoints or Hessians were announced."
  },
  {
   "property": "C71",
   "status": "proved",
   "theorems": [
    "C71_structure",
    "C71_shared_slack_refuted"
   ],
   "note": "Proved for slack maps with one constraint per slack; a slack shared by several constraints overruns the arrays (refuted, finding)."
  },
  {
   "property": "C72",
   "status": "proved",
   "theorems": [
    "C72_sound",
    "C72_complete",
    "C72_masks",
    "C72_mask_refuted",
    "C72_stale_structure_refuted",
    "C72_unused_slack_refuted",
    "C72_double_bound_refuted"
   ],
   "note": "Proved in both directions when no inequality is masked; the masks are not read (C72_masks is the exact statement, C72_mask_refuted the witness); stale structure, unused slack and doubled bound refuted."
  },
  {
   "property": "C73",
   "status": "proved",
   "theorems": [
    "C73_exact",
    "C73_onto",
    "C73_values",
    "C73_hessian_sign_refuted",
    "C73_mask_refuted",
    "C73_stale_structure_refuted"
   ],
   "note": "Equivalence proved when the sign loop stays inside b and with all inequalities present; the values in memory are characterised for all dimensions. Refuted in general: Hessian sign flips without enough inequality rows, masks are ignored, the structure of the first call is kept."
  },
  {
   "property": "C74",
   "status": "proved",
   "theorems": [
    "C74_structure",
    "C74_sorted_refuted",
    "C74_shared_options_refuted"
   ],
   "note": "Well-formed with distinct rows for all index maps; sortedness refuted; first_run in shared options refuted (null solver)."
  },
  {
   "property": "C75",
   "status": "proved",
   "theorems": [
    "C75_kkt",
    "C75_t",
    "C75_asserts",
    "C75_unstack_assert",
    "C75_idxb_refuted",
    "C75_mask_refuted",
    "C75_slack_bound_refuted",
    "C75_slack_order_refuted",
    "C75_slack_cap_refuted",
    "C75_equality_refuted"
   ],
   "note": "Exact under the conditions spelled out (stackable, unmasked, no equalities, no artificial bound active); each condition is shown to be needed by a refutation of the general statement."
  },
  {
   "property": "C76",
   "status": "proved",
   "theorems": [
    "C76_status",
    "C76_status_refuted",
    "C76_defined",
    "C76_cold",
    "C76_hot",
    "C76_hessian_refuted"
   ],
   "note": "Holds without hotstarts; with hotstarts the status of bound-only problems is lost, the first such call passes an indeterminate pointer, and matrices of the first call are kept."
  },
  {
   "property": "C77",
   "status": "proved",
   "theorems": [
    "C77_kkt",
    "C77_sequence",
    "C77_small_row_refuted",
    "C77_small_equality_refuted",
    "C77_clip_refuted",
    "C77_negative_penalty_refuted",
    "C77_slack_mask_refuted",
    "C77_soft_zero_row_refuted",
    "C77_shared_slack_refuted",
    "C77_hot_refuted"
   ],
   "note": "Holds under the conditions daqp_able (distinct rows per slack, slack penalties at least 1e-8 and nonnegative at the bound, unmasked slack bounds, rows of norm at least the tolerance) and hot starts on unchanged matrices; each condition is shown necessary by a refutation. BLASFEO and DAQP's solver are assumed exact."
  },
  {
   "property": "C78",
   "status": "proved",
   "theorems": [
    "C78_status",
    "C78_early",
    "C78_feasible_refuted"
   ],
   "note": "Status 0 exactly on success; a failed set-up returns a negative code with the output untouched, and this happens for a feasible QP (refutation)."
  },
  {
   "property": "C79",
   "status": "proved",
   "theorems": [
    "C79_objects",
    "C79_osqp",
    "C79_osqp_room",
    "C79_osqp_int_refuted",
    "C79_osqp_size_refuted",
    "C79_daqp_room",
    "C79_daqp_aligned_partial",
    "C79_daqp_refuted",
    "C79_sizes",
    "C79_xcond"
   ],
   "note": "The full statement is refuted for the DAQP memory with an odd number of slacks and for OSQP with 4-byte integers; all other objects satisfy it."
  },
  {
   "property": "C80",
   "status": "proved",
   "theorems": [
    "C80_t",
    "C80_init",
    "C80_sequence",
    "C80_split",
    "C80_split_refuted",
    "C80_split_always",
    "C80_sens_refuted",
    "C80_sens_always",
    "C80_endian_refuted",
    "C80_scaled_refuted"
   ],
   "note": "Proved for unsplit solves without scaling on little-endian machines; refuted for the first QP of split RTI, after sensitivity evaluations, with scaling and on big-endian machines."
  },
  {
   "property": "C81",
   "status": "proved",
   "theorems": [
    "C80_sequence",
    "C81_exit_refuted",
    "C81_scaled_refuted"
   ],
   "note": "The factorization call (QP, start, options) is part of C80_sequence; update_fact_exit is not restored, and with objective scaling a stale Hessian is factorized."
  },
  {
   "property": "C82",
   "status": "proved",
   "theorems": [
    "C82_blocks",
    "C82_given",
    "C82_template",
    "C82_automatic",
    "C82_long_refuted",
    "C82_template_refuted",
    "C82_stale_refuted",
    "C82_negative_refuted"
   ],
   "note": "Proved for horizons up to N and block sizes set after the horizon; refuted for larger horizons, generated code reused with a shorter horizon, a changed horizon and negative sizes. d_part_cond_qp_compute_block_size is a parameter."
  },
  {
   "property": "C83",
   "status": "proved",
   "theorems": [
    "C83_values",
    "C83_fun_correction",
    "C83_compute_fun",
    "C83_mask_refuted",
    "C83_adjoint",
    "C83_adjoint_refuted",
    "C83_jacobian",
    "C83_jacobian_refuted",
    "C83_out_of_bounds",
    "C83_hessian",
    "C83_semidefinite",
    "C83_symmetry_refuted"
   ],
   "note": "False in five ways: with idxs_rev the multipliers of the slack bounds are missing in the adjoint (exact condition proved), the line search does not mask slack bounds, the z-correction goes to the linear rows and out of bounds (as in C42), and only the lower triangle of the Hessian is updated. Values, Jacobian and semidefiniteness are proved."
  },
  {
   "property": "C84",
   "status": "proved",
   "theorems": [
    "C84_forward",
    "C84_adjoint",
    "C84_adjoint_forward",
    "C84_hessian",
    "C84_hessian_symmetric",
    "C84_affine",
    "C84_newton_fixed"
   ],
   "note": "exact real arithmetic; LU solves are exact for regular matrices; curves through the computed trajectory require that Newton converged exactly; cost propagation and z output are not part of this model"
  },
  {
   "property": "C85",
   "status": "proved",
   "theorems": [
    "C85_interpolated",
    "C85_interpolated_derivative",
    "C85_exact_newton",
    "C85_exact_derivative",
    "C85_unassigned_workspace",
    "C85_stale_sensitivity",
    "C85_jac_reuse_refuted",
    "C85_xdot_refuted",
    "C85_explicit_tableau_refuted"
   ],
   "note": "Interpolated and exact algebraic output; findings 84-88 are the refuted combinations of options."
  },
  {
   "property": "C86",
   "status": "proved",
   "theorems": [
    "C86_defined",
    "C86_nls_value",
    "C86_conl_value",
    "C86_nls_gradient",
    "C86_conl_gradient",
    "C86_nls_gauss_newton",
    "C86_conl_gauss_newton",
    "C86_flags",
    "C86_weight_refuted",
    "C86_param_only_refuted"
   ],
   "note": "Refuted for least squares with a weight that is not diagonal (value and gradient) and for the gradient with sens_forw_p alone; the rest holds."
  },
  {
   "property": "C87",
   "status": "proved",
   "theorems": [
    "C87_linearization",
    "C87_hessian",
    "C87_fun",
    "C87_fun_adj",
    "C87_irk",
    "C87_disc",
    "C87_hessian_full_refuted",
    "C87_fun_z_refuted",
    "C87_fewer_states_refuted",
    "C87_more_states_refuted",
    "C87_disc_adjoint_refuted"
   ],
   "note": "symmetry of the whole RSQrq, update of z in compute_fun, and different state dimensions are refuted"
  },
  {
   "property": "C88",
   "status": "proved",
   "theorems": [
    "C88_objective",
    "C88_original",
    "C88_kkt",
    "C88_gradient",
    "C88_convex",
    "C88_convex_last",
    "C88_split_gradient",
    "C88_convex_refuted",
    "C88_growing_refuted",
    "C88_x0_refuted",
    "C88_split_refuted",
    "C88_split_terminal"
   ],
   "note": "Equivalence and recovery of the multipliers hold for non-increasing state dimensions and outside the initial state; convexity holds with at most one input or after a projection. Refuted: convexity with two inputs, equivalence with growing state dimension, multipliers of the initial state, split preparation and feedback."
  },
  {
   "property": "C89",
   "status": "proved",
   "theorems": [
    "C89_upper_ignored",
    "C89_tridiagonal"
   ],
   "note": "The triangle that is read is row-major; the regularisation modules unpack column-major (finding 95)."
  },
  {
   "property": "C90",
   "status": "proved",
   "theorems": [
    "C90_eigen",
    "C90_two",
    "C90_tiny_refuted",
    "C90_large_refuted",
    "C90_zero_refuted"
   ],
   "note": "Over the reals: orthogonal V and the error bound whenever the iteration converges (flag q_ok), and convergence for dimension two. Refuted in binary64: tiny entries give NaN, huge entries give V = 0, dimension 0 writes out of bounds."
  },
  {
   "property": "C91",
   "status": "proved",
   "theorems": [
    "C91_positive_definite",
    "C91_above",
    "C91_kept",
    "C91_condition",
    "C91_two",
    "C91_nan_refuted",
    "C91_zero_refuted"
   ],
   "note": "Composition of the regularisation model with the modelled eigendecomposition; C31 assumes an exact eigensystem, C91 does not. The binary64 statement is refuted."
  },
  {
   "property": "C92",
   "status": "proved",
   "theorems": [
    "C92_formula",
    "C92_progress",
    "C92_progress_refuted",
    "C92_near",
    "C92_not_nan",
    "C92_nan_loose",
    "C92_qpoases_tightest",
    "C92_qpoases_refuted",
    "C92_osqp_forgets",
    "C92_osqp_fields",
    "C92_clarabel_forgets",
    "C92_clarabel_kept",
    "C92_osqp_floor",
    "C92_daqp_only"
   ],
   "note": "Progress needs NLP tolerances within the factor reduction * safety of each other; refuted otherwise. The setters of qpOASES, OSQP and Clarabel refute that the requested tolerances are used."
  },
  {
   "property": "C93",
   "status": "proved",
   "theorems": [
    "C93_violation",
    "C93_zero",
    "C93_le_slacks",
    "C93_equal",
    "C93_descent",
    "C93_pred",
    "C93_slacks_refuted"
   ],
   "note": "Over the reals; the solution of the feasibility QP enters C93_descent through its optimality against the zero step. Slack sums that are not minimal refute equality."
  },
  {
   "property": "C94",
   "status": "proved",
   "theorems": [
    "C94_schur",
    "C94_diagonal",
    "C94_step",
    "C94_two_inputs",
    "C94_pivoting_refuted",
    "C94_exchange_refuted",
    "C94_smallest_refuted",
    "C94_shrinks",
    "C94_opposite",
    "C94_sign_refuted"
   ],
   "note": "Proved over the reals without exchanges and, with exchanges, for two inputs; refuted for the default pivoting with three inputs and for pivots below min_pivot. The rest of the regularisation (projection of R, recursion over the stages) is not part of the model."
  }
 ]
}