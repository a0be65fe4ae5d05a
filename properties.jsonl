{"id": "C01", "title": "Every NLP object fits in the memory its size function asked for", "statement": "For each of the objects created through the interface by a calculate_size/assign pair (dims, in, out, opts, memory, workspace, residuals), every block handed out by the assign step lies inside the raw block of the announced size, and no two blocks overlap.", "quantifier": "all horizon lengths, all dimension vectors, all base addresses, all sizes reported by submodules and by the linear-algebra library", "why_tests_cant": "A test creates a few problems at addresses chosen by the allocator; overlap or overrun appears only for particular dimension/address combinations and the trailing assert checks only the final pointer.", "anchors": ["acados/ocp_nlp/ocp_nlp_common.c: ocp_nlp_dims_calculate_size/assign, ocp_nlp_in_*, ocp_nlp_out_*, ocp_nlp_opts_*, ocp_nlp_memory_*, ocp_nlp_workspace_*, ocp_nlp_res_*", "acados/utils/mem.c: align_char_to, make_int_multiple_of, assign_and_advance_*"]}
{"id": "C02", "title": "Every pointer handed out is aligned for its type", "statement": "In the same carve-outs every array of doubles or pointers starts at an 8-byte boundary and every matrix buffer at a 64-byte boundary, so the alignment assertions can never fire, whatever address the raw block has.", "quantifier": "all dimensions and all base addresses", "why_tests_cant": "Allocators return 16-byte aligned blocks, so a test never exercises odd base addresses or all parities of integer-array lengths.", "anchors": ["acados/utils/mem.c: assign_and_advance_double, assign_and_advance_blasfeo_dvec_mem, assign_and_advance_blasfeo_dmat_mem", "acados/ocp_nlp/ocp_nlp_common.c"]}
{"id": "C03", "title": "Solver and submodule objects fit in their announced memory", "statement": "The SQP, SQP_RTI, DDP and SQP_WITH_FEASIBLE_QP option/memory/workspace objects, the QP-scaling and regularisation memories, the constraint and cost models and the external-function wrappers are each carved without overrun or overlap.", "quantifier": "all dimensions, option values that influence sizes, and base addresses", "why_tests_cant": "Sizes depend on products of many dimensions and flags; tests cover a handful of combinations.", "anchors": ["acados/ocp_nlp/ocp_nlp_sqp.c", "acados/ocp_nlp/ocp_nlp_sqp_rti.c", "acados/ocp_nlp/ocp_nlp_ddp.c", "acados/ocp_nlp/ocp_nlp_qpscaling.c", "acados/ocp_nlp/ocp_nlp_constraints_bgh.c", "acados/ocp_nlp/ocp_nlp_cost_ls.c", "acados/utils/external_function_generic.c: external_function_*_calculate_size/assign"]}
{"id": "C04", "title": "Zeroing an iterate touches only that iterate's own entries", "statement": "Resetting an iterate to zero through the interface sets every primal, algebraic and dual entry of that iterate to zero and writes nothing else.", "quantifier": "all dimension vectors (including problems with no inequality constraints)", "why_tests_cant": "The stray access reads a neighbouring array and usually writes zeros over already-zero memory, so no test observes it.", "anchors": ["interfaces/acados_c/ocp_nlp_interface.c: ocp_nlp_out_set_values_to_zero", "acados/ocp_nlp/ocp_nlp_common.c: ocp_nlp_out_assign, ocp_nlp_dims_assign_self"]}
{"id": "C05", "title": "RTI statistics never write outside the statistics table", "statement": "Whatever sequence of preparation, feedback and combined calls the user issues, every entry written to the statistics table lies inside the table allocated at solver creation.", "quantifier": "all histories of solver calls with all phase settings and all advanced-step levels", "why_tests_cant": "Tests alternate preparation and feedback; only unusual call histories (several feedbacks in a row) step out of the table.", "anchors": ["acados/ocp_nlp/ocp_nlp_sqp_rti.c: ocp_nlp_sqp_rti_feedback_step, ocp_nlp_sqp_rti_preparation_step, ocp_nlp_sqp_rti_preparation_advanced_step, rti_store_residuals_in_stats"]}
{"id": "C06", "title": "SQP logs stay in bounds and report the run that happened", "statement": "In an SQP run with the iteration limit used at creation every statistics/iterate/step-norm write is in bounds, and the statistics matrix returned to the user contains row k = the residuals and QP status of iteration k for each iteration performed.", "quantifier": "all residual/QP-status behaviours, all limits", "why_tests_cant": "Needs every interleaving of early termination, QP failure and iteration limit.", "anchors": ["acados/ocp_nlp/ocp_nlp_sqp.c: ocp_nlp_sqp, ocp_nlp_sqp_get"]}
{"id": "C07", "title": "SQP success means the returned point meets all four tolerances", "statement": "When the SQP solver returns success, the four KKT residual norms reported were evaluated at the iterate that is returned and each is strictly below its tolerance.", "quantifier": "all problems, all option settings with at least one residual evaluation, all QP-solver behaviours", "why_tests_cant": "A test sees a few problems; the claim concerns every path to the success exit, including limits and skipped residual evaluation.", "anchors": ["acados/ocp_nlp/ocp_nlp_sqp.c: check_termination, ocp_nlp_sqp"]}
{"id": "C08", "title": "SQP always stops, within the iteration limit, with a meaningful status", "statement": "An SQP call terminates after at most max_iter QP solves; the reported iteration count never exceeds max_iter; the status returned is one of the documented exit codes and 'maximum iterations' is returned only if the limit was reached.", "quantifier": "all oracles for residuals, QP status, globalization and clock", "why_tests_cant": "Termination over all behaviours cannot be enumerated.", "anchors": ["acados/ocp_nlp/ocp_nlp_sqp.c: ocp_nlp_sqp, check_termination"]}
{"id": "C09", "title": "NaN residuals are never reported as convergence", "statement": "If any of the four reported residual norms is NaN the solver returns the NaN status; no NaN value can pass a tolerance test in any of the solver exits.", "quantifier": "all IEEE double values of residuals and tolerances", "why_tests_cant": "IEEE comparison semantics over all NaN/Inf combinations.", "anchors": ["acados/ocp_nlp/ocp_nlp_sqp.c: check_termination", "acados/ocp_nlp/ocp_nlp_ddp.c: check_termination", "acados/ocp_nlp/ocp_nlp_sqp_with_feasible_qp.c: check_termination"]}
{"id": "C10", "title": "A NaN constraint value is detected", "statement": "If an inequality constraint function evaluates to NaN, the inequality residual norm the solver tests is NaN (so that the run ends with the NaN status).", "quantifier": "all constraint vectors containing a NaN", "why_tests_cant": "Tests hardly ever produce NaN in constraints only.", "anchors": ["acados/ocp_nlp/ocp_nlp_common.c: ocp_nlp_res_compute"]}
{"id": "C11", "title": "Reported residual norms are the maxima over all stages", "statement": "Each reported residual norm equals the largest absolute entry over every stage of the stationarity, dynamics-gap, violated-inequality and complementarity residual of the iterate.", "quantifier": "all horizons, dimensions and values (including a nonzero barrier parameter)", "why_tests_cant": "Universal over stages with and without constraints, and over previous contents of the scratch vectors.", "anchors": ["acados/ocp_nlp/ocp_nlp_common.c: ocp_nlp_res_compute, ocp_nlp_res_get_inf_norm"]}
{"id": "C12", "title": "Timeout is honoured before starting another QP", "statement": "With a positive time limit the SQP solver never starts a QP solve when elapsed time plus the estimated iteration cost has reached the limit; with no limit it never returns the timeout status.", "quantifier": "all clock behaviours and all estimation heuristics", "why_tests_cant": "Depends on the schedule of the wall clock.", "anchors": ["acados/ocp_nlp/ocp_nlp_sqp.c: check_termination, ocp_nlp_sqp (timeout heuristic)"]}
{"id": "C13", "title": "Timeout estimates match their documented heuristics", "statement": "The iteration-cost estimate is the last iteration time, the maximum over the call, the maximum over all calls, or zero, according to the chosen heuristic.", "quantifier": "all sequences of calls and iteration times", "why_tests_cant": "History dependent over unboundedly many iterations and calls.", "anchors": ["acados/ocp_nlp/ocp_nlp_sqp.c: ocp_nlp_sqp", "acados/utils/types.h"]}
{"id": "C14", "title": "A failed QP or line search leaves the iterate untouched", "statement": "When an SQP step is abandoned because the QP failed or the funnel line search found no acceptable step, the iterate returned is exactly the iterate at the start of that iteration.", "quantifier": "all failing iterations", "why_tests_cant": "Requires reasoning about every failure path.", "anchors": ["acados/ocp_nlp/ocp_nlp_sqp.c", "acados/ocp_nlp/ocp_nlp_globalization_funnel.c: ocp_nlp_globalization_funnel_find_acceptable_iterate"]}
{"id": "C15", "title": "RTI status reflects the last feedback only", "statement": "A feedback (or combined) call returns success exactly when its QP solve ended with success or iteration limit, and QP failure otherwise.", "quantifier": "all call histories", "why_tests_cant": "Sequences of calls of unbounded length.", "anchors": ["acados/ocp_nlp/ocp_nlp_sqp_rti.c: ocp_nlp_sqp_rti, ocp_nlp_sqp_rti_feedback_step"]}
{"id": "C16", "title": "Preparation followed by feedback equals the combined RTI call", "statement": "Calling preparation and then feedback (without changing data in between) produces the same iterate, status and statistics as the single combined call, provided splitting the regularisation and condensing is exact.", "quantifier": "all states, all submodule behaviours satisfying the split law", "why_tests_cant": "Equality of two programs on all states.", "anchors": ["acados/ocp_nlp/ocp_nlp_sqp_rti.c: ocp_nlp_sqp_rti_preparation_step, ocp_nlp_sqp_rti_feedback_step"]}
{"id": "C17", "title": "DDP success means evaluated residuals met the tolerances", "statement": "When the DDP solver returns success the residuals it reports were evaluated during this call at the returned iterate, the dynamics residual is below tolerance and either stationarity is below tolerance or the zero-residual test holds.", "quantifier": "all problems and option settings", "why_tests_cant": "Corner options (iteration limit zero, residual evaluation skipped) combined with residuals left over from construction or an earlier call.", "anchors": ["acados/ocp_nlp/ocp_nlp_ddp.c: check_termination, ocp_nlp_ddp"]}
{"id": "C18", "title": "DDP trial iterates satisfy the dynamics exactly", "statement": "Every trial trajectory built by the DDP forward pass is a rollout: the next state equals the dynamics function applied to the current trial state and control, for every step length.", "quantifier": "all horizons, gains, step lengths and dynamics functions (exact arithmetic)", "why_tests_cant": "Universal over functions and horizons.", "anchors": ["acados/ocp_nlp/ocp_nlp_ddp.c: ocp_nlp_ddp_compute_trial_iterate"]}
{"id": "C19", "title": "DDP multipliers are the documented blend of old and new", "statement": "With partial dual steps the multipliers of the trial iterate are (1-alpha) times the current multipliers plus alpha times the QP multipliers.", "quantifier": "all step lengths and previous contents of the trial buffer", "why_tests_cant": "The buffer's history matters only when alpha<1 and a previous trial was rejected.", "anchors": ["acados/ocp_nlp/ocp_nlp_ddp.c: ocp_nlp_ddp_compute_trial_iterate"]}
{"id": "C20", "title": "The funnel never widens and stays positive", "statement": "During a solve the funnel width is positive and never increases, and every step accepted in the funnel phase leaves the infeasibility at most the width in force when it was tested.", "quantifier": "all sequences of trial points, valid options, IEEE doubles", "why_tests_cant": "Unbounded sequences of accepted/rejected steps in floating point.", "anchors": ["acados/ocp_nlp/ocp_nlp_globalization_funnel.c: decrease_funnel, is_trial_iterate_acceptable_to_funnel, initialize_funnel_width"]}
{"id": "C21", "title": "The funnel line search terminates", "statement": "For a positive minimum step and a reduction factor in (0,1) the funnel and DDP line searches stop after finitely many reductions for every behaviour of the functions; otherwise they can loop for ever.", "quantifier": "all doubles for the options, all function behaviours", "why_tests_cant": "Termination over all floating-point inputs.", "anchors": ["acados/ocp_nlp/ocp_nlp_globalization_funnel.c: backtracking_line_search", "acados/ocp_nlp/ocp_nlp_globalization_merit_backtracking.c: ocp_nlp_ddp_backtracking_line_search"]}
{"id": "C22", "title": "Each solve is independent of the previous one (funnel state)", "statement": "Two solves started from the same iterate with the same options behave identically regardless of what earlier solves did with the same solver object.", "quantifier": "all histories of earlier solves", "why_tests_cant": "Requires all histories.", "anchors": ["acados/ocp_nlp/ocp_nlp_globalization_funnel.c: ocp_nlp_globalization_funnel_initialize_memory"]}
{"id": "C23", "title": "Merit weights always dominate the multipliers", "statement": "After every update in the merit-function line search each weight is at least the absolute value of the current multiplier it penalises, and no weight falls below half of its previous value.", "quantifier": "all multiplier sequences", "why_tests_cant": "Unbounded sequences of updates.", "anchors": ["acados/ocp_nlp/ocp_nlp_globalization_merit_backtracking.c: merit_backtracking_update_weights, initialize_weights"]}
{"id": "C24", "title": "A step taken by the merit line search decreases the merit function", "statement": "When the merit-function line search makes the solver continue with a step, the merit value at the new iterate was evaluated and satisfies the sufficient-decrease test.", "quantifier": "all merit values and options", "why_tests_cant": "Exhaustive over all paths through the backtracking loop.", "anchors": ["acados/ocp_nlp/ocp_nlp_globalization_merit_backtracking.c: ocp_nlp_globalization_merit_backtracking_find_acceptable_iterate, ocp_nlp_line_search"]}
{"id": "C25", "title": "The DDP line search never increases the cost", "statement": "A DDP step accepted by the line search has cost at most the current cost, and the stored cost is the cost of the accepted iterate; on failure cost and iterate are unchanged.", "quantifier": "all IEEE cost values and predicted reductions", "why_tests_cant": "All floating-point values including infinities and NaN.", "anchors": ["acados/ocp_nlp/ocp_nlp_globalization_merit_backtracking.c: ocp_nlp_ddp_backtracking_line_search"]}
{"id": "C26", "title": "Variable update is the documented convex combination", "statement": "After a step of length alpha the primal variables are old + alpha*direction, the duals (1-alpha)*old + alpha*QP duals (or exactly the QP duals with full dual step); nonnegative inequality multipliers stay nonnegative for alpha in [0,1].", "quantifier": "all iterates, steps and alpha (exact arithmetic), with source and destination aliased or not", "why_tests_cant": "Universal over vectors and aliasing.", "anchors": ["acados/ocp_nlp/ocp_nlp_common.c: ocp_nlp_update_variables_sqp"]}
{"id": "C27", "title": "The linear solver solves", "statement": "The dense solver used for the matrix exponential returns, for every matrix on which no pivot vanishes, the exact solution of A X = B, and flags a zero pivot otherwise (exact arithmetic).", "quantifier": "all dimensions and matrices over an ordered field", "why_tests_cant": "Universal over matrices; tests use a few numeric examples.", "anchors": ["acados/utils/math.c: dgetf2_3l, dlaswp_3l, dtrsm_llnu_3l, dtrsm_lunn_3l, dgetrs_3l, dgesv_3l"]}
{"id": "C28", "title": "The matrix exponential uses the Pade approximant of the chosen degree", "statement": "For each degree the numerator and denominator assembled by the Pade routine are the polynomials with the tabulated Pade coefficients.", "quantifier": "all matrices, all supported degrees", "why_tests_cant": "Numeric tests tolerate a small error and rarely reach degree 13.", "anchors": ["acados/utils/math.c: padeapprox, expm"]}
{"id": "C29", "title": "Interpolation returns the interpolating polynomial", "statement": "Neville interpolation returns at every query point the value of the unique polynomial of degree < n through the n given points.", "quantifier": "all node counts, distinct nodes, values, query points (exact arithmetic)", "why_tests_cant": "Universal over real inputs.", "anchors": ["acados/utils/math.c: neville_algorithm"]}
{"id": "C30", "title": "Gershgorin estimates bound the spectrum", "statement": "For every symmetric matrix the computed maximum estimate bounds the absolute value of every eigenvalue and the minimum estimate is a lower bound of every eigenvalue.", "quantifier": "all sizes and symmetric real matrices", "why_tests_cant": "Universal statement about eigenvalues.", "anchors": ["acados/utils/math.c: compute_gershgorin_max_abs_eig_estimate, compute_gershgorin_min_eig_estimate"]}
{"id": "C31", "title": "Hessian regularisation yields a positive definite Hessian", "statement": "Given an exact eigendecomposition, projection and mirroring return a symmetric matrix whose quadratic form is at least epsilon times the squared norm; matrices already above epsilon are unchanged; the adaptive variants bound the condition number by the requested value.", "quantifier": "all sizes, all symmetric matrices with the given decomposition", "why_tests_cant": "Universal over matrices.", "anchors": ["acados/ocp_nlp/ocp_nlp_reg_common.c: acados_project, acados_mirror, acados_project_adaptive_eps, acados_mirror_adaptive_eps, acados_reconstruct_A"]}
{"id": "C32", "title": "Gershgorin Levenberg-Marquardt regularisation yields a positive definite Hessian", "statement": "After this regularisation every stage Hessian has all eigenvalues at least epsilon, and a Hessian whose Gershgorin bound is already at least epsilon is unchanged apart from symmetrisation.", "quantifier": "all sizes and matrices", "why_tests_cant": "Universal over matrices.", "anchors": ["acados/ocp_nlp/ocp_nlp_reg_glm.c: ocp_nlp_reg_glm_regularize"]}
{"id": "C33", "title": "Collocation tableaux integrate polynomials exactly", "statement": "For every set of pairwise distinct nodes the computed Butcher tableau satisfies the simplifying assumptions B(s) and C(s), i.e. integrates all polynomials of degree < s exactly on every subinterval (exact arithmetic).", "quantifier": "all stage numbers and all distinct nodes", "why_tests_cant": "Universal over nodes and degrees.", "anchors": ["acados/sim/sim_collocation_utils.c: lu_system_solve, calculate_butcher_tableau_from_nodes"]}
{"id": "C34", "title": "Explicit Runge-Kutta tableaux have the promised order", "statement": "The built-in explicit tableaux with 1,2,3,4 stages satisfy the order conditions up to order 1,2,3,4 and are strictly lower triangular with c = A e.", "quantifier": "all tabulated methods (exact rational arithmetic)", "why_tests_cant": "Order cannot be concluded from a finite number of integrations.", "anchors": ["acados/sim/sim_collocation_utils.c: get_explicit_butcher_tableau"]}
{"id": "C35", "title": "Integrator forward sensitivities are derivatives of the integrator output", "statement": "The forward sensitivities returned by the explicit Runge-Kutta integrator equal the exact derivative of the returned state with respect to the seed direction whenever the user-supplied variational function is the derivative of the user-supplied ODE.", "quantifier": "all ODEs, tableaux, step counts, seeds", "why_tests_cant": "Finite differences only approximate the derivative at a few points.", "anchors": ["acados/sim/sim_erk_integrator.c: sim_erk"]}
{"id": "C36", "title": "Adjoint sensitivities agree with forward sensitivities", "statement": "The adjoint output of the explicit integrator is the transposed forward sensitivity matrix applied to the adjoint seed.", "quantifier": "all ODEs with consistent forward/adjoint variational functions, all tableaux and step counts", "why_tests_cant": "Duality for all seeds and functions.", "anchors": ["acados/sim/sim_erk_integrator.c: sim_erk (adjoint sweep)"]}
{"id": "C37", "title": "Sparse function outputs are copied to the right matrix entries", "statement": "For every valid compressed-column sparsity pattern the values produced by a generated function arrive in the target matrix/vector at their row and column, all other entries of the block become zero, and packing the matrix back returns the same nonzeros; dense-looking patterns take the same values.", "quantifier": "all patterns, dimensions, leading dimensions and target formats", "why_tests_cant": "Patterns are unbounded; tests use the patterns of a few models.", "anchors": ["acados/utils/external_function_generic.c: d_cvt_casadi_to_colmaj, d_cvt_colmaj_to_casadi, d_cvt_casadi_to_dmat_args, d_cvt_casadi_to_dvec_args, d_cvt_casadi_to_colmaj_args, casadi_is_dense, casadi_nnz"]}
{"id": "C38", "title": "Partial parameter updates change exactly the listed parameters", "statement": "A sparse parameter update sets exactly the listed parameters of that stage (last write wins) and leaves all others unchanged; a full update followed by get returns the values set.", "quantifier": "all index lists (with repetitions) and histories", "why_tests_cant": "Histories of updates are unbounded.", "anchors": ["interfaces/acados_c/ocp_nlp_interface.c: ocp_nlp_in_set, ocp_nlp_in_set_params_sparse, ocp_nlp_in_get", "acados/utils/external_function_generic.c: external_function_param_generic_set_param_sparse"]}
{"id": "C39", "title": "Flat get/set of the iterate round-trips", "statement": "Setting all values of a field of the iterate from a flat vector and reading them back returns the vector (multipliers of masked constraints read back as zero), other fields are unchanged, and the number of entries written equals the advertised total when controls and algebraic variables are absent at the terminal stage.", "quantifier": "all dimension vectors and values", "why_tests_cant": "Universal over dimensions and histories.", "anchors": ["interfaces/acados_c/ocp_nlp_interface.c: ocp_nlp_get_all, ocp_nlp_set_all, ocp_nlp_out_set, ocp_nlp_out_get, ocp_nlp_dims_get_total_from_attr"]}
{"id": "C40", "title": "Constraint setters keep bounds and activity masks consistent", "statement": "After any sequence of constraint setter calls each bound reads back as last set, setting one field leaves all others unchanged, and a bound is masked out exactly when it is at or beyond the infinity threshold.", "quantifier": "all dimensions and all histories of setter calls", "why_tests_cant": "Unbounded histories over a packed vector with many offsets.", "anchors": ["acados/ocp_nlp/ocp_nlp_constraints_bgh.c: ocp_nlp_constraints_bgh_model_set, ocp_nlp_constraints_bgh_model_get, update_mask_lower, update_mask_upper"]}
{"id": "C41", "title": "Inequality adjoints are the transposed constraint Jacobian", "statement": "The constraint contribution to the stationarity residual equals the transposed Jacobian of the constraint values times the multipliers (lower positive, upper negative), slack entries included, and the two ways of declaring softened constraints give the same result.", "quantifier": "all dimensions, index maps, values and multipliers", "why_tests_cant": "Universal over index maps.", "anchors": ["acados/ocp_nlp/ocp_nlp_constraints_bgh.c: ocp_nlp_constraints_bgh_update_qp_matrices, ocp_nlp_constraints_bgh_compute_fun, ocp_nlp_constraints_bgh_update_qp_vectors"]}
{"id": "C42", "title": "Algebraic-variable elimination updates the right constraint Jacobian block", "statement": "With algebraic variables the linearised nonlinear constraints handed to the QP are dh/d(u,x) + dz/d(u,x) * dh/dz and the linear (polytopic) constraint rows are unchanged.", "quantifier": "all dimensions with linear and nonlinear constraints and algebraic variables", "why_tests_cant": "Needs the particular combination of general linear constraints, nonlinear constraints and algebraic variables.", "anchors": ["acados/ocp_nlp/ocp_nlp_constraints_bgh.c: ocp_nlp_constraints_bgh_update_qp_matrices"]}
{"id": "C43", "title": "Least-squares cost terms are consistent for every setter history", "statement": "After any history of setter calls followed by initialisation, the Hessian used is scaling * V' W V of the current data, the gradient is the derivative of the reported cost, and the cost computed for line search equals the cost computed during linearisation.", "quantifier": "all dimensions, data and setter histories (exact arithmetic, W = L L')", "why_tests_cant": "The Hessian is cached behind change flags; histories are unbounded.", "anchors": ["acados/ocp_nlp/ocp_nlp_cost_ls.c: ocp_nlp_cost_ls_model_set, ocp_nlp_cost_ls_initialize, ocp_nlp_cost_ls_update_W_factorization, ocp_nlp_cost_ls_update_qp_matrices, ocp_nlp_cost_ls_compute_fun"]}
{"id": "C44", "title": "Nonlinear least-squares slack cost and gradient agree", "statement": "The gradient reported for the slack variables is the derivative of the reported cost value with respect to the slacks.", "quantifier": "all scalings and cost-integration settings", "why_tests_cant": "Only the combination of integrated cost, scaling different from one and slacks deviates.", "anchors": ["acados/ocp_nlp/ocp_nlp_cost_nls.c: ocp_nlp_cost_nls_update_qp_matrices, ocp_nlp_cost_nls_compute_fun"]}
{"id": "C45", "title": "The predicted QP objective is the QP objective", "statement": "The quadratic model value used by the globalization (predicted reduction) equals the QP objective at the QP solution.", "quantifier": "all horizons, dimensions (with slacks) and values", "why_tests_cant": "Universal; the deviation for slacked problems only shows as slower convergence.", "anchors": ["acados/ocp_nlp/ocp_nlp_common.c: ocp_nlp_compute_qp_objective_value"]}
{"id": "C46", "title": "QP scaling does not change the solution", "statement": "A primal-dual point solves the scaled QP if and only if the point returned after undoing the scaling solves the original QP.", "quantifier": "all dimensions, scaling factors and slack maps that soften each constraint by its own slack", "why_tests_cant": "Equivalence for all QPs.", "anchors": ["acados/ocp_nlp/ocp_nlp_qpscaling.c: ocp_nlp_qpscaling_scale_qp, ocp_nlp_qpscaling_rescale_solution, scale_constraints, rescale_solution_constraint_scaling, ocp_qp_scale_objective"]}
{"id": "C47", "title": "The objective scaling factor respects its limits", "statement": "The computed objective scaling factor is positive and finite, brings the largest Hessian eigenvalue estimate to at most the upper limit, and the bounds-violated status is reported exactly when the gradient stays below its lower limit.", "quantifier": "all nonnegative eigenvalue estimates and gradient norms", "why_tests_cant": "Corner cases (zero Hessian, zero gradient) in floating point.", "anchors": ["acados/ocp_nlp/ocp_nlp_qpscaling.c: compute_obj_scaling_factor / ocp_nlp_qpscaling_compute_obj_scaling_factor"]}
{"id": "C48", "title": "Dimension totals equal the sums of the stage dimensions", "statement": "For any history of dimension setter calls the totals used by the flat interfaces equal the sums of the per-stage dimensions in force.", "quantifier": "all histories of dimension setter calls", "why_tests_cant": "Unbounded histories of overwrites.", "anchors": ["acados/ocp_nlp/ocp_nlp_common.c: ocp_nlp_dims_set_opt_vars, ocp_nlp_dims_set_constraints, ocp_nlp_dims_set_cost"]}
{"id": "C49", "title": "Options do not depend on the history of option calls", "statement": "Setting the exact-Hessian options twice leaves the solver in the same state as setting only the final values.", "quantifier": "all histories of option setter calls", "why_tests_cant": "Unbounded histories.", "anchors": ["acados/ocp_nlp/ocp_nlp_common.c: ocp_nlp_opts_set"]}
{"id": "C50", "title": "Second-order correction uses the right constraint right-hand side", "statement": "The second-order-correction QP has the linearised constraints shifted so that its feasible points d satisfy g(x + d_qp) + J (d - d_qp) (in)equalities.", "quantifier": "all horizons, dimensions, values", "why_tests_cant": "Universal over functions and values.", "anchors": ["acados/ocp_nlp/ocp_nlp_common.c: ocp_nlp_common_setup_soc (second order correction)"]}
{"id": "C51", "title": "Parallel stage loops are schedule independent", "statement": "Evaluating the stages with any number of threads and any interleaving gives bitwise the same linearisation and cost as the sequential loop, apart from floating-point sums that are reduced sequentially.", "quantifier": "all interleavings of the per-stage tasks", "why_tests_cant": "Schedules are exponentially many.", "anchors": ["acados/ocp_nlp/ocp_nlp_common.c: ocp_nlp_approximate_qp_matrices, ocp_nlp_cost_compute (omp parallel for)"]}
{"id": "C52", "title": "Adaptive Levenberg-Marquardt parameter stays in its limits", "statement": "Under any sequence of accepted and rejected steps the adaptive regularisation parameter stays between its configured minimum and maximum behaviour and grows after a bad step, shrinks after a good one.", "quantifier": "all sequences of step lengths", "why_tests_cant": "Unbounded sequences.", "anchors": ["acados/ocp_nlp/ocp_nlp_common.c: adaptive_levenberg_marquardt_update_mu, ocp_nlp_add_levenberg_marquardt_term"]}
{"id": "C53", "title": "Relaxed search-direction QP keeps the nominal QP feasible", "statement": "After solving the feasibility QP, the bounds of the nominal QP are relaxed so that the feasibility step is feasible for the nominal QP, for every relaxation factor at least one.", "quantifier": "all QPs, slack values and factors >= 1", "why_tests_cant": "Universal over QPs.", "anchors": ["acados/ocp_nlp/ocp_nlp_sqp_with_feasible_qp.c: setup_byrd_omojokun_bounds, ocp_nlp_sqp_wfqp_approximate_feasibility_qp_constraint_vectors"]}
{"id": "C54", "title": "Every unslacked constraint gets its own slack in the feasibility QP", "statement": "In the feasibility QP each constraint that must be relaxed and is not already softened owns exactly one slack, and slack numbering is a bijection.", "quantifier": "all dimensions and softened-index sets", "why_tests_cant": "Universal over index sets.", "anchors": ["acados/ocp_nlp/ocp_nlp_sqp_with_feasible_qp.c: ocp_nlp_sqp_wfqp_precompute, ocp_nlp_sqp_wfqp_memory_assign"]}
{"id": "C55", "title": "Search-direction mode switching follows its protocol", "statement": "The feasible-QP solver enters the relaxed mode exactly after a failed nominal QP and returns to the nominal mode only after the configured number of iterations with zero slacks.", "quantifier": "all sequences of QP outcomes", "why_tests_cant": "Unbounded sequences.", "anchors": ["acados/ocp_nlp/ocp_nlp_sqp_with_feasible_qp.c: calculate_search_direction"]}
{"id": "C56", "title": "Parameter gradient of the Lagrangian includes every stage", "statement": "The gradient of the Lagrangian with respect to the global parameters includes cost, dynamics and constraint contributions of every stage including the terminal one.", "quantifier": "all horizons and problems with parametric terminal constraints", "why_tests_cant": "Only terminal-constraint parameter dependence reveals it.", "anchors": ["acados/ocp_nlp/ocp_nlp_common.c: ocp_nlp_common_eval_lagr_grad_p"]}
{"id": "C57", "title": "The funnel penalty parameter stays in [0,1] and never grows", "statement": "For every predicted reduction, including infinities and NaN, the penalty update yields a finite non-negative number no larger than before, so the assertion closing the update never fires.", "quantifier": "all doubles for both predictions, all numbers of iterations", "why_tests_cant": "A single NaN or signed-zero quotient would abort the process.", "anchors": ["acados/ocp_nlp/ocp_nlp_globalization_funnel.c: update_funnel_penalty_parameter"]}
{"id": "C58", "title": "The l1 infeasibility measures infeasibility", "statement": "The l1 infeasibility is never negative and is zero exactly when all dynamics residuals vanish and all constraints hold; a NaN residual is never reported as feasible.", "quantifier": "all horizons, dimensions and values", "why_tests_cant": "Universal over lengths and values; NaN cases are rarely tested.", "anchors": ["acados/ocp_nlp/ocp_nlp_common.c: ocp_nlp_get_l1_infeasibility"]}
{"id": "C59", "title": "The merit gradient is the directional derivative of the merit function", "statement": "The value that ocp_nlp_compute_merit_gradient returns is the derivative at step length zero of the merit function along the QP step, for nonzero shooting gaps and constraint values.", "quantifier": "all horizons, dimensions, soft-constraint assignments, weights and problem functions differentiable along the step", "why_tests_cant": "A sign error only weakens the sufficient-decrease test; no run fails visibly, and agreement must hold for every active set.", "anchors": ["acados/ocp_nlp/ocp_nlp_globalization_merit_backtracking.c: ocp_nlp_compute_merit_gradient, ocp_nlp_evaluate_merit_fun"]}
{"id": "C60", "title": "The integrator Hessian is the derivative of the weighted forward sensitivities", "statement": "The S_hess output of the explicit integrator is, entry by entry, the derivative of the adjoint-seed-weighted forward sensitivities in the direction of each seed column, and is symmetric; requesting Hessians never accesses memory outside the work arrays.", "quantifier": "all twice differentiable ODEs, tableaux, step counts, seeds, option flags", "why_tests_cant": "Packed-triangle indexing and stage ordering errors cancel for symmetric or one-stage test problems; the option combination is never exercised.", "anchors": ["acados/sim/sim_erk_integrator.c: sim_erk (adjoint and Hessian sweep)"]}
{"id": "C61", "title": "DDP rolls out the dynamics exactly once, first, and only from an infeasible guess", "statement": "The DDP solver takes a forward-simulation step only as the first step of a call and exactly when the dynamics residual evaluated at the initial guess exceeds the equality tolerance; every other step goes through the globalization.", "quantifier": "all problems, guesses, iteration limits", "why_tests_cant": "Statement about all call histories and residual values, including the boundary value of the tolerance and NaN.", "anchors": ["acados/ocp_nlp/ocp_nlp_ddp.c: ocp_nlp_ddp"]}
{"id": "C62", "title": "DDP statistics stay inside their arrays", "statement": "Every statistics and iterate store of the DDP solver is inside the arrays allocated for it, for every option setting.", "quantifier": "all option settings and run histories", "why_tests_cant": "Out-of-bounds or null stores need not crash; needs all option combinations.", "anchors": ["acados/ocp_nlp/ocp_nlp_ddp.c: ocp_nlp_ddp, ocp_nlp_ddp_memory_assign"]}
{"id": "C63", "title": "Feasible-QP SQP: success means evaluated residuals met the tolerances, bounded work, stores inside the logs", "statement": "When the feasible-QP SQP solver returns success, all four residuals evaluated at the returned iterate in this call are below their tolerances; it solves at most three QPs per iteration and at most max_iter iterations, returns a documented final status, and writes no statistics outside the allocated arrays.", "quantifier": "all problems, options, QP outcomes", "why_tests_cant": "Universal over outcome sequences and option settings; out-of-bounds stores need not crash.", "anchors": ["acados/ocp_nlp/ocp_nlp_sqp_with_feasible_qp.c: ocp_nlp_sqp_wfqp, check_termination, calculate_search_direction, log_qp_stats"]}
{"id": "C64", "title": "Convex-over-nonlinear and external costs: values, gradients and Hessians are consistent", "statement": "For convex-over-nonlinear and external costs the value computed during linearisation, the value computed for line search and the user's cost with slacks and scaling are the same; the gradient (also the one of compute_gradient) is the derivative of that value with algebraic variables eliminated; the Hessian block is the scaled (Gauss-Newton or exact) Hessian of the user's function, computed inside the workspace matrices.", "quantifier": "all dimensions, user functions, data, scalings and algebraic variables", "why_tests_cant": "Errors show only with algebraic variables that couple nonlinearly with states in the cost, or with cost integration, slacks and a scaling different from one at once.", "anchors": ["acados/ocp_nlp/ocp_nlp_cost_conl.c: ocp_nlp_cost_conl_update_qp_matrices, ocp_nlp_cost_conl_compute_gradient, ocp_nlp_cost_conl_compute_fun", "acados/ocp_nlp/ocp_nlp_cost_external.c: ocp_nlp_cost_external_update_qp_matrices, ocp_nlp_cost_external_compute_gradient, ocp_nlp_cost_external_compute_fun"]}
{"id": "C65", "title": "Adapted QP tolerances guarantee the requested accuracy of the unscaled QP", "statement": "With the tolerance strategy ADAPTIVE_QPSCALING, a solution of the scaled QP whose residuals are within the tolerances passed to the QP solver has, after unscaling, stationarity, equality, inequality and complementarity residuals within the safety factor times the tolerances of the NLP solver (when the minimum tolerances are not active).", "quantifier": "all QPs, dimensions, scaling factors and tolerances", "why_tests_cant": "Depends on the combination of scaling factors; a test sees one combination, and usually no scaled terminal constraint.", "anchors": ["acados/ocp_nlp/ocp_nlp_common.c: ocp_nlp_solve_qp_and_correct_dual", "acados/ocp_nlp/ocp_nlp_qpscaling.c: ocp_nlp_qpscaling_memory_get"]}
{"id": "C66", "title": "The stage Hessian is the sum of the enabled contributions", "statement": "After any history of option calls and iterations, the Hessian block of stage i in the QP is the sum of the cost Hessian, and of the dynamics and constraint Hessians where the last setting of the exact-Hessian options switches them on, plus the Levenberg-Marquardt term; nothing of an earlier iteration remains.", "quantifier": "all horizons, module kinds, histories of option calls and iterations, all contributions", "why_tests_cant": "Unbounded histories of calls and arbitrary contributions.", "anchors": ["acados/ocp_nlp/ocp_nlp_common.c: ocp_nlp_approximate_qp_matrices, ocp_nlp_opts_set, ocp_nlp_add_levenberg_marquardt_term", "acados/ocp_nlp/ocp_nlp_cost_*.c: update_qp_matrices", "acados/ocp_nlp/ocp_nlp_dynamics_cont.c, ocp_nlp_dynamics_disc.c: update_qp_matrices"]}
{"id": "C67", "title": "A fixed Hessian is evaluated once", "statement": "With fixed_hess the Hessian evaluated at precompute stays in the QP for all iterations.", "quantifier": "all horizons, all numbers of iterations, all contributions", "why_tests_cant": "Unbounded number of iterations.", "anchors": ["acados/ocp_nlp/ocp_nlp_common.c: ocp_nlp_precompute_common"]}
{"id": "C68", "title": "Hessians of the nominal and the feasibility QP", "statement": "In the SQP method with feasibility QP the nominal QP has the sum of all enabled contributions and the feasibility QP, if asked to, the contributions of dynamics and constraints only, whatever options were set before.", "quantifier": "all horizons, module kinds, histories of option calls and iterations", "why_tests_cant": "Unbounded histories.", "anchors": ["acados/ocp_nlp/ocp_nlp_sqp_with_feasible_qp.c: set_pointers_for_hessian_evaluation, setup_hessian_matrices_for_qps, prepare_and_solve_QP"]}
{"id": "C69", "title": "Integrator objects fit in their announced sizes", "statement": "For ERK, IRK, lifted IRK and GNSF, the sim_in, sim_out, options, model, memory and workspace carve-outs of the assign and cast functions stay inside the size returned by the matching calculate_size function, do not overlap, and every field is aligned for its type from an 8-aligned base; the tableau work array holds its two users; the continuous-time dynamics module built around any integrator fits as well.", "quantifier": "all dimensions, numbers of stages and steps, all combinations of sensitivity, algebraic-output, parametric and cost-integration options, all base addresses, all struct and library buffer sizes satisfying the stated alignment", "why_tests_cant": "The layout depends on eight option flags and ten unbounded integers; tests exercise a handful of models, and the asserts compare with the same size function only in debug builds.", "anchors": ["acados/sim/sim_common.c:77-337", "acados/sim/sim_erk_integrator.c:447-584", "acados/sim/sim_irk_integrator.c:626-916", "acados/sim/sim_lifted_irk_integrator.c:320-615", "acados/sim/sim_gnsf.c:389-492", "acados/sim/sim_gnsf.c:1186-1794", "acados/sim/sim_collocation_utils.c:464-499", "acados/ocp_nlp/ocp_nlp_dynamics_cont.c:632-695"]}
{"id": "C70", "title": "Integrator workspace under options changed for one evaluation", "statement": "When the continuous-time dynamics module switches the sensitivity options of its integrator for one residual or residual-and-adjoint evaluation, the integrator's workspace carve-out stays inside the workspace announced with the original options.", "quantifier": "all dimensions, stages, steps and announced options, all four integrators, all base addresses", "why_tests_cant": "An overrun of a workspace usually lands in the next workspace and goes unnoticed; the assert in the cast function recomputes the size with the changed options and cannot fire.", "anchors": ["acados/ocp_nlp/ocp_nlp_dynamics_cont.c:968-986", "acados/ocp_nlp/ocp_nlp_dynamics_cont.c:1043-1062", "acados/ocp_nlp/ocp_nlp_common.c:3194-3275", "acados/ocp_nlp/ocp_nlp_sqp_rti.c:409", "acados/sim/sim_erk_integrator.c:447-584", "acados/sim/sim_irk_integrator.c:626-916"]}
{"id": "C71", "title": "The OSQP interface writes well-formed sparse matrices inside its arrays", "statement": "After any number of solver calls on QPs with the same index maps, the constraint and Hessian matrices handed to OSQP are valid compressed-column matrices: column pointers start at zero and do not decrease, row numbers are below the announced number of rows and strictly increase inside every column, the Hessian is upper triangular, the number of entries is at most the announced maximum, and exactly as many values as row numbers are written.", "quantifier": "all horizons, stage dimensions, index maps of bounds and slacks with as many softened constraints as slacks, all QP data, all histories of calls", "why_tests_cant": "The entry counters depend on six dimension vectors and two index maps per stage; an entry too many lands in the next array of the same allocation without a fault, and OSQP itself checks only part of this at set-up.", "anchors": ["acados/ocp_qp/ocp_qp_osqp.c:227-331", "acados/ocp_qp/ocp_qp_osqp.c:354-399", "acados/ocp_qp/ocp_qp_osqp.c:436-681", "acados/ocp_qp/ocp_qp_osqp.c:686-850", "acados/ocp_qp/ocp_qp_osqp.c:933-949"]}
{"id": "C72", "title": "The OSQP interface neither loses nor invents solutions", "statement": "A primal-dual point satisfies the optimality conditions of the QP assembled for OSQP only if the solution written back satisfies the optimality conditions of the OCP QP, including softened bounds, softened general constraints, slack bounds and the split of two-sided multipliers; and every optimal point of the OCP QP is obtained from one of the assembled QP.", "quantifier": "all horizons, stage dimensions, QP data, index maps of bounds and slacks, all histories of calls with the same maps, all primal and dual points", "why_tests_cant": "Tests compare a few optimal values with another solver; a wrong sign or row for one of the four row groups shows only when that constraint is active, and the correspondence of multipliers is not compared at all.", "anchors": ["acados/ocp_qp/ocp_qp_osqp.c:335-432", "acados/ocp_qp/ocp_qp_osqp.c:436-850", "acados/ocp_qp/ocp_qp_osqp.c:854-949", "acados/ocp_qp/ocp_qp_osqp.c:1628-1760"]}
{"id": "C73", "title": "The Clarabel interface hands over the QP it was given", "statement": "After any number of calls, a primal-dual point satisfies the optimality conditions of the conic QP held in the memory of the Clarabel interface if and only if the solution written back satisfies the optimality conditions of the OCP QP; every optimal point of the OCP QP is returned for some point; the right-hand side, Hessian and constraint values in the memory are those of the OCP QP although they lie in one allocation and update_bounds flips signs in place.", "quantifier": "all horizons, stage dimensions, QP data, index maps of bounds and slacks (slacks may be shared), all histories of calls with the same maps, all primal and dual points", "why_tests_cant": "The example tests for Clarabel have many bounds, so the sign loop that runs over twice the number of states never leaves the right-hand side; with few inequality constraints it reaches the Hessian values behind it, inside the same allocation where no memory checker complains.", "anchors": ["acados/ocp_qp/ocp_qp_clarabel.c:112-200", "acados/ocp_qp/ocp_qp_clarabel.c:205-310", "acados/ocp_qp/ocp_qp_clarabel.c:315-622", "acados/ocp_qp/ocp_qp_clarabel.c:630-745", "acados/ocp_qp/ocp_qp_clarabel.c:906-955", "acados/ocp_qp/ocp_qp_clarabel.c:1018-1070"]}
{"id": "C74", "title": "The Clarabel interface writes well-formed sparse matrices and never updates a solver it has not built", "statement": "The constraint and Hessian matrices handed to Clarabel are valid compressed-column matrices inside their arrays: pointers start at zero and do not decrease, row numbers are below the announced number of rows and sorted or at least distinct in every column, the Hessian is upper triangular, and as many values as row numbers are written; the first call on a memory builds the solver.", "quantifier": "all horizons, stage dimensions, index maps, QP data, histories of calls, and several memories used with one options object", "why_tests_cant": "Clarabel does not check its input in release builds; the options object is shared between two memories only in one NLP solver, which is not tested with Clarabel.", "anchors": ["acados/ocp_qp/ocp_qp_clarabel.c:151-200", "acados/ocp_qp/ocp_qp_clarabel.c:315-480", "acados/ocp_qp/ocp_qp_clarabel.c:720-745", "acados/ocp_qp/ocp_qp_clarabel.c:786", "acados/ocp_qp/ocp_qp_clarabel.c:1130-1160", "acados/ocp_nlp/ocp_nlp_sqp_with_feasible_qp.c:360-377"]}
{"id": "C75", "title": "The qpOASES interface solves the dense QP it was given", "statement": "The QP with box and row constraints that is handed to qpOASES, in which softened bounds become rows and slacks become variables, represents the dense QP: every primal-dual optimal point of it that touches no artificial bound is written back as an optimal point of the dense QP, with the multipliers of hard, softened and slack constraints separated again; the returned t are the constraint values; the assertions in dense_qp_stack_slacks hold.", "quantifier": "all dimensions, QP data, index maps of bounds and slacks with one row per slack, all old contents of the work memory and output, all optimal points", "why_tests_cant": "Tests use qpOASES on QPs with consecutively numbered bounds, unit masks and slacks in order; the bound of the wrong variable and the swapped multipliers only show for other index maps, and a result that is optimal for another QP looks like a normal result.", "anchors": ["acados/dense_qp/dense_qp_common.c:344-384", "acados/dense_qp/dense_qp_common.c:446-635", "acados/dense_qp/dense_qp_qpoases.c:421-530", "acados/dense_qp/dense_qp_qpoases.c:708-778"]}
{"id": "C76", "title": "The qpOASES interface reports the status of the QP it was asked to solve", "statement": "The returned status is the translation of qpOASES' return code, success is reported exactly if qpOASES reported success, every call is well defined, and the QP solved in a call is the one given in that call.", "quantifier": "all options, all sequences of calls, all return codes of the solver", "why_tests_cant": "Failures of qpOASES with hotstarts are rare in the test problems, and a hotstart with a changed Hessian returns a plausible solution of the old one.", "anchors": ["acados/dense_qp/dense_qp_qpoases.c:541-693", "acados/dense_qp/dense_qp_qpoases.c:785-799", "acados/dense_qp/dense_qp_qpoases.c:112-171"]}
{"id": "C77", "title": "The DAQP interface solves the dense QP it was given", "statement": "The least distance problem the interface sets up from the Cholesky factor of the Hessian, with normalised rows, shifted bounds, eliminated slacks and sense flags, represents the dense QP: each of its primal-dual optimal points is written back as an optimal point of the dense QP with equality, inequality and slack multipliers, also after sequences of calls with hot starts.", "quantifier": "all dimensions, QP data, masks of rows, index maps, old contents of memory and output, all sequences of calls, all optimal points of the least distance problem", "why_tests_cant": "Tests compare the solution of a few QPs that are well scaled; a dropped row, a clipped penalty or a stale factor returns success with a plausible point.", "anchors": ["acados/dense_qp/dense_qp_daqp.c:478-770", "acados/dense_qp/dense_qp_daqp.c:771-900"]}
{"id": "C78", "title": "The DAQP interface reports success exactly if it solved the QP", "statement": "The returned status is 0 exactly if the problem was set up and DAQP returned an optimal or soft optimal point, and a QP that has a solution is never reported as failed by the set-up.", "quantifier": "all options, data, memory contents, exit flags", "why_tests_cant": "The early return of the set-up is reached only with inconsistent zero rows or tiny rows, which no test has.", "anchors": ["acados/dense_qp/dense_qp_daqp.c:620-680", "acados/dense_qp/dense_qp_daqp.c:838-900"]}
{"id": "C79", "title": "Memory layout of the QP objects", "statement": "The dims, data, solution, options and memory objects of dense and OCP QPs, of full and partial condensing, of the interfaces to HPIPM, qpOASES, DAQP, OSQP and Clarabel and of the condensing solver are carved inside the size announced by the matching calculate_size function, without overlap, with every field aligned for its type, and the announced sizes are multiples of 8.", "quantifier": "all dimensions, all struct and library memory sizes, all 8-aligned base addresses", "why_tests_cant": "The assertions at the end of the assign functions only see the final pointer and are compiled out in release builds; misaligned arrays work on x86 and appear only for odd dimensions.", "anchors": ["acados/dense_qp/dense_qp_common.c:91-340", "acados/dense_qp/dense_qp_daqp.c:174-428", "acados/dense_qp/dense_qp_qpoases.c:218-375", "acados/ocp_qp/ocp_qp_common.c:110-555", "acados/ocp_qp/ocp_qp_osqp.c:1095-1568", "acados/ocp_qp/ocp_qp_xcond_solver.c:53-521"]}
{"id": "C80", "title": "The QP solver starts where it should", "statement": "The first QP of a call starts at the NLP iterate if warm_start_first_qp and warm_start_first_qp_from_nlp are set (zero step, NLP multipliers, t equal to the inequality values); every other QP starts at the result of the previous one, with the configured warm start level, in SQP, DDP and RTI, with and without split phases, scaling and sensitivity evaluations.", "quantifier": "all sequences of QPs, factorizations and sensitivity evaluations, all QP solvers, condensings, QPs and iterates", "why_tests_cant": "The start of the QP solver is not visible in the result of a converged solve; tests compare solutions, not starting points, and run on little-endian machines only.", "anchors": ["acados/ocp_qp/ocp_qp_common.c:874-925", "acados/ocp_nlp/ocp_nlp_common.c:3353-3376", "acados/ocp_qp/ocp_qp_xcond_solver.c:277-315", "acados/ocp_qp/ocp_qp_xcond_solver.c:528-734", "acados/ocp_nlp/ocp_nlp_sqp.c:658-691", "acados/ocp_nlp/ocp_nlp_sqp_rti.c:574-609"]}
{"id": "C81", "title": "setup_qp_matrices_and_factorize factorizes the QP at the iterate and restores the options", "statement": "The call factorizes the condensed QP of the current iterate at the point taken from the iterate, with the options meant for sensitivities, and leaves all QP solver options as configured.", "quantifier": "all sequences of QPs and factorizations, all QP solvers, all scaling options", "why_tests_cant": "Sensitivity tests use no scaling and do not solve further QPs after the factorization while checking their options.", "anchors": ["acados/ocp_nlp/ocp_nlp_common.c:3912-3983", "acados/ocp_nlp/ocp_nlp_qpscaling.c:418-475"]}
{"id": "C82", "title": "Partial condensing uses the requested blocks and stays in its arrays", "statement": "Setting the condensing horizon and block sizes in any order and creating solvers accesses no memory out of bounds; the blocks in use are those requested, are nonnegative and cover the horizon; infeasible requests are reported.", "quantifier": "all horizons, option sequences, block size arrays", "why_tests_cant": "Tests set the options once, through the Python checks; the update function and the reuse of generated code for shorter horizons bypass these checks, and overflowing an array of ints inside a larger allocation goes unnoticed.", "anchors": ["acados/ocp_qp/ocp_qp_partial_condensing.c:155-360", "interfaces/acados_template/acados_template/c_templates_tera/acados_solver.in.c:2706-2726", "interfaces/acados_template/acados_template/c_templates_tera/acados_solver.in.c:3061-3090"]}
{"id": "C83", "title": "Convex-over-nonlinear constraints deliver values, Jacobian, adjoint and a convex Hessian contribution", "statement": "After any history of evaluations the module bgp hands the masked inequalities, their Jacobian with the algebraic variables eliminated and minus the gradient of the weighted inequalities to the solver, in the QP and in the line search, and adds a symmetric positive semidefinite matrix to the Hessian when the outer functions are convex.", "quantifier": "all dimensions, index sets, slack declarations, points, multipliers and histories", "why_tests_cant": "The example problems with this constraint type have no slacks declared by idxs_rev and no linear constraints next to algebraic variables; a wrong multiplier in the adjoint only changes the reported residual.", "anchors": ["acados/ocp_nlp/ocp_nlp_constraints_bgp.c:1186-1356", "acados/ocp_nlp/ocp_nlp_constraints_bgp.c:1360-1470", "acados/ocp_nlp/ocp_nlp_constraints_bgp.c:1474-1530"]}
{"id": "C84", "title": "Implicit Runge-Kutta integrator: states, forward, adjoint and Hessian are those of the exact step map", "statement": "For sim_irk with exact linear algebra: (1) the stage variables solve the implicit stage equations exactly for models affine in x, xdot, z after at least one Newton iteration, with fresh or reused Jacobian, and in general the fixed points of the Newton iteration are exactly the solutions of the stage equations; (2) along every differentiable family of exact integrations through the computed trajectory, S_forw and S_p applied to a direction are the derivative of the final state in x0, u and p; (3) S_adj is the derivative of the seed applied to the final state and the controls, both in the mode that recomputes the Jacobians and in the mode that stores them, and fits S_forw; (4) S_hess is symmetric and together with S_adj is the second derivative along every twice differentiable family.", "quantifier": "all models (implicit DAEs with consistent Jacobians), dimensions nx, nu, nz, np, numbers of stages and steps, Butcher tableaus, inputs, seeds, sensitivity flags, Newton options, directions", "why_tests_cant": "tests compare a few models with finite differences up to a tolerance; the statement is for every model, tableau and direction", "anchors": ["acados/sim/sim_irk_integrator.c:1175-2267"]}
{"id": "C85", "title": "Implicit integrator: algebraic variables at the start of the interval and their sensitivities", "statement": "sim_irk_compute_z_and_algebraic_sens: (1) without exact_z_output the output is the value at 0 of the polynomial through the stage values of z, and with forward sensitivities S_algebraic is its derivative along every differentiable family of exact integrations; (2) with exact_z_output, fresh Jacobians and xdot entering linearly, the output is obtained by newton_iter Newton steps for f(x0, xdot, u, z, t0) = 0 from the interpolated values, solves the system exactly when f is affine in z, and S_algebraic is the derivative of z along every differentiable family of solutions. Refuted: the same with jac_reuse (the default), or with xdot entering nonlinearly, or with the explicit tableau of four stages; reading unassigned memory or stale sensitivities for some combinations of flags.", "quantifier": "all models, dimensions, tableaus with distinct nodes, inputs, directions, numbers of Newton iterations", "why_tests_cant": "the wrong outputs appear only for combinations of options (exact_z_output with jac_reuse) that tests do not combine, and only as wrong values; the positive part is about derivatives in every direction", "anchors": ["acados/sim/sim_irk_integrator.c:960-1167", "acados/sim/sim_irk_integrator.c:637-742", "acados/utils/math.c:1172-1186"]}
{"id": "C86", "title": "Implicit integrator: propagated cost, its gradient and Gauss-Newton Hessian", "statement": "With cost_computation, sim_irk returns cost_scaling times the Runge-Kutta quadrature (weights b_i / num_steps) of the stage cost along the integration it computed; cost_grad (order u, x) is the derivative of this quadrature along every differentiable family of exact integrations through it; the symmetric matrix given by the lower triangle of cost_hess is the quadrature of (Dy)^T W (Dy) with Dy the derivative of the residual at the stages. For convex-over-nonlinear costs this holds for all outer Hessians; for nonlinear least squares the Hessian part holds for all weights and value and gradient for diagonal weights. Without reused Jacobians state and cost do not depend on which sensitivities are computed. With algebraic variables the code exits. Refuted: value and gradient for weights that are not diagonal; the gradient with parameter sensitivities alone.", "quantifier": "all models, dimensions, tableaus, numbers of steps, residual functions, weights, directions", "why_tests_cant": "the tests use diagonal weights with the integrated cost, for which both triangular products coincide; the derivative statements range over all directions and all residual functions", "anchors": ["acados/sim/sim_irk_integrator.c:1400-1412", "acados/sim/sim_irk_integrator.c:1695-1918", "acados/sim/sim_irk_integrator.c:1932-2032", "acados/sim/sim_irk_integrator.c:2055-2059", "acados/ocp_nlp/ocp_nlp_cost_nls.c:1112-1121"]}
{"id": "C87", "title": "Dynamics modules: defect, Jacobians, adjoint and Hessian of the shooting constraints", "statement": "With as many states at the end of an interval as at its beginning, ocp_nlp_dynamics_cont_update_qp_matrices evaluates the integrator at (x,u) of the iterate with the forward seed [I 0] and the adjoint seed (pi,0), uses an initial guess exactly once, and delivers: fun = phi(x,u) - x1, BAbt and dzduxt whose columns are the derivatives of phi and z in the order (u,x), and adj, the derivative of pi.(x1 - phi(x,u)) with respect to (u,x,x1) whether or not the integrator computes adjoints, whenever the integrator returns a Jacobian and a matching adjoint. The symmetric matrix given by the lower triangle of RSQrq is the Hessian returned by the integrator reordered to (u,x), plus the scaled integrated cost Hessian or that alone. The implicit integrator satisfies the contract. compute_fun and compute_fun_and_adj restore the options, return the same defect and adjoint, and leave all matrices alone. The same for discrete dynamics. Refuted: the whole matrix RSQrq is symmetric; z is updated by compute_fun; different state dimensions; discrete adjoint for nx1 > nx+nu.", "quantifier": "all integrators, dimensions, iterates, multipliers, options, workspace contents and directions", "why_tests_cant": "the tests use solvers that read only the lower triangle, equal state dimensions and few option combinations; the statements range over all integrators meeting the contract and all workspace contents", "anchors": ["acados/ocp_nlp/ocp_nlp_dynamics_cont.c:789-925", "acados/ocp_nlp/ocp_nlp_dynamics_cont.c:929-1000", "acados/ocp_nlp/ocp_nlp_dynamics_cont.c:1005-1080", "acados/ocp_nlp/ocp_nlp_dynamics_disc.c:660-815", "acados/ocp_nlp/ocp_nlp_dynamics_disc.c:869-933", "acados/sim/sim_common.c:85-139"]}
{"id": "C88", "title": "Convexification keeps the QP and its multipliers", "statement": "On trajectories of the linearised dynamics with the same initial state, the convexified QP and the QP kept as original have the same objective differences; a stationary point of the convexified QP becomes a stationary point of the original QP with the multipliers recovered by correct_dual_sol, apart from the initial state; every convexified stage Hessian is positive definite; preparation plus feedback recover the same multipliers as the combined call.", "quantifier": "all horizons, dimensions, QP data, multipliers, factorisations and eigendecompositions", "why_tests_cant": "Universal over QP data and dimensions; the failing cases need two or more inputs, state dimensions that grow along the horizon, or the split real-time iteration, and then give plausible numbers.", "anchors": ["acados/ocp_nlp/ocp_nlp_reg_convexify.c: ocp_nlp_reg_convexify_regularize", "acados/ocp_nlp/ocp_nlp_reg_convexify.c: ocp_nlp_reg_convexify_regularize_lhs", "acados/ocp_nlp/ocp_nlp_reg_convexify.c: ocp_nlp_reg_convexify_regularize_rhs", "acados/ocp_nlp/ocp_nlp_reg_convexify.c: ocp_nlp_reg_convexify_correct_dual_sol"]}
{"id": "C89", "title": "Eigendecomposition: reduction to tridiagonal form", "statement": "The eigendecomposition used by the Hessian regularisation depends only on the lower row-major triangle of its argument; its first phase returns an orthogonal V such that V' S V is the tridiagonal matrix of the returned diagonal and subdiagonal.", "quantifier": "all dimensions and symmetric matrices; the first claim for any arithmetic and any contents of the workspaces", "why_tests_cant": "Universal over matrices, dimensions and leftover workspace contents; a wrong index shows only for particular zero patterns or sizes.", "anchors": ["acados/utils/math.c: tred2", "acados/utils/math.c: acados_eigen_decomposition"]}
{"id": "C90", "title": "Eigendecomposition: QL iteration", "statement": "If every inner loop of the QL iteration ends by its convergence test and no rotation divides by zero, the eigendecomposition returns an orthogonal V, and V' S V differs from diag(d) by a matrix of norm at most 2 n eps tst1; two by two matrices always converge. In binary64 every finite symmetric matrix should give finite eigenvalues and a non-zero V, and dimension 0 should be harmless.", "quantifier": "all dimensions, symmetric matrices, workspace contents and eps >= 0 (reals); the last sentence is refuted with concrete binary64 matrices", "why_tests_cant": "The number of sweeps depends on the data; the error bound is universal over matrices and dimensions. Underflow and overflow of hypot2 need extreme entries that tests do not use.", "anchors": ["acados/utils/math.c: tql2", "acados/utils/math.c: hypot2", "acados/utils/math.c: acados_eigen_decomposition"]}
{"id": "C91", "title": "Hessian regularisation with the library's eigendecomposition", "statement": "Whenever the QL iteration converges, project, mirror and their adaptive variants return a Hessian whose quadratic form is at least the threshold, is not below the original one by more than 2 n eps tst1, keeps a Hessian whose computed eigenvalues are all above the threshold up to that bound, and (adaptive) has bounded condition number; stages with two variables always converge. In binary64 the projection of a finite symmetric Hessian should be finite and positive definite.", "quantifier": "all dimensions, Hessians, regularisation variants and workspace contents (reals); the last sentence is refuted with concrete binary64 matrices", "why_tests_cant": "Universal over Hessians; no exactness of the eigendecomposition is assumed, so the claim covers every amount of leftover coupling the convergence test lets through.", "anchors": ["acados/ocp_nlp/ocp_nlp_reg_common.c: acados_project", "acados/ocp_nlp/ocp_nlp_reg_common.c: acados_mirror", "acados/utils/math.c: acados_eigen_decomposition"]}
{"id": "C92", "title": "Adaptive QP tolerances", "statement": "With ADAPTIVE_CURRENT_RES_JOINT the tolerance of each kind is max(safety * tol, min(reduction * largest residual, 1e-2)); as long as the NLP is not converged some residual exceeds its QP tolerance (tolerances within the factor reduction * safety of each other; refuted without), so the current iterate is never an acceptable QP solution; in binary64 no tolerance is NaN, and a NaN residual loosens all to at least 1e-2. The QP solvers should use what they are given: refuted for qpOASES (never loosens), OSQP and Clarabel (tol_eq overwritten by tol_ineq).", "quantifier": "all residuals, tolerances and factors; all sequences of iterations (qpOASES); all doubles including NaN and infinities", "why_tests_cant": "Universal over residual histories and over every binary64 input; a stall needs tolerances further apart than any example sets.", "anchors": ["acados/ocp_nlp/ocp_nlp_common.c: ocp_nlp_solve_qp_and_correct_dual", "acados/dense_qp/dense_qp_qpoases.c: dense_qp_qpoases_opts_set", "acados/ocp_qp/ocp_qp_osqp.c: ocp_qp_osqp_opts_set", "acados/ocp_qp/ocp_qp_clarabel.c: ocp_qp_clarabel_opts_set", "acados/dense_qp/dense_qp_daqp.c: dense_qp_daqp_opts_set"]}
{"id": "C93", "title": "Infeasibility of the feasibility QP and predicted reduction", "statement": "The explicitly evaluated l1 infeasibility of the QP is the sum of the violations of the active nominal constraints (slacks of the user included, added slacks not); it is zero only if the direction satisfies them; at a relaxed-feasible point it is at most the sum of the added slacks, with equality if these are as small as possible, so that the option use_QP_l1_inf_from_slacks has no influence; and the predicted reduction is not negative at a solution of the feasibility QP that is no worse than the zero step. That the slack sum measures infeasibility at every relaxed-feasible point is refuted.", "quantifier": "all horizons, dimensions, masks, slack assignments and QP data (reals)", "why_tests_cant": "Universal over slack numberings and masks; the two evaluations share no code and agree in any one well-solved example.", "anchors": ["acados/ocp_nlp/ocp_nlp_sqp_with_feasible_qp.c: calculate_qp_l1_infeasibility_manually", "acados/ocp_nlp/ocp_nlp_sqp_with_feasible_qp.c: calculate_qp_l1_infeasibility_from_slacks", "acados/ocp_nlp/ocp_nlp_sqp_with_feasible_qp.c: calculate_pred_l1_inf"]}
{"id": "C94", "title": "Schur complement in the regularisation of the reduced Hessian", "statement": "In PROJECT_REDUC_HESS the elimination of the inputs leaves the Schur complement of the unregularised stage matrix in the trailing block: for every x some u makes the form at (u, x) equal to that of the block, against every direction. Proved without pivoting and with pivots of magnitude at least min_pivot; refuted with pivoting (the default) and for pivots below min_pivot, which get the opposite sign.", "quantifier": "all dimensions and symmetric matrices, definite or indefinite (reals); refutations in binary64 and over the reals", "why_tests_cant": "Universal over matrices and dimensions; the wrong exchange needs three inputs and a particular order of the diagonal.", "anchors": ["acados/ocp_nlp/ocp_nlp_reg_project_reduc_hess.c: ocp_nlp_reg_project_reduc_hess_regularize"]}
