# Formal model of acados: design

Source: /repo (acados, C), read as text, never built or run. Model and proofs: /verif/rocq
(Rocq/Coq 8.16.1, `-Q theories Verif`). Properties: properties.jsonl. Status per property:
MANIFEST.json. Wrong programs tried against the theorems: seeded/LOG.jsonl.

Sections: layers of the model; how the statements are set up; model files; findings; what is
not modelled; trusted base; assumptions per theorem; mutation testing.

## Layers of the model

* **Bytes / layout** (`Layout*.v`, `Zero*.v`). Addresses and sizes are `Z`. A carve-out (`*_assign`,
  `*_cast_workspace`) is a list of operations `Align n` / `Take kind len`; the announced size is a separate
  formula transcribed from `*_calculate_size`. `sizeof` of structs and the blasfeo memory sizes are fields of an
  environment `cenv` that only has to satisfy `env_ok` (non-negative, structs with pointers multiples of 8,
  structs of ints multiples of 4, vectors at least 8m and multiples of 8, matrices at least 8mn and
  multiples of 64). "Fits" means: inside the announced size, pairwise disjoint, from any base address;
  "aligned" means every field at a multiple of its type's alignment.
* **IEEE doubles** (`FP*.v`). Decision logic (residual tests, line searches, funnel, timeouts, scaling factor)
  is over Flocq's `binary_float 53 1024` with round to nearest even, so NaN, infinities, signed zeros, subnormals
  and rounding are exact.
* **Exact reals.** Linear algebra, tableaux, integrators, costs, constraints, scaling, regularisation are over
  `R`. `Arith.v` provides an `arith` record with instances `dbl` and `real`, so the same Gallina routine can be
  run on doubles (for NaN findings) and reasoned about over the reals.
* **Arrays** (`Arr.v`). Where bounds matter, memory is a list with `Z` indices and every access returns an
  `outcome` (`Done`, `Exit`, `UB`); undefined behaviour is a distinct result, not an arbitrary value.
* **State machines with oracles** (`Sqp*`, `Rti*`, `Ddp*`, `Wfqp*`, `Funnel*`, `Merit*`). Solver loops are total
  functions over an explicit state; QP solver, generated functions and the clock are universally quantified
  functions of a call counter and their arguments.
* **Histories** (`Bgh*`, `Dims*`, `Opts*`, `Iface*`, `Casadi*`, `Cost*`). Setters are steps of a transition
  function; theorems quantify over all finite lists of calls.
* **Threads** (`Par.v`, `Omp*.v`). Programs of single reads and writes, interleaved arbitrarily; loops are
  distributed to threads by an arbitrary plan. A matrix is a contiguous row of cells; dimensions are read-only
  data; external function objects are not shared between stages. Interleaving (sequential consistency) is
  justified for race-free programs by the usual data-race-freedom guarantee; the refuted loops do race.

## How the statements are set up

* Model files contain definitions only, each citing file and lines in /repo. `*Spec.v` files hold
  independent formulations of what should hold. `*Proofs.v`, `*Top.v`, `*Cases.v` hold proofs and witnesses.
  `Prop*.v` hold nothing but the property theorems, each closed by `exact`, followed by `Print Assumptions` and a
  concrete non-trivial case.
* A property that is false of the code has a theorem `..._refuted` with an explicit witness, the exact
  statement that does hold, and status "proved" in the manifest with a note; `_partial` marks statements weaker
  than the property.
* No axioms, no functors, no module types, no kernel checks switched off.

## Model files

| file | content |
|---|---|
| Layout | Memory carve-outs: the byte-level model shared by all calculate_size / assign pairs. |
| LayoutProofs | Proof rules for memory carve-outs (Layout.v). |
| LayoutNlp | calculate_size / assign pairs of acados/ocp_nlp/ocp_nlp_common.c in the layout model. |
| LayoutNlpProofs | Carve-outs of ocp_nlp_common.c fit in their announced sizes. |
| LayoutDimsProofs | Alignment of the sub-objects of the dims object (ocp_nlp_common.c:240-387). |
| ZeroModel | interfaces/acados_c/ocp_nlp_interface.c:682-692 [ocp_nlp_out_set_values_to_zero]: which bytes does the zeroing loop write? |
| ZeroProofs |  |
| LayoutEnv | A concrete environment (64-bit target, blasfeo-like buffer rounding) and concrete dimensions, used by the non-vacuity examples. |
| LayoutTop | Top-level layout lemmas in the form the property file states them. |
| PropLayout | Properties C01, C02, C04: memory layout of the NLP objects and zeroing of an iterate. |
| FP | IEEE binary64 values (type [double] of C) with round-to-nearest-even, via Flocq. NaN payloads are not distinguished. |
| FPProofs | Order and rounding facts about doubles. |
| SqpModel | The SQP driver ocp_nlp_sqp (acados/ocp_nlp/ocp_nlp_sqp.c:476-806) as a state machine. |
| SqpSpec | Vocabulary for stating properties of SQP runs from the trace of events (newest first). |
| SqpProofs | Proofs about the SQP driver model. |
| SqpTop | Top-level facts about an SQP call. |
| SqpLogs | What the statistics matrix contains after an SQP call. |
| SqpFinal | Property-level lemmas for the SQP driver. |
| SqpCases | Concrete runs of the SQP model: integer iterates, a scripted clock. |
| SqpRefuted | Counterexample runs for claims about the SQP driver that are false. |
| SqpEval | Every residual reported by the SQP driver was computed from the linearisation at its iterate. |
| PropSqp | Properties C06-C09, C12-C14 of the SQP driver (acados/ocp_nlp/ocp_nlp_sqp.c). |
| RtiModel | The real-time-iteration solver ocp_nlp_sqp_rti (acados/ocp_nlp/ocp_nlp_sqp_rti.c). |
| RtiProofs | Proofs about the RTI solver model. |
| RtiTop | Property-level lemmas about the RTI solver model. |
| RtiCases | Concrete runs of the RTI model and witnesses for the refuted claims. |
| PropRti | Properties C05, C15, C16 of the real-time-iteration solver (acados/ocp_nlp/ocp_nlp_sqp_rti.c). |
| FPRound | Arithmetic of doubles as rounded real arithmetic. |
| FPStep | Backtracking on doubles: multiplying a normal double by a factor below one makes it strictly smaller, so that only finitely many reductions are possible. |
| Arith | Number types for the numerical routines. |
| FunnelModel | Funnel globalization, acados/ocp_nlp/ocp_nlp_globalization_funnel.c, over any number type. |
| FunnelProofs | Facts about the funnel line search that hold for every number type, and in exact arithmetic. |
| FunnelIeee | The funnel line search on IEEE doubles: termination, width, penalty parameter. |
| FunnelWidth | Funnel width and penalty parameter on IEEE doubles. |
| FunnelPenalty | The penalty parameter of the funnel on IEEE doubles never becomes NaN or negative and never grows (the assertion at ocp_nlp_globalization_funnel.c:236 cannot fire). |
| FunnelL1 | The l1 infeasibility measure (ocp_nlp_common.c:2703-2738). |
| FunnelCases | Concrete runs of the funnel on doubles and witnesses for the refuted claims. |
| PropFunnel | Property theorems for the funnel globalization. |
| MeritModel | Merit-function backtracking line searches, acados/ocp_nlp/ocp_nlp_globalization_merit_backtracking.c, over any number type. |
| MeritProofs | Facts about the merit-function and DDP line searches. |
| MeritWeights | Merit weights (C23) and the witnesses for the merit line search. |
| MeritCases | Witnesses and concrete runs for the merit and DDP line searches. |
| Vec | Vectors and matrices as functions of their indices, and sums over them, for any number type. |
| MeritGrad | The directional derivative of the merit function that the line search uses, ocp_nlp_globalization_merit_backtracking.c:147-287. |
| MeritGradProofs | The computed merit gradient against the derivative of the merit function along the step. |
| PropMerit | Property theorems for the merit-function and DDP line searches. |
| PropMeritGrad | Property theorems for the merit gradient. |
| LinModel | Dense linear algebra of acados/utils/math.c over any number type. |
| LinProofs | The LU solver of math.c in exact arithmetic. |
| LinSolve | Triangular solves, the complete solver, interpolation and Gershgorin bounds of math.c in exact arithmetic. |
| RSum | Finite sums of real numbers, used to state properties about the reals. |
| Poly | Polynomial functions of bounded degree over the reals. |
| InterpProofs | Neville interpolation and Gershgorin bounds of math.c in exact arithmetic. |
| PadeModel | The matrix exponential of acados/utils/math.c: padeapprox (:445-747), onenorm (:414-432), expm (:749-830). |
| PadeProofs | What padeapprox computes, in exact arithmetic. |
| PadeTop | padeapprox and expm: what is returned. |
| LinCases | Top-level statements about the dense solver, and concrete cases. |
| PropLin | Property theorems C27 - C30: dense linear algebra, matrix exponential, interpolation, spectrum bounds. |
| RegModel | Hessian regularisation: ocp_nlp_reg_common.c:160-280, ocp_nlp_reg_project.c:277-306, ocp_nlp_reg_mirror.c:267-297, ocp_nlp_reg_glm.c:240-268. |
| RegProofs | Regularisation in exact arithmetic. |
| PropReg | Property theorems C31, C32: Hessian regularisation. |
| CollModel | Butcher tableaux: acados/sim/sim_collocation_utils.c. |
| CollProofs | lu_system_solve solves every nonsingular system, and the collocation tableau built from it. |
| CollTop | Collocation tableaux: the simplifying assumptions B(s) and C(s). |
| CollRadau | The Radau IIA table: every entry is within 1e-15 of a node of the rule of order 2 s - 1. |
| CollGauss | Gauss-Legendre nodes: fixed points of the code's iteration give order 2 s; the iteration is only linearly convergent. |
| CollCases | Collected statements and concrete cases for the Butcher tableaux. |
| PropColl | Property theorems C33, C34: Butcher tableaux. |
| ErkModel | The explicit Runge-Kutta integrator: acados/sim/sim_erk_integrator.c:639-1039 sim_erk. |
| ErkProofs | The explicit integrator over the reals: forward sensitivities are derivatives, adjoints are their transpose. |
| ErkSens | Forward and adjoint sensitivities of the explicit integrator. |
| ErkAdj | The adjoint sweep of the explicit integrator. |
| ErkHess | The Hessian sweep of the explicit integrator. |
| ErkTop | The sensitivity theorems for whole runs of the explicit integrator. |
| ErkCases | A concrete system for the explicit integrator: x' = p x^2 + u, midpoint rule. |
| PropErk | Property theorems: sensitivities of the explicit Runge-Kutta integrator. |
| StepModel | Iterate updates: acados/ocp_nlp/ocp_nlp_common.c:3292-3348 ocp_nlp_update_variables_sqp and acados/ocp_nlp/ocp_nlp_ddp.c:334-430 ocp_nlp_ddp_compute_trial_iterate. |
| StepProofs | Facts about the iterate updates. |
| StepDdp | The DDP trial iterate over the reals. |
| StepTop | Statements about the iterate updates used by the property file. |
| StepCases | Concrete iterates: horizon 2, one state, one control, one inequality per stage, one algebraic variable. |
| PropStep | Property theorems: iterate updates of the SQP family and of DDP. |
| ResModel | KKT residual norms: acados/ocp_nlp/ocp_nlp_common.c:3680-3795 ocp_nlp_res_compute, ocp_nlp_res_get_inf_norm. |
| ResProofs | Proofs about the residual norms. |
| ResTop | NaN handling of the residual norms, a concrete norm, counterexamples. |
| PropRes | Property theorems: KKT residual norms. |
| OcpModel | Pieces of acados/ocp_nlp/ocp_nlp_common.c around the QP: objective value (:2615-2668), Levenberg-Marquardt term (:2948-3000), second order correction (:4226-4370), parameter gradient of the Lagrangian (:4181-4224). |
| OcpProofs | Proofs about the QP objective value, the second order correction, the Levenberg-Marquardt parameter and the parameter gradient, over the reals. |
| OcpTop | Statements and concrete cases for the QP objective, second order correction, Levenberg-Marquardt, parameter gradient. |
| PropOcp | Property theorems: QP objective value, second order correction, Levenberg-Marquardt parameter, parameter gradient. |
| DdpModel | The DDP driver: acados/ocp_nlp/ocp_nlp_ddp.c:436-508 check_termination, :548-822 ocp_nlp_ddp. |
| DdpProofs | Proofs about the DDP driver model. |
| DdpTop | Concrete DDP runs and counterexamples. |
| PropDdp | Property theorems: the DDP driver. |
| WfqpModel | SQP with feasible QP, acados/ocp_nlp/ocp_nlp_sqp_with_feasible_qp.c: slack indices of the feasibility QP (:404-428, :1905-1954), right-hand side of the feasibility QP (:1 |
| WfqpProofs | Proofs about the feasibility QP: slack numbering, relaxed bounds, mode switching. |
| WfqpDriver | The driver ocp_nlp_sqp_wfqp (acados/ocp_nlp/ocp_nlp_sqp_with_feasible_qp.c:1552-1818) as a state machine. |
| WfqpRun | Proofs about the feasible-QP driver and its search direction modes. |
| WfqpTop | Concrete feasibility QPs, mode runs and driver runs; counterexamples. |
| PropWfqp | Property theorems: SQP with feasible QP. |
| Arr | Arrays of a C program as lists with checked access, and counted loops that stop at the first undefined access. |
| ArrProofs |  |
| CasadiModel | Conversion between the value arrays of generated functions and acados matrices and vectors, acados/utils/external_function_generic.c:206-828. |
| CasadiSpec | Compressed column patterns, written down independently of the conversion routines. |
| CasadiProofs |  |
| CasadiTop |  |
| PropCasadi | Generated functions and parameters (C37, C38). |
| DimsModel | Dimensions of the NLP: setter calls and totals. |
| DimsSpec | The value each dimension has after a history of setter calls: the one given last. |
| DimsProofs |  |
| DimsTop |  |
| PropDims | C48: dimensions and totals after any history of setter calls. |
| IfaceModel | Flat access to the iterate and the parameters. |
| IfaceSpec | What the flat vectors of the interface contain. |
| IfaceProofs |  |
| IfaceTop |  |
| IfaceCases |  |
| PropIface | C39: flat access to the iterate. |
| BghModel | Constraint data: setters, getters and activity masks. |
| BghSpec | What the constraint data of a stage should be, stated without the offsets used by the code. |
| BghProofs |  |
| BghTop |  |
| BghGet |  |
| BghInit |  |
| PropBgh | C40: constraint setters. |
| BghEvalModel | Constraint evaluation: acados/ocp_nlp/ocp_nlp_constraints_bgh.c:1274-1497 update_qp_matrices, :1500-1610 compute_fun, :1618-1673 update_qp_vectors. |
| BghEvalSpec | The constraints of a stage as functions of the stage variables, over the reals. |
| BghEvalProofs |  |
| BghAdjProofs |  |
| BghEvalTop |  |
| BghEvalCases |  |
| PropBghEval | Evaluation of the constraints of a stage: values, Jacobian and adjoint, over the reals. |
| CostModel | Stage costs: linear least squares, nonlinear least squares, convex-over-nonlinear and external. |
| CostSpec | The stage cost as a function of the stage variables and of the data that the user has set, over the reals. |
| CostProofs |  |
| CostTop |  |
| CostLs |  |
| CostNls |  |
| CostOther |  |
| CostCases |  |
| PropCost | C43, C44, C64: stage costs. |
| QpsModel | Scaling of the quadratic subproblem: acados/ocp_nlp/ocp_nlp_qpscaling.c:240-680, and the tolerances derived from the scaling in acados/ocp_nlp/ocp_nlp_common.c:4487-4515. |
| QpsSpec | What it means to solve an OCP QP, over the reals: constraint rows, objective, KKT conditions; admissible slack maps. |
| QpsProofs | Scaling a QP by positive factors maps its KKT points and minimisers to those of the scaled QP. |
| QpsTop | The scaled QP computed by the model, entry by entry, and the map of solutions. |
| QpsWhole | C46: solving the scaled QP is solving the original one. |
| QpsFactor | C47: the objective scaling factor, over the reals and over doubles. |
| QpsTol | C65: residuals of the scaled QP below the adapted tolerances, seen in the original QP. |
| QpsCases | Concrete QPs for C46, C47 and C65. |
| QpsCases2 | More concrete QPs for C46, C47 and C65. |
| PropQps | C46, C47, C65: scaling of the QP, the scaling factor, tolerances for the scaled QP. |
| OptsModel | The exact-Hessian options and the assembly of the stage Hessians: ocp_nlp_opts_set (acados/ocp_nlp/ocp_nlp_common.c:1485-1545, 1577-1581), ocp_nlp_opts_set_at_stage (:169 |
| OptsSpec | What the exact-Hessian options ask for: the value last given to each, and the sum of the contributions that are switched on. |
| OptsProofs |  |
| OptsTop |  |
| OptsWhole |  |
| OptsWfqp |  |
| OptsCases |  |
| PropOpts |  |
| Par | Threads over one shared memory. |
| ParProofs | Threads that keep to separate cells: every interleaving ends with the memory of the sequential loop. |
| OmpModel | The loops over the stages that acados runs under [#pragma omp], with every cell of memory they touch. |
| OmpSpec | What it means that a parallel loop does not depend on the schedule, and what the modules may do. |
| OmpProofs | The stage loops keep to the cells of their own stage. |
| OmpTop | The parallel functions of the solver are schedule independent. |
| OmpLoops | Each parallel function of the solver. |
| OmpDims | Loops with a shared variable for a dimension, when the dimension is the same at every stage. |
| OmpAlias | The region of ocp_nlp_alias_memory_to_submodules: four loops that do not wait for each other and a statement that every thread executes. |
| OmpCases | Schedules played out: the loops with shared variables go wrong, and the others do something. |
| PropOmp |  |
| LayoutSolver | calculate_size / assign pairs of the four NLP solvers, the QP scaling, the globalizations and the regularizations, in the layout model of Layout.v. |
| LayoutSolverProofs | The carve-outs of LayoutSolver.v fit in the announced sizes. |
| LayoutMod | calculate_size / assign pairs of the constraint, cost and dynamics modules and of the external-function wrappers, in the layout model of Layout.v. |
| LayoutModProofs | The carve-outs of LayoutMod.v fit in the announced sizes. |
| LayoutSubTop | Top-level statements about the solver and module objects, and the cases in which the announced size is too small. |
| PropLayoutSub | Property C03 (and the module-dependent part of C02): memory layout of the solver and module objects. |
| LayoutSim | calculate_size / assign pairs of the integrators (acados/sim), in the layout model of Layout.v. |
| LayoutSimProofs | The carve-outs of LayoutSim.v fit in the announced sizes. |
| LayoutSimIrk | The workspace of the IRK integrator (LayoutSim.v) fits in its announced size. |
| LayoutSimTop | Integrator objects: all fit; the carve-outs with options changed at evaluation time. |
| PropLayoutSim | Properties C69 and C70: memory layout of the integrator objects. |
| RtiSpec | Vocabulary for histories of calls of the real-time-iteration solver. |
| RtiExact | Exact condition for the statistics writes of the advanced-step levels: which histories can leave the table when the submodules behave in the least favourable way. |
| SqpIter | The iterate log after an SQP call, and the rows of the statistics matrix a call leaves alone. |
| CscModel | Compressed-column data of an OCP QP, the parts common to the OSQP and Clarabel interfaces: acados/ocp_qp/ocp_qp_osqp.c:227-432 and acados/ocp_qp/ocp_qp_clarabel.c:112-310. |
| OsqpModel | The OSQP interface: acados/ocp_qp/ocp_qp_osqp.c:227-950, :1628-1712. |
| OsqpSpec | Quadratic programs in the form of OSQP with compressed-column matrices, over the reals; well-formed index maps of an OCP QP. |
| CscSpec | A well-formed sparse matrix in compressed-column form, inside its arrays. |
| CscProofs | Arithmetic of compressed columns. |
| OsqpProofs | The matrices written by the OSQP interface. |
| OsqpRows | The rows of the QP given to OSQP: their numbering and their meaning. |
| OsqpKkt | Optimality conditions of the QP given to OSQP and of the OCP QP. |
| OsqpTop | The OSQP interface preserves KKT points in both directions. |
| OsqpRun | The memory of the OSQP interface after any number of calls. |
| OsqpCsc | The matrices of the OSQP interface are well formed and fit. |
| OsqpCases | Concrete QPs for the OSQP interface. |
| PropOsqp | C71, C72: the OSQP interface. |
| ClarabelModel | The Clarabel interface: acados/ocp_qp/ocp_qp_clarabel.c:112-745, :906-955, :1018-1200. |
| ClarabelSpec | Conic quadratic programs in the form of Clarabel with compressed-column matrices, over the reals; histories of calls. |
| ClarabelProofs | The matrices and vectors written by the Clarabel interface. |
| ClarabelArena | The array behind b, P_nzval and A_nzval after update_bounds. |
| ClarabelTop | The Clarabel interface preserves KKT points in both directions when the sign loop stays inside b. |
| ClarabelCsc | Structure of the Clarabel matrices. |
| ClarabelCases | Concrete QPs for the Clarabel interface. |
| PropClarabel | C73, C74: the Clarabel interface. |
| DenseModel | Dense QPs of acados/dense_qp/dense_qp_common.c: the slacks t of the constraints (:344-384) and the QP without slacks that the qpOASES interface solves instead (:435-635). |
| QpoModel | The qpOASES interface, acados/dense_qp/dense_qp_qpoases.c:421-803: the QP handed to the solver, the multipliers read back, and the status. |
| DenseSpec | What it means to solve a dense QP, over the reals: constraint rows, KKT conditions; and what a solver for box- and row-constrained QPs such as qpOASES is trusted to retur |
| DenseProofs | Counting, scattered writes, and the constraint slacks of a dense QP. |
| StackProofs | The QP with stacked slacks, in closed form. |
| QpoProofs | The multipliers read back from qpOASES. |
| QpoTop | KKT points of the QP handed to qpOASES give KKT points of the dense QP. |
| QpoKkt | KKT points of the QP handed to qpOASES give KKT points of the dense QP. |
| QpoRun | Calls of qpOASES: status, sequence of calls, stale matrices. |
| QpoCases | Concrete dense QPs for the qpOASES interface. |
| QpoEnd | Statements about the qpOASES interface put together from the parts. |
| PropQpo | C75, C76: the qpOASES interface. |
| DaqpModel | The DAQP interface, acados/dense_qp/dense_qp_daqp.c:478-900: the least-distance problem (LDP) assembled from a dense QP, and the solution of the QP recovered from its solution. |
| DaqpSpec | What the linear algebra routines and DAQP are trusted to return to the interface, over the reals. |
| DaqpProofs | The loops of the DAQP interface in closed form. |
| DaqpFill | The output loops of the DAQP interface in closed form. |
| DaqpUpd | The LDP that the DAQP interface assembles. |
| DaqpKkt | KKT points of the LDP give KKT points of the dense QP. |
| DaqpHot | Hot starts with unchanged matrices. |
| DaqpTop | The DAQP interface: one call and sequences of calls. |
| DaqpCases | Concrete dense QPs for the DAQP interface. |
| DaqpBad | Dense QPs that the DAQP interface does not solve although DAQP solves the LDP. |
| DaqpBad2 | More dense QPs that the DAQP interface does not solve although DAQP solves the LDP. |
| DaqpBad3 | One slack shared by two rows. |
| DaqpEnd | The refutations for the DAQP interface with everything that does hold. |
| PropDaqp | C77, C78: the DAQP interface. |
| LayoutQp | calculate_size / assign pairs of the QP modules: dense and OCP QPs, condensing, the condensing solver and the interfaces to HPIPM, qpOASES, DAQP, OSQP and Clarabel, in the layout model of Layout.v. |
| LayoutQpProofs | The carve-outs of LayoutQp.v fit in the announced sizes. |
| LayoutQpTop | Top-level statements about the QP objects. |
| PropLayoutQp | Property C79: memory layout of the QP objects. |
| WarmModel | Warm starts of the QP and the condensing solver: ocp_qp_common.c:874-925 ocp_qp_compute_t, ocp_nlp_common.c:3353-3376 ocp_nlp_initialize_qp_from_nlp, ocp_qp_xcond_solver. |
| WarmProofs | ocp_qp_compute_t computes the values of the inequalities; the starting point taken from the NLP iterate. |
| WarmSpec | What the QP solver should be called with: the sequence of calls, each started at the previous result or at the NLP iterate. |
| WarmTop | The sequence of QP solver calls, the split phases of RTI, and cases. |
| PropWarm | C80, C81: the starting point of the QP solver, and the factorization for the sensitivities. |
| PcondModel | Options of partial condensing: ocp_qp_partial_condensing.c:155-360, the generated acados_solver.in.c:2706-2726 and :3061-3090. |
| PcondProofs | Partial condensing: block sizes are those asked for and sum up to the horizon; what happens otherwise. |
| PropPcond | C82: the blocks of partial condensing. |
| BgpModel | Evaluation of convex-over-nonlinear constraints: acados/ocp_nlp/ocp_nlp_constraints_bgp.c:1177-1180 initialize (linear rows), :1186-1356 update_qp_matrices, :1360-1470 compute_fun, :1474-1530 update_qp_vectors. |
| BgpProofs | The module bgp computes what the module bgh computes, except for slack bounds and the Hessian. |
| BgpCases | A soft bound and u^2 <= 4, as a convex function of r = u. |
| PropBgp | Evaluation of convex-over-nonlinear constraints, over the reals. |
| IrkModel | The implicit Runge-Kutta integrator: acados/sim/sim_irk_integrator.c:1175-2267 sim_irk. |
| IrkSpec | What an implicit Runge-Kutta step with its sensitivities should compute, over the reals. |
| IrkProofs | Closed forms of the quantities of an implicit step, over the reals. |
| IrkSens | Forward and adjoint sensitivities of the implicit integrator. |
| IrkFwd | The sensitivities are derivatives of the exact integration map. |
| IrkAdj | The adjoint and Hessian sweep of the implicit integrator. |
| IrkHess | The Hessian of the implicit integrator is the second derivative of the exact integration map. |
| IrkNewton | Newton's method on the stage equations: fixed points, and exactness for models that are affine in x, xdot and z. |
| IrkTop | The statements about the implicit integrator. |
| IrkCases | The implicit midpoint rule on xdot = p x u, two steps of length one from x = u = p = 1. |
| PropIrk | C84: the implicit Runge-Kutta integrator. |
| IrkZModel | Algebraic variables at the start of the interval and their sensitivities: acados/sim/sim_irk_integrator.c:960-1167 sim_irk_compute_z_and_algebraic_sens, called after the first step (:2041-2044). |
| IrkZSpec | What the algebraic output of the implicit integrator should be. |
| IrkZProofs |  |
| IrkZTop | The algebraic output of the implicit integrator. |
| IrkZCases | Concrete cases for the algebraic output: one step of the implicit midpoint rule from x = 1, xdot = x. |
| PropIrkZ | C85: the algebraic variables at the start of the interval, and their sensitivities. |
| IrkCostModel | Cost propagation in the implicit integrator: acados/sim/sim_irk_integrator.c:1264-1270, 1400-1412, 1695-1918, 1932-2032, 2055-2059. |
| IrkCostSpec | What the propagated cost, its gradient and its Gauss-Newton Hessian should be, over the reals. |
| IrkCostProofs | The propagated cost: values of the loops, derivatives along integrations. |
| IrkCostTop | The statements about cost propagation. |
| IrkCostCases | Cost propagation: the implicit midpoint rule on xdot = u, one step of length one; a weight that is not diagonal; parameter sensitivities alone. |
| PropIrkCost | C86: the cost propagated by the implicit integrator. |
| DynModel | The dynamics modules: acados/ocp_nlp/ocp_nlp_dynamics_cont.c and ocp_nlp_dynamics_disc.c. |
| DynSpec | What the dynamics modules should deliver, over the reals. |
| DynProofs | Facts about the dynamics modules. |
| DynTop | The dynamics modules: what the theorems say. |
| DynCases | Concrete runs of the dynamics modules: x+ = x u at x = 3, u = 2. |
| PropDyn | C87: the dynamics modules. |
| CvxModel | Convexification of the stage Hessians: ocp_nlp_reg_convexify.c:516-902. |
| CvxSpec | What convexification means: the quadratic program it starts from and the one it produces. |
| CvxProofs | Entries of the convexified matrices. |
| CvxTop | Equivalence of the convexified QP, recovery of the multipliers, convexity. |
| CvxConvex | Convexity of the convexified stages. |
| CvxCases | Concrete programs and refutations for the convexification. |
| PropCvx | Property theorems C88: convexification of the QP. |
| BgpFun | What update_qp_matrices adds to the constraint values. |
| TredModel | Householder reduction to tridiagonal form: tred2, utils/math.c:842-982, and its call from acados_eigen_decomposition, math.c:1098-1111. |
| TredProofs | tred2 reads only the lower triangle V[i*dim+j], j <= i, of its argument. |
| TredStep | What the loops of tred2 compute, over the reals. |
| TredOrth | One step of tred2 is a similarity transformation with a Householder reflection (reals). |
| TredReduce | One pass of the reduction loop of tred2, as a congruence with a reflection (reals). |
| TredTop | tred2 over the reals: V is orthogonal and V' M V is the tridiagonal matrix of d and e. |
| TredFinal | Accumulation of the reflections, and the result of tred2 (reals). |
| TredCases | tred2 on matrices with different upper triangles (binary64). |
| PropTred | Property theorems C89: the Householder reduction of the eigendecomposition. |
| TqlModel | The implicit QL iteration on the tridiagonal matrix: tql2, utils/math.c:986-1094, with hypot2, :834-837. |
| TqlProofs | Plane rotations, and the matrix that the QL sweep of tql2 keeps implicitly (reals). |
| TqlSweep | One sweep of the QL iteration as a similarity transformation (reals). |
| TqlLoop | The QL iteration over the reals: orthogonal V, and d up to the dropped entries. |
| TqlTop | acados_eigen_decomposition over the reals. |
| TqlCases | The eigendecomposition on concrete matrices (binary64), and two by two matrices over the reals. |
| PropTql | Property theorems C90: the QL iteration of the eigendecomposition. |
| CvxSplit | The terminal Hessian kept for the multipliers in the split real-time iteration. |
| RegEig | The spectral regularisations with the eigendecomposition of the library (reals). |
| RegEigCases | Projection with the library's eigendecomposition in binary64. |
| PropRegEig | Property theorems C91: Hessian regularisation with the library's own eigendecomposition. |
| QpTolModel | Tolerances handed to the QP solver in every SQP iteration with the strategy ADAPTIVE_CURRENT_RES_JOINT (acados/ocp_nlp/ocp_nlp_common.c:4460-4486), and what the setters o |
| QpTolProofs |  |
| PropQpTol | Property theorems C92: adaptive tolerances of the QP solver. |
| WfL1Model | l1 infeasibility of the feasibility QP: acados/ocp_nlp/ocp_nlp_sqp_with_feasible_qp.c:671-847. |
| WfL1Proofs |  |
| WfL1Cases |  |
| PropWfL1 | Property theorems C93: the l1 infeasibility of the feasibility QP and the predicted reduction. |
| RhModel | Regularisation of the reduced Hessian, the "true Schur complement" of one stage: acados/ocp_nlp/ocp_nlp_reg_project_reduc_hess.c:405-466. |
| RhProofs |  |
| RhCases |  |
| PropRh | Property theorems C94: Schur complement in the regularisation of the reduced Hessian. |
| RhTwo | The exchange of the reduced Hessian regularisation is right for the first two inputs: with at most two inputs pivoting keeps the Schur complement. |

## Findings

Every item is a proved theorem about the model unless marked "(reading)". Line numbers refer to /repo/acados.

### Memory layout and bounds
1. **RTI level C overruns the integrator workspace** (`C70_adj_erk_exact`, `C70_adj_irk_refuted`,
   `C70_adj_module_refuted`). `ocp_nlp_dynamics_cont_compute_fun_and_adj` (ocp_nlp_dynamics_cont.c:1043-1062) sets
   `sens_adj` for one call, but the workspace was announced with forward sensitivities only. ERK with one
   state, one control, four stages overruns with a single step; with many steps the overrun leaves the
   workspace of the dynamics module. The assert in the cast function recomputes the size with the changed
   options and cannot fire.
2. **Dims object misaligned for even horizons** (`C02_alignment_refuted`, `C02_dims_even_refuted`,
   `C02_dims_qp_refuted`): 20-byte dims structs (NLS, CONL costs) shift a following struct with pointers to 4 mod 8.
3. **Mixed discrete/continuous options misaligned** (`C02_opts_mixed_refuted`): 20-byte discrete options.
4. **Least-squares model too small** (`C03_ls_model_refuted`): size counts `dmat(nz, ny)`, assign takes
   `dmat(ny, nz)`.
5. **Discrete dynamics Jacobian buffer** (`C03_disc_jacobian_refuted`): (nu+nx) x nx1 written into an
   (nu+nx) x (nu+nx) buffer.
6. **Feasible-QP memory with shared slacks** (`C03_wfqp_refuted`): negative number of unslacked constraints, the
   string field lands on the array `nns`; (`C54_idxs_rev_refuted`) the index array overflows.
7. **Zeroing an iterate** (`C04_zero_refuted`): the loop over controls reaches the first multiplier vector.
8. **RTI statistics** (`C05_two_feedbacks_refuted`, `C05_level_a_refuted`, `C05_log_toggled_refuted`): a second
   feedback, LEVEL_A with `as_rti_iter = 0`, or logging enabled after creation write behind the table.
9. **Iteration limit raised after creation** (`C06_raised_limit_refuted`, `C63_raised_limit_refuted`): statistics and
   logs are overrun; no setter checks.
10. **ERK Hessians without forward sensitivities** (`C60_no_forward_refuted`): work arrays overrun, options not checked.
11. **DDP external QP residuals** (`C62_ext_res_refuted`): `work->qp_res` is never assigned.
12. **QP scaling** (`C65_null_refuted`): null pointer with objective scaling only and general constraints.
13. **External cost, NLS cost with algebraic variables** (`C64_external_shape_refuted`, `C44_shape_refuted`): matrices of
    transposed shape are read or written.
14. **Generated functions** (`C37_colmaj_args_refuted`, `C37_colmaj_args_oob_refuted`): dense `COLMAJ_ARGS` blocks ignore
    the leading dimension; (`C37_empty_vector_refuted`) an n x 0 result read as a vector copies n entries from nothing;
    (`C38_index_refuted`) sparse parameter indices are unchecked.
15. (reading) `res->tmp` has N entries and entry N is written; workspace sizes are computed in `int`.

### Termination, status, logs
16. **Negative `max_iter` gives SUCCESS at any point** (`C07_negative_limit_refuted`).
17. **DDP success on stale residuals** (`C17_stale_zero_refuted`, `C17_stale_last_refuted`); a negative cost counts as
    zero residual (`C17_negative_cost_refuted`); NaN complementarity is not looked at (`C09_ddp_comp_refuted`).
18. **Inequality norm is never NaN** (`C10_refuted`, `C10_equality_refuted`); the l1 infeasibility treats NaN constraints as
    satisfied (`C58_nan_constraint_refuted`).
19. **Complementarity norm with barrier parameter** (`C11_barrier_refuted`, `C11_equality_offset_refuted`): stale
    scratch vector, wrong offset.
20. **Timeout heuristic AVERAGE** (`C13_average_refuted`): first duration halved.
21. **RTI status** (`C15_globalization_refuted`, `C15_preparation_refuted`): globalization failures ignored, preparation
    returns the status of the previous call.
22. **Last statistics row after QP failure** (`C06_stale_row_refuted`): residual columns are left-over data
    (exactly the entries before the call, `C06_untouched_rows`).
23. **Feasible-QP solver returns READY** in FEASIBILITY_QP mode (`C63_ready_refuted`); zero-slack iterations counted
    in total, not consecutively (`C55_consecutive_refuted`).

### Globalization
24. **Line searches need not end** (`C21_*_refuted`): alpha_min = 0, reduction factor 1; options not validated.
25. **Funnel penalty mode survives a solve** (`C22_refuted`).
26. **Funnel width grows for subnormal widths** (`C20_subnormal_refuted`) and, at ordinary widths, for a decrease factor
    next to one (`C20_ordinary_refuted`: width 1.97…, kappa 0.375…, one unit in the last place); NaN passes the range check
    (`C20_nan_option_refuted`).
27. **Merit line search takes unevaluated steps** (`C24_refuted`, `C24_full_step_refuted`).
28. **Merit gradient has the wrong sign at violated lower bounds** (`C59_refuted`).
29. **Negative inequality multipliers are not dominated by the weights** (`C23_negative_refuted`).
30. **Second-order correction** (`C50_*_refuted`): sign error for dynamics, slack sign for soft constraints and bounds.
31. **Predicted QP objective** contains an extra squared slack step (`C45_refuted`).
32. **DDP**: in-place update loses the feedback term (`C18_in_place_refuted`); multipliers blend with the trial buffer
    (`C19_refuted`); `full_step_dual` read through the wrong struct (`C19_flag_refuted`, `C19_flag_soc_refuted`).
33. **Adaptive Levenberg-Marquardt** can grow after a full step (`C52_full_step_refuted`).
34. **Byrd-Omojokun factor** below one accepted (`C53_factor_refuted`).

### Hessians, options, setters
35. **`exact_hess_dyn` 0 then 1** leaves the dynamics Hessian off (`C49_history_refuted`); alone it loses the dynamics
    Hessian (`C66_dynamics_refuted`); `fixed_hess` 1 then 0 leaves the LS Hessian off (`C49_fixed_refuted`).
36. **CONL cost with EXACT Hessian and `exact_hess_cost = 0` exits** (`C49_conl_refuted`).
37. **Accumulation over iterations** (`C66_stage_refuted`, `C67_constraints_refuted`): contributions added to matrices that
    nothing overwrites; the Levenberg-Marquardt term is dropped with a fixed Hessian.
38. **Feasible-QP Hessians** (`C68_integrated_refuted`, `C68_levenberg_refuted`).
39. **Number of slacks set after the constraints** leaves `ni` stale (`C48_ni_refuted`).
40. **Slack index set twice** leaves the old constraint softened in the QP (`C40_stale_slack_refuted`).
41. **Cost after changing W without initialisation** uses the old factor (`C43_stale_refuted`).
42. **Integrated costs with scaling** scale the slack gradient but not the value (`C44_integrated_refuted`,
    `C64_conl_integrated_refuted`).
43. **External cost Hessian with algebraic variables** (`C64_external_hessian_refuted`, ocp_nlp_cost_external.c:819).
44. **Constraint Jacobian with algebraic variables** corrected at row ng, column 0 (`C42_jacobian_refuted`); exact Hessian of
    h lacks mixed derivatives (`C41_hessian_refuted`).
45. **Parameter gradient of the Lagrangian** omits terminal constraints (`C56_refuted`).
46. **Masked infinite multiplier reads back as NaN** (`C39_masked_zero_refuted`).
47. **QP scaling** (`C46_*_refuted`, `C47_*_refuted`, `C65_*_refuted`): shared slacks, feasibility QP unscaled with the
    nominal factors, DDP solves an unfilled QP, Gershgorin reads the unfilled triangle, infinite or NaN factor,
    complementarity and terminal tolerances.

### Numerics
48. **Padé degree 13** has a wrong coefficient and degree 3 reads uninitialised memory (`C28_degree13_refuted`,
    `C28_degree3_garbage_refuted`, utils/math.c:640-720).
49. **Gauss-Legendre node iteration is not Newton's** (`C33_newton_refuted`, sim_collocation_utils.c:229): linear convergence.
50. **Gershgorin estimate loses NaN** (`C30_nan_refuted`).

### Parallel loops
51. **Shared loop variables under OpenMP** (`C51_axpy_refuted`, `C51_set_to_zero_refuted`, `C51_sc_refuted`,
    `C51_add_refuted`: `ni_stage` in ocp_qp_common.c:345,430,456,483; `C51_hessians_refuted`,
    `C51_initial_setup_refuted`: `nxu` in ocp_nlp_sqp_with_feasible_qp.c:919-921,1385-1387).
52. **`ocp_qp_out_ddot` is not a reduction** and shares scratch vectors (`C51_ddot_refuted`).
    (`C51_shared_workspace_refuted` is no finding: it shows that the single shared workspace of a build without OpenMP
    would not be safe in parallel, so the separation in the other build is needed.)

### QP solver interfaces
53. **OSQP ignores masks** (`C72_mask_refuted`, exact statement `C72_masks`): ocp_qp_osqp.c never reads `d_mask`, and the
    constraint module stores 0 for a masked entry (ocp_nlp_constraints_bgh.c:1612, :1669), so one-sided constraints get the
    bound 0 on the other side of the step.
54. **OSQP keeps the sparsity structure of the first call** (`C72_stale_structure_refuted`, ocp_qp_osqp.c:936): `idxbx` set
    between two solves leaves the bound on the old variable.
55. **OSQP and slacks**: a slack shared by several constraints overruns `A_i` and `A_x` (`C71_shared_slack_refuted`,
    ocp_qp_osqp.c:300-331 counts `ns` replicated rows); a slack softening nothing leaves `u` of its row unwritten
    (`C72_unused_slack_refuted`, harmless only while the memory is zeroed); of two bounds on one variable the second gets an
    empty row (`C72_double_bound_refuted`).
56. **Clarabel: the Hessian changes sign** (`C73_hessian_sign_refuted`, exact statement `C73_values`, ocp_qp_clarabel.c:645-651):
    the sign loop runs over `2*nx[kk+1]` entries instead of `nx[kk+1]`.  When fewer inequality rows than states of the last stage
    follow, it leaves `b` and flips the first entries of `P_nzval`, which lies behind it.  An OCP without inequality constraints
    and with eliminated initial state is always affected.
57. **Clarabel ignores masks and keeps the first structure** (`C73_mask_refuted`, `C73_stale_structure_refuted`), as OSQP does.
58. **Clarabel: `first_run` is stored in the options** (`C74_shared_options_refuted`, ocp_qp_clarabel.c:786, :1136-1157).
    SQP_WITH_FEASIBLE_QP passes one options object to two solver memories (ocp_nlp_sqp_with_feasible_qp.c:360, :377), so
    the second one updates through a null pointer.
59. **Clarabel: unsorted rows** (`C74_sorted_refuted`, ocp_qp_clarabel.c:366-385): lower and upper bound row come before the
    general constraints, so the row numbers of a column do not increase.
60. **qpOASES with slacks: hard bounds on the wrong variable** (`C75_idxb_refuted`, dense_qp_common.c:599): `out->idxb[k_nsb] = ii`
    stores the number of the bound instead of `in->idxb[ii]`.
61. **qpOASES ignores masks** (`C75_mask_refuted`): the bounds of masked constraints are active, the multipliers are masked afterwards.
62. **qpOASES: nonzero slack bounds, other slack order, slack cap** (`C75_slack_bound_refuted`, `C75_slack_order_refuted`,
    dense_qp_qpoases.c:737-768; `C75_slack_cap_refuted`, dense_qp_common.c:612).
63. **qpOASES ignores equality constraints** of the dense QP and never writes `pi` (`C75_equality_refuted`).
64. **qpOASES with `warm_start` 2 and bounds only** (`C76_status_refuted`, `C76_defined`, dense_qp_qpoases.c:578-606): the return value of
    `QProblemB_init`/`QProblemB_hotstart` is dropped, the status is always 0; the first call sets options through `memory->QP`, which is only
    assigned when there are general or soft constraints.
65. **qpOASES with `warm_start` 2 keeps the first Hessian and constraint matrix** (`C76_hot`, `C76_hessian_refuted`).
66. **`dense_qp_unstack_slacks` asserts the wrong number of general constraints** (`C75_unstack_assert`, dense_qp_common.c:661; the function is unused).
67. **DAQP drops rows with small coefficients** (`C77_small_row_refuted`, `C77_small_equality_refuted`, dense_qp_daqp.c, normalisation): a row
    whose squared norm after scaling with the Cholesky factor is below `zero_tol` is removed, so a violated bound or equality comes back with
    status 0 and a stale `pi`; if the right-hand side is not compatible with zero, a feasible QP is returned with code −1
    (`C78_feasible_refuted`), which is ACADOS_UNKNOWN rather than ACADOS_INFEASIBLE.
68. **DAQP and slacks** (`C77_clip_refuted`: penalties below 1e-8 become 1e-8; `C77_negative_penalty_refuted`: negative multipliers;
    `C77_slack_mask_refuted`: masked slack bounds stay active; `C77_soft_zero_row_refuted`; `C77_shared_slack_refuted`: only the last of several rows
    sharing a slack is soft).
69. **DAQP with `warm_start` 2 keeps the old Hessian and constraint matrices** (`C77_hot_refuted`).
70. **DAQP memory is misaligned for an odd number of slacks** (`C79_daqp_refuted`). `dense_qp_daqp_memory_assign` places six arrays of doubles
    directly after `ns` ints (dense_qp_daqp.c:385-404): from an 8-aligned base all of them start at 4 modulo 8. The memory itself suffices (`C79_daqp_room`).
71. **OSQP memory with 4-byte `c_int`** (`C79_osqp_int_refuted`, `C79_osqp_size_refuted`). The structs with pointers after the index arrays are not aligned
    (ocp_qp_osqp.c:1524-1547) and the sizes are not rounded. With the 8-byte integers OSQP uses by default everything is aligned (`C79_osqp`).
72. **Split RTI ignores `warm_start_first_qp_from_nlp`** (`C80_split_refuted`, `C80_split_always`, ocp_qp_xcond_solver.c:623-671): `condense_rhs_and_solve`
    neither condenses `qp_out` nor clears `initialize_next_xcond_qp_from_qp_out`, so the first QP starts at the previous result and the request stays
    pending until some later unsplit solve, which then starts at `qp_out`.
73. **A sensitivity evaluation overwrites the warm start** (`C80_sens_refuted`, `C80_sens_always`, ocp_qp_xcond_solver.c:675-728): the sensitivity is written to
    `xcond_qp_out`, where the next QP starts.
74. **`int` passed for a `bool` option** (`C80_endian_refuted`): `int tmp_bool = true` is read as `bool *` (ocp_qp_xcond_solver.c:298-302); the first byte is 0 on
    big-endian machines.
75. **Scaling and start from the NLP iterate** (`C80_scaled_refuted`): the point is written to `qp_out`, the QP solver starts from `scaled_qp_out`, which has its
    own multipliers (and primal point with constraint scaling).
76. **`setup_qp_matrices_and_factorize` does not scale the QP** (`C81_scaled_refuted`, ocp_nlp_common.c:3912-3983): with objective scaling the Hessian and gradient
    factorized are those of the QP scaled last. It also leaves `update_fact_exit` at 1 (`C81_exit_refuted`).
77. **`acados_update_qp_solver_cond_N` with more than N** (`C82_long_refuted`, acados_solver.in.c:3061-3074) only prints a warning; `block_size` in options and dims has
    N + 1 entries and N2 + 1 are written.
78. **Generated code with block sizes, reused for a shorter horizon** (`C82_template_refuted`, acados_solver.in.c:2711-2724): `malloc((qp_solver_cond_N+1)*sizeof(int))` with the
    minimum of N and the generated value, followed by stores for the generated value: heap overflow.
79. **Block sizes are not cleared by a new horizon** (`C82_stale_refuted`, ocp_qp_partial_condensing.c:293-315, :337-356): `update_qp_solver_cond_N` to a smaller value calls `exit(1)`, to a
    larger one appends empty blocks. Negative sizes are accepted (`C82_negative_refuted`).

80. **bgp: slack-bound multipliers missing in the adjoint with idxs_rev** (C83). `ocp_nlp_constraints_bgp.c:1324-1346`: the `daxpy` adding the multipliers
    of the slack bounds is inside the `else` branch; the module bgh has it after the branch. `C83_adjoint` shows the adjoint is the derivative exactly when
    idxs_rev is not used or these multipliers are zero. Consequence: the stationarity residual of the slack entries does not go to zero at a solution with an active slack bound.
81. **bgp: compute_fun masks fewer entries than update_qp_vectors** (C83). `:1466` masks 2(nb+ng+nphi) entries, `:1528` 2(nb+ng+nphi+ns), so the violation used
    in the line search sees masked slack bounds.
82. **bgp: z-correction at the wrong offset** (C83). `:1295-1298` as in the module bgh (finding of C42): the added block starts at row ng, column 0 of `DCt`,
    which lands in the linear rows and is out of bounds whenever ng, nphi > 0.
83. **bgp: only the lower triangle of RSQrq receives the curvature** (C83, `C83_symmetry_refuted`). `:1310` calls `dsyrk_ln`;
    the Gershgorin estimates (`utils/math.c:1113-1160`), used by the objective scaling of the QP, read whole rows of the same matrix
    (the GLM regularization symmetrizes first, `ocp_nlp_reg_glm.c:256`).
84. **`exact_z_output` with `jac_reuse`** (C85, `C85_jac_reuse_refuted`; `jac_reuse` is the default of the implicit integrator). In the extra Newton iterations
    (`sim_irk_integrator.c:1098-1129`) the residual is evaluated only together with the Jacobian, so from the second iteration on the previous step is solved for
    again: for 2 z = 2 x with x = 1 three iterations return z = 1/4.
85. **`exact_z_output` overwrites xdot by the Newton step** (C85, `C85_xdot_refuted`). `:1122` updates `xtdot`, `:1123` copies the step over it. For xdot = x, z = xdot^2 at
    x = 1, started from exact stage values, three iterations return z = 0 and dz/dx = -2 instead of 1 and 2. Systems with xdot entering linearly are not affected (`C85_exact_newton`).
86. **`output_z` and `exact_z_output` without `sens_algebraic`** (C85, `C85_unassigned_workspace`): `df_dxdotz` is assigned only if `sens_algebraic && exact_z_output` (`:737`, `:869`) and is used nevertheless.
87. **`sens_algebraic` without forward sensitivities** (C85, `C85_stale_sensitivity`): `S_algebraic` is interpolated from a `dK_dxu` that was not computed.
88. **Interpolation with the explicit tableau of four stages** (C85, `C85_explicit_tableau_refuted`): the nodes 0, 1/2, 1/2, 1 are not distinct; Neville's scheme divides 0 by 0.
89. **Integrated least-squares cost with a weight that is not diagonal** (C86, `C86_weight_refuted`). `sim_irk_integrator.c:1777` and `:1978` multiply the residual by the lower
    factor L of W (`blasfeo_dtrmv_lnn`), where W = L L^T needs L^T (`blasfeo_dtrmv_ltn`, as in `ocp_nlp_cost_nls.c:1120`). Value res^T L^T L res / 2 and gradient J^T L L res are wrong;
    the Hessian J^T L L^T J is right (`C86_nls_gauss_newton`). For y = (x, 2x), W = [1 1; 1 2] the value is 5 instead of 13/2 and the gradient 9 instead of 13.
90. **Integrated cost with `sens_forw_p` alone** (C86, `C86_param_only_refuted`): `:1582` enters the branch with sensitivities, but `dK_dxu` is only computed with `sens_forw` or `sens_hess`; the gradient is formed from what the memory holds.
91. **The Hessian of continuous dynamics fills three of four blocks** (C87, `C87_hessian_full_refuted`). `ocp_nlp_dynamics_cont.c:885-889` packs the uu, xu and xx blocks into
    `work->hess`; the upper right block keeps what the workspace held and `:892` copies the whole matrix into `RSQrq`. The lower triangle is right (`C87_hessian`). Readers of the upper
    triangle exist: the Gershgorin estimates of the QP scaling, and the convexification (finding 95).
92. **`compute_fun` does not update z** (C87, `C87_fun_z_refuted`). The copy is commented out (`ocp_nlp_dynamics_cont.c:991`), so a cost evaluated at a trial point of the
    line search sees the algebraic variables of the last linearization.
93. **Different state dimensions at both ends of an interval, continuous dynamics** (C87, `C87_more_states_refuted`, `C87_fewer_states_refuted`). With more states at the end the seeds overrun
    `sim_in` (`:830-839` against `sim_common.c:91-93`), with fewer the Jacobian is read with the wrong leading dimension (`:847-849`). A TODO in the code names it; no check refuses it.
94. **Discrete dynamics with nx1 > nx + nu** (C87, `C87_disc_adjoint_refuted`): `compute_fun_and_adj` writes an (nu+nx) x nx1 Jacobian into the (nu+nx) x (nu+nx) workspace `tmp_nv_nv`.
95. **Convexification tests the wrong triangle** (`C88_convex_refuted`, with `C89_upper_ignored`). `ocp_nlp_reg_convexify.c:575` updates only the lower triangle of RSQrq (`blasfeo_dsyrk_ln_mn`); `:582` unpacks R column-major and `tred2` (math.c:842) reads `V[i*dim+j]` with j <= i, which is the *upper* triangle of R. With two or more inputs the eigenvalue test (`:586`) and the projection (`:597`) therefore work with the off-diagonal entries from before the update. Witness: R = -I, B = (1, 1), terminal weight 11, delta = 1. The test sees diag(9, 9), the matrix used is [9 10; 10 9], and the "convexified" stage Hessian is indefinite. A `blasfeo_dtrtr_l` before `:582` repairs it (mirror, project and glm have one).
96. **Convexification with growing state dimension** (`C88_growing_refuted`). `:573` computes BAQ with `nx[ii]` columns where `nx[ii+1]` are needed and `:575` reads `nx[ii+1]` of them, so for `nx[ii] < nx[ii+1]` (a multi-phase problem) left-over columns of an earlier stage enter the Hessian and the gradient. Same in `:689`/`:690` and `:780`/`:781`.
97. **Multipliers of the initial state are not corrected** (`C88_x0_refuted`). `correct_dual_sol` recovers pi only. At a stationary point of the convexified QP the multipliers of the constraints on x_0 differ from those of the original QP by Q_bar_0 x_0; if x_0 is not fixed the two QPs are not equivalent at all.
98. **Convexification in the split real-time iteration loses the gradient** (`C88_split_gradient`, `C88_split_refuted`). `regularize_lhs` copies RSQrq to original_RSQrq without first inserting rq (`:685` is commented out) and `regularize_rhs` does not make the copy (`:778` is commented out, only stage N is copied at `:763`). `correct_dual_sol` then takes rq and pi of the stages 0..N-1 from the last row of RSQrq as an earlier call left it, so the multipliers of preparation plus feedback are wrong even where the convexification changes nothing.
99. **The eigendecomposition returns NaN for tiny matrices** (C90, `C90_tiny_refuted`). `hypot2` (math.c:834) squares without scaling; for [0 x; x 0] with x below about 1e-162 the squares underflow, r = 0, and `s = e[i] / r`, `c = p / r` give NaN or infinite eigenvalues and vectors. Nothing reports it, so the regularised Hessian is NaN. `hypot` of the C library repairs it.
100. **The eigendecomposition returns V = 0 for huge matrices** (C90, `C90_large_refuted`). With x above about 1e154 the squares overflow, r is infinite, s = c = 0, and the columns of V are wiped; the eigenvalues of [0 x; x 0] come out as x and 0. No entry is infinite or NaN, so no later test can notice.
101. **Dimension 0 writes e[-1]** (C90, `C90_zero_refuted`). `tql2` (math.c:1003) sets `e[dim - 1]` without the guard that `tred2` has (`:977`). `ocp_nlp_reg_convexify.c:583`, `:695` and `:786` call it with `nu[ii]`, which may be 0; the write lands in the neighbouring array `d` of the same memory.
102. **No convergence is not reported** (C90, hypothesis of `C90_eigen`). After 20 sweeps `:1089` leaves the loop and `:1092` sets e[l] to zero whatever its size; the function returns void.
103. **Projection of tiny or huge Hessians** (C91, `C91_nan_refuted`, `C91_zero_refuted`): findings 99 and 100 seen from the regularisation. `acados_project` with epsilon = 1e-4 turns [0 x; x 0] into NaN for x = 1e-300 and into the zero matrix for x = 2^600; neither is positive definite, and the QP is handed on.

104. **Adaptive QP tolerances can stop progress** (C92, `C92_progress_refuted`). With `ADAPTIVE_CURRENT_RES_JOINT` one joint tolerance is used for all kinds (`ocp_nlp_common.c:4471`). If the NLP tolerances differ by more than 1 / (reduction * safety), by default 100, every residual can be below its QP tolerance while the NLP is not converged: tol_stat = 1e-6, tol_eq = 0.1, res_stat = 1e-5, res_eq = 5e-3. The zero step is then an acceptable QP solution in every iteration. Within that factor it cannot happen (`C92_progress`).
105. **A NaN residual asks for the loosest tolerance** (C92, `C92_nan_loose`): `MIN(NaN, 1e-2)` is 1e-2. No tolerance is NaN (`C92_not_nan`).
106. **qpOASES never loosens its tolerance** (C92, `C92_qpoases_tightest`, `C92_qpoases_refuted`): `dense_qp_qpoases.c:146-161` takes the minimum with the old value, so the adaptive strategy has no effect above the default 1e-4 and is one-way below.
107. **OSQP and Clarabel overwrite tol_eq by tol_ineq** (C92, `C92_osqp_forgets`, `C92_clarabel_forgets`): both keys write the same field (`ocp_qp_osqp.c:1048-1057`, `ocp_qp_clarabel.c:829-838`). OSQP moreover never works below 1e-5 (`C92_osqp_floor`).

108. **Infeasibility from slacks overestimates** (C93, `C93_slacks_refuted`). With `use_QP_l1_inf_from_slacks` every added slack counts, also where the constraint is not violated; an inexact QP solution gives a positive infeasibility for a feasible direction and a negative predicted reduction (`ocp_nlp_sqp_with_feasible_qp.c:692`). The code comment at `:838` warns of it; `C93_le_slacks` shows the error is one-sided, `C93_equal` when it vanishes. `C93_descent` needs the zero step to be feasible for the QP, that is, closed shooting gaps; with open gaps nothing keeps the predicted reduction from being negative.

109. **Pivoting of PROJECT_REDUC_HESS exchanges the wrong elements** (C94, with two inputs it is right, `C94_two_inputs`; `C94_pivoting_refuted`, `C94_exchange_refuted`; `pivoting = 1` is the default, `ocp_nlp_reg_project_reduc_hess.c:73`). `:433-434` exchanges (kk, jj) with (idx-jj, idx-kk) where (idx, kk) is meant; for jj > 0 the diagonal element stays, while `:439-444` does exchange the columns below. R = diag(-1, 4, 1), S = (0, 2, 0): the Schur complement comes out as -4 instead of -1 and enters P and Q (`:474-478`).
110. **The smallest pivot is chosen** (C94, `C94_smallest_refuted`): `:420` accepts a candidate if its magnitude is *below* the current pivot, and never leaves a negative pivot.
111. **Small pivots change sign** (C94, `C94_opposite`, `C94_sign_refuted`): `:452-455` sets a negative pivot below min_pivot to +min_pivot and a positive one to -min_pivot.

## What is not modelled

* The QP solvers themselves (HPIPM, qpOASES, OSQP, Clarabel, DAQP), the condensing routines, blasfeo, generated CasADi functions:
  oracles or parameters with the hypotheses written in the theorems. The interfaces of acados to qpOASES, OSQP, Clarabel
  and DAQP and the partial condensing module are modelled (C71-C82, C92); qpDUNES, OOQP, QORE and HPMPC are not.
* `int` overflow in size computations, `malloc` failure, printing, timers beyond the clock oracle.
* Rounding in the modules treated over the reals (linear algebra, costs, constraints, integrators, scaling).
* Lifted IRK and GNSF are modelled in their memory layout and tableaux only; the implicit integrator is modelled with its Newton
  iteration (C84-C86). The eigendecomposition is modelled (C89, C90) and composed with the regularisation (C91); C31 keeps the older
  statement for any exact eigensystem. Of `reg_project_reduc_hess` the layout and the Schur complement of one stage (C94) are
  modelled, the recursion is not. Option setters of most modules, `external_function_generic.c` beyond the copies and
  partial parameter updates (C37, C38), and the Matlab and Python layers are not modelled.
* Simplifications are stated in the comment of each definition.

## Trusted base

* The Coq 8.16.1 kernel (and `coqchk`).
* The transcription of C into Gallina; each definition cites file and lines.
* Standard-library axioms listed below, only in theorems over the reals or Flocq doubles:
  `ClassicalDedekindReals.sig_not_dec`, `ClassicalDedekindReals.sig_forall_dec`,
  `FunctionalExtensionality.functional_extensionality_dep`, `Classical_Prop.classic`.
* Assumptions about libraries, all explicit hypotheses of theorems: `env_ok` (sizes and alignments), the
  infinity-norm and Cholesky routines of blasfeo compute what their documentation says (C11, C43), the split laws of
  regularisation and condensing (C16), consistency of generated derivatives (C35, C36, C60), an exact
  eigensystem (C31).
* For C51: interleaving semantics, justified for race-free programs.

## Assumptions per theorem

Output of `Print Assumptions`; "closed" means no axiom at all.

* **closed** (119): C01_objects_fit, C01_dims_fit, C02_alignment_refuted, C02_alignment_partial, C02_dims_odd_partial, C02_dims_even_refuted, C04_zero_refuted, C04_exact, C04_inside, C04_zero_partial, C09_nan_compare, C14_funnel_failure, C14_funnel_success, C20_accept, C22_state, C14_merit_failure, C14_merit_success, C24_cases, C25_failure, C19_flag_refuted, C19_flag_soc_refuted, C19_flag_fixed_step, C54_numbering, C54_idxs_rev_refuted, C55_consecutive_refuted, C37_unpack, C37_pack, C37_round_trip, C37_is_dense, C37_nnz, C37_colmaj_args_refuted, C37_colmaj_args_oob_refuted, C37_empty_vector_refuted, C38_sparse, C38_function_sparse, C38_generated_sparse, C38_round_trip, C38_blocks, C38_index_refuted, C48_totals, C48_stage, C48_solvers, C48_ni, C48_precompute, C48_accepted, C48_ni_refuted, C39_round_trip, C39_multipliers, C39_others, C39_slices, C39_stage_round_trip, C39_stage_multipliers, C39_stage_others, C39_totals, C40_initialize, C40_accepts, C49_accepted, C49_options, C49_history_free, C49_orderly, C49_generated, C49_conl_refuted, C03_solver_objects, C03_module_objects, C03_external_functions, C03_ls_model_refuted, C03_ls_model_partial, C03_wfqp_refuted, C03_sizes, C03_nested, C03_disc_jacobian_refuted, C03_disc_jacobian_partial, C02_opts_discrete, C02_opts_mixed_refuted, C02_dims_qp_refuted, C69_objects, C69_tableau_work, C69_dynamics, C70_compute_fun, C70_compute_adj_partial, C70_adj_erk_exact, C70_adj_irk_refuted, C70_adj_module_refuted, C76_status, C76_status_refuted, C76_defined, C78_status, C78_early, C79_objects, C79_osqp, C79_osqp_room, C79_osqp_int_refuted, C79_osqp_size_refuted, C79_daqp_room, C79_daqp_aligned_partial, C79_daqp_refuted, C79_sizes, C79_xcond, C80_sequence, C80_split, C80_split_refuted, C80_split_always, C80_sens_refuted, C80_sens_always, C80_endian_refuted, C81_exit_refuted, C82_blocks, C82_given, C82_template, C82_automatic, C82_long_refuted, C82_template_refuted, C82_stale_refuted, C82_negative_refuted, C89_upper_ignored, C92_osqp_forgets, C92_clarabel_forgets, C92_clarabel_kept, C92_daqp_only

* **funext** (1): C51_alias

* **funext, sig_forall_dec** (218): C20_width_real, C58_real, C23_real, C25_armijo, C59_no_lower, C27_solver, C28_pade, C28_degree13_refuted, C28_degree13_actual, C28_norm, C28_expm_degree, C28_expm_scaling, C29_neville, C30_max_abs, C30_min, C30_quadratic_form, C31_symmetric, C31_eigenvalues, C31_positive_definite, C31_unchanged, C31_condition, C31_all_stages, C32_positive_definite, C32_symmetric, C32_unchanged, C32_symmetrise, C33_solver, C34_explicit, C34_rejected, C35_runge_kutta, C60_symmetric, C60_no_forward_refuted, C26_primal, C26_dual, C26_algebraic, C26_nothing_else, C26_nonnegative, C18_rollout, C18_initial_state, C18_feedback, C18_source_kept, C18_in_place, C18_in_place_refuted, C19_blend, C19_buffer, C19_refuted, C19_after_full_trial, C11_stationarity, C11_dynamics, C11_inequalities, C11_complementarity, C11_complementarity_barrier, C11_complementarity_actual, C11_barrier_refuted, C11_equality_offset_refuted, C11_total, C45_no_slack_step, C45_actual, C45_refuted, C45_gradient, C50_hard_constraints, C50_hard_bounds, C50_dynamics_actual, C50_dynamics_refuted, C50_lower_actual, C50_upper_actual, C50_soft_refuted, C50_soft_bound_refuted, C52_range, C52_shortened_step, C52_two_full_steps, C52_full_step_refuted, C52_term, C52_negative_cost, C56_actual, C56_refuted, C53_feasible, C53_factor_refuted, C41_values, C41_compute_fun, C41_compute_fun_stops, C41_slack_declarations, C41_hessian, C42_jacobian, C42_out_of_bounds, C42_bounds, C43_hessian, C43_hessian_frame, C43_slack_hessian, C43_line_search, C44_hessian, C44_line_search, C44_shape_refuted, C64_conl_hessian, C64_external_hessian, C64_external_shape_refuted, C46_kkt, C46_minimiser, C46_shared_slack_refuted, C46_feasibility_refuted, C46_feasibility_ignored_refuted, C46_ddp_refuted, C47_factor, C47_eigenvalues, C47_triangle_refuted, C47_status_refuted, C65_residuals, C65_complementarity_refuted, C65_terminal_refuted, C65_null_refuted, C49_history_refuted, C49_fixed_refuted, C66_sum, C66_lost, C66_accumulates, C66_dynamics_refuted, C66_stage_refuted, C67_fixed, C67_constraints_refuted, C68_wfqp, C68_integrated_refuted, C68_levenberg_refuted, C71_structure, C71_shared_slack_refuted, C72_sound, C72_complete, C72_masks, C72_mask_refuted, C72_stale_structure_refuted, C72_unused_slack_refuted, C72_double_bound_refuted, C73_exact, C73_onto, C73_values, C73_hessian_sign_refuted, C73_mask_refuted, C73_stale_structure_refuted, C74_structure, C74_sorted_refuted, C74_shared_options_refuted, C75_t, C75_asserts, C75_unstack_assert, C75_idxb_refuted, C75_mask_refuted, C75_slack_bound_refuted, C75_slack_order_refuted, C75_slack_cap_refuted, C75_equality_refuted, C76_cold, C76_hot, C76_hessian_refuted, C80_t, C80_init, C80_scaled_refuted, C81_scaled_refuted, C83_values, C83_fun_correction, C83_compute_fun, C83_mask_refuted, C83_jacobian, C83_out_of_bounds, C83_hessian, C83_semidefinite, C83_symmetry_refuted, C84_adjoint_forward, C84_hessian_symmetric, C84_affine, C84_newton_fixed, C85_interpolated, C85_exact_newton, C85_unassigned_workspace, C85_stale_sensitivity, C87_hessian, C87_fun, C87_hessian_full_refuted, C87_fun_z_refuted, C87_fewer_states_refuted, C87_more_states_refuted, C87_disc_adjoint_refuted, C88_objective, C88_original, C88_kkt, C88_gradient, C88_convex, C88_convex_last, C88_convex_refuted, C88_growing_refuted, C88_x0_refuted, C88_split_gradient, C88_split_terminal, C88_split_refuted, C92_formula, C92_progress, C92_progress_refuted, C92_near, C92_qpoases_tightest, C92_qpoases_refuted, C92_osqp_fields, C92_osqp_floor, C92_case, C93_violation, C93_zero, C93_le_slacks, C93_equal, C93_descent, C93_pred, C93_slacks_refuted, C93_case, C93_case_ok, C94_schur, C94_diagonal, C94_step, C94_two_inputs, C94_two_case, C94_shrinks, C94_opposite, C94_sign_refuted

* **funext, sig_forall_dec, sig_not_dec** (48): C59_gradient, C59_refuted, C41_adjoint, C42_jacobian_refuted, C43_stale_refuted, C44_integrated_refuted, C64_conl_integrated_refuted, C77_kkt, C77_sequence, C77_small_row_refuted, C77_small_equality_refuted, C77_clip_refuted, C77_negative_penalty_refuted, C77_slack_mask_refuted, C77_soft_zero_row_refuted, C77_shared_slack_refuted, C77_hot_refuted, C78_feasible_refuted, C83_adjoint, C83_adjoint_refuted, C83_jacobian_refuted, C84_forward, C84_adjoint, C84_hessian, C85_interpolated_derivative, C85_exact_derivative, C85_jac_reuse_refuted, C86_defined, C86_nls_value, C86_conl_value, C86_nls_gradient, C86_conl_gradient, C86_nls_gauss_newton, C86_conl_gauss_newton, C86_flags, C86_param_only_refuted, C87_linearization, C87_fun_adj, C87_irk, C87_disc, C89_tridiagonal, C90_eigen, C90_two, C91_positive_definite, C91_above, C91_kept, C91_condition, C91_two

* **classic, funext, sig_forall_dec** (1): C75_kkt

* **classic, funext, sig_forall_dec, sig_not_dec** (136): C06_no_out_of_bounds, C06_report, C06_iterate_log, C06_untouched_rows, C06_stale_row_refuted, C06_raised_limit_refuted, C07_success, C07_success_point, C07_negative_limit_refuted, C08_bounded, C09_sqp_nan, C12_timeout, C13_last, C13_zero, C13_max_call, C13_max_overall, C13_average_refuted, C14_qp_failure, C05_standard, C05_advanced, C05_advanced_exact, C05_two_feedbacks_refuted, C05_level_a_refuted, C05_log_toggled_refuted, C15_status, C15_globalization_refuted, C15_preparation_refuted, C16_split, C20_width_double, C20_subnormal_refuted, C20_ordinary_refuted, C20_nan_option_refuted, C21_funnel, C21_zero_refuted, C21_reduction_one_refuted, C21_positive_min_refuted, C22_refuted, C57_update, C57_solve, C58_double, C58_nan_dynamics, C58_nan_constraint_refuted, C21_ddp, C21_merit, C21_ddp_zero_refuted, C21_merit_one_refuted, C23_double, C23_negative_refuted, C24_refuted, C24_full_step_refuted, C25_accept, C28_degree3_garbage_refuted, C30_nan_refuted, C33_tableau, C33_unique, C33_radau, C33_gauss, C33_newton_refuted, C35_forward_state, C35_forward_sensitivity, C35_parameter_sensitivity, C36_adjoint_gradient, C36_transposed, C60_hessian, C10_never_nan, C10_refuted, C10_complementarity, C10_equality_refuted, C17_success, C17_stale_zero_refuted, C17_stale_last_refuted, C17_negative_cost_refuted, C17_bounded, C17_negative_limit, C09_ddp_nan, C09_ddp_comp_refuted, C61_simulation, C62_no_oob, C62_ext_res_refuted, C55_enter, C55_return, C09_wfqp_nan, C63_success, C63_bounded, C63_no_oob, C63_ready_refuted, C63_raised_limit_refuted, C39_mask_one, C39_mask_zero, C39_masked_zero_refuted, C40_history, C40_cover, C40_multipliers, C40_masked_multipliers, C40_get_bound, C40_get_idxbx, C40_get_idxbu, C40_get_idxs, C40_get_C, C40_get_D, C40_stale_slack_refuted, C41_hessian_refuted, C43_linearisation, C43_expansion, C44_linearisation, C44_integrated, C64_conl, C64_conl_integrated, C64_external, C64_external_hessian_refuted, C47_doubles, C47_finite_refuted, C51_stage_loops, C51_equal_dims, C51_axpy_refuted, C51_set_to_zero_refuted, C51_sc_refuted, C51_add_refuted, C51_hessians_refuted, C51_initial_setup_refuted, C51_ddot_refuted, C51_shared_workspace_refuted, C85_xdot_refuted, C85_explicit_tableau_refuted, C86_weight_refuted, C90_tiny_refuted, C90_large_refuted, C90_zero_refuted, C91_nan_refuted, C91_zero_refuted, C92_not_nan, C92_nan_loose, C94_pivoting_refuted, C94_exchange_refuted, C94_smallest_refuted, C94_case

## Mutation testing

seeded/LOG.jsonl records 790 edits of model definitions made in scratch copies, with the theorems that failed. Edits that no theorem noticed led to stronger statements (field `tightened`), or are equivalent programs: the guard `iter s <? stat_m s + 1` of `log_qp_stats` (always true there) and zeroing the whole adjoint vector (every entry is written afterwards).
