# Design

Subject: the Python package `qiskit_optimization` in /repo (pinned commit), read as text, not run.
Model and proofs: Coq 8.16.1, `rocq/theories`, logical root `Verif`.
Properties: `properties.jsonl`. Theorems per property and what they leave out: `MANIFEST.json`.
Wrong programs tried against the theorems: `seeded/LOG.jsonl`. There `lemmas_failed` are the proofs that no longer go through, and `theorems_failed` the property theorems among them or resting on them through the references recorded by the compiler (a theorem resting on a failed lemma might still hold by another proof).

## Modelling conventions

- **Numbers.** Python ints and floats are exact rationals, type `Qc` (canonical rationals of the
  standard library, Leibniz equality, computable, no axioms). Rounding is modelled in FloatEval.v (values and feasibility) and RoundLog.v (the logarithm) only; overflow, NaN and infinities
  are not modelled. `INFINITY` is the number 1e20, as in `infinity.py`.
- **Exceptions** are values: `result A := Ok a | Err e` with one constructor of `exn` per Python exception
  class that the modelled code can raise. Calls with side effects return the new state *and* the
  result, so effects before a `raise` are visible.
- **Names** are `string`s. **Dictionaries** are association lists in insertion order.
- **Sparse matrices** (`dok_matrix`) are a shape, a flag for an integer dtype and a dictionary of entries.
  The shape is kept because the code compares shapes on evaluation, the flag because numpy truncates what is
  assigned to an integer matrix.
- **Loops** that are not bounded by a list run on fuel and return a distinct error on exhaustion; theorems
  show that this error does not occur, or the theorem is about terminating runs and says so.
- **External components** are function arguments; the theorems quantify over all their behaviours.
- **Object identity** matters where a converter list is empty (`_convert` then returns the caller's
  object); the solvers concerned return the caller's program as it is after the call.
- Message texts, logging (but for the exports that ADMM makes for its debug messages, which can raise), warnings, deprecation shims, type checks by `isinstance` and drawing itself (networkx, matplotlib) are not modelled; Draw.v has the lists handed to it.

## Layout

Model files hold definitions only, and every definition cites file and lines of /repo. `Spec*.v` hold the meaning
used in statements, written without the helpers of the model. `*Facts*.v`, `*Props.v`, `*Wf.v` and the like hold
lemmas. `P_*.v` hold the property theorems, each with an example beside it and `Print Assumptions` at the end.

| Source in /repo | Model | Specification | Theorems |
|---|---|---|---|
| problems/linear_expression.py, quadratic_expression.py, quadratic_objective.py | Expr.v | Spec.v | P_Expr.v (C07-C10, C12) |
| problems/variable.py, constraint.py, linear_constraint.py, quadratic_constraint.py, quadratic_program.py (container) | Program.v | Spec.v | P_Program.v (C01-C06, C11) |
| quadratic_program.py `get_feasibility_info`, `is_feasible` | Feas.v | Spec.v | P_Feas.v (C13, C14) |
| quadratic_program.py `SubstituteVariables` | Subst.v | SpecMore.v | P_Subst.v (C15-C17) |
| quadratic_program.py `to_ising`, `from_ising` | Ising.v | SpecIsing.v, SpecMore.v | P_Ising.v (C18-C21) |
| quadratic_program.py `from_docplex`, `to_docplex` | Docplex.v | SpecDoc.v | P_Doc.v (C53, C54) |
| converters/*.py | Conv.v | Spec.v, SpecLost.v | P_Conv.v (C22-C27), P_Pen.v (C28-C31), P_Qubo.v (C32-C35, C67) |
| algorithms/optimization_algorithm.py, minimum_eigen_optimizer.py | Algo.v | SpecAlgo.v | P_Result.v (C36-C41) |
| algorithms/recursive_minimum_eigen_optimizer.py | Recur.v | SpecRecur.v | P_Recur.v (C42, C43) |
| algorithms/multistart_optimizer.py, cobyla_optimizer.py, slsqp_optimizer.py | Solvers.v | SpecSolvers.v | P_Solvers.v (C44, C45) |
| algorithms/grover_optimizer.py | Grover.v | SpecGrover.v | P_Grover.v (C46, C68, C43) |
| algorithms/goemans_williamson_optimizer.py | Goemans.v | SpecGoemans.v | P_Goemans.v (C47, C69) |
| algorithms/warm_start_qaoa_optimizer.py | Warm.v | SpecWarm.v | P_Warm.v (C48, C49) |
| algorithms/admm_optimizer.py | Admm.v | SpecAdmm.v | P_Admm.v (C50-C52) |
| the converters together | | SpecTotal.v | P_Total.v (C70) |
| multistart_optimizer.py (starting points), cobyla_optimizer.py, slsqp_optimizer.py (results) | Solvers.v | SpecStart.v | P_Start.v (C71, C72) |
| grover_optimizer.py (stopping rule) | Grover.v | SpecStop.v | P_Stop.v (C73) |
| goemans_williamson_optimizer.py (semidefinite program) | Sdp.v | SpecSdp.v | P_Sdp.v (C74) |
| admm_optimizer.py (subproblems) | Admm.v | SpecLagr.v | P_Lagr.v (C75) |
| admm_optimizer.py (reported point) | Admm.v | | P_Admm2.v (C78) |
| admm_optimizer.py (start and stop) | Admm.v | SpecAdmm.v | P_Admm3.v (C82) |
| admm_optimizer.py (whether it answers) | Admm.v | SpecAdmmTotal.v | P_Admm4.v (C95) |
| algorithms/cplex_optimizer.py | Cplex.v | SpecCplex.v | P_Cplex.v (C79) |
| warm_start_qaoa_optimizer.py (circuits) | Circuit.v, WarmCircuit.v | SpecCircuit.v | P_Circuit.v (C80) |
| grover_optimizer.py (circuits) | Circuit.v, GroverCircuit.v | SpecGroverC.v | P_GroverC.v (C81) |
| applications through the QUBO | App.v, Docplex.v, Conv.v | SpecSolve.v | P_Solve.v (C76, C77) |
| applications/*.py | App.v, Files.v (parsers) | SpecApp.v, SpecFiles.v, SpecRoute.v | P_App.v (C55-C66), P_Route.v (C63, C64) |
| applications/*.py: graphs with any labels, graphs given as matrices | Graphs.v | SpecGraph.v | P_Graph.v (C98) |
| applications/*.py (drawing, random instances) | Draw.v | SpecDraw.v | P_Draw.v (C83, C84) |
| problems/quadratic_program.py (variables in bulk) | Bulk.v | - | P_Bulk.v (C85) |
| problems/quadratic_program.py (LP files), applications/tsp.py (graphs of tsplib files) | Read.v | SpecRead.v, SpecDraw.v | P_Read.v (C65, C86) |
| (no new code: programs with whole coefficients; the applications through the optimizers) | — | SpecInt.v | P_Int.v (C87, C88) |
| converters/*.py (conversions that raise) | Conv.v (last section) | — | P_Fail.v (C89) |
| algorithms/*.py (compatibility messages, settings) | Compat.v | SpecCompat.v | P_Compat.v (C90, C91) |
| problems/*.py (assignments, clear, gradients) | Program.v, Expr.v | SpecEdit.v | P_Edit.v (C92, C93) |
| problems/quadratic_program.py (loading into a used program) | Load.v, Ising.v | SpecLoad.v | P_Load.v (C94) |
| converters/integer_to_binary.py (the rounded logarithm) | RoundLog.v | SpecRound.v | P_Round.v (C96) |
| problems/*.py: evaluate and get_feasibility_info with floats | FloatEval.v | SpecFloats.v | P_Float.v (C97) |

`Num.v` and `Py.v` are the numbers and the small part of Python used by all models.

## What is simplified, by file

- **Expr.v, Program.v**: coefficients are lists, dictionaries or sparse matrices; numpy arrays behave as lists.
  Names may be any string. `status` and printing are left out; so are LP files
  (they go through docplex and CPLEX).
- **Subst.v**: whether scipy keeps entries that cancel to 0 in sums of sparse matrices is a parameter; the theorems
  hold for both behaviours.
- **Ising.v**: the operator classes of qiskit-terra are modelled from their documented behaviour (a sum keeps its
  terms, equal neighbouring single terms add up, `reduce` merges equal strings and drops coefficients below 1e-8).
- **Docplex.v**: docplex models are lists of variables, an objective and constraints; expressions are a constant, linear
  terms and products. Assumed of docplex: trivially true constraints are dropped by `add_constraint`, trivially false
  ones raise, `sum` of an empty list is a linear expression. Names of models and rounding of bounds are left out.
- **Graphs.v**: labels are integers or strings; an array is square, and what networkx makes of it (edges row by row, later entries replace earlier ones) is modelled from its documentation.
- **App.v, Files.v**: graphs have the nodes 0..n-1; loops and missing weights are allowed. Text is turned into numbers by
  arbitrary functions in the parsers; the graph made of the coordinates is in Read.v.
- **Bulk.v**: as for the methods of Program.v; the key formats are strings with `{}`.
- **Read.v**: a file is the list of its lines, text is ASCII; the docplex printer and reader are arguments; np.hypot is one as in Draw.v.
- **Draw.v**: the order of the nodes is a parameter; generators and np.hypot are arbitrary functions; `random_geometric_graph` joins
  the pairs whose distance is at most the radius.
- **Compat.v**: `validate_min` of qiskit raises ValueError below the minimum; whether a solver returns eigenstates is an argument.
- **Algo.v**: eigensolver results are given by their eigenstate; operators and circuits are opaque.
- **Print.v**: what docplex prints is a function of the model; printing and writing return the text.
- **Recur.v**: inner optimizers are functions of the round and the problem that do not change it; RecurHist.v adds the history of intermediate results, which are values.
- **Solvers.v**: the scipy routines and the uniform draws are functions.
- **Grover.v**: circuits, measurements and random rotations are functions; "honest" measurements (value register holds the
  objective modulo the register size) are a hypothesis of some theorems and named there; they are proved from the circuits in P_GroverC.v.
- **Goemans.v**: the semidefinite solver, smallest eigenvalue, Cholesky factor and normal numbers are functions.
- **FloatEval.v**: every sum and product is rounded and may be made in any order; coefficients, bounds and right-hand sides are rounded once, when they are stored; the point is not rounded. No overflow, underflow or fused operations.
- **RoundLog.v**: `np.log2` is any function on reals; bounds are integers, and sums and differences are exact (floats beyond 2^53 are not).
- **Warm.v**: QAOA runs and the pre-solver are functions; the circuits are in WarmCircuit.v.
- **Circuit.v, WarmCircuit.v**: gates act on state vectors of complex numbers over the reals of the standard library; the matrices
  are those documented in qiskit-terra. Global phases of gates are as documented; transpilation and noise are left out.
- **GroverCircuit.v**: `QuadraticForm` is the documented map on whole values, a rotation is the oracle followed by the reflection about the
  prepared state; fractional values, transpilation and noise are left out.
- **Cplex.v**: what CPLEX makes of a docplex model is a function; display settings are left out. Assumed: without a solution
  `get_values` raises CplexSolverError.
- **Admm.v**: the two solvers, the norm and the clock are functions; a solver answer of the wrong length raises QiskitOptimizationError (the constructor of OptimizationResult does). Of the debug messages only the exports are kept (`to_docplex` of the problem and of each subproblem), as they can raise; the writing of the LP text by docplex is not modelled.

Not modelled at all: LP import and export (but for the problem name, Read.v), result classes that only carry data, pretty printing, plotting, `__init__` validation of
optimizer parameters other than those named in properties.

## Trusted base

- The Coq 8.16.1 kernel (`coqc`; `coqchk` accepts all compiled files).
- Axioms: `Print Assumptions` beneath each property theorem reports "Closed under the global context" for all theorems except
  those about circuits (P_Circuit.v, P_GroverC.v) and two about the rounded logarithm (P_Round.v), which use the real numbers of the standard library and hence its
  axioms `ClassicalDedekindReals.sig_forall_dec`, `ClassicalDedekindReals.sig_not_dec`,
  `FunctionalExtensionality.functional_extensionality_dep` and `Classical_Prop.classic`. No other axioms are used.
  `coqchk` additionally lists `Coq.ssr.ssrunder.Under_rel.*` (7 names): the signature of a module of the standard
  library loaded by other standard library files; no theorem uses them. It also lists the members of the opaque modules `RbaseSymbolsImpl`
  and `RinvImpl` of `Coq.Reals.Rdefinitions`, which the library defines from Dedekind cuts.
- The reading of the Python code: each definition cites its lines; nothing was executed.
- The assumptions on numpy, scipy, networkx, docplex and qiskit-terra listed above.

## What the proofs say about the code

Where the code violates a property there is a theorem `..._refuted` with a witness, and a `..._partial` theorem with the
restriction under which the property holds. The defects found, by source:

- quadratic_program.py: a name whose creation raised stays reserved (C02); adding several variables is not atomic (C05); the
  objective keeps the size of the program at the time it was set, so evaluation raises after variables were added (C11);
  `is_feasible` ignores types (C14); a variable named `__CONSTANT__` is taken for the constant term (C15); chains of
  replacements and contradictory bounds raise undocumented errors (C17); `to_ising` of a constant objective gives energy 1
  (C18); `from_ising` overwrites repeated terms (C20); binary bounds are lost in docplex import (C54), quadratic constraints
  without quadratic terms change kind in the round trip (C53).
- quadratic_expression.py: negative indices read and write different entries; integer lists make truncating expressions (C09).
- quadratic_program.py, get_feasibility_info: inequalities have no tolerance and equalities with 0 none in effect, so with floats points that satisfy 0.1 x + 0.2 y <= 0.3 as written are reported as infeasible (C97);
- the graph applications: nodes with labels other than 0, ..., n-1 are not refused if they have no edges, and answers then name nodes that the graph does not have (C98);
- integer_to_binary.py: for ranges of 2^k - 2 with k from 50 to 53 the rounded logarithm is one too large and bits stand for values outside the bounds (C96);
- integer_to_binary.py: products of two integer variables lose bit coefficients (C24, and hence C33, C34, C40);
  lb = ub raises OverflowError, fractional bounds decode to non-integers (C23).
- inequality_to_equality.py: integer slacks for integral constraints over continuous variables (C26); objective not resized (C27).
- linear_equality_to_penalty.py: the automatic penalty ignores ranges of integer variables (C30); quadratic constraints are
  dropped (C31). All converters reset the bounds of binary variables (C67). Names of added variables may be taken, and integer
  variables with one value raise OverflowError (C70).
- recursive_minimum_eigen_optimizer.py, grover_optimizer.py: without converters the caller's program is changed (C42, C43).
- multistart_optimizer.py: maximisation keeps the last trial; nothing is kept for values of 1e20 and more (C44); the first
  trial starts outside the bounds, lower bounds above the clip value raise ValueError (C71).
- grover_optimizer.py: the search need not end when values do not fit the register (C46); frequencies are normalised twice, raw
  samples of maximisations are ordered worst first (C68).
- goemans_williamson_optimizer.py: linear terms, sense and constraints are ignored; a failing solver raises (C69).
- warm_start_qaoa_optimizer.py: samples are merged by run-together digits (C48); slack variables, integer variables and negative
  values break the combination of several starts, feasibility is ignored in it (C49).
- admm_optimizer.py: step 1 leaves out variables (C50, C52); dual residuals compare with old iterates, rho grows when it
  should shrink (C51); step 2 keeps products of binary variables and truncates in integer objectives (C75).
- applications/max_cut.py, tsp.py: parsers misread weights and reject files with ended header lines (C65). The programs of
  knapsack.py and number_partition.py are refused by the converter for fractional data (C77).
- admm_optimizer.py:889-907: a warm start sets the binary variables to fractional values, which are reported as a
  success when step 1 is left out (C78).
- warm_start_qaoa_optimizer.py: with rounding parameter 0 and a solution made of bits QAOA returns that solution, whatever the
  problem (C80).
- grover_optimizer.py: values outside the range of the register are marked wrongly; `is_good_state` cannot be called with a
  measurement (C81).
- cplex_optimizer.py: bounds of binary variables are not handed over; problems without a solution raise exceptions of docplex
  or CPLEX in place of QiskitOptimizationError (C79).
- applications/max_cut.py: colours come in the order of the variables, not of the nodes, and the comment has them the wrong way
  round; stable_set.py paints only values equal to 1 (C83); tsp.py: the seed 0 is ignored (C84);
  quadratic_program.py: an empty sequence of keys creates no variable and raises nothing (C85); blanks at the ends of a
  problem name do not survive an LP file (C86).
- converters/*.py: a conversion that raises leaves the converter with the problem that could not be converted, so that interpret
  no longer answers for the last result (C89).
- recursive_minimum_eigen_optimizer.py: `min_num_vars` below 1 raises ValueError in place of the documented error;
  optimization_algorithm.py: a penalty is ignored if converters are given (C91).
- quadratic_objective.py: gradients of objectives whose parts have different sizes are broadcast (C93).
- quadratic_program.py: from_ising does not clear the program and puts its terms on the first variables, whatever they are;
  a load that raises has replaced the old content or left new variables behind (C94).

## Properties and how they are proved

- **C01 Name lookup finds the element that carries the name** (P_Program.v, proved): `C01_lookup`, `C01_positions`
- **C02 No ghost names** (P_Program.v, partial): `C02_no_ghost_names_refuted`, `C02_no_ghost_constraint_names_refuted`, `C02_no_ghost_names_partial`, `C02_ghosts`, `C02_names`, `C02_created`
- **C03 Automatic names are fresh and always found** (P_Program.v, proved): `C03_numbered_variables`, `C03_unnamed_variable`, `C03_unnamed_linear_constraint`, `C03_unnamed_quadratic_constraint`
- **C04 Variable bounds never cross** (P_Program.v, proved): `C04_bounds`
- **C05 A raising call changes nothing** (P_Program.v, partial): `C05_raising_call_refuted`, `C05_raising_call_partial`, `C05_adding_many_partial`
- **C06 Removing a constraint removes exactly that constraint** (P_Program.v, proved): `C06_remove_linear`, `C06_remove_quadratic`, `C06_remove_unknown`
- **C07 Linear expressions mean what was given** (P_Expr.v, proved): `C07_construct`, `C07_evaluate`, `C07_views`, `C07_bad_key`
- **C08 Quadratic expressions keep their value in every stored form** (P_Expr.v, proved): `C08_matrix`, `C08_dict`, `C08_sparse`, `C08_evaluate`, `C08_symmetric_view`, `C08_rebuild`, `C08_views`, `C08_bad_key`
- **C09 Reading and writing a single coefficient agree** (P_Expr.v, partial): `C09_negative_index_refuted`, `C09_integer_dtype_refuted`, `C09_linear_partial`, `C09_quadratic_partial`, `C09_linear_exact`, `C09_quadratic_exact`
- **C10 Gradients are exact** (P_Expr.v, proved): `C10_linear`, `C10_quadratic`, `C10_objective`
- **C11 A program can be evaluated at every point of its own size** (P_Program.v, partial): `C11_evaluable_refuted`, `C11_evaluable_partial`, `C11_sizes`, `C11_later_variables`
- **C12 Constraint senses are read from every documented spelling** (P_Expr.v, proved): `C12_senses`
- **C13 The feasibility report is exact** (P_Feas.v, proved): `C13_feasibility_report`, `C13_wrong_length`, `C13_exact_points`, `C13_sizes`
- **C14 Feasible points respect variable types** (P_Feas.v, partial): `C14_types_refuted`, `C14_bounds_only_partial`, `C14_blind`
- **C15 Substitution preserves the objective** (P_Subst.v, partial): `C15_objective_refuted`, `C15_objective_partial`, `C15_exact`
- **C16 Substitution preserves the feasible set** (P_Subst.v, partial): `C16_feasible_set_refuted`, `C16_feasible_set_partial`
- **C17 Ill-formed substitutions are rejected with the documented error** (P_Subst.v, partial): `C17_replaced_variable_refuted`, `C17_contradictory_bounds_refuted`, `C17_rejected_partial`, `C17_accepted`, `C17_exact`
- **C18 The Ising operator has the objective as its energy** (P_Ising.v, partial): `C18_constant_objective_refuted`, `C18_small_coefficient_refuted`, `C18_energy_partial`
- **C19 to_ising rejects exactly what it cannot express** (P_Ising.v, partial): `C19_rejects_refuted`, `C19_rejects_partial`, `C19_exact`
- **C20 from_ising reproduces the operator's energies** (P_Ising.v, partial): `C20_repeated_terms_refuted`, `C20_energies_partial`, `C20_repeated`
- **C21 Ising round trip** (P_Ising.v, partial): `C21_round_trip_refuted`, `C21_cancelling_refuted`, `C21_round_trip_partial`
- **C22 Bounded integer encoding is exact** (P_Conv.v, proved): `C22_encoding_exact`
- **C23 IntegerToBinary accepts every bounded integer variable** (P_Conv.v, partial): `C23_accepts_refuted`, `C23_accepts_partial`
- **C24 IntegerToBinary preserves objective and constraints** (P_Conv.v, partial): `C24_objective_refuted`, `C24_preserved_partial`, `C24_exact`
- **C25 InequalityToEquality keeps the feasible set** (P_Conv.v, proved): `C25_feasible_set`
- **C26 InequalityToEquality keeps the feasible set whatever the variable types** (P_Conv.v, partial): `C26_auto_refuted`, `C26_auto_partial`, `C26_exact`
- **C27 Converted programs are usable programs** (P_Conv.v, partial): `C27_usable_refuted`, `C27_usable_partial`, `C27_exact`
- **C28 The penalty objective is objective plus scaled violation** (P_Pen.v, proved): `C28_penalty_objective`, `C28_rejects_inequalities`
- **C29 The automatic penalty is large enough** (P_Pen.v, proved): `C29_auto_penalty_exact`
- **C30 The automatic penalty is large enough for integer variables too** (P_Pen.v, partial): `C30_integer_penalty_refuted`, `C30_integer_penalty_partial`, `C30_light_partial`
- **C31 LinearEqualityToPenalty loses no constraint** (P_Pen.v, partial): `C31_no_constraint_lost_refuted`, `C31_no_constraint_lost_partial`, `C31_linear_only`
- **C32 QUBO conversion output is a QUBO over the right variables** (P_Qubo.v, proved): `C32_qubo_shape`, `C32_qubo_rejects`
- **C33 Solving the QUBO solves the problem** (P_Qubo.v, partial): `C33_qubo_solves_refuted`, `C33_qubo_solves_partial`, `C33_exact`
- **C34 Every feasible point is represented in the QUBO** (P_Qubo.v, partial): `C34_represented_refuted`, `C34_represented_partial`, `C34_value`
- **C35 A converter can be reused** (P_Qubo.v, proved): `C35_reuse`, `C35_inequality`, `C35_integer`, `C35_penalty`
- **C36 Results are consistent with the problem** (P_Result.v, proved): `C36_result_consistent`, `C36_result_exists`, `C36_converters`
- **C37 Sample interpretation conserves probability** (P_Result.v, proved): `C37_samples_mass`, `C37_samples_exist`
- **C38 Samples are sorted by quality** (P_Result.v, proved): `C38_samples_sorted`
- **C39 Measurement outcomes are decoded with the right bit order** (P_Result.v, proved): `C39_state_vector`, `C39_dictionary`, `C39_dict_state`, `C39_rejected`
- **C40 MinimumEigenOptimizer returns the best sample** (P_Result.v, partial): `C40_ground_state_refuted`, `C40_best_outcome`, `C40_default_partial`, `C40_ground_state_partial`, `C40_exact`
- **C41 Correlations are expectation values** (P_Result.v, proved): `C41_correlations`, `C41_result`
- **C42 Recursive elimination is consistent** (P_Recur.v, partial): `C42_consistent_refuted`, `C42_reserved_refuted`, `C42_consistent_partial`, `C42_default_partial`, `C42_rounds`, `C42_strongest`
- **C43 solve() does not modify the caller's problem** (P_Grover.v, P_Recur.v, partial): `C43_grover_refuted`, `C43_grover_partial`, `C43_grover_exact`, `C43_unmodified_refuted`, `C43_unmodified_partial`, `C43_exact`
- **C44 Multi-start returns the best trial** (P_Solvers.v, partial): `C44_maximise_refuted`, `C44_large_refuted`, `C44_reported_partial`, `C44_minimise_partial`, `C44_one_trial_partial`, `C44_maximise_last`, `C44_maximise_first`, `C44_answers`
- **C45 Classical solvers get exactly the problem's constraints** (P_Solvers.v, proved): `C45_cobyla`, `C45_slsqp`, `C45_objective`, `C45_gradient`, `C45_compatible`
- **C46 Grover search decodes and compares values correctly** (P_Grover.v, partial): `C46_register`, `C46_register_exact`, `C46_smallest`, `C46_best_partial`, `C46_ends_partial`, `C46_optimal_partial`, `C46_exact`, `C46_ends_refuted`
- **C47 Goemans-Williamson reports correct cuts** (P_Goemans.v, proved): `C47_value`, `C47_complement`, `C47_cuts`, `C47_best`, `C47_answers`
- **C48 Warm-start values and aggregation** (P_Warm.v, partial): `C48_epsilon`, `C48_range`, `C48_half`, `C48_relaxed`, `C48_total`, `C48_mean_refuted`, `C48_mean_partial`, `C48_fractions`, `C48_exact`
- **C49 Warm-start with several initial solutions returns a valid result** (P_Warm.v, partial): `C49_slack_refuted`, `C49_slack_raises`, `C49_twice_refuted`, `C49_digits_refuted`, `C49_feasible_refuted`, `C49_single`, `C49_unsolved`, `C49_partial`, `C49_equalities`
- **C50 ADMM splits and recombines the problem correctly** (P_Admm.v, partial): `C50_represented`, `C50_split`, `C50_recombine`, `C50_compatible`, `C50_blocks_refuted`, `C50_integer_refuted`, `C50_blocks_partial`, `C50_residual`, `C50_turn`, `C50_best`, `C50_no_round`
- **C51 ADMM residuals use the previous iterate** (P_Admm.v, partial): `C51_stale`, `C51_dual_partial`, `C51_dual_refuted`, `C51_warm_refuted`, `C51_shrink_refuted`, `C51_doubled`, `C51_rho_partial`, `C51_ten_percent`
- **C52 ADMM puts every relevant binary variable in the first subproblem** (P_Admm.v, partial): `C52_exactly`, `C52_partial`, `C52_product_refuted`, `C52_negative_refuted`, `C52_mixed_refuted`, `C52_missed`, `C52_lost_refuted`
- **C53 docplex export and import round trip** (P_Doc.v, partial): `C53_dropped_refuted`, `C53_infeasible_refuted`, `C53_kind_refuted`, `C53_round_trip_partial`, `C53_exact`
- **C54 docplex import is faithful** (P_Doc.v, partial): `C54_bounds_refuted`, `C54_names_refuted`, `C54_import_partial`, `C54_solutions_partial`, `C54_accepted_partial`, `C54_exact`, `C54_usable`
- **C55 Max-cut encoding** (P_App.v, proved): `C55_maxcut`, `C55_interpret`, `C55_gset`
- **C56 Vertex cover encoding** (P_App.v, proved): `C56_cover`, `C56_interpret`
- **C57 Stable set encoding** (P_App.v, proved): `C57_stable`, `C57_interpret`
- **C58 Clique encoding** (P_App.v, proved): `C58_clique`, `C58_interpret`
- **C59 Set packing and exact cover encodings** (P_App.v, proved): `C59_packing`, `C59_exact_cover`, `C59_rows`
- **C60 Knapsack encoding** (P_App.v, proved): `C60_knapsack`, `C60_interpret`
- **C61 Number partition encoding** (P_App.v, proved): `C61_partition`, `C61_interpret`
- **C62 Graph partition encoding** (P_App.v, proved): `C62_graph_partition`, `C62_interpret`
- **C63 Travelling salesman encoding** (P_App.v, P_Route.v, proved): `C63_tsp`, `C63_missing`
- **C64 Vehicle routing encoding** (P_App.v, P_Route.v, proved): `C64_vehicle_routing`, `C64_missing`, `C64_any`, `C64_short`
- **C65 Instance files are parsed faithfully** (P_App.v, P_Read.v, partial): `C65_gset_refuted`, `C65_tsplib_refuted`, `C65_type_rejected`, `C65_eof_rejected`, `C65_gset_partial`, `C65_tsplib_partial`, `C65_short_rejected`, `C65_colon_missing`, `C65_gset_errors`, `C65_graph_partial`
- **C66 The most likely sample is decoded little-endian** (P_App.v, proved): `C66_vector`, `C66_counts`
- **C67 Bounds assigned to a binary variable survive conversion** (P_Qubo.v, partial): `C67_binary_bounds_refuted`, `C67_binary_bounds_partial`, `C67_forgotten`
- **C68 Grover samples carry measured frequencies, best first** (P_Grover.v, partial): `C68_frequency_refuted`, `C68_counts_partial`, `C68_vector_partial`, `C68_samples`, `C68_order_partial`, `C68_order_refuted`
- **C69 Goemans-Williamson reports results of the problem given** (P_Goemans.v, partial): `C69_value_refuted`, `C69_sense_refuted`, `C69_status_refuted`, `C69_failure_refuted`, `C69_failure_raises`, `C69_failure_empty`, `C69_partial`
- **C70 The conversions succeed on every program they support** (P_Total.v, partial): `C70_slack_name_refuted`, `C70_shared_name_refuted`, `C70_bit_name_refuted`, `C70_fixed_refuted`, `C70_inequalities_partial`, `C70_integers_partial`, `C70_penalty`, `C70_qubo_partial`, `C70_plain_names_partial`
- **C71 Starting points of the numerical optimizers** (P_Start.v, partial): `C71_first_refuted`, `C71_clip_refuted`, `C71_origin_partial`, `C71_later_partial`, `C71_nowhere_partial`, `C71_anywhere_partial`, `C71_bounded_partial`
- **C72 COBYLA and SLSQP return what their routine found** (P_Start.v, proved): `C72_cobyla`, `C72_slsqp`, `C72_cobyla_reported`, `C72_slsqp_reported`, `C72_refused`
- **C73 When the Grover search gives up** (P_Stop.v, proved): `C73_reason`, `C73_at_once`, `C73_rotations`, `C73_exhausted`
- **C74 The semidefinite relaxation bounds all cuts** (P_Sdp.v, proved): `C74_relaxation`, `C74_entries`, `C74_rank_one`, `C74_bound`, `C74_tight`, `C74_definite`, `C74_kept`
- **C75 The subproblems of ADMM are blocks of one Lagrangian** (P_Lagr.v, partial): `C75_step1`, `C75_step2_points`, `C75_step2_products_partial`, `C75_products_refuted`, `C75_integers_refuted`, `C75_step3`, `C75_multipliers`, `C75_round_partial`, `C75_descent_partial`
- **C76 The graph, set and routing applications are solved through the QUBO** (P_Solve.v, proved): `C76_maxcut`, `C76_graph_partition`, `C76_vertex_cover`, `C76_stable_set`, `C76_clique`, `C76_clique_of_size`, `C76_set_packing`, `C76_exact_cover`, `C76_tsp`, `C76_vehicle_routing`
- **C77 Knapsack and number partition are solved through the QUBO** (P_Solve.v, partial): `C77_knapsack_refuted`, `C77_partition_refuted`, `C77_knapsack_partial`, `C77_partition_partial`
- **C78 The point reported by ADMM has the right types and bounds** (P_Admm2.v, partial): `C78_types_refuted`, `C78_types_partial`, `C78_ranges`
- **C79 CPLEX solves the problem it is given** (P_Cplex.v, partial): `C79_export`, `C79_answer`, `C79_optimal_refuted`, `C79_optimal_partial`, `C79_infeasible_refuted`, `C79_failures_partial`
- **C80 Warm-start circuits prepare and keep the relaxed solution** (P_Circuit.v, proved): `C80_initial`, `C80_mixer`, `C80_standard`, `C80_stuck`
- **C81 Grover circuits mark and amplify the assignments below the threshold** (P_GroverC.v, partial): `C81_oracle`, `C81_good_state_refuted`, `C81_modulo`, `C81_value_partial`, `C81_amplification_partial`, `C81_range_refuted`, `C81_search_partial`, `C81_optimal_partial`
- **C82 When ADMM stops and where it starts** (P_Admm3.v, proved): `C82_stop`, `C82_default`, `C82_growth`, `C82_warm`, `C82_cold`
- **C83 Drawings show the answers of the applications** (P_Draw.v, partial): `C83_nodes`, `C83_maxcut_refuted`, `C83_comment_refuted`, `C83_maxcut_partial`, `C83_stable_refuted`, `C83_stable_partial`, `C83_short`, `C83_tour`, `C83_routes`
- **C84 Random instances are complete graphs with rounded distances, and seeds fix them** (P_Draw.v, partial): `C84_tsp`, `C84_vrp`, `C84_range`, `C84_seed_refuted`, `C84_seed_partial`
- **C85 Variables created in bulk have distinct new names and are returned in order** (P_Bulk.v, partial): `C85_dict`, `C85_keys`, `C85_clash`, `C85_few`, `C85_format`, `C85_empty_refuted`, `C85_counts`, `C85_public`, `C85_default`
- **C86 The name of a problem survives an LP file** (P_Read.v, partial): `C86_name`, `C86_none`, `C86_read`, `C86_round_trip_refuted`, `C86_round_trip_partial`
- **C87 Whole coefficients stay whole in the QUBO** (P_Int.v, proved): `C87_grid`, `C87_whole`, `C87_min_eigen`
- **C88 The applications are answered by MinimumEigenOptimizer and GroverOptimizer** (P_Int.v, proved): `C88_maxcut`, `C88_graph_partition`, `C88_vertex_cover`, `C88_stable_set`, `C88_clique`, `C88_clique_of_size`, `C88_set_packing`, `C88_exact_cover`, `C88_knapsack`, `C88_number_partition`, `C88_tsp`, `C88_vehicle_routing`
- **C89 A conversion that raises does not spoil the converter** (P_Fail.v, partial): `C89_qubo_refuted`, `C89_inequality_refuted`, `C89_integer_refuted`, `C89_refused_partial`, `C89_attempted_partial`
- **C90 Compatibility messages say what is wrong, and incompatible problems are refused unsolved** (P_Compat.v, proved): `C90_qubo_message`, `C90_qubo_refused`, `C90_qubo_accepted`, `C90_continuous`, `C90_goemans`, `C90_admm`
- **C91 The settings of the optimizers are checked and used** (P_Compat.v, partial): `C91_recursive_refuted`, `C91_penalty_refuted`, `C91_accepted_partial`, `C91_penalty_partial`
- **C92 A call changes what it names and nothing else, and clear gives a new program** (P_Edit.v, proved): `C92_assigned`, `C92_clear`
- **C93 A gradient is returned only where the objective has a value** (P_Edit.v, partial): `C93_gradient_refuted`, `C93_when_partial`, `C93_whole_partial`
- **C94 Loading a model replaces what the program held** (P_Load.v, partial): `C94_replaced`, `C94_file`, `C94_failed_refuted`, `C94_left_partial`, `C94_ising_refuted`, `C94_ising_failed_refuted`, `C94_ising_partial`, `C94_ising_left_partial`
- **C95 ADMM answers when its optimizers do** (P_Admm4.v, partial): `C95_log`, `C95_log_refuted`, `C95_answers_partial`, `C95_feasible_partial`, `C95_errors_partial`
- **C96 The encoding of integers withstands the rounding of the logarithm** (P_Round.v, partial): `C96_power`, `C96_rounded_refuted`, `C96_accurate_partial`
- **C97 Values and feasibility withstand the rounding of floats** (P_Float.v, partial): `C97_double`, `C97_tolerance_refuted`, `C97_whole_partial`, `C97_error`, `C97_margin_partial`
- **C98 The nodes of a graph are the variables of its program** (P_Graph.v, partial): `C98_labels_refuted`, `C98_made`, `C98_clique`, `C98_nodes_partial`, `C98_matrix`
- **C99 The history of the recursive optimizer accounts for its replacements** (P_Hist.v, proved): `C99_answer`, `C99_all`, `C99_default`, `C99_less`
- **C100 A program can be printed, and the text tells programs apart** (P_Print.v, partial): `C100_print_refuted`, `C100_alike_refuted`, `C100_when_partial`, `C100_alike_partial`
