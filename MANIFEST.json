{
 "claims": [
  {
   "property": "C01",
   "status": "proved",
   "theorems": [
    "C01_lookup",
    "C01_positions"
   ],
   "note": "All reachable states, including those after raising calls."
  },
  {
   "property": "C02",
   "status": "partial",
   "theorems": [
    "C02_no_ghost_names_refuted",
    "C02_no_ghost_constraint_names_refuted",
    "C02_no_ghost_names_partial",
    "C02_ghosts",
    "C02_names",
    "C02_created"
   ],
   "note": "False of the code: a name whose creation raised stays in the name index (two witnesses). Proved for histories in which no call raised; for all histories C02_ghosts says how the set of such names changes with every call, C02_names what they do, C02_created which calls leave them."
  },
  {
   "property": "C03",
   "status": "proved",
   "theorems": [
    "C03_numbered_variables",
    "C03_unnamed_variable",
    "C03_unnamed_linear_constraint",
    "C03_unnamed_quadratic_constraint"
   ],
   "note": "Numbered, unnamed variables and unnamed constraints of both kinds."
  },
  {
   "property": "C04",
   "status": "proved",
   "theorems": [
    "C04_bounds"
   ],
   "note": "All reachable states."
  },
  {
   "property": "C05",
   "status": "partial",
   "theorems": [
    "C05_raising_call_refuted",
    "C05_raising_call_partial",
    "C05_adding_many_partial"
   ],
   "note": "False for calls adding several variables (witness). Proved for every other call, and for the prefix kept by a failing multi-variable call."
  },
  {
   "property": "C06",
   "status": "proved",
   "theorems": [
    "C06_remove_linear",
    "C06_remove_quadratic",
    "C06_remove_unknown"
   ],
   "note": "Linear, quadratic and unknown names."
  },
  {
   "property": "C07",
   "status": "proved",
   "theorems": [
    "C07_construct",
    "C07_evaluate",
    "C07_views",
    "C07_bad_key"
   ],
   "note": "Construction from lists and dicts, evaluation at lists and dicts, array/dict/index views."
  },
  {
   "property": "C08",
   "status": "proved",
   "theorems": [
    "C08_matrix",
    "C08_dict",
    "C08_sparse",
    "C08_evaluate",
    "C08_symmetric_view",
    "C08_rebuild",
    "C08_views",
    "C08_bad_key"
   ],
   "note": "Construction from matrices, dicts and sparse matrices; evaluation; symmetric view; rebuilding from views."
  },
  {
   "property": "C09",
   "status": "partial",
   "theorems": [
    "C09_negative_index_refuted",
    "C09_integer_dtype_refuted",
    "C09_linear_partial",
    "C09_quadratic_partial",
    "C09_linear_exact",
    "C09_quadratic_exact"
   ],
   "note": "False for negative indices of quadratic expressions and for integer matrices (witnesses). C09_linear_exact and C09_quadratic_exact say for every key, value, size and type what is stored, who reads it and which exception a bad key gives; the restricted statements are as in the property."
  },
  {
   "property": "C10",
   "status": "proved",
   "theorems": [
    "C10_linear",
    "C10_quadratic",
    "C10_objective"
   ],
   "note": "Exact second-order expansion of linear and quadratic expressions and objectives."
  },
  {
   "property": "C11",
   "status": "partial",
   "theorems": [
    "C11_evaluable_refuted",
    "C11_evaluable_partial",
    "C11_sizes",
    "C11_later_variables"
   ],
   "note": "False: the default objective and length-unchecked coefficient lists make evaluation raise (witness). Proved when every coefficient list given has the right length and the variables precede it. Also proved for all programs: the sizes of the parts alone decide which points are evaluated, all others give ValueError; and after the objective was set it can be evaluated at the points of the program iff no variable was added."
  },
  {
   "property": "C12",
   "status": "proved",
   "theorems": [
    "C12_senses"
   ],
   "note": "All strings, both directions."
  },
  {
   "property": "C13",
   "status": "proved",
   "theorems": [
    "C13_feasibility_report",
    "C13_wrong_length",
    "C13_exact_points",
    "C13_sizes"
   ],
   "note": "Variables and constraints reported exactly; tolerance of equality constraints made explicit. C13_sizes: which points can be asked at all, with the exception otherwise; only the constraints' shapes matter, not the objective's."
  },
  {
   "property": "C14",
   "status": "partial",
   "theorems": [
    "C14_types_refuted",
    "C14_bounds_only_partial",
    "C14_blind"
   ],
   "note": "False: types are not checked (witness). Only the bounds are enforced; C14_blind: the report is the same for any change of the variable types."
  },
  {
   "property": "C15",
   "status": "partial",
   "theorems": [
    "C15_objective_refuted",
    "C15_objective_partial",
    "C15_exact"
   ],
   "note": "Refuted for a variable named __CONSTANT__, whose terms become constants. Proved for all programs without such a variable, all substitutions whose keys denote variables and all points; and, without any assumption on names, C15_exact: such a variable counts as 1 wherever it occurs or replaces another, and with that reading the objective is preserved at all points. scipy's treatment of cancelling entries in sums is a parameter (both behaviours covered)."
  },
  {
   "property": "C16",
   "status": "partial",
   "theorems": [
    "C16_feasible_set_refuted",
    "C16_feasible_set_partial"
   ],
   "note": "Refuted for numbers near 1e20 (a finite bound divided by a small factor counts as infinite). Proved when lower bounds are below 1e20, upper bounds above -1e20, constants finite and finite bounds stay finite after division; types of replaced variables are not part of the claim."
  },
  {
   "property": "C17",
   "status": "partial",
   "theorems": [
    "C17_replaced_variable_refuted",
    "C17_contradictory_bounds_refuted",
    "C17_rejected_partial",
    "C17_accepted",
    "C17_exact"
   ],
   "note": "Refuted: a chain x->y, y->z given in that order raises KeyError; contradictory bounds of a replacement raise QiskitOptimizationError instead of giving status INFEASIBLE. Proved: twice, zero, itself, constant-replaced or earlier-replaced give QiskitOptimizationError; any chain is rejected with some error. C17_exact: of the remaining substitutions exactly those are carried out that leave a value to every remaining variable, the others give QiskitOptimizationError; a chain given in the other order gives KeyError when values are left."
  },
  {
   "property": "C18",
   "status": "partial",
   "theorems": [
    "C18_constant_objective_refuted",
    "C18_small_coefficient_refuted",
    "C18_energy_partial"
   ],
   "note": "Refuted for an objective without coefficients (identity with energy 1) and for coefficients below 1e-8, which reduce drops. Proved for all other programs: within 1e-8*n^2 always, exact when the coefficients lie on a grid coarser than 4e-8. The operator algebra of qiskit-terra (sum, reduce) is modelled from its documented behaviour."
  },
  {
   "property": "C19",
   "status": "partial",
   "theorems": [
    "C19_rejects_refuted",
    "C19_rejects_partial",
    "C19_exact"
   ],
   "note": "Refuted: an objective vector longer than the number of variables gives IndexError. Proved: QiskitOptimizationError iff a non-binary variable or a constraint; among the other programs exactly those return whose objective has no entry outside the variables, the others give IndexError."
  },
  {
   "property": "C20",
   "status": "partial",
   "theorems": [
    "C20_repeated_terms_refuted",
    "C20_energies_partial",
    "C20_repeated"
   ],
   "note": "Refuted for a term list with a repeated Pauli string (whether terra merges such terms first is outside the repository). Proved for all sums of distinct Z and ZZ terms incl. zero weights; C20_repeated: with repeated strings exactly the last coefficient of each counts; rejection of every other kind of term."
  },
  {
   "property": "C21",
   "status": "partial",
   "theorems": [
    "C21_round_trip_refuted",
    "C21_cancelling_refuted",
    "C21_round_trip_partial"
   ],
   "note": "Refuted for constant objectives and for coefficients that cancel on all assignments. Proved when the objective varies by more than the tolerance (result within 1e-8*n^2) or varies at all with coefficients on a grid (exact)."
  },
  {
   "property": "C22",
   "status": "proved",
   "theorems": [
    "C22_encoding_exact"
   ],
   "note": "All integer bounds, both directions (every pattern decodes into the range, every value is hit)."
  },
  {
   "property": "C23",
   "status": "partial",
   "theorems": [
    "C23_accepts_refuted",
    "C23_accepts_partial"
   ],
   "note": "False: a fixed integer variable (lb = ub) raises OverflowError, and fractional bounds decode to non-integers (witnesses). Proved: encodings exist exactly for lb < ub, a program with a fixed integer variable is refused; with integral bounds the points are the same."
  },
  {
   "property": "C24",
   "status": "partial",
   "theorems": [
    "C24_objective_refuted",
    "C24_preserved_partial",
    "C24_exact"
   ],
   "note": "False: the product of two integer variables loses the bit coefficients in its linear part (integer_to_binary.py:154-157, witness x*y over [1,4]). Proved for programs whose integer products have a zero lower bound on the other side or at most three values. C24_exact says for every program by how much the objective and each quadratic constraint are off at each point."
  },
  {
   "property": "C25",
   "status": "proved",
   "theorems": [
    "C25_feasible_set"
   ],
   "note": "Linear and quadratic constraints of all senses, all modes; the direction from the converted program assumes that no binary variable was narrowed (see C67)."
  },
  {
   "property": "C26",
   "status": "partial",
   "theorems": [
    "C26_auto_refuted",
    "C26_auto_partial",
    "C26_exact"
   ],
   "note": "False: automatic mode gives integer slacks to integral constraints over continuous variables and loses feasible points (witness). Soundness proved in every mode, completeness for discrete programs. C26_exact says for all programs and modes which feasible points survive: exactly those at which every inequality with whole coefficients has a whole value (all of them in continuous mode)."
  },
  {
   "property": "C27",
   "status": "partial",
   "theorems": [
    "C27_usable_refuted",
    "C27_usable_partial",
    "C27_exact"
   ],
   "note": "False: the objective keeps the old shape, evaluate and is_feasible raise (witness). Proved when no slack variable was added; C27_exact: the objective can be evaluated exactly in that case, feasibility can be asked iff every constraint has all variables, and the exception is ValueError."
  },
  {
   "property": "C28",
   "status": "proved",
   "theorems": [
    "C28_penalty_objective",
    "C28_rejects_inequalities"
   ],
   "note": "All reachable programs, all points of the right length; rejection of every non-equality constraint."
  },
  {
   "property": "C29",
   "status": "proved",
   "theorems": [
    "C29_auto_penalty_exact"
   ],
   "note": "Exact penalty argument over all points; integral constraint data, no quadratic constraints."
  },
  {
   "property": "C30",
   "status": "partial",
   "theorems": [
    "C30_integer_penalty_refuted",
    "C30_integer_penalty_partial",
    "C30_light_partial"
   ],
   "note": "False: for integer variables the automatic penalty uses coefficients only, not ranges (witness x*z over [0,10]). Proved for every penalty larger than the range of the objective. The automatic penalty is enough when the variables in the objective take values at most 1 apart (0 to 1 if they occur in products), whatever the bounds of the others (C30_light_partial)."
  },
  {
   "property": "C31",
   "status": "partial",
   "theorems": [
    "C31_no_constraint_lost_refuted",
    "C31_no_constraint_lost_partial",
    "C31_linear_only"
   ],
   "note": "False: quadratic constraints are dropped (witness). Proved for programs without quadratic constraints; C31_linear_only: for every program the penalty is zero exactly at the points that satisfy the linear constraints."
  },
  {
   "property": "C32",
   "status": "proved",
   "theorems": [
    "C32_qubo_shape",
    "C32_qubo_rejects"
   ],
   "note": "Shape for all programs; rejection of continuous variables, quadratic constraints and fractional coefficients."
  },
  {
   "property": "C33",
   "status": "partial",
   "theorems": [
    "C33_qubo_solves_refuted",
    "C33_qubo_solves_partial",
    "C33_exact"
   ],
   "note": "False because of the product defect of C24 (witness min x^2-4x over 1..4). Proved under the restriction of C24, both directions, automatic or large enough penalty. C33_exact says what holds for all products: optimal assignments stand for feasible points, all feasible points are represented, and the optimal assignments are exactly those worth most, products being worth less by the loss of C24."
  },
  {
   "property": "C34",
   "status": "partial",
   "theorems": [
    "C34_represented_refuted",
    "C34_represented_partial",
    "C34_value"
   ],
   "note": "False because of the product defect of C24 (witness). Proved under the restriction of C24, for every penalty. C34_value gives the value of the QUBO at every assignment, for every program."
  },
  {
   "property": "C35",
   "status": "proved",
   "theorems": [
    "C35_reuse",
    "C35_inequality",
    "C35_integer",
    "C35_penalty"
   ],
   "note": "All histories of convert, interpret and penalty assignments, including failed conversions. C35_inequality, C35_integer and C35_penalty are the same for the three converters used alone, with changes of mode and penalty in between."
  },
  {
   "property": "C36",
   "status": "proved",
   "theorems": [
    "C36_result_consistent",
    "C36_result_exists",
    "C36_converters"
   ],
   "note": "Every converter list (converters as arbitrary interpretation functions), every sample list; existence under matching shapes. Status follows is_feasible, which accepts equalities up to 1e-9 relative and does not look at types (C12-C14)."
  },
  {
   "property": "C37",
   "status": "proved",
   "theorems": [
    "C37_samples_mass",
    "C37_samples_exist"
   ],
   "note": "Mass, distinctness, values and totality."
  },
  {
   "property": "C38",
   "status": "proved",
   "theorems": [
    "C38_samples_sorted"
   ],
   "note": "Sortedness and first sample, both senses."
  },
  {
   "property": "C39",
   "status": "proved",
   "theorems": [
    "C39_state_vector",
    "C39_dictionary",
    "C39_dict_state",
    "C39_rejected"
   ],
   "note": "State vector, dictionary, DictStateFn with real amplitudes, rejected inputs. Note the two forms use different digit orders, as stated."
  },
  {
   "property": "C40",
   "status": "partial",
   "theorems": [
    "C40_ground_state_refuted",
    "C40_best_outcome",
    "C40_default_partial",
    "C40_ground_state_partial",
    "C40_exact"
   ],
   "note": "Best outcome: proved for every converter list (given a result) and, total, for the default converter; IndexError if no outcome reaches 1e-6. Optimality is false for products of integer variables (defect of C24, witness min x^2-4x over 1..4); proved under the restrictions of C33 and C18 (products_safe, coefficients on a grid). For all products (C40_exact): with a ground state among the kept outcomes the result is a feasible point with its own objective and status SUCCESS, best by the objective less what products of integer variables lose."
  },
  {
   "property": "C41",
   "status": "proved",
   "theorems": [
    "C41_correlations",
    "C41_result"
   ],
   "note": "Totality, all entries, bound."
  },
  {
   "property": "C42",
   "status": "partial",
   "theorems": [
    "C42_consistent_refuted",
    "C42_reserved_refuted",
    "C42_consistent_partial",
    "C42_default_partial",
    "C42_rounds",
    "C42_strongest"
   ],
   "note": "Refuted in two corners: with converters=[] integer-typed linear coefficients truncate what is moved into them, and a variable called __CONSTANT__ breaks the substitution. For every converter list whose result is a QUBO with fractional coefficients without the reserved name: consistency of the returned point, equality of the objectives on a grid coarser than 1e-10 (and an error bound otherwise), termination; for the default converter also that it goes through. The inner optimizers are arbitrary functions of the round and the problem."
  },
  {
   "property": "C43",
   "status": "partial",
   "theorems": [
    "C43_grover_refuted",
    "C43_grover_partial",
    "C43_grover_exact",
    "C43_unmodified_refuted",
    "C43_unmodified_partial",
    "C43_exact"
   ],
   "note": "Refuted for converters=[]: the objective of the caller is changed and the reported value belongs to the changed problem. Proved for the recursive optimizer with at least one converter, also for failing calls. The same for the Grover optimizer: C43_grover_refuted (without converters sense, coefficients and constant of the caller's objective are changed) and C43_grover_partial (unchanged with at least one converter, also if the call fails). What changes without converters is said exactly: C43_exact (recursive optimizer, fractional coefficients: only the first round writes, exactly if its strongest correlation is not positive, and the objective becomes that of the point raised by one in that place) and C43_grover_exact (whole coefficients: turned to minimisation and lowered by the threshold reached, also if the call fails)."
  },
  {
   "property": "C44",
   "status": "partial",
   "theorems": [
    "C44_maximise_refuted",
    "C44_large_refuted",
    "C44_reported_partial",
    "C44_minimise_partial",
    "C44_one_trial_partial",
    "C44_maximise_last",
    "C44_maximise_first",
    "C44_answers"
   ],
   "note": "False as stated for maximisation: the value kept and the value compared have opposite signs, so with positive values the last trial is returned (C44_maximise_last). False too when no trial value is below 1e20: nothing is kept and the call raises. Proved: exactly when the call answers and which error it raises otherwise (C44_answers); under maximisation values that are not positive make the first trial win (C44_maximise_first); the reported value is the objective at the reported point, the best of all trials for minimisation, and any sense for a single trial. The local solver and the random draws are arbitrary functions. Not covered by the positive theorems: an unbounded variable whose lower bound lies above the clip value makes the second trial raise."
  },
  {
   "property": "C45",
   "status": "proved",
   "theorems": [
    "C45_cobyla",
    "C45_slsqp",
    "C45_objective",
    "C45_gradient",
    "C45_compatible"
   ],
   "note": "The constraint functions, bounds, objective and gradient handed to the numerical routines describe the feasible set and objective of the program, with bounds of 1e20 and more read as no bound for COBYLA. The scipy routines are arbitrary functions."
  },
  {
   "property": "C46",
   "status": "partial",
   "theorems": [
    "C46_register",
    "C46_register_exact",
    "C46_smallest",
    "C46_best_partial",
    "C46_ends_partial",
    "C46_optimal_partial",
    "C46_exact",
    "C46_ends_refuted"
   ],
   "note": "Proved: the value register is two's complement (C46_register, C46_register_exact); whatever is measured, the answer is the key of an outcome with the smallest value read, or all zeros when that value is not negative and the objective has no constant (C46_smallest). Refuted: the search need not end when values do not fit the register (C46_ends_refuted, min x with one value digit). For honest outcomes, whole coefficients and values that fit the register: values read are the objective at the keys and the answer is at least as good as every measured key (C46_best_partial), the search ends (C46_ends_partial), and the result is optimal if an optimal key is measured (C46_optimal_partial). Circuits, measurements and random numbers are arguments of the model. For all products (C46_exact): if an optimal key is measured, the result is a feasible point with its own objective and status SUCCESS, best by the objective less what products of integer variables lose."
  },
  {
   "property": "C47",
   "status": "proved",
   "theorems": [
    "C47_value",
    "C47_complement",
    "C47_cuts",
    "C47_best",
    "C47_answers"
   ],
   "note": "Proved for every graph, all answers of the semidefinite solver and Cholesky routine of the right size, and all normal random numbers (arguments of the model): values are the objective (C47_value), complements agree (C47_complement), with unique_cuts (the default) no two samples are the same cut up to complement and exactly the drawn cuts are represented (C47_cuts), with sort_cuts the answer is a best drawn cut (C47_best), and a result is returned whenever the solvers answer and a cut is drawn (C47_answers). The quality of the approximation is not claimed."
  },
  {
   "property": "C48",
   "status": "partial",
   "theorems": [
    "C48_epsilon",
    "C48_range",
    "C48_half",
    "C48_relaxed",
    "C48_total",
    "C48_mean_refuted",
    "C48_mean_partial",
    "C48_fractions",
    "C48_exact"
   ],
   "note": "Initial values, relaxed problem and the sum of the probabilities: proved. Means per point: refuted, since points are looked up by the run-together digits of their coordinates ((1,11) and (11,1) collide); proved for points whose coordinates are single digits, so for all binary problems. C48_exact says for all coordinates which samples are merged and what is returned, and that a coordinate of -1 or less gives ValueError. The circuits are the subject of C80."
  },
  {
   "property": "C49",
   "status": "partial",
   "theorems": [
    "C49_slack_refuted",
    "C49_slack_raises",
    "C49_twice_refuted",
    "C49_digits_refuted",
    "C49_feasible_refuted",
    "C49_single",
    "C49_unsolved",
    "C49_partial",
    "C49_equalities"
   ],
   "note": "Refuted four ways: slack variables (the combined result always raises, proved for every binary problem with extra variables), integer variables (samples are interpreted twice), negative numbers (ValueError), constraints (an infeasible sample may come first although every run found a feasible point). Proved for binary problems to which the default converter adds no variables, and for one initial solution, where the result is that of MinimumEigenOptimizer."
  },
  {
   "property": "C50",
   "status": "partial",
   "theorems": [
    "C50_represented",
    "C50_split",
    "C50_recombine",
    "C50_compatible",
    "C50_blocks_refuted",
    "C50_integer_refuted",
    "C50_blocks_partial",
    "C50_residual",
    "C50_turn",
    "C50_best",
    "C50_no_round"
   ],
   "note": "Splitting and recombining, compatibility check, constraint residual, minimization and best merit: proved, for arbitrary solvers, norm and clock. Block objectives: refuted in two ways (step 1 leaves out variables that are only second factors; products of integer and continuous variables pass the compatibility check and become products of binary and continuous ones); proved when there are no such products and step 1 has every binary variable of the objective (C50_blocks_partial)."
  },
  {
   "property": "C51",
   "status": "partial",
   "theorems": [
    "C51_stale",
    "C51_dual_partial",
    "C51_dual_refuted",
    "C51_warm_refuted",
    "C51_shrink_refuted",
    "C51_doubled",
    "C51_rho_partial",
    "C51_ten_percent"
   ],
   "note": "Refuted: y is appended to the list of z, so that round k>=2 compares z with an older z or with y (C51_dual_refuted; C51_stale says exactly which, for all runs), a warm start leaves z_init at zero (C51_warm_refuted), and rho is multiplied by tau_decr, whose default is 2 (C51_shrink_refuted). Proved: rounds 0 (cold start) and 1 are right, rho reacts as stated for tau_incr > 1 > tau_decr, grows by ten percent in the default mode."
  },
  {
   "property": "C52",
   "status": "partial",
   "theorems": [
    "C52_exactly",
    "C52_partial",
    "C52_product_refuted",
    "C52_negative_refuted",
    "C52_mixed_refuted",
    "C52_missed",
    "C52_lost_refuted"
   ],
   "note": "Refuted in three ways: second factors of products, negative coefficients of equalities, equalities with a continuous variable. Proved: exactly which variables are in step 1 (C52_exactly), all relevant ones under the three exclusions (C52_partial), a binary variable left out is 0 in every iterate (C52_missed), hence no run solves -a*b whatever the solvers and parameters (C52_lost_refuted)."
  },
  {
   "property": "C53",
   "status": "partial",
   "theorems": [
    "C53_dropped_refuted",
    "C53_infeasible_refuted",
    "C53_kind_refuted",
    "C53_round_trip_partial",
    "C53_exact"
   ],
   "note": "False as stated: a constraint 0 <= 1 is dropped, 0 >= 1 makes the export raise, and a quadratic constraint without quadratic terms comes back as a linear one (witnesses given). The round trip is proved for all programs without such constraints and without empty variable names, including that neither call raises. C53_exact says what happens to every other program without empty variable names: when the export raises, when the import raises, and that name, objective and solutions come back otherwise, but for bounds of binary variables."
  },
  {
   "property": "C54",
   "status": "partial",
   "theorems": [
    "C54_bounds_refuted",
    "C54_names_refuted",
    "C54_import_partial",
    "C54_solutions_partial",
    "C54_accepted_partial",
    "C54_exact",
    "C54_usable"
   ],
   "note": "False as stated: bounds of binary variables are ignored, and generated names can collide with given ones (witnesses given). For models whose binary variables have the bounds 0 and 1 the imported program is proved to have the same variables, objective, constraints and solutions; models with names given to all or none are proved to be accepted. Every imported program is well formed and has expressions over all its variables (C54_usable). C54_exact: for every well-formed model that is imported, the program is the model with the bounds of binary variables taken back to 0 and 1 (variables and feasible points), and a model with another type of variable or another kind of constraint is never imported."
  },
  {
   "property": "C55",
   "status": "proved",
   "theorems": [
    "C55_maxcut",
    "C55_interpret",
    "C55_gset"
   ],
   "note": "Nodes 0..n-1, missing weights count 1, loops allowed."
  },
  {
   "property": "C56",
   "status": "proved",
   "theorems": [
    "C56_cover",
    "C56_interpret"
   ],
   "note": "Program, feasibility, objective and interpret, for every graph (loops allowed)."
  },
  {
   "property": "C57",
   "status": "proved",
   "theorems": [
    "C57_stable",
    "C57_interpret"
   ],
   "note": "Program, feasibility, objective and interpret, for every graph (loops allowed)."
  },
  {
   "property": "C58",
   "status": "proved",
   "theorems": [
    "C58_clique",
    "C58_interpret"
   ],
   "note": "With and without a size; no assumption on the graph."
  },
  {
   "property": "C59",
   "status": "proved",
   "theorems": [
    "C59_packing",
    "C59_exact_cover",
    "C59_rows"
   ],
   "note": "Feasibility in terms of the chosen subsets, for arbitrary lists of subsets (duplicates and empty sets allowed)."
  },
  {
   "property": "C60",
   "status": "proved",
   "theorems": [
    "C60_knapsack",
    "C60_interpret"
   ],
   "note": "For lists of weights at least as long as the values (a shorter list raises)."
  },
  {
   "property": "C61",
   "status": "proved",
   "theorems": [
    "C61_partition",
    "C61_interpret"
   ],
   "note": "Feasibility, rearrangement, and the lists returned."
  },
  {
   "property": "C62",
   "status": "proved",
   "theorems": [
    "C62_graph_partition",
    "C62_interpret"
   ],
   "note": "Program, feasibility, objective and interpret."
  },
  {
   "property": "C63",
   "status": "proved",
   "theorems": [
    "C63_tsp",
    "C63_missing"
   ],
   "note": "Complete graphs with symmetric weights, at least one node; the feasible points are exactly the permutation matrices. Without an edge between two nodes the program raises KeyError (C63_missing)."
  },
  {
   "property": "C64",
   "status": "proved",
   "theorems": [
    "C64_vehicle_routing",
    "C64_missing",
    "C64_any",
    "C64_short"
   ],
   "note": "Complete graphs with symmetric weights, any number of vehicles; also that exactly the systems of routes are feasible. Also what interpret makes of points that are not feasible (C64_any, C64_short) and that a missing edge raises KeyError."
  },
  {
   "property": "C65",
   "status": "partial",
   "theorems": [
    "C65_gset_refuted",
    "C65_tsplib_refuted",
    "C65_type_rejected",
    "C65_eof_rejected",
    "C65_gset_partial",
    "C65_tsplib_partial",
    "C65_short_rejected",
    "C65_colon_missing",
    "C65_gset_errors",
    "C65_graph_partial"
   ],
   "note": "False: parse_gset_format stores the second node in place of the weight; parse_tsplib_format discards the result of strip(), so every TYPE or EDGE_WEIGHT_TYPE line ended by a newline is rejected, and the line EOF is read as a number. Proved: shape, symmetry and pattern of the Gset matrix; coordinates of files without these lines, and the complete graph of rounded distances made of coordinates (C65_graph_partial). Strings are turned into numbers by arbitrary functions; np.hypot is any function that grows with the size of its arguments."
  },
  {
   "property": "C66",
   "status": "proved",
   "theorems": [
    "C66_vector",
    "C66_counts"
   ],
   "note": "Arrays and dictionaries; the sampling of a StateFn is not modelled. For arrays whose length is not a power of 2 the theorem says which digits are kept."
  },
  {
   "property": "C67",
   "status": "partial",
   "theorems": [
    "C67_binary_bounds_refuted",
    "C67_binary_bounds_partial",
    "C67_forgotten"
   ],
   "note": "False: the converters re-create binary variables with bounds 0 and 1 (witness). Proved for binary variables with bounds 0 and 1. C67_forgotten says for every program that these bounds and nothing else are forgotten."
  },
  {
   "property": "C68",
   "status": "partial",
   "theorems": [
    "C68_frequency_refuted",
    "C68_counts_partial",
    "C68_vector_partial",
    "C68_samples",
    "C68_order_partial",
    "C68_order_refuted"
   ],
   "note": "Refuted for counted outcomes: the roots of the frequencies are normalised once more (C68_frequency_refuted); C68_counts_partial says what is stored. Refuted for maximisation: the raw samples are ordered worst first (C68_order_refuted). Holds for state vectors (C68_vector_partial), for the order when minimising (C68_order_partial) and for the samples of the result with at least one converter (C68_samples)."
  },
  {
   "property": "C69",
   "status": "partial",
   "theorems": [
    "C69_value_refuted",
    "C69_sense_refuted",
    "C69_status_refuted",
    "C69_failure_refuted",
    "C69_failure_raises",
    "C69_failure_empty",
    "C69_partial"
   ],
   "note": "False as stated: linear terms (C69_value_refuted), the sense (C69_sense_refuted) and constraints (C69_status_refuted) are ignored, and when the semidefinite solver fails the FAILURE result cannot be built because its empty point does not fit the variables (C69_failure_refuted, for all problems with variables C69_failure_raises). Proved for problems whose objective is a weighted cut and in which every assignment is feasible (C69_partial)."
  },
  {
   "property": "C70",
   "status": "partial",
   "theorems": [
    "C70_slack_name_refuted",
    "C70_shared_name_refuted",
    "C70_bit_name_refuted",
    "C70_fixed_refuted",
    "C70_inequalities_partial",
    "C70_integers_partial",
    "C70_penalty",
    "C70_qubo_partial",
    "C70_plain_names_partial"
   ],
   "note": "Refuted in four ways: a variable called like a slack variable, a linear and a quadratic inequality of the same name, a variable called like a bit of an integer variable (all QiskitOptimizationError for a name used twice), an integer variable with one value (OverflowError). Proved for all other programs (C70_inequalities_partial, C70_integers_partial, C70_qubo_partial), in particular whenever no name contains @ and integer ranges are proper (C70_plain_names_partial); the penalty converter is proved in full (C70_penalty)."
  },
  {
   "property": "C71",
   "status": "partial",
   "theorems": [
    "C71_first_refuted",
    "C71_clip_refuted",
    "C71_origin_partial",
    "C71_later_partial",
    "C71_nowhere_partial",
    "C71_anywhere_partial",
    "C71_bounded_partial"
   ],
   "note": "Refuted: the first trial always starts at the origin, inside the bounds or not (C71_first_refuted), and a variable whose only bound lies beyond the clip value makes later trials raise ValueError (C71_clip_refuted). Proved for the later trials whenever there is a place to start (C71_later_partial, C71_anywhere_partial); C71_nowhere_partial says exactly when they raise."
  },
  {
   "property": "C72",
   "status": "proved",
   "theorems": [
    "C72_cobyla",
    "C72_slsqp",
    "C72_cobyla_reported",
    "C72_slsqp_reported",
    "C72_refused"
   ],
   "note": "Proved for every routine. The objective at some feasible point must be below 1e20 (otherwise see C44), and the starting points must exist (C71)."
  },
  {
   "property": "C73",
   "status": "proved",
   "theorems": [
    "C73_reason",
    "C73_at_once",
    "C73_rotations",
    "C73_exhausted"
   ],
   "note": "Proved for measurements of the size of the registers. The loop is modelled with fuel; the theorems are about runs that end. C73_exhausted needs the hypotheses of C33 and circuits that compute the objective within the register."
  },
  {
   "property": "C74",
   "status": "proved",
   "theorems": [
    "C74_relaxation",
    "C74_entries",
    "C74_rank_one",
    "C74_bound",
    "C74_tight",
    "C74_definite",
    "C74_kept"
   ],
   "note": "Proved. The semidefinite solver and the smallest eigenvalue are parameters: C74_bound assumes an optimal solution, C74_definite a lower bound of the eigenvalues."
  },
  {
   "property": "C75",
   "status": "partial",
   "theorems": [
    "C75_step1",
    "C75_step2_points",
    "C75_step2_products_partial",
    "C75_products_refuted",
    "C75_integers_refuted",
    "C75_step3",
    "C75_multipliers",
    "C75_round_partial",
    "C75_descent_partial"
   ],
   "note": "Steps 1 and 3, the points of step 2 and the multipliers: proved. Refuted for step 2 in two ways: products of two binary variables stay in its objective with z in their place (C75_products_refuted; C75_step2_products_partial says exactly what is added), and with an objective of integer coefficients rho/2 and the multipliers are truncated (C75_integers_refuted). Outside these two cases each step minimises over its block (C75_round_partial) and a round does not increase the Lagrangian (C75_descent_partial)."
  },
  {
   "property": "C76",
   "status": "proved",
   "theorems": [
    "C76_maxcut",
    "C76_graph_partition",
    "C76_vertex_cover",
    "C76_stable_set",
    "C76_clique",
    "C76_clique_of_size",
    "C76_set_packing",
    "C76_exact_cover",
    "C76_tsp",
    "C76_vehicle_routing"
   ],
   "note": "End to end: model, import, conversion to QUBO with the automatic penalty, decoding, interpret. ExactCover, VehicleRouting and Clique with a size: for instances that have a solution. The weights may be any rationals, the graphs any size."
  },
  {
   "property": "C77",
   "status": "partial",
   "theorems": [
    "C77_knapsack_refuted",
    "C77_partition_refuted",
    "C77_knapsack_partial",
    "C77_partition_partial"
   ],
   "note": "Refuted for weights, or doubles of numbers, that are not integral: the converter refuses the program (C77_knapsack_refuted, C77_partition_refuted). Proved for all others (C77_knapsack_partial, C77_partition_partial), any rational values and limit."
  },
  {
   "property": "C78",
   "status": "partial",
   "theorems": [
    "C78_types_refuted",
    "C78_types_partial",
    "C78_ranges"
   ],
   "note": "Refuted: if no binary variable is in the objective or has a positive coefficient in an equality of binary variables, step 1 is left out (admm_optimizer.py:736-748) and the fractional values of a warm start (889-907) are reported with status SUCCESS, even if both optimizers are exact. C78_types_partial proves it without a warm start, and with one if step 1 has a variable. The bounds of continuous variables (C78_ranges) are proved in general."
  },
  {
   "property": "C79",
   "status": "partial",
   "theorems": [
    "C79_export",
    "C79_answer",
    "C79_optimal_refuted",
    "C79_optimal_partial",
    "C79_infeasible_refuted",
    "C79_failures_partial"
   ],
   "note": "C79_export and C79_answer are proved in general: the exported model has the objective and sense of the program and exactly the points that satisfy everything but the bounds of binary variables. Optimality is refuted because to_docplex drops bounds of binary variables (quadratic_program.py:1046-1047); C79_optimal_partial proves it for bounds 0 and 1. The last part is refuted: a false constraint without coefficients raises DOcplexException in the export, and a search without success raises CplexSolverError in get_values, outside the try block (cplex_optimizer.py:130-142); C79_failures_partial lists all failures."
  },
  {
   "property": "C80",
   "status": "proved",
   "theorems": [
    "C80_initial",
    "C80_mixer",
    "C80_standard",
    "C80_stuck"
   ],
   "note": "Proved over the real numbers of the standard library (their axioms are listed in DESIGN.md) from the documented matrices of the gates. C80_stuck is the reason for a positive epsilon: with 0 the search cannot leave a solution made of bits."
  },
  {
   "property": "C81",
   "status": "partial",
   "theorems": [
    "C81_oracle",
    "C81_good_state_refuted",
    "C81_modulo",
    "C81_value_partial",
    "C81_amplification_partial",
    "C81_range_refuted",
    "C81_search_partial",
    "C81_optimal_partial"
   ],
   "note": "Proved over the real numbers of the standard library. Partial: the values have to be whole numbers that fit the register; C81_range_refuted shows a value of 1 read and marked as -1. C81_good_state_refuted: is_good_state is a nested function with a self parameter, so that a call with the measurement alone raises. C81_search_partial and C81_optimal_partial are C46 with the circuits in place of the assumption of honest measurements."
  },
  {
   "property": "C82",
   "status": "proved",
   "theorems": [
    "C82_stop",
    "C82_default",
    "C82_growth",
    "C82_warm",
    "C82_cold"
   ],
   "note": "The norm and the clock are arbitrary functions. The states of the rounds are those of the model of C50 and C51."
  },
  {
   "property": "C83",
   "status": "partial",
   "theorems": [
    "C83_nodes",
    "C83_maxcut_refuted",
    "C83_comment_refuted",
    "C83_maxcut_partial",
    "C83_stable_refuted",
    "C83_stable_partial",
    "C83_short",
    "C83_tour",
    "C83_routes"
   ],
   "note": "Partial: max-cut hands over the colours in the order of the variables, so that C83_maxcut_refuted paints the wrong node in a graph whose nodes came in another order, and its comment has the colours the wrong way round (C83_comment_refuted); stable set paints only values equal to 1 (C83_stable_refuted). The restricted forms hold for nodes in order and for 0/1 points. Only the lists handed to networkx are modelled."
  },
  {
   "property": "C84",
   "status": "partial",
   "theorems": [
    "C84_tsp",
    "C84_vrp",
    "C84_range",
    "C84_seed_refuted",
    "C84_seed_partial"
   ],
   "note": "Partial: Tsp.create_random_instance ignores the seed 0 (C84_seed_refuted: `if seed:`); it holds for other seeds and for VehicleRouting. np.hypot is any function that grows with the size of its arguments and is 0 at the origin; the generators are arbitrary."
  },
  {
   "property": "C85",
   "status": "partial",
   "theorems": [
    "C85_dict",
    "C85_keys",
    "C85_clash",
    "C85_few",
    "C85_format",
    "C85_empty_refuted",
    "C85_counts",
    "C85_public",
    "C85_default"
   ],
   "note": "Partial: an empty sequence of keys returns an empty dict instead of raising (C85_empty_refuted), although the documentation promises QiskitOptimizationError for fewer than one variable. Everything else holds as stated."
  },
  {
   "property": "C86",
   "status": "partial",
   "theorems": [
    "C86_name",
    "C86_none",
    "C86_read",
    "C86_round_trip_refuted",
    "C86_round_trip_partial"
   ],
   "note": "Partial: white space at the ends of a name is lost by strip (C86_round_trip_refuted). Other names survive (C86_round_trip_partial, under the conditions of C53). The printer and reader of docplex are arguments; text is ASCII; missing files and a missing CPLEX are not modelled."
  },
  {
   "property": "C87",
   "status": "proved",
   "theorems": [
    "C87_grid",
    "C87_whole",
    "C87_min_eigen"
   ],
   "note": "The grid of C18 and C40 and the whole objective of C46 are now read off the program. Right-hand sides of inequalities may be any numbers. C87_equation_case shows why those of equations may not."
  },
  {
   "property": "C88",
   "status": "proved",
   "theorems": [
    "C88_maxcut",
    "C88_graph_partition",
    "C88_vertex_cover",
    "C88_stable_set",
    "C88_clique",
    "C88_clique_of_size",
    "C88_set_packing",
    "C88_exact_cover",
    "C88_knapsack",
    "C88_number_partition",
    "C88_tsp",
    "C88_vehicle_routing"
   ],
   "note": "End to end: model, import, QUBO, Hamiltonian or search, decoding, interpret. Weights finer than 4e-8 are left out because to_ising drops small coefficients (C18). What the eigensolver and the quantum circuits return is an argument. Knapsack: whole weights; NumberPartition: numbers with whole doubles (C77)."
  },
  {
   "property": "C89",
   "status": "partial",
   "theorems": [
    "C89_qubo_refuted",
    "C89_inequality_refuted",
    "C89_integer_refuted",
    "C89_refused_partial",
    "C89_attempted_partial"
   ],
   "note": "Refuted: the converters set _src and a new _dst before they start (C89_qubo_refuted, C89_inequality_refuted, C89_integer_refuted: after a conversion that raised, a point of three values is given back with two values or one). What holds: a problem refused by the compatibility check leaves the converter as it was; otherwise it answers for the problem that could not be converted; the next successful conversion repairs it (C35)."
  },
  {
   "property": "C90",
   "status": "proved",
   "theorems": [
    "C90_qubo_message",
    "C90_qubo_refused",
    "C90_qubo_accepted",
    "C90_continuous",
    "C90_goemans",
    "C90_admm"
   ],
   "note": "Proved for the QUBO based optimizers, COBYLA, SLSQP, Goemans-Williamson and ADMM. Solvers, converters and circuits are arguments, so that 'before any solver is called' means: whatever they are."
  },
  {
   "property": "C91",
   "status": "partial",
   "theorems": [
    "C91_recursive_refuted",
    "C91_penalty_refuted",
    "C91_accepted_partial",
    "C91_penalty_partial"
   ],
   "note": "Refuted twice: RecursiveMinimumEigenOptimizer raises ValueError for min_num_vars < 1, where QiskitOptimizationError is documented (validate_min of qiskit is modelled by its documented behaviour); a penalty given together with converters is ignored. What holds: exactly the valid settings are accepted, and without converters the penalty is used."
  },
  {
   "property": "C92",
   "status": "proved",
   "theorems": [
    "C92_assigned",
    "C92_clear"
   ],
   "note": "The element meant by a key is the one get_variable, get_linear_constraint and get_quadratic_constraint return before and after. For added variables and constraints see also C03, C04, C85, for removed ones C06, for raising calls C05."
  },
  {
   "property": "C93",
   "status": "partial",
   "theorems": [
    "C93_gradient_refuted",
    "C93_when_partial",
    "C93_whole_partial"
   ],
   "note": "Refuted: linear part set with one variable, quadratic part with three; numpy adds the one coefficient to all entries. What holds: the exact conditions for a gradient and for a value, which agree for objectives given in one call."
  },
  {
   "property": "C94",
   "status": "partial",
   "theorems": [
    "C94_replaced",
    "C94_file",
    "C94_failed_refuted",
    "C94_left_partial",
    "C94_ising_refuted",
    "C94_ising_failed_refuted",
    "C94_ising_partial",
    "C94_ising_left_partial"
   ],
   "note": "C94_replaced and C94_file: from_docplex and read_from_lp_file give the same for every program, and a file that cannot be read changes nothing. Refuted: a model that cannot be imported has already replaced the old content by a part of its own (C94_failed_refuted; C94_left_partial says which part); from_ising clears nothing, appends its variables and sets an objective on the first variables, the old ones (C94_ising_refuted; C94_ising_partial says exactly what it does), and leaves new variables behind when it raises (C94_ising_failed_refuted, C94_ising_left_partial)."
  },
  {
   "property": "C95",
   "status": "partial",
   "theorems": [
    "C95_log",
    "C95_log_refuted",
    "C95_answers_partial",
    "C95_feasible_partial",
    "C95_errors_partial"
   ],
   "note": "Refuted: the problem is exported as LP text for a debug message, printed or not, and a constraint without coefficients that does not hold makes docplex raise there (C95_log_refuted; C95_log says so for every such problem). Otherwise there is a result exactly if a round is made (C95_answers_partial, for a problem and its integer-free form without such constraints, expressions of full size, and binary variables whose lower bounds are at most 1), and so for every problem with a feasible point (C95_feasible_partial, under the conditions of the integer conversion). Without a round the result is ValueError. Whatever the optimizers do, an error after the start of the rounds is one they raised, or the error for a point of a wrong size (C95_errors_partial)."
  },
  {
   "property": "C96",
   "status": "partial",
   "theorems": [
    "C96_power",
    "C96_rounded_refuted",
    "C96_accurate_partial"
   ],
   "note": "Refuted: the nearest double to the logarithm of 2^k - 2, for k from 50 to 53, is k, the last coefficient is -1, and bits stand for values below and above the bounds (C96_rounded_refuted, for every logarithm that gives the nearest double). C96_power says exactly which powers will do. With a logarithm that is exact at powers of two and whose error is small for the range (one unit in the last place for ranges below 2^46) the result is that of the exact logarithm, so C22 holds (C96_accurate_partial). Sums and differences are exact here too."
  },
  {
   "property": "C97",
   "status": "partial",
   "theorems": [
    "C97_double",
    "C97_tolerance_refuted",
    "C97_whole_partial",
    "C97_error",
    "C97_margin_partial"
   ],
   "note": "Refuted for inequalities, which are compared without a tolerance, and for equalities with right-hand side 0, where the relative tolerance is nothing: 0.1 x + 0.2 y <= 0.3 at (1, 1) and 0.1 x - 0.3 y == 0 at (3, 1) hold but are reported as violated, and x + 10^-17 y <= 1 at (1, 1) does not hold but is accepted (C97_tolerance_refuted, with the rounding of doubles and in every order of the sum). For whole numbers below 2^53 (5 * 10^8 for equalities) values and reports are exact (C97_whole_partial); the errors of values are bounded for all programs (C97_error), and the reports are right up to a margin (C97_margin_partial). C97_double shows that the rounding to the nearest double is a rounding in this sense. Overflow, underflow and fused operations are not modelled."
  },
  {
   "property": "C98",
   "status": "partial",
   "theorems": [
    "C98_labels_refuted",
    "C98_made",
    "C98_clique",
    "C98_nodes_partial",
    "C98_matrix"
   ],
   "note": "Refuted for nodes without edges: a graph with one node \"a\" gives programs whose answers name a node 0, and so do a clique of nodes 5 and 6 and a tour of one node (C98_labels_refuted). Programs are made exactly if the ends of the edges (for cliques: of the missing edges) are numbers below the number of nodes, with KeyError otherwise (C98_made, C98_clique). If every node has an edge (a missing one for cliques; two nodes suffice for tours and routes), the labels are 0, ..., n-1 (C98_nodes_partial). C98_matrix gives the value of cuts for matrices, also those that are not symmetric. Labels are integers or strings; how networkx reads a matrix is modelled from its documentation."
  },
  {
   "property": "C99",
   "status": "proved",
   "theorems": [
    "C99_answer",
    "C99_all",
    "C99_default",
    "C99_less"
   ],
   "note": "C99_all speaks of converted problems that are plain QUBOs; C99_default says it for the default converter, if no variable has the reserved name. Results are values: that a kept result is not changed later is a simplification of the model."
  },
  {
   "property": "C100",
   "status": "partial",
   "theorems": [
    "C100_print_refuted",
    "C100_alike_refuted",
    "C100_when_partial",
    "C100_alike_partial"
   ],
   "note": "False as stated: a program with the constraint 0 >= 1 raises DOcplexException even in repr (C100_print_refuted), and a binary variable fixed to 1 is printed like a free one (C100_alike_refuted). Printing fails exactly if a constraint without terms is false (C100_when_partial). Programs printed alike by printers that tell models apart agree but for the bounds of binary variables (C100_alike_partial). The texts docplex makes of models are arguments."
  }
 ]
}