{"id": "C01", "title": "Name lookup finds the element that carries the name", "statement": "Whatever calls were made on a QuadraticProgram (adding variables, adding or removing constraints, setting the objective, clearing, changing bounds; some of them raising), the names of its variables are pairwise distinct, and get_variable(v.name) returns v at its own position for every variable v it holds; the same holds for get_linear_constraint and get_quadratic_constraint.", "quantifier": "for every finite sequence of API calls, successful or raising, with any arguments, and every element held afterwards", "why_tests_cant": "The bookkeeping is a history property: index dictionaries are updated before objects are built, rebuilt on removal, and extended by counters; a test exercises a few short histories.", "anchors": ["qiskit_optimization/problems/quadratic_program.py:QuadraticProgram._add_variables", "qiskit_optimization/problems/quadratic_program.py:QuadraticProgram.linear_constraint", "qiskit_optimization/problems/quadratic_program.py:QuadraticProgram.quadratic_constraint", "qiskit_optimization/problems/quadratic_program.py:QuadraticProgram.remove_linear_constraint", "qiskit_optimization/problems/quadratic_program.py:QuadraticProgram.remove_quadratic_constraint", "qiskit_optimization/problems/quadratic_program.py:QuadraticProgram.get_variable", "qiskit_optimization/problems/quadratic_program.py:QuadraticProgram.clear"]}
{"id": "C02", "title": "No ghost names", "statement": "A name that no variable (constraint) carries is not found: get_variable(name) raises KeyError and the name is free for a new variable. In particular a call that raised leaves no trace of the name it was given.", "quantifier": "for every finite sequence of API calls, including calls that raise, and every name", "why_tests_cant": "Only histories that contain a failing call expose it; unit tests stop at the assertion that the call raises.", "anchors": ["qiskit_optimization/problems/quadratic_program.py:QuadraticProgram._add_variables", "qiskit_optimization/problems/quadratic_program.py:QuadraticProgram.linear_constraint", "qiskit_optimization/problems/quadratic_program.py:QuadraticProgram.quadratic_constraint", "qiskit_optimization/problems/variable.py:Variable.__init__"]}
{"id": "C03", "title": "Automatic names are fresh and always found", "statement": "Adding an unnamed or numbered variable (key format with one placeholder) or an unnamed constraint terminates, never raises a name clash, and uses the smallest counter value, starting from the current number of variables (constraints of that kind), whose name is not taken yet.", "quantifier": "for every program state, every base name and every key format with exactly one placeholder, and every number of names already taken", "why_tests_cant": "The loop is unbounded; termination and freshness depend on the set of all taken names and on injectivity of decimal printing.", "anchors": ["qiskit_optimization/problems/quadratic_program.py:QuadraticProgram._add_variables", "qiskit_optimization/problems/quadratic_program.py:QuadraticProgram.linear_constraint", "qiskit_optimization/problems/quadratic_program.py:QuadraticProgram.quadratic_constraint"]}
{"id": "C04", "title": "Variable bounds never cross", "statement": "For every variable of every program, lowerbound <= upperbound, after any sequence of constructor calls and bound assignments, whether or not some of them raised.", "quantifier": "for every finite sequence of API calls and every rational bound", "why_tests_cant": "An invariant over all histories, including the order in which the two bounds are assigned.", "anchors": ["qiskit_optimization/problems/variable.py:Variable.__init__", "qiskit_optimization/problems/variable.py:Variable.lowerbound", "qiskit_optimization/problems/variable.py:Variable.upperbound"]}
{"id": "C05", "title": "A raising call changes nothing", "statement": "If a call that adds variables or a constraint, removes a constraint, or sets the objective raises, then the variables, the constraints and the objective are the same as before the call.", "quantifier": "for every program state and every call with arguments that make it raise", "why_tests_cant": "Exception safety quantifies over all states and over every point at which the call can fail.", "anchors": ["qiskit_optimization/problems/quadratic_program.py:QuadraticProgram._add_variables", "qiskit_optimization/problems/quadratic_program.py:QuadraticProgram.linear_constraint", "qiskit_optimization/problems/quadratic_program.py:QuadraticProgram.minimize", "qiskit_optimization/problems/quadratic_program.py:QuadraticProgram.remove_linear_constraint"]}
{"id": "C06", "title": "Removing a constraint removes exactly that constraint", "statement": "remove_linear_constraint(k) (k a name or an index) deletes the constraint that get_linear_constraint(k) would have returned, keeps all others in order, leaves variables, objective and the other kind of constraint untouched, and afterwards the removed name is free while every other name still finds its constraint. Same for quadratic constraints.", "quantifier": "for every reachable program, every key, every number of constraints", "why_tests_cant": "Reindexing is correct only if it is correct for every position in lists of every length.", "anchors": ["qiskit_optimization/problems/quadratic_program.py:QuadraticProgram.remove_linear_constraint", "qiskit_optimization/problems/quadratic_program.py:QuadraticProgram.remove_quadratic_constraint"]}
{"id": "C07", "title": "Linear expressions mean what was given", "statement": "A linear expression given as a list, as a dictionary by index or by name, or as a mixture, evaluates at any point x (again a list or a dictionary by name or index) to the sum of the products of coefficients and values, where a missing entry counts as 0; to_dict, to_array and indexing all show those coefficients.", "quantifier": "for all numbers of variables, all coefficient inputs and all evaluation points", "why_tests_cant": "Equality of functions over all coefficients, sizes and input formats.", "anchors": ["qiskit_optimization/problems/linear_expression.py:LinearExpression._coeffs_to_dok_matrix", "qiskit_optimization/problems/linear_expression.py:LinearExpression.evaluate", "qiskit_optimization/problems/linear_expression.py:LinearExpression.to_dict", "qiskit_optimization/problems/linear_expression.py:LinearExpression.to_array", "qiskit_optimization/problems/linear_expression.py:LinearExpression.__getitem__"]}
{"id": "C08", "title": "Quadratic expressions keep their value in every stored form", "statement": "For every square coefficient matrix (or dictionary) M, the stored expression is upper triangular without zero entries, and evaluates at every x to the sum of M[i,j]*x[i]*x[j]; the symmetric view has equal mirrored entries and the same value; building an expression from either view gives back the same expression.", "quantifier": "for all sizes, all coefficient inputs, all points", "why_tests_cant": "Equality of quadratic forms for all sizes and coefficients including cancellation of mirrored entries.", "anchors": ["qiskit_optimization/problems/quadratic_expression.py:QuadraticExpression._coeffs_to_dok_matrix", "qiskit_optimization/problems/quadratic_expression.py:QuadraticExpression._triangle_matrix", "qiskit_optimization/problems/quadratic_expression.py:QuadraticExpression._symmetric_matrix", "qiskit_optimization/problems/quadratic_expression.py:QuadraticExpression.evaluate", "qiskit_optimization/problems/quadratic_expression.py:QuadraticExpression.to_dict", "qiskit_optimization/problems/quadratic_expression.py:QuadraticExpression.to_array"]}
{"id": "C09", "title": "Reading and writing a single coefficient agree", "statement": "After expr[k] = v, expr[k] reads v and every other coefficient is unchanged; for quadratic expressions expr[i, j] and expr[j, i] are the same coefficient, for every legal way of writing an index (name, non-negative index, negative index).", "quantifier": "for every expression, every key legal for the program, every value", "why_tests_cant": "All combinations of index forms (including Python's negative indices) at all sizes.", "anchors": ["qiskit_optimization/problems/linear_expression.py:LinearExpression.__setitem__", "qiskit_optimization/problems/linear_expression.py:LinearExpression.__getitem__", "qiskit_optimization/problems/quadratic_expression.py:QuadraticExpression.__setitem__", "qiskit_optimization/problems/quadratic_expression.py:QuadraticExpression.__getitem__"]}
{"id": "C10", "title": "Gradients are exact", "statement": "For every objective, constraint expression and all points x, h: f(x+h) = f(x) + gradient(x).h + (quadratic form of h), where f is evaluate; for linear expressions the remainder is zero.", "quantifier": "for all expressions of all sizes and all x, h", "why_tests_cant": "An identity of polynomials in all coefficients and coordinates; tests compare a few numbers.", "anchors": ["qiskit_optimization/problems/linear_expression.py:LinearExpression.evaluate_gradient", "qiskit_optimization/problems/quadratic_expression.py:QuadraticExpression.evaluate_gradient", "qiskit_optimization/problems/quadratic_objective.py:QuadraticObjective.evaluate_gradient"]}
{"id": "C11", "title": "A program can be evaluated at every point of its own size", "statement": "objective.evaluate(x), and the evaluation of every constraint, return a value for every x with one entry per variable of the program.", "quantifier": "for every program reachable by API calls and every x of matching length", "why_tests_cant": "Depends on the order of calls (whether variables were added after an expression was made), i.e. on all histories.", "anchors": ["qiskit_optimization/problems/quadratic_objective.py:QuadraticObjective.evaluate", "qiskit_optimization/problems/linear_expression.py:LinearExpression.evaluate", "qiskit_optimization/problems/quadratic_expression.py:QuadraticExpression.evaluate", "qiskit_optimization/problems/quadratic_program.py:QuadraticProgram.is_feasible"]}
{"id": "C12", "title": "Constraint senses are read from every documented spelling", "statement": "ConstraintSense.convert accepts exactly E, EQ, =, ==, L, LE, <, <=, G, GE, >, >= in any letter case and maps them to EQ, LE, GE; it raises on every other string; applied to its own result it changes nothing.", "quantifier": "for every string", "why_tests_cant": "All strings, not a table of examples.", "anchors": ["qiskit_optimization/problems/constraint.py:ConstraintSense.convert"]}
{"id": "C13", "title": "The feasibility report is exact", "statement": "get_feasibility_info(x) lists exactly the variables whose value lies outside their bounds and exactly the constraints violated at x (LE: lhs > rhs, GE: lhs < rhs, EQ: lhs and rhs differ by more than a relative 1e-9), in declaration order, and is_feasible(x) is true iff both lists are empty; a vector of the wrong length raises.", "quantifier": "for every program whose expressions match its size, and every x", "why_tests_cant": "Soundness and completeness over all programs and points.", "anchors": ["qiskit_optimization/problems/quadratic_program.py:QuadraticProgram.get_feasibility_info", "qiskit_optimization/problems/quadratic_program.py:QuadraticProgram.is_feasible"]}
{"id": "C14", "title": "Feasible points respect variable types", "statement": "If is_feasible(x) then binary variables have value 0 or 1 and integer variables have integer values in x.", "quantifier": "for every program and every x", "why_tests_cant": "Quantifies over all rational points, between the integral points that tests use.", "anchors": ["qiskit_optimization/problems/quadratic_program.py:QuadraticProgram.get_feasibility_info", "qiskit_optimization/problems/variable.py:VarType"]}
{"id": "C15", "title": "Substitution preserves the objective", "statement": "If substitute_variables(constants, variables) returns a program, then its objective at any point y of the remaining variables equals the objective of the original program at the point obtained by putting the constants and the scaled values of y in place of the substituted variables, and the sense is the same.", "quantifier": "for every well-formed program, every set of constants and replacements, every y", "why_tests_cant": "A polynomial identity for all programs, substitutions and points.", "anchors": ["qiskit_optimization/problems/quadratic_program.py:QuadraticProgram.substitute_variables", "qiskit_optimization/problems/quadratic_program.py:SubstituteVariables.substitute_variables", "qiskit_optimization/problems/quadratic_program.py:SubstituteVariables._linear_expression", "qiskit_optimization/problems/quadratic_program.py:SubstituteVariables._quadratic_expression", "qiskit_optimization/problems/quadratic_program.py:SubstituteVariables._objective"]}
{"id": "C16", "title": "Substitution preserves the feasible set", "statement": "If the returned program has status VALID, a point y satisfies its bounds and constraints iff the corresponding point of the original program satisfies the original bounds (1e20 meaning unbounded) and constraints; if the status is INFEASIBLE, no point compatible with the substitution satisfies the original program.", "quantifier": "for every well-formed program, every set of constants and replacements, every y", "why_tests_cant": "Equivalence of feasible sets, including bound propagation with scale factors of both signs and constraints that degenerate to constants.", "anchors": ["qiskit_optimization/problems/quadratic_program.py:SubstituteVariables._variables", "qiskit_optimization/problems/quadratic_program.py:SubstituteVariables._linear_constraints", "qiskit_optimization/problems/quadratic_program.py:SubstituteVariables._quadratic_constraints", "qiskit_optimization/problems/quadratic_program.py:SubstituteVariables._feasible"]}
{"id": "C17", "title": "Ill-formed substitutions are rejected with the documented error", "statement": "substitute_variables raises QiskitOptimizationError when a variable is substituted twice, by zero times a variable, by itself, or by a variable that is itself substituted; contradictory bounds give a program with status INFEASIBLE as documented.", "quantifier": "for every program and every set of constants and replacements, in every order", "why_tests_cant": "Covers all orders of the replacement dictionary.", "anchors": ["qiskit_optimization/problems/quadratic_program.py:SubstituteVariables._subs_dict", "qiskit_optimization/problems/quadratic_program.py:SubstituteVariables._variables"]}
{"id": "C18", "title": "The Ising operator has the objective as its energy", "statement": "to_ising() of an unconstrained binary program returns an operator and an offset such that for every assignment x of 0/1 values the diagonal entry of the operator at x plus the offset equals the objective at x (negated for maximisation).", "quantifier": "for every unconstrained binary program of every size and every assignment", "why_tests_cant": "Exponentially many assignments and arbitrary real coefficients.", "anchors": ["qiskit_optimization/problems/quadratic_program.py:QuadraticProgram.to_ising"]}
{"id": "C19", "title": "to_ising rejects exactly what it cannot express", "statement": "to_ising() raises QiskitOptimizationError iff the program has a non-binary variable or any constraint; otherwise it returns.", "quantifier": "for every program", "why_tests_cant": "All programs, including empty ones and ones with cancelling coefficients.", "anchors": ["qiskit_optimization/problems/quadratic_program.py:QuadraticProgram.to_ising"]}
{"id": "C20", "title": "from_ising reproduces the operator's energies", "statement": "from_ising(op, offset) on a new program gives binary variables, one per qubit, and a minimisation objective that equals the diagonal of op plus offset at every assignment, for every operator that is a sum of Z and ZZ terms.", "quantifier": "for all numbers of qubits, all sums of Z and ZZ terms, all assignments", "why_tests_cant": "All operators, including ones with repeated terms and zero weights.", "anchors": ["qiskit_optimization/problems/quadratic_program.py:QuadraticProgram.from_ising"]}
{"id": "C21", "title": "Ising round trip", "statement": "from_ising(*p.to_ising()) has the same objective value as p (up to the sign for maximisation) at every assignment.", "quantifier": "for every unconstrained binary program and every assignment", "why_tests_cant": "Composition of two conversions for all programs, including those with constant objective.", "anchors": ["qiskit_optimization/problems/quadratic_program.py:QuadraticProgram.to_ising", "qiskit_optimization/problems/quadratic_program.py:QuadraticProgram.from_ising"]}
{"id": "C22", "title": "Bounded integer encoding is exact", "statement": "For an integer variable with integer bounds lb < ub, the binary expansion made by IntegerToBinary decodes every bit pattern to an integer in [lb, ub], and every integer in [lb, ub] is the decoding of some bit pattern.", "quantifier": "for all integer bounds lb < ub and all bit patterns", "why_tests_cant": "Unbounded range sizes; the last coefficient is chosen by a formula that is correct only if it is correct for every range.", "anchors": ["qiskit_optimization/converters/integer_to_binary.py:IntegerToBinary._convert_var", "qiskit_optimization/converters/integer_to_binary.py:IntegerToBinary.interpret"]}
{"id": "C23", "title": "IntegerToBinary accepts every bounded integer variable", "statement": "convert succeeds on every program whose integer variables have finite bounds and decodes only to integers within those bounds, also when lb = ub and when the bounds are fractional.", "quantifier": "for all rational bounds lb <= ub", "why_tests_cant": "Degenerate and fractional ranges are outside the examples that tests use.", "anchors": ["qiskit_optimization/converters/integer_to_binary.py:IntegerToBinary._convert_var"]}
{"id": "C24", "title": "IntegerToBinary preserves objective and constraints", "statement": "For every assignment y of the converted program, its objective equals the original objective at interpret(y), and each constraint of the converted program holds at y iff the constraint of the original program with the same name holds at interpret(y).", "quantifier": "for every program, every y", "why_tests_cant": "Polynomial identity over all programs including products of two integer variables and squares.", "anchors": ["qiskit_optimization/converters/integer_to_binary.py:IntegerToBinary.convert", "qiskit_optimization/converters/integer_to_binary.py:IntegerToBinary._substitute_int_var", "qiskit_optimization/converters/integer_to_binary.py:IntegerToBinary._convert_linear_coefficients_dict", "qiskit_optimization/converters/integer_to_binary.py:IntegerToBinary._convert_quadratic_coefficients_dict", "qiskit_optimization/converters/integer_to_binary.py:IntegerToBinary.interpret"]}
{"id": "C25", "title": "InequalityToEquality keeps the feasible set", "statement": "With discrete variables and integer coefficients in integer mode, or in continuous mode with any variables: a point x is feasible for the original program iff it can be extended by values of the new slack variables to a feasible point of the converted program, the converted program has only equality constraints, and interpret gives back x; the objective is unchanged.", "quantifier": "for every program, every x and every slack value, linear and quadratic constraints of all senses", "why_tests_cant": "Needs validity of computed slack bounds for all coefficients and bounds, and rounding of fractional right-hand sides.", "anchors": ["qiskit_optimization/converters/inequality_to_equality.py:InequalityToEquality.convert", "qiskit_optimization/converters/inequality_to_equality.py:InequalityToEquality._add_integer_slack_var_linear_constraint", "qiskit_optimization/converters/inequality_to_equality.py:InequalityToEquality._add_continuous_slack_var_linear_constraint", "qiskit_optimization/converters/inequality_to_equality.py:InequalityToEquality._calc_quadratic_bounds", "qiskit_optimization/converters/inequality_to_equality.py:InequalityToEquality.interpret"]}
{"id": "C26", "title": "InequalityToEquality keeps the feasible set whatever the variable types", "statement": "The statement above holds in the default mode 'auto' for programs with continuous variables.", "quantifier": "for every program and every x", "why_tests_cant": "Fractional points of continuous variables with integral coefficients are not sampled by tests.", "anchors": ["qiskit_optimization/converters/inequality_to_equality.py:InequalityToEquality._add_auto_slack_var_linear_constraint", "qiskit_optimization/converters/inequality_to_equality.py:InequalityToEquality._add_integer_slack_var_linear_constraint"]}
{"id": "C27", "title": "Converted programs are usable programs", "statement": "The program returned by InequalityToEquality.convert can be evaluated: objective.evaluate(x) and is_feasible(x) return for every x with one entry per variable.", "quantifier": "for every program and every x of the right length", "why_tests_cant": "Depends on whether slack variables were added after expressions were built, for every combination of constraints.", "anchors": ["qiskit_optimization/converters/inequality_to_equality.py:InequalityToEquality.convert"]}
{"id": "C28", "title": "The penalty objective is objective plus scaled violation", "statement": "LinearEqualityToPenalty.convert gives a program without constraints whose objective at every x equals the original objective plus sense*penalty*sum over constraints of (rhs - lhs(x))^2, with unchanged variables (binary variables having bounds 0 and 1, see C67); it raises if some linear constraint is not an equality.", "quantifier": "for every program with linear equality constraints, every penalty, every x", "why_tests_cant": "Polynomial identity over all constraints, coefficients and sizes.", "anchors": ["qiskit_optimization/converters/linear_equality_to_penalty.py:LinearEqualityToPenalty.convert"]}
{"id": "C29", "title": "The automatic penalty is large enough", "statement": "If all variables are binary with bounds 0 and 1, there are only linear equality constraints, all constraint coefficients and right-hand sides are integers, and the original program is feasible, then the minimisers (maximisers) of the automatically penalised program are exactly the optimal feasible points of the original one.", "quantifier": "for every such program of every size", "why_tests_cant": "Global optimality over exponentially many points and arbitrary objectives.", "anchors": ["qiskit_optimization/converters/linear_equality_to_penalty.py:LinearEqualityToPenalty._auto_define_penalty", "qiskit_optimization/converters/linear_equality_to_penalty.py:LinearEqualityToPenalty.convert"]}
{"id": "C30", "title": "The automatic penalty is large enough for integer variables too", "statement": "The statement above holds for programs with integer variables, which LinearEqualityToPenalty also accepts.", "quantifier": "for every program with integer variables and integral equality constraints", "why_tests_cant": "Requires comparing objective ranges over all bounds.", "anchors": ["qiskit_optimization/converters/linear_equality_to_penalty.py:LinearEqualityToPenalty._auto_define_penalty"]}
{"id": "C31", "title": "LinearEqualityToPenalty loses no constraint", "statement": "Every constraint of the input is reflected in the output: an infeasible point of the input never has the same objective in the output as in the input.", "quantifier": "for every accepted program and every point", "why_tests_cant": "Quantifies over programs with any mix of constraints.", "anchors": ["qiskit_optimization/converters/linear_equality_to_penalty.py:LinearEqualityToPenalty.convert"]}
{"id": "C32", "title": "QUBO conversion output is a QUBO over the right variables", "statement": "If QuadraticProgramToQubo.convert returns, the result has only binary variables, no constraints, and the same sense; and it raises for programs with continuous variables, quadratic constraints or fractional constraint coefficients.", "quantifier": "for every program", "why_tests_cant": "All programs.", "anchors": ["qiskit_optimization/converters/quadratic_program_to_qubo.py:QuadraticProgramToQubo.convert", "qiskit_optimization/converters/quadratic_program_to_qubo.py:QuadraticProgramToQubo.get_compatibility_msg"]}
{"id": "C33", "title": "Solving the QUBO solves the problem", "statement": "For every compatible program with integer bounds, integral constraint data and binary variables bounded by 0 and 1 (see C67) that has a feasible point: if y is an optimal assignment of the converted QUBO (automatic penalty), then interpret(y) is a feasible and optimal point of the original program with the same objective value as the QUBO at y.", "quantifier": "for every compatible program, all sizes, all optimal assignments", "why_tests_cant": "End-to-end optimality of a four-stage pipeline over all programs.", "anchors": ["qiskit_optimization/converters/quadratic_program_to_qubo.py:QuadraticProgramToQubo.convert", "qiskit_optimization/converters/quadratic_program_to_qubo.py:QuadraticProgramToQubo.interpret"]}
{"id": "C34", "title": "Every feasible point is represented in the QUBO", "statement": "For every compatible program as above and every feasible integral point x there is an assignment y of the QUBO with interpret(y) = x and QUBO objective at y equal to the objective at x.", "quantifier": "for every program and every feasible x", "why_tests_cant": "Existence over all feasible points.", "anchors": ["qiskit_optimization/converters/quadratic_program_to_qubo.py:QuadraticProgramToQubo.convert", "qiskit_optimization/converters/quadratic_program_to_qubo.py:QuadraticProgramToQubo.interpret"]}
{"id": "C35", "title": "A converter can be reused", "statement": "Converting a second program with the same converter object gives the same result as with a new converter, and interpret then refers to the second program; with automatic penalty the penalty is recomputed for each program.", "quantifier": "for every sequence of programs converted with one object", "why_tests_cant": "History property over the converter's mutable fields.", "anchors": ["qiskit_optimization/converters/integer_to_binary.py:IntegerToBinary.convert", "qiskit_optimization/converters/linear_equality_to_penalty.py:LinearEqualityToPenalty.convert", "qiskit_optimization/converters/linear_equality_to_penalty.py:LinearEqualityToPenalty.penalty", "qiskit_optimization/converters/quadratic_program_to_qubo.py:QuadraticProgramToQubo.penalty"]}
{"id": "C36", "title": "Results are consistent with the problem", "statement": "The result built for a problem from a converted solution has one value per variable of the problem, fval equal to the objective at x, status SUCCESS iff x is feasible, and variables_dict, indexing by name and indexing by position agree.", "quantifier": "for every problem, converter list and solution", "why_tests_cant": "All problems and converters.", "anchors": ["qiskit_optimization/algorithms/optimization_algorithm.py:OptimizationAlgorithm._interpret", "qiskit_optimization/algorithms/optimization_algorithm.py:OptimizationResult"]}
{"id": "C37", "title": "Sample interpretation conserves probability", "statement": "Interpreting raw samples through the converters yields samples with pairwise different x whose probabilities sum to the sum of the raw probabilities, each sample carrying exactly the mass of the raw samples that decode to it, with fval and status of the original problem at x.", "quantifier": "for every list of raw samples and every converter list", "why_tests_cant": "Merging over all lists of samples and all collisions.", "anchors": ["qiskit_optimization/algorithms/optimization_algorithm.py:OptimizationAlgorithm._interpret_samples"]}
{"id": "C38", "title": "Samples are sorted by quality", "statement": "The interpreted samples are a sorted list: feasible before infeasible, and better objective first within the same status, for minimisation and maximisation; so the first sample is a best feasible one if any is feasible.", "quantifier": "for every list of raw samples, both senses", "why_tests_cant": "Sortedness over all lists.", "anchors": ["qiskit_optimization/algorithms/optimization_algorithm.py:OptimizationAlgorithm._interpret_samples"]}
{"id": "C39", "title": "Measurement outcomes are decoded with the right bit order", "statement": "From a state vector, the sample of basis index i assigns to variable k the k-th binary digit of i (least significant first), with probability the squared amplitude; exactly the outcomes with probability at least the threshold are kept; from a dictionary, the digits are taken in the order of the string and the values are normalised by their sum.", "quantifier": "for every number of qubits, state and threshold", "why_tests_cant": "All sizes and all basis states.", "anchors": ["qiskit_optimization/algorithms/optimization_algorithm.py:OptimizationAlgorithm._eigenvector_to_solutions"]}
{"id": "C40", "title": "MinimumEigenOptimizer returns the best sample", "statement": "If the eigenstate has at least one outcome above the threshold, solve returns an x that decodes a raw outcome with the best QUBO value among all outcomes above the threshold; if the eigenstate is supported on the ground states of the Ising operator of a compatible feasible problem, the result is an optimal feasible point.", "quantifier": "for every problem and every eigenstate", "why_tests_cant": "All eigenstates of all operators.", "anchors": ["qiskit_optimization/algorithms/minimum_eigen_optimizer.py:MinimumEigenOptimizer._solve_internal", "qiskit_optimization/algorithms/minimum_eigen_optimizer.py:MinimumEigenOptimizer.solve"]}
{"id": "C41", "title": "Correlations are expectation values", "statement": "get_correlations returns, for every pair i > j, the probability that x_i = x_j minus the probability that they differ; every entry lies within the total probability in absolute value.", "quantifier": "for every sample list", "why_tests_cant": "All sample lists.", "anchors": ["qiskit_optimization/algorithms/optimization_algorithm.py:OptimizationResult.get_correlations"]}
{"id": "C42", "title": "Recursive elimination is consistent", "statement": "RecursiveMinimumEigenOptimizer terminates after eliminating one variable per round, whatever the inner optimizer returns; every eliminated variable ends up equal to (or one minus) its partner in the returned solution, and the objective of the reduced problem at the final point equals the objective of the converted problem at the unrolled point (if no coefficient of absolute value at most 1e-10 is met).", "quantifier": "for every QUBO, every sequence of answers of the inner optimizers", "why_tests_cant": "All answer sequences of nondeterministic inner solvers and all problem sizes.", "anchors": ["qiskit_optimization/algorithms/recursive_minimum_eigen_optimizer.py:RecursiveMinimumEigenOptimizer.solve", "qiskit_optimization/algorithms/recursive_minimum_eigen_optimizer.py:RecursiveMinimumEigenOptimizer._find_strongest_correlation", "qiskit_optimization/problems/quadratic_program.py:SubstituteVariables"]}
{"id": "C43", "title": "solve() does not modify the caller's problem", "statement": "After optimizer.solve(problem) the problem given by the caller has the same objective, variables and constraints as before.", "quantifier": "for every problem, every converter list (also the empty list), every optimizer", "why_tests_cant": "Aliasing depends on the configuration; tests use default converters.", "anchors": ["qiskit_optimization/algorithms/recursive_minimum_eigen_optimizer.py:RecursiveMinimumEigenOptimizer.solve", "qiskit_optimization/algorithms/grover_optimizer.py:GroverOptimizer.solve", "qiskit_optimization/algorithms/optimization_algorithm.py:OptimizationAlgorithm._convert"]}
{"id": "C44", "title": "Multi-start returns the best trial", "statement": "multi_start_solve returns the x of a trial whose objective is best (smallest for minimisation, largest for maximisation) among all trials, with its objective value.", "quantifier": "for every problem, number of trials and sequence of local solutions", "why_tests_cant": "All result sequences; the comparison mixes signs only visible for maximisation with several trials.", "anchors": ["qiskit_optimization/algorithms/multistart_optimizer.py:MultiStartOptimizer.multi_start_solve"]}
{"id": "C45", "title": "Classical solvers get exactly the problem's constraints", "statement": "The constraint functions that CobylaOptimizer (and SlsqpOptimizer) hand to the numerical routine are all non-negative (zero for equalities) at x iff x satisfies all bounds (1e20 meaning none) and constraints of the problem; the handed objective is the problem's, negated for maximisation.", "quantifier": "for every continuous problem and every x", "why_tests_cant": "Equivalence over all problems and points.", "anchors": ["qiskit_optimization/algorithms/cobyla_optimizer.py:CobylaOptimizer.solve", "qiskit_optimization/algorithms/slsqp_optimizer.py:SlsqpOptimizer.solve"]}
{"id": "C46", "title": "Grover search decodes and compares values correctly", "statement": "The value register is read as two's complement; the assignment of the best outcome is the key register's bits; the final answer is at least as good as every value measured during the search if values fit the register; the search terminates.", "quantifier": "for all register widths, all bit strings, all measurement sequences", "why_tests_cant": "All widths and all measurement histories.", "anchors": ["qiskit_optimization/algorithms/grover_optimizer.py:GroverOptimizer.solve", "qiskit_optimization/algorithms/grover_optimizer.py:GroverOptimizer._bin_to_int"]}
{"id": "C47", "title": "Goemans-Williamson reports correct cuts", "statement": "For a Maxcut program, the value reported for each cut equals the objective at that assignment; a cut and its complement have the same value; the reported cuts are pairwise different, none the complement of another, and every sampled cut is represented up to complement.", "quantifier": "for every weighted graph, every list of sampled cuts", "why_tests_cant": "All graphs and cut lists.", "anchors": ["qiskit_optimization/algorithms/goemans_williamson_optimizer.py:GoemansWilliamsonOptimizer.max_cut_value", "qiskit_optimization/algorithms/goemans_williamson_optimizer.py:GoemansWilliamsonOptimizer._extract_adjacency_matrix", "qiskit_optimization/algorithms/goemans_williamson_optimizer.py:GoemansWilliamsonOptimizer._get_unique_cuts", "qiskit_optimization/algorithms/goemans_williamson_optimizer.py:GoemansWilliamsonOptimizer.solve"]}
{"id": "C48", "title": "Warm-start values and aggregation", "statement": "create_initial_variables returns values in [epsilon, 1-epsilon], moves each value as little as possible, and leaves values inside the interval alone; MeanAggregator returns samples whose probabilities are the averages over the results, so they sum to 1 if each result's do.", "quantifier": "for all epsilon in [0, 0.5], all solutions, all result lists", "why_tests_cant": "All inputs.", "anchors": ["qiskit_optimization/algorithms/warm_start_qaoa_optimizer.py:WarmStartQAOAFactory.create_initial_variables", "qiskit_optimization/algorithms/warm_start_qaoa_optimizer.py:MeanAggregator.aggregate"]}
{"id": "C49", "title": "Warm-start with several initial solutions returns a valid result", "statement": "With num_initial_solutions > 1 solve returns a result whose x is a point of the original problem taken from one of the aggregated samples, for every compatible problem.", "quantifier": "for every compatible problem and every list of pre-solutions", "why_tests_cant": "Needs converters that change the variables together with several pre-solutions.", "anchors": ["qiskit_optimization/algorithms/warm_start_qaoa_optimizer.py:WarmStartQAOAOptimizer.solve", "qiskit_optimization/algorithms/warm_start_qaoa_optimizer.py:MeanAggregator.aggregate", "qiskit_optimization/algorithms/optimization_algorithm.py:OptimizationAlgorithm._interpret"]}
{"id": "C50", "title": "ADMM splits and recombines the problem correctly", "statement": "Splitting the variables into binary and continuous blocks and recombining loses nothing: every variable gets back its own value; the block objectives add up to the objective for separable problems; the reported solution is an iterate of smallest merit; the constraint residual is zero iff the constraints hold.", "quantifier": "for every mixed-binary problem and every iteration history", "why_tests_cant": "All interleavings of variable types and all histories.", "anchors": ["qiskit_optimization/algorithms/admm_optimizer.py:ADMMOptimizer._get_variable_indices", "qiskit_optimization/algorithms/admm_optimizer.py:ADMMOptimizer._revert_solution_indexes", "qiskit_optimization/algorithms/admm_optimizer.py:ADMMOptimizer._get_best_merit_solution", "qiskit_optimization/algorithms/admm_optimizer.py:ADMMOptimizer._get_constraint_residual", "qiskit_optimization/algorithms/admm_optimizer.py:ADMMOptimizer._turn_to_minimization", "qiskit_optimization/algorithms/admm_optimizer.py:ADMMOptimizer._convert_problem_representation"]}
{"id": "C51", "title": "ADMM residuals use the previous iterate", "statement": "The dual residual at each iteration is computed from the current and the previous auxiliary iterate, and the penalty parameter grows when the primal residual dominates and shrinks when the dual residual dominates.", "quantifier": "for every iteration history", "why_tests_cant": "Only visible from the third iteration of particular histories.", "anchors": ["qiskit_optimization/algorithms/admm_optimizer.py:ADMMOptimizer.solve", "qiskit_optimization/algorithms/admm_optimizer.py:ADMMOptimizer._update_rho", "qiskit_optimization/algorithms/admm_optimizer.py:ADMMOptimizer._get_solution_residuals"]}
{"id": "C52", "title": "ADMM puts every relevant binary variable in the first subproblem", "statement": "Every binary variable that occurs in the objective or in an equality constraint is a variable of the first subproblem.", "quantifier": "for every mixed-binary problem", "why_tests_cant": "Depends on the position of coefficients in the stored triangular matrix and on their signs.", "anchors": ["qiskit_optimization/algorithms/admm_optimizer.py:ADMMOptimizer._get_step1_indices"]}
{"id": "C53", "title": "docplex export and import round trip", "statement": "from_docplex(p.to_docplex()) has the same variables (name, type, bounds), objective value at every point, and the same constraints as p, except that constraints of the form 0 (sense) 0 are dropped.", "quantifier": "for every program with standard bounds on binary variables", "why_tests_cant": "All programs and points.", "anchors": ["qiskit_optimization/problems/quadratic_program.py:QuadraticProgram.to_docplex", "qiskit_optimization/problems/quadratic_program.py:QuadraticProgram.from_docplex"]}
{"id": "C54", "title": "docplex import is faithful", "statement": "from_docplex(m) has for each docplex variable a variable of the same name, type and bounds, an objective with the same value at every point, and for every linear or quadratic constraint of m a constraint with the same solutions.", "quantifier": "for every docplex model of the supported kind", "why_tests_cant": "All models and points, including terms on both sides of a constraint.", "anchors": ["qiskit_optimization/problems/quadratic_program.py:QuadraticProgram.from_docplex"]}
{"id": "C55", "title": "Max-cut encoding", "statement": "For every weighted graph and 0/1 vector x, the objective of Maxcut's program at x is the total weight of the edges between {i : x_i = 0} and {i : x_i = 1}; the program is a maximisation without constraints; interpret returns exactly these two sets, and get_gset_result names the same cut, nodes numbered from 1.", "quantifier": "for every graph, every x", "why_tests_cant": "All graphs and cuts.", "anchors": ["qiskit_optimization/applications/max_cut.py:Maxcut.to_quadratic_program", "qiskit_optimization/applications/max_cut.py:Maxcut.interpret", "qiskit_optimization/applications/max_cut.py:Maxcut.get_gset_result"]}
{"id": "C56", "title": "Vertex cover encoding", "statement": "A 0/1 vector is feasible for VertexCover's program iff interpret(x) meets every edge, and the objective (minimised) is the number of its elements.", "quantifier": "for every graph, every x", "why_tests_cant": "All graphs and subsets.", "anchors": ["qiskit_optimization/applications/vertex_cover.py:VertexCover.to_quadratic_program", "qiskit_optimization/applications/vertex_cover.py:VertexCover.interpret"]}
{"id": "C57", "title": "Stable set encoding", "statement": "A 0/1 vector is feasible for StableSet's program iff interpret(x) contains no edge, and the objective (maximised) is its size.", "quantifier": "for every graph, every x", "why_tests_cant": "All graphs and subsets.", "anchors": ["qiskit_optimization/applications/stable_set.py:StableSet.to_quadratic_program", "qiskit_optimization/applications/stable_set.py:StableSet.interpret"]}
{"id": "C58", "title": "Clique encoding", "statement": "A 0/1 vector is feasible for Clique's program iff interpret(x) is a clique (of the requested size, if one is given); without a size the objective (maximised) is its size.", "quantifier": "for every graph, size and x", "why_tests_cant": "All graphs and subsets.", "anchors": ["qiskit_optimization/applications/clique.py:Clique.to_quadratic_program", "qiskit_optimization/applications/clique.py:Clique.interpret"]}
{"id": "C59", "title": "Set packing and exact cover encodings", "statement": "A 0/1 vector is feasible for SetPacking's program iff the chosen subsets are pairwise disjoint, the objective (maximised) counting them; it is feasible for ExactCover's program iff the chosen subsets cover every element of the union exactly once, the objective (minimised) counting them; interpret lists the chosen subsets.", "quantifier": "for every list of subsets and every x", "why_tests_cant": "All set families.", "anchors": ["qiskit_optimization/applications/set_packing.py:SetPacking.to_quadratic_program", "qiskit_optimization/applications/exact_cover.py:ExactCover.to_quadratic_program"]}
{"id": "C60", "title": "Knapsack encoding", "statement": "A 0/1 vector is feasible iff the chosen items weigh at most the limit, and the objective (maximised) is their total value; interpret lists the chosen items.", "quantifier": "for all values, weights, limits and x", "why_tests_cant": "All instances.", "anchors": ["qiskit_optimization/applications/knapsack.py:Knapsack.to_quadratic_program", "qiskit_optimization/applications/knapsack.py:Knapsack.interpret"]}
{"id": "C61", "title": "Number partition encoding", "statement": "A 0/1 vector is feasible iff the two lists returned by interpret have equal sums, and these lists together are a rearrangement of the given numbers.", "quantifier": "for every list of numbers and every x", "why_tests_cant": "All lists.", "anchors": ["qiskit_optimization/applications/number_partition.py:NumberPartition.to_quadratic_program", "qiskit_optimization/applications/number_partition.py:NumberPartition.interpret"]}
{"id": "C62", "title": "Graph partition encoding", "statement": "A 0/1 vector is feasible iff exactly half (rounded down) of the nodes are chosen, and the objective (minimised) is the weight of the edges between the two parts.", "quantifier": "for every graph and every x", "why_tests_cant": "All graphs.", "anchors": ["qiskit_optimization/applications/graph_partition.py:GraphPartition.to_quadratic_program", "qiskit_optimization/applications/graph_partition.py:GraphPartition.interpret"]}
{"id": "C63", "title": "Travelling salesman encoding", "statement": "A 0/1 vector is feasible iff it is the matrix of a permutation of the nodes; interpret then returns that permutation, and the objective (minimised) is the length of the closed tour as computed by tsp_value.", "quantifier": "for every complete weighted graph and every x", "why_tests_cant": "All permutations of all sizes.", "anchors": ["qiskit_optimization/applications/tsp.py:Tsp.to_quadratic_program", "qiskit_optimization/applications/tsp.py:Tsp.interpret", "qiskit_optimization/applications/tsp.py:Tsp.tsp_value"]}
{"id": "C64", "title": "Vehicle routing encoding", "statement": "For a feasible 0/1 vector, interpret returns one closed route through the depot per vehicle, and the routes together visit every other node exactly once and use exactly the chosen edges; the objective is their total length.", "quantifier": "for every complete weighted graph, number of vehicles, depot and feasible x", "why_tests_cant": "All instances and all feasible points.", "anchors": ["qiskit_optimization/applications/vehicle_routing.py:VehicleRouting.to_quadratic_program", "qiskit_optimization/applications/vehicle_routing.py:VehicleRouting.interpret"]}
{"id": "C65", "title": "Instance files are parsed faithfully", "statement": "Maxcut.parse_gset_format returns the weights written in the file, and Tsp.parse_tsplib_format accepts files in TSPLIB format with EUC_2D coordinates.", "quantifier": "for every well-formed file", "why_tests_cant": "All files.", "anchors": ["qiskit_optimization/applications/max_cut.py:Maxcut.parse_gset_format", "qiskit_optimization/applications/tsp.py:Tsp.parse_tsplib_format"]}
{"id": "C66", "title": "The most likely sample is decoded little-endian", "statement": "sample_most_likely of a state vector returns the binary digits, least significant first, of the first basis index of largest absolute amplitude; of a dictionary it returns the reversed digits of a string with the largest count.", "quantifier": "for all state vectors and dictionaries", "why_tests_cant": "All sizes.", "anchors": ["qiskit_optimization/applications/optimization_application.py:OptimizationApplication.sample_most_likely"]}
{"id": "C67", "title": "Bounds assigned to a binary variable survive conversion", "statement": "InequalityToEquality and LinearEqualityToPenalty keep the bounds of every variable, also of binary variables whose bounds were changed after creation.", "quantifier": "for every program", "why_tests_cant": "Bounds are state that can be changed at any time by setters; tests use freshly created binary variables.", "anchors": ["qiskit_optimization/converters/inequality_to_equality.py:InequalityToEquality.convert", "qiskit_optimization/converters/linear_equality_to_penalty.py:LinearEqualityToPenalty.convert"]}
{"id": "C68", "title": "Grover samples carry measured frequencies, best first", "statement": "The raw samples stored by GroverOptimizer are the measured assignments with their relative frequencies (those below 1e-6 left out), ordered best first for the sense of the problem; the samples of the result are the decoded points with the probabilities added up, feasible ones first, then by objective.", "quantifier": "for every problem, all measurement results and both kinds of backends", "why_tests_cant": "Tests compare optimal values only; the probabilities of samples are random.", "anchors": ["qiskit_optimization/algorithms/grover_optimizer.py:GroverOptimizer.solve", "qiskit_optimization/algorithms/grover_optimizer.py:GroverOptimizer._get_probs"]}
{"id": "C69", "title": "Goemans-Williamson reports results of the problem given", "statement": "For every problem that GoemansWilliamsonOptimizer accepts, each sample carries the objective at its point and a status that says whether the point is feasible, the answer is a best sample for the sense of the problem, and a failure of the semidefinite solver is reported as a result with status FAILURE.", "quantifier": "for every problem of binary variables, all answers of the solver and all random numbers", "why_tests_cant": "Tests solve one Maxcut instance; other objectives, constraints, minimisation and failing solvers are not tried.", "anchors": ["qiskit_optimization/algorithms/goemans_williamson_optimizer.py:GoemansWilliamsonOptimizer.solve", "qiskit_optimization/algorithms/goemans_williamson_optimizer.py:GoemansWilliamsonOptimizer.get_compatibility_msg"]}
{"id": "C70", "title": "The conversions succeed on every program they support", "statement": "InequalityToEquality (mode integer on integer inequalities, mode continuous or auto on all), IntegerToBinary and QuadraticProgramToQubo return a program, without an exception, for every program that passes their compatibility checks; LinearEqualityToPenalty does so exactly when all constraints are linear equalities.", "quantifier": "for every program", "why_tests_cant": "The names of the variables the converters add depend on the names in the program; tests use names that do not collide and ranges of more than one value.", "anchors": ["qiskit_optimization/converters/inequality_to_equality.py:InequalityToEquality.convert", "qiskit_optimization/converters/integer_to_binary.py:IntegerToBinary.convert", "qiskit_optimization/converters/linear_equality_to_penalty.py:LinearEqualityToPenalty.convert", "qiskit_optimization/converters/quadratic_program_to_qubo.py:QuadraticProgramToQubo.convert"]}
{"id": "C71", "title": "Starting points of the numerical optimizers", "statement": "MultiStartOptimizer starts every trial within the bounds of the variables (the clip value taking the place of missing bounds), and can start at every such point.", "quantifier": "for every problem, every clip value, all trials and all random numbers", "why_tests_cant": "The starting points are random and depend on the bounds of every variable.", "anchors": ["qiskit_optimization/algorithms/multistart_optimizer.py:MultiStartOptimizer.multi_start_solve"]}
{"id": "C72", "title": "COBYLA and SLSQP return what their routine found", "statement": "If the routine of scipy solves the problem handed to it, CobylaOptimizer returns a best point satisfying bounds and constraints and SlsqpOptimizer an optimal point; whatever the routine does, the result carries one of the points found, the objective there and a status that tells whether the point is feasible. Problems with discrete variables are refused.", "quantifier": "for every problem of continuous variables with an optimum below 1e20, all routines, trials and random numbers", "why_tests_cant": "The routine is a parameter: every behaviour of the numerical solver is covered.", "anchors": ["qiskit_optimization/algorithms/cobyla_optimizer.py:CobylaOptimizer.solve", "qiskit_optimization/algorithms/slsqp_optimizer.py:SlsqpOptimizer.solve"]}
{"id": "C73", "title": "When the Grover search gives up", "statement": "The search of GroverOptimizer ends only when the last n_iterations passes did not improve, or every assignment was measured in a pass without improvement (at once in these two cases), or 79 rotations were made; the bounds of the rotations follow the method of Durr and Hoyer (times 8/7, at most the square root of 2^n, back to 1 after an improvement), and if every assignment was measured the answer is optimal.", "quantifier": "for every register size, all measurements and all random numbers", "why_tests_cant": "Termination and the number of rotations depend on the whole history of measurements.", "anchors": ["qiskit_optimization/algorithms/grover_optimizer.py:GroverOptimizer.solve"]}
{"id": "C74", "title": "The semidefinite relaxation bounds all cuts", "statement": "Every cut is a feasible point of the problem handed to the semidefinite solver, with objective four times the weight of the cut, so that the optimum of the relaxation is an upper bound for all cuts; equality shows a largest cut. The matrix given to the Cholesky decomposition is positive definite, and differs from the solution of the solver on the diagonal only.", "quantifier": "for every graph, every assignment, every solution of the solver", "why_tests_cant": "A statement on all graphs and matrices.", "anchors": ["qiskit_optimization/algorithms/goemans_williamson_optimizer.py:GoemansWilliamsonOptimizer._solve_max_cut_sdp", "qiskit_optimization/algorithms/goemans_williamson_optimizer.py:GoemansWilliamsonOptimizer._generate_random_cuts"]}
{"id": "C75", "title": "The subproblems of ADMM are blocks of one Lagrangian", "statement": "The three subproblems of an ADMM round are, up to constants, the augmented Lagrangian of the splitting (objective, penalties for the equalities of binary variables, squares of y, multipliers and penalty for x0 = z + y) as a function of x0, of z and u, and of y; the multipliers move by rho times the residual. With exact optimizers every step of a round therefore minimises the Lagrangian over its block, and a round never makes it larger.", "quantifier": "for every program with binary and continuous variables, all states, parameters and rounds", "why_tests_cant": "A statement on the coefficients of three programs built from state that changes in every iteration; tests compare end results of small cases.", "anchors": ["qiskit_optimization/algorithms/admm_optimizer.py:ADMMOptimizer._create_step1_problem", "qiskit_optimization/algorithms/admm_optimizer.py:ADMMOptimizer._create_step2_problem", "qiskit_optimization/algorithms/admm_optimizer.py:ADMMOptimizer._create_step3_problem", "qiskit_optimization/algorithms/admm_optimizer.py:ADMMOptimizer._update_lambda_mult"]}
{"id": "C76", "title": "The graph, set and routing applications are solved through the QUBO", "statement": "For every instance of Maxcut, GraphPartition, VertexCover, StableSet, Clique, SetPacking, ExactCover, Tsp and VehicleRouting that has a solution, QuadraticProgramToQubo converts the program of the instance, its QUBO has optima, and every optimum, decoded by the converter and by interpret, is a solution of the combinatorial problem that no other solution beats: a heaviest cut, a lightest balanced cut, a smallest cover, a largest stable set, a largest clique or one of the size asked for, a largest packing, a smallest exact cover, a shortest tour, shortest routes.", "quantifier": "for every instance and every optimum of its QUBO", "why_tests_cant": "The claim is about all cuts, sets, tours and routes of instances of every size and runs through model building, import, three conversions and two decodings.", "anchors": ["qiskit_optimization/converters/quadratic_program_to_qubo.py:QuadraticProgramToQubo.convert", "qiskit_optimization/applications/max_cut.py:Maxcut.to_quadratic_program", "qiskit_optimization/applications/graph_partition.py:GraphPartition.to_quadratic_program", "qiskit_optimization/applications/vertex_cover.py:VertexCover.to_quadratic_program", "qiskit_optimization/applications/stable_set.py:StableSet.to_quadratic_program", "qiskit_optimization/applications/clique.py:Clique.to_quadratic_program", "qiskit_optimization/applications/set_packing.py:SetPacking.to_quadratic_program", "qiskit_optimization/applications/exact_cover.py:ExactCover.to_quadratic_program", "qiskit_optimization/applications/tsp.py:Tsp.to_quadratic_program", "qiskit_optimization/applications/vehicle_routing.py:VehicleRouting.to_quadratic_program"]}
{"id": "C77", "title": "Knapsack and number partition are solved through the QUBO", "statement": "For every instance of Knapsack and NumberPartition that has a solution, QuadraticProgramToQubo converts the program of the instance and every optimum of the QUBO decodes to a most valuable selection within the limit, or to two lists of equal sums.", "quantifier": "for every instance and every optimum of its QUBO", "why_tests_cant": "All weights, values and numbers; tests use small integers.", "anchors": ["qiskit_optimization/converters/quadratic_program_to_qubo.py:QuadraticProgramToQubo.convert", "qiskit_optimization/applications/knapsack.py:Knapsack.to_quadratic_program", "qiskit_optimization/applications/number_partition.py:NumberPartition.to_quadratic_program"]}
{"id": "C78", "title": "The point reported by ADMM has the right types and bounds", "statement": "The point that ADMMOptimizer reports gives every binary variable 0 or 1 and every integer variable an integral value within its bounds if the QUBO optimizer answers with bits, and keeps continuous variables within their bounds if the continuous optimizer does.", "quantifier": "for every program, all parameters, all optimizers of this kind and every number of rounds", "why_tests_cant": "The values pass through the splitting, the rounds, the choice of the best iterate and the decoding of integers; tests use problems whose binary variables are in the objective.", "anchors": ["qiskit_optimization/algorithms/admm_optimizer.py:ADMMOptimizer.solve", "qiskit_optimization/algorithms/admm_optimizer.py:ADMMOptimizer._update_x0", "qiskit_optimization/algorithms/admm_optimizer.py:ADMMOptimizer._warm_start"]}
{"id": "C79", "title": "CPLEX solves the problem it is given", "statement": "The model handed to CPLEX has the objective, the sense and the feasible points of the program, so that an exact solver yields an optimal point of the program, reported with its objective value, its status and the names of the variables; a program without a best point ends in QiskitOptimizationError.", "quantifier": "for every well-formed program, every exact solver and every point", "why_tests_cant": "The export rebuilds every expression with docplex arithmetic and special cases for constraints without coefficients; tests need CPLEX installed and compare single answers, and solvable problems do not show what happens after a search without success.", "anchors": ["qiskit_optimization/algorithms/cplex_optimizer.py:CplexOptimizer.solve", "qiskit_optimization/problems/quadratic_program.py:QuadraticProgram.to_docplex"]}
{"id": "C80", "title": "Warm-start circuits prepare and keep the relaxed solution", "statement": "The initial state of WarmStartQAOAFactory gives qubit i the value 1 with the probability of initial variable i, independently of the other qubits; the mixer changes this state by a phase only, for every value of its parameter, and is a one-parameter group of norm-preserving maps; with epsilon 0.5 the circuits are those of the standard QAOA up to the sign of beta, with epsilon 0 and a solution made of bits every number of layers returns this solution.", "quantifier": "for every list of values, every epsilon in [0, 0.5], every beta and every state vector, on any number of qubits", "why_tests_cant": "The statement is about amplitudes of a circuit on n qubits with real parameters; tests can compare a few of the 2^n amplitudes for a few parameters, with rounding.", "anchors": ["qiskit_optimization/algorithms/warm_start_qaoa_optimizer.py:WarmStartQAOAFactory.create_initial_state", "qiskit_optimization/algorithms/warm_start_qaoa_optimizer.py:WarmStartQAOAFactory.create_mixer", "qiskit_optimization/algorithms/warm_start_qaoa_optimizer.py:WarmStartQAOAFactory.create_initial_variables"]}
{"id": "C81", "title": "Grover circuits mark and amplify the assignments below the threshold", "statement": "In every state reached by the circuits of GroverOptimizer the value register holds the objective at the assignment in the key register; the oracle turns the sign of exactly the assignments of negative value, and after r rotations one of them is measured with probability sin^2((2r+1)t), where sin^2(t) is the part of the assignments that have a negative value, all of them equally likely. With outcomes drawn from these states the search ends and answers with the best key measured.", "quantifier": "for every program, number of key and value qubits, number of rotations and outcome of positive probability", "why_tests_cant": "The statement is about all amplitudes of states of n + m qubits after any number of rotations, and about values near the limits of the register; tests run simulators on two or three qubits.", "anchors": ["qiskit_optimization/algorithms/grover_optimizer.py:GroverOptimizer._get_a_operator", "qiskit_optimization/algorithms/grover_optimizer.py:GroverOptimizer._get_oracle", "qiskit_optimization/algorithms/grover_optimizer.py:GroverOptimizer.solve"]}
{"id": "C82", "title": "When ADMM stops and where it starts", "statement": "ADMM makes at least one round and at most maxiter; each residual is the distance of x0 from z + y after its round; a round is made only while the time limit is not over and the residual before it is above the tolerance, and the rounds end because one of the three limits is reached. With the default parameters there are at most ten. With a warm start x0, z and u are the parts of the answer of the continuous optimizer for the same program with all variables continuous, a relaxation of it; without one they are 0.", "quantifier": "for every program, every pair of optimizers, every norm, every clock and every parameter setting", "why_tests_cant": "The stopping rule depends on the numbers that arbitrary optimizers give over all rounds and on the clock; the tests fix the optimizers, the parameters and two or three small programs.", "anchors": ["qiskit_optimization/algorithms/admm_optimizer.py:ADMMOptimizer.solve", "qiskit_optimization/algorithms/admm_optimizer.py:ADMMOptimizer._warm_start", "qiskit_optimization/algorithms/admm_optimizer.py:ADMMOptimizer._get_solution_residuals"]}
{"id": "C83", "title": "Drawings show the answers of the applications", "statement": "Vertex cover, stable set, clique and graph partition paint exactly the nodes of the interpreted answer red, whatever the order of the nodes in the graph; max-cut paints the nodes of its two lists in two colours. The edges drawn for a tour form the closed tour and sum up to the objective value, the edges drawn for routes are those of the routes, each route in a colour of its own.", "quantifier": "for every number of nodes, node order, point, complete graph and list of routes", "why_tests_cant": "Drawings are not looked at by tests, and the order of the nodes differs from 0, 1, ... only for graphs built edge by edge.", "anchors": ["qiskit_optimization/applications/max_cut.py:Maxcut._node_color", "qiskit_optimization/applications/vertex_cover.py:VertexCover._node_colors", "qiskit_optimization/applications/stable_set.py:StableSet._node_colors", "qiskit_optimization/applications/graph_partition.py:GraphPartition._node_colors", "qiskit_optimization/applications/tsp.py:Tsp._edgelist", "qiskit_optimization/applications/vehicle_routing.py:VehicleRouting._edge_color"]}
{"id": "C84", "title": "Random instances are complete graphs with rounded distances, and seeds fix them", "statement": "create_random_instance of Tsp and VehicleRouting gives a complete graph whose weights are the distances of points in the given square rounded to whole numbers, so that to_quadratic_program works; the same seed gives the same instance.", "quantifier": "for every generator, seed, number of nodes and range, and every norm that grows with the coordinates", "why_tests_cant": "The tests use one seed and one size; that every pair of nodes is joined depends on all coordinates that a generator can give.", "anchors": ["qiskit_optimization/applications/tsp.py:Tsp.create_random_instance", "qiskit_optimization/applications/vehicle_routing.py:VehicleRouting.create_random_instance"]}
{"id": "C85", "title": "Variables created in bulk have distinct new names and are returned in order", "statement": "binary_var_dict, integer_var_dict, continuous_var_dict and the list forms append exactly the variables they return: with the bounds and type given, under names that differ from one another and from all names before, found by name, and counted by the getters. Keys put into the format give the names; clashing names and fewer than one variable raise QiskitOptimizationError.", "quantifier": "for every reachable program, keys, bounds, type, name and format", "why_tests_cant": "The tests use a handful of formats and keys on fresh programs; clashes depend on all names that a program can already have.", "anchors": ["qiskit_optimization/problems/quadratic_program.py:QuadraticProgram._add_variables", "qiskit_optimization/problems/quadratic_program.py:QuadraticProgram._var_dict", "qiskit_optimization/problems/quadratic_program.py:QuadraticProgram._var_list", "qiskit_optimization/problems/quadratic_program.py:QuadraticProgram.get_num_vars"]}
{"id": "C86", "title": "The name of a problem survives an LP file", "statement": "read_from_lp_file takes the name of the problem from the last comment with a name among the comments at the top of the file, without white space around it, and an empty name if there is none; a program written to an LP file and read again has the same name and content.", "quantifier": "for every file, every docplex printer of the documented form and every reader that gives back the model printed", "why_tests_cant": "The tests read a few fixed files; the name depends on the order of all lines and on the white space in it.", "anchors": ["qiskit_optimization/problems/quadratic_program.py:QuadraticProgram.read_from_lp_file", "qiskit_optimization/problems/quadratic_program.py:QuadraticProgram.write_to_lp_file"]}
{"id": "C87", "title": "Whole coefficients stay whole in the QUBO", "statement": "If all numbers of the objective are whole multiples of some g that divides 1, and bounds, coefficients of constraints and right-hand sides of equations are whole, then constant and coefficients of the QUBO are whole multiples of g; so for whole numbers the Grover search gets a whole objective, and MinimumEigenOptimizer solves the program whenever its solver finds the ground state.", "quantifier": "for every program, grid g, penalty on the grid (or none) and eigensolver", "why_tests_cant": "Slack variables, binary digits and penalties multiply coefficients in many ways; tests compare single QUBOs.", "anchors": ["qiskit_optimization/converters/quadratic_program_to_qubo.py:QuadraticProgramToQubo.convert", "qiskit_optimization/converters/inequality_to_equality.py:InequalityToEquality.convert", "qiskit_optimization/converters/integer_to_binary.py:IntegerToBinary.convert", "qiskit_optimization/converters/linear_equality_to_penalty.py:LinearEqualityToPenalty.convert"]}
{"id": "C88", "title": "The applications are answered by MinimumEigenOptimizer and GroverOptimizer", "statement": "For each application, if the solver of MinimumEigenOptimizer returns a state in which a ground state has probability at least 1e-6, or if GroverOptimizer measures a best key with wide enough registers, then the result is a success whose interpretation is a best solution of the combinatorial problem.", "quantifier": "for every instance with a solution, with weights on a grid coarser than 4e-8 (whole for Grover), every eigensolver, every honest measurement", "why_tests_cant": "The tests solve one small instance per application with an exact eigensolver; the claim is about all instances and all states.", "anchors": ["qiskit_optimization/algorithms/minimum_eigen_optimizer.py:MinimumEigenOptimizer.solve", "qiskit_optimization/algorithms/grover_optimizer.py:GroverOptimizer.solve", "qiskit_optimization/applications/max_cut.py:Maxcut.interpret", "qiskit_optimization/applications/tsp.py:Tsp.to_quadratic_program", "qiskit_optimization/applications/vehicle_routing.py:VehicleRouting.interpret"]}
{"id": "C89", "title": "A conversion that raises does not spoil the converter", "statement": "After convert raised, interpret of the converter still answers for the last problem that was converted.", "quantifier": "for every converter class, every history of conversions and every problem whose conversion raises", "why_tests_cant": "It needs two problems, the second of which fails half-way; every converter stores the problem before it starts.", "anchors": ["qiskit_optimization/converters/quadratic_program_to_qubo.py:QuadraticProgramToQubo.convert", "qiskit_optimization/converters/inequality_to_equality.py:InequalityToEquality.convert", "qiskit_optimization/converters/integer_to_binary.py:IntegerToBinary.convert", "qiskit_optimization/converters/linear_equality_to_penalty.py:LinearEqualityToPenalty.convert"]}
{"id": "C90", "title": "Compatibility messages say what is wrong, and incompatible problems are refused unsolved", "statement": "get_compatibility_msg mentions continuous variables, quadratic constraints and fractional coefficients exactly if the problem has them and is empty exactly for supported problems; solve raises QiskitOptimizationError on the others before any solver or converter is called, and leaves them unchanged.", "quantifier": "for every problem, every optimizer of the package and every solver handed to it", "why_tests_cant": "Tests check that one bad problem per optimizer raises; the message and the converse need all combinations.", "anchors": ["qiskit_optimization/converters/quadratic_program_to_qubo.py:QuadraticProgramToQubo.get_compatibility_msg", "qiskit_optimization/algorithms/optimization_algorithm.py:OptimizationAlgorithm._verify_compatibility", "qiskit_optimization/algorithms/cobyla_optimizer.py:CobylaOptimizer.get_compatibility_msg", "qiskit_optimization/algorithms/slsqp_optimizer.py:SlsqpOptimizer.get_compatibility_msg", "qiskit_optimization/algorithms/goemans_williamson_optimizer.py:GoemansWilliamsonOptimizer.get_compatibility_msg", "qiskit_optimization/algorithms/admm_optimizer.py:ADMMOptimizer.get_compatibility_msg"]}
{"id": "C91", "title": "The settings of the optimizers are checked and used", "statement": "The constructors of the QUBO based optimizers accept exactly valid settings, raise the documented exception otherwise, and use the converters and the penalty they are given.", "quantifier": "for every number of variables, epsilon, number of initial solutions, penalty and converter argument", "why_tests_cant": "Tests construct optimizers with a few good settings; ignored or wrongly refused settings show up nowhere.", "anchors": ["qiskit_optimization/algorithms/optimization_algorithm.py:OptimizationAlgorithm._prepare_converters", "qiskit_optimization/algorithms/minimum_eigen_optimizer.py:MinimumEigenOptimizer.__init__", "qiskit_optimization/algorithms/recursive_minimum_eigen_optimizer.py:RecursiveMinimumEigenOptimizer.__init__", "qiskit_optimization/algorithms/grover_optimizer.py:GroverOptimizer.__init__", "qiskit_optimization/algorithms/warm_start_qaoa_optimizer.py:WarmStartQAOAOptimizer.__init__"]}
{"id": "C92", "title": "A call changes what it names and nothing else, and clear gives a new program", "statement": "After any successful call the program differs from before in the attribute, element or list that the call is for and in nothing else, and there it has the value given; a cleared program has no name, holds nothing, and every later history gives what it gives on a new program.", "quantifier": "for every program state, every call of the API with any arguments, every later history", "why_tests_cant": "Tests look at what changed, seldom at everything that must not; the state space is unbounded.", "anchors": ["qiskit_optimization/problems/quadratic_program.py:QuadraticProgram.clear", "qiskit_optimization/problems/quadratic_program.py:QuadraticProgram.name", "qiskit_optimization/problems/variable.py:Variable.lowerbound", "qiskit_optimization/problems/constraint.py:Constraint.sense", "qiskit_optimization/problems/quadratic_objective.py:QuadraticObjective.linear"]}
{"id": "C93", "title": "A gradient is returned only where the objective has a value", "statement": "If evaluate_gradient of the objective returns at a point, evaluate returns there too, and the gradient has one entry for each variable.", "quantifier": "for every order of building a program and every point", "why_tests_cant": "It fails only if parts of the objective were set at different times, which tests of expressions do not do.", "anchors": ["qiskit_optimization/problems/quadratic_objective.py:QuadraticObjective.evaluate_gradient", "qiskit_optimization/problems/linear_expression.py:LinearExpression.evaluate_gradient"]}
{"id": "C94", "title": "Loading a model replaces what the program held", "statement": "from_docplex, read_from_lp_file and from_ising make of any program the program of the model or operator, whatever the program held before; if they raise, the program is as it was.", "quantifier": "for every program state, every docplex model, LP file, reader and qubit operator", "why_tests_cant": "Tests load into new programs; what a used program turns into, and what a failed load leaves, is not looked at.", "anchors": ["qiskit_optimization/problems/quadratic_program.py:QuadraticProgram.from_docplex", "qiskit_optimization/problems/quadratic_program.py:QuadraticProgram.read_from_lp_file", "qiskit_optimization/problems/quadratic_program.py:QuadraticProgram.from_ising", "qiskit_optimization/problems/quadratic_program.py:QuadraticProgram.clear"]}
{"id": "C95", "title": "ADMM answers when its optimizers do", "statement": "If both optimizers answer every problem with one number per variable, the ADMM optimizer returns a result for every compatible problem, provided its parameters and the clock allow a round.", "quantifier": "for every program, all parameters, all optimizers, norms and clocks", "why_tests_cant": "Tests run solvable problems with real optimizers; that nothing in between raises, such as the texts made for debug messages, is not looked at.", "anchors": ["qiskit_optimization/algorithms/admm_optimizer.py:ADMMOptimizer.solve", "qiskit_optimization/algorithms/admm_optimizer.py:ADMMOptimizer._create_step1_problem", "qiskit_optimization/algorithms/admm_optimizer.py:ADMMOptimizer._create_step2_problem", "qiskit_optimization/algorithms/admm_optimizer.py:ADMMOptimizer._create_step3_problem"]}
{"id": "C96", "title": "The encoding of integers withstands the rounding of the logarithm", "statement": "IntegerToBinary takes the number of bits for an integer variable from a logarithm computed with floats. The bits stand for exactly the integers between the bounds all the same.", "quantifier": "for all integer bounds and every function that may be used as the logarithm, given its error", "why_tests_cant": "Tests use small ranges; a rounded logarithm gives another power than the exact one only for ranges beyond 2^49.", "anchors": ["qiskit_optimization/converters/integer_to_binary.py:IntegerToBinary._convert_var", "qiskit_optimization/converters/integer_to_binary.py:IntegerToBinary.convert"]}
{"id": "C97", "title": "Values and feasibility withstand the rounding of floats", "statement": "evaluate, get_feasibility_info and is_feasible compute with floats. For whole numbers that are not too large they give the exact answers. Otherwise a value is off by at most a bound that depends on the number of terms and their sizes, and a point is reported as feasible exactly if it satisfies the constraints as written.", "quantifier": "for all programs and points, every rounding with a given relative error, every order in which the terms are added", "why_tests_cant": "Tests compare with tolerances, use small whole numbers, and see one order of additions.", "anchors": ["qiskit_optimization/problems/quadratic_program.py:QuadraticProgram.get_feasibility_info", "qiskit_optimization/problems/quadratic_program.py:QuadraticProgram.is_feasible", "qiskit_optimization/problems/linear_expression.py:LinearExpression.evaluate", "qiskit_optimization/problems/quadratic_expression.py:QuadraticExpression.evaluate", "qiskit_optimization/problems/quadratic_objective.py:QuadraticObjective.evaluate"]}
{"id": "C98", "title": "The nodes of a graph are the variables of its program", "statement": "The graph applications take the nodes to be 0, ..., n-1. A program is made only for graphs labelled so, whatever the order of the nodes, and answers name nodes of the graph; other labels are refused. A graph given as a symmetric matrix has the entries as weights.", "quantifier": "for all graphs with any labels in any order, all matrices, all points", "why_tests_cant": "Tests use graphs with nodes 0, ..., n-1 in order.", "anchors": ["qiskit_optimization/applications/graph_optimization_application.py:GraphOptimizationApplication", "qiskit_optimization/applications/clique.py:Clique.to_quadratic_program", "qiskit_optimization/applications/max_cut.py:Maxcut.to_quadratic_program", "qiskit_optimization/applications/stable_set.py:StableSet.to_quadratic_program", "qiskit_optimization/applications/vertex_cover.py:VertexCover.to_quadratic_program", "qiskit_optimization/applications/graph_partition.py:GraphPartition.to_quadratic_program", "qiskit_optimization/applications/tsp.py:Tsp.to_quadratic_program"]}
{"id": "C99", "title": "The history of the recursive optimizer accounts for its replacements", "statement": "With ALL_ITERATIONS the history holds one result per eliminated variable, in order: each is the answer of the optimizer for the program left by the rounds before, and the pair with its strongest correlation is the replacement reported for that round; the last entry is the answer for the remaining problem. LAST_ITERATION keeps the last entry only, NO_ITERATIONS nothing. The setting changes neither the answer, nor the replacements, nor errors, nor the caller's problem.", "quantifier": "for all problems, converters, answers of the inner optimizers, numbers of remaining variables and settings", "why_tests_cant": "Tests look at the length of the history of one problem.", "anchors": ["qiskit_optimization/algorithms/recursive_minimum_eigen_optimizer.py:RecursiveMinimumEigenOptimizer.solve", "qiskit_optimization/algorithms/recursive_minimum_eigen_optimizer.py:RecursiveMinimumEigenOptimizationResult.history", "qiskit_optimization/algorithms/recursive_minimum_eigen_optimizer.py:IntermediateResult"]}
{"id": "C100", "title": "A program can be printed, and the text tells programs apart", "statement": "repr, export_as_lp_string, pprint_as_string, prettyprint and write_to_lp_file succeed for every program, and two programs that give the same text have the same variables, objective and solutions.", "quantifier": "for all programs, all ways of printing and all printers of docplex models", "why_tests_cant": "Tests print a few feasible programs with free binary variables.", "anchors": ["qiskit_optimization/problems/quadratic_program.py:QuadraticProgram.__repr__", "qiskit_optimization/problems/quadratic_program.py:QuadraticProgram.export_as_lp_string", "qiskit_optimization/problems/quadratic_program.py:QuadraticProgram.pprint_as_string", "qiskit_optimization/problems/quadratic_program.py:QuadraticProgram.prettyprint", "qiskit_optimization/problems/quadratic_program.py:QuadraticProgram.write_to_lp_file"]}
