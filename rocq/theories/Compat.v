(** * Compatibility messages and the settings of the optimizers *)
From Verif Require Export Warm Recur Grover Solvers Cplex Admm.
Local Open Scope string_scope.
Local Open Scope list_scope.
Local Open Scope nat_scope.

(** ** Messages *)
(** QuadraticProgramToQubo.get_compatibility_msg, quadratic_program_to_qubo.py:96-136; the same message is used by
    MinimumEigenOptimizer (minimum_eigen_optimizer.py:151-163, and the warm start by inheritance),
    RecursiveMinimumEigenOptimizer (recursive_minimum_eigen_optimizer.py:195-207) and GroverOptimizer (grover_optimizer.py:107-119). *)
Definition qubo_msg (p : qp) : string :=
  (if 0 <? count_type CONTINUOUS p then "Continuous variables are not supported! " else "") ++
  (if 0 <? length (p_qcs p) then "Quadratic constraints are not supported. " else "") ++
  (if existsb (fun c => any_float (lin_to_dict (lc_lin c))) (p_lcs p)
      || existsb (fun c => any_float (quad_to_dict false (qc_quad c)) || any_float (lin_to_dict (qc_lin c))) (p_qcs p)
   then "Can not convert inequality constraints to equality constraint because                     float coefficients are in constraints. " else "").
(** cobyla_optimizer.py:86-102, slsqp_optimizer.py:153-169 *)
Definition continuous_msg (who : string) (p : qp) : string :=
  if count_type CONTINUOUS p <? length (p_vars p) then "The " ++ who ++ " optimizer supports only continuous variables" else "".
(** goemans_williamson_optimizer.py:122-138 *)
Definition gw_msg (p : qp) : string :=
  if Nat.eqb (count_type BINARY p) (num_vars p) then ""
  else "Only binary variables are supported, while the total number of variables " ++ str_nat (num_vars p) ++
       " and there are " ++ str_nat (count_type BINARY p) ++ " binary variables across them".
(** admm_optimizer.py:253-281: one sentence for every product *)
Definition admm_msg (p : qp) : result string :=
  foldM (fun msg i => foldM (fun msg j =>
    do a <- quad_get (env_of p) (o_quad (p_obj p)) (KI (Z.of_nat i), KI (Z.of_nat j));
    Ok (if qeqb a 0 then msg else (msg ++ "Binary and continuous variables are not separable in the objective. ")%string))
    (indices_of CONTINUOUS p) msg) (indices_of BINARY p) "".
(** cplex_optimizer.py:88-101 *)
Definition cplex_msg (p : qp) : string := "".

(** is_compatible, optimization_algorithm.py:300-309, quadratic_program_to_qubo.py:138-147 *)
Definition is_compatible (msg : string) : bool := Nat.eqb (String.length msg) 0.
(** _verify_compatibility, optimization_algorithm.py:328-346; [if msg:] *)
Definition verify (msg : string) : result unit := if String.eqb msg "" then Ok tt else Err QiskitOptimizationError.

(** ** Settings *)
(** The argument [converters]: None, a converter, a list (an element that is not a converter is None here), or anything else; optimization_algorithm.py:369, 388-397 *)
Inductive conv_arg := CNone | COne (c : converter) | CList (l : list (option converter)) | CElse.
(** _prepare_converters, optimization_algorithm.py:367-397 *)
Definition prepare_converters (a : conv_arg) (penalty : option Qc) : result (list converter) :=
  match a with
  | CNone => Ok [qubo_converter penalty]
  | COne c => Ok [c]
  | CList l => mapM (fun o => match o with Some c => Ok c | None => Err TypeError end) l
  | CElse => Err TypeError
  end.
(** MinimumEigenOptimizer.__init__, minimum_eigen_optimizer.py:115-149; [eigenstate]: supports_aux_operators() of the solver *)
Definition new_min_eigen (eigenstate : bool) (penalty : option Qc) (a : conv_arg) : result (list converter) :=
  if eigenstate then prepare_converters a penalty else Err QiskitOptimizationError.
(** RecursiveMinimumEigenOptimizer.__init__, recursive_minimum_eigen_optimizer.py:144-193.  validate_min of qiskit raises a ValueError. *)
Definition new_recursive (min : Z) (penalty : option Qc) (a : conv_arg) : result (nat * list converter) :=
  if (min <? 1)%Z then Err ValueError else do cs <- prepare_converters a penalty; Ok (Z.to_nat min, cs).
(** GroverOptimizer.__init__, grover_optimizer.py:48-82; the number of qubits and rounds is not looked at *)
Definition new_grover (n_value n_iter : nat) (a : conv_arg) (penalty : option Qc) : result (nat * nat * list converter) :=
  do cs <- prepare_converters a penalty; Ok (n_value, n_iter, cs).
(** WarmStartQAOAOptimizer.__init__, warm_start_qaoa_optimizer.py:208-277, with its settings of MinimumEigenOptimizer *)
Definition new_warm_start (eigenstate : bool) (pre : qp -> result opt_result) (relax : bool) (qaoa : list Qc -> eigensolver) (eps : Qc) (num : nat)
    (agg : option aggregator) (penalty : option Qc) (a : conv_arg) : result warm_opt :=
  do _ <- check (negb (qltb eps 0 || qltb (1 / qz 2)%Qc eps)) QiskitOptimizationError;
  do cs <- new_min_eigen eigenstate penalty a;
  new_warm pre relax qaoa eps num agg cs.
