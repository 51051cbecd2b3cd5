(** * CplexOptimizer
    cplex_optimizer.py.

    Simplifications: what CPLEX makes of a docplex model is a function; the display settings and the installation test are left out. *)
From Verif Require Export Docplex Algo.
Local Open Scope nat_scope.

(** What [cplex.solve()] and [cplex.solution] give for the model, cplex_optimizer.py:130-142: values and the objective value, an exception of
    [solve], or no solution, in which case [get_values] raises CplexSolverError *)
Inductive cplex_outcome := CSolved (x : list Qc) (f : Qc) | CRaises | CNothing.
(** get_compatibility_msg, cplex_optimizer.py:88-101, is empty for every problem.
    solve, cplex_optimizer.py:103-148; an exception of [cplex.solve] is turned into QiskitOptimizationError (lines 130-133), one of [get_values] is not *)
Definition cplex_solve (cplex : dmodel -> cplex_outcome) (p : qp) : result opt_result :=
  do m <- to_docplex p;
  match cplex m with
  | CRaises => Err QiskitOptimizationError
  | CNothing => Err CplexSolverError
  | CSolved x f => do st <- feas_status p x; make_result (Some x) (Some f) (p_vars p) st []
  end.
