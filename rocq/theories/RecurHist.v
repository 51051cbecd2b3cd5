(** * The history of RecursiveMinimumEigenOptimizer
    recursive_minimum_eigen_optimizer.py:44-112 and 209-330, with the parameter [history].

    Simplification: the results are values, as in [Recur]; a result kept in the history is not changed by later rounds. *)
From Verif Require Export Recur.
Local Open Scope nat_scope.

(** IntermediateResult, recursive_minimum_eigen_optimizer.py:44-58 *)
Inductive intermediate := NO_ITERATIONS | LAST_ITERATION | ALL_ITERATIONS.

Section History.
Variables (keep_zeros : bool) (hist : intermediate).

(** [optimization_results.append(res)], recursive_minimum_eigen_optimizer.py:236-238 *)
Definition keep_result (acc : list opt_result) (res : result opt_result) : list opt_result :=
  match hist, res with ALL_ITERATIONS, Ok r => acc ++ [r] | _, _ => acc end.
(** The while loop with the list of results, recursive_minimum_eigen_optimizer.py:232-281 *)
Fixpoint history_loop (fuel : nat) (inner : nat -> qp -> result opt_result) (min k : nat) (s : rstate) (acc : list opt_result)
    : rstate * list opt_result * result unit :=
  if min <? num_vars (rs_cur s)
  then match fuel with
       | O => (s, acc, Err OutOfFuel)
       | S f => let res := inner k (rs_cur s) in
                match reduce_round keep_zeros s res with
                | (s', Ok _) => history_loop f inner min (S k) s' (keep_result acc res)
                | (s', Err e) => (s', keep_result acc res, Err e)
                end
       end
  else (s, acc, Ok tt).
(** What RecursiveMinimumEigenOptimizationResult adds, recursive_minimum_eigen_optimizer.py:61-112: replacements and history *)
Record recursive_result := mkRec { rr_result : opt_result; rr_replacements : repls; rr_history : list opt_result * option opt_result }.
(** [history], recursive_minimum_eigen_optimizer.py:311-316 *)
Definition build_history (acc : list opt_result) (r : opt_result) : list opt_result * option opt_result :=
  (acc, match hist with NO_ITERATIONS => None | _ => Some r end).
(** solve, recursive_minimum_eigen_optimizer.py:209-330 *)
Definition recursive_history (inner : nat -> qp -> result opt_result) (final : qp -> result opt_result) (min : nat)
    (cs : list converter) (p : qp) : qp * result recursive_result :=
  if qubo_compatible p
  then match convert_all cs p with
       | Err e => (p, Err e)
       | Ok (q, fs) =>
           match history_loop (num_vars q) inner min 0 (mkR p q (match cs with [] => true | _ => false end) []) [] with
           | (s, _, Err e) => (rs_orig s, Err e)
           | (s, acc, Ok _) =>
               (rs_orig s, do r <- final (rs_cur s);
                           do vals <- base_values (p_vars (rs_cur s)) (r_x r);
                           do x <- unroll (rs_repl s) vals (var_names q);
                           do res <- interpret (rs_orig s) fs [] x;
                           Ok (mkRec res (rs_repl s) (build_history acc r)))
           end
       end
  else (p, Err QiskitOptimizationError).
End History.
