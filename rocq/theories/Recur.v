(** * RecursiveMinimumEigenOptimizer
    recursive_minimum_eigen_optimizer.py.

    Simplifications: the history of intermediate results is in RecurHist.v; the inner optimizers are functions that do not modify the
    program given to them; [keep_zeros] is the parameter of the model of SubstituteVariables. *)
From Verif Require Export Algo Subst.
Local Open Scope nat_scope.

(** ** _find_strongest_correlation, recursive_minimum_eigen_optimizer.py:333-346 *)
(** [abs_correlations.flatten()], the diagonal set to -1 *)
Definition abs_row (i : nat) (row : list Qc) : list Qc :=
  map (fun jc => if Nat.eqb i (fst jc) then (- (1))%Qc else qabs (snd jc)) (combine (seq 0 (length row)) row).
(** The array whose maximum is taken, recursive_minimum_eigen_optimizer.py:336-341 *)
Definition abs_flat (m : list (list Qc)) : list Qc := concat (map (fun ir => abs_row (fst ir) (snd ir)) (combine (seq 0 (length m)) m)).
(** [np.argmax]: the first position of the maximum; raises on an empty array; recursive_minimum_eigen_optimizer.py:341 *)
Definition argmax_step (st : nat * nat * Qc) (a : Qc) : nat * nat * Qc :=
  let '(k, best, v) := st in if qltb v a then (S k, k, a) else (S k, best, v).
(** [np.argmax], recursive_minimum_eigen_optimizer.py:341 *)
Definition argmax (l : list Qc) : result nat :=
  match l with
  | [] => Err ValueError
  | a :: l' => Ok (snd (fst (fold_left argmax_step l' (1, 0, a))))
  end.
(** _find_strongest_correlation, recursive_minimum_eigen_optimizer.py:333-346 *)
Definition strongest (m : list (list Qc)) : result (nat * nat) :=
  do k <- argmax (abs_flat m);
  let i := k / length m in
  Ok (i, k - i * length m).

(** ** The rounds *)
(** [1e-10], recursive_minimum_eigen_optimizer.py:272 *)
Definition TINY : Qc := (1 / qz 10000000000)%Qc.
(** The constant, recursive_minimum_eigen_optimizer.py:258-261 *)
Definition shift_const (p : qp) (i : nat) : qp * result unit :=
  on_objective p (fun o => do l <- lin_get (env_of p) (o_lin o) (KI (Z.of_nat i));
                           do q <- quad_get (env_of p) (o_quad o) (KI (Z.of_nat i), KI (Z.of_nat i));
                           Ok (mkObj (o_const o + l + q) (o_lin o) (o_quad o) (o_sense o))%Qc).
(** One linear coefficient, recursive_minimum_eigen_optimizer.py:264-275, written in place *)
Definition shift_coef (i : nat) (p : qp) (k : nat) : qp * result unit :=
  on_objective p (fun o => do l <- lin_get (env_of p) (o_lin o) (KI (Z.of_nat k));
                           do q <- quad_get (env_of p) (o_quad o) (KI (Z.of_nat i), KI (Z.of_nat k));
                           let coeff := (if Nat.eqb k i then l + qz 2 * q else l + q)%Qc in
                           do e <- lin_set (env_of p) (o_lin o) (KI (Z.of_nat k)) (if qltb TINY (qabs coeff) then coeff else 0%Qc);
                           Ok (mkObj (o_const o) e (o_quad o) (o_sense o))).
(** The loop over the linear coefficients, recursive_minimum_eigen_optimizer.py:264-275 *)
Fixpoint shift_coefs (i : nat) (p : qp) (ks : list nat) : qp * result unit :=
  match ks with
  | [] => (p, Ok tt)
  | k :: ks' => match shift_coef i p k with (p', Ok _) => shift_coefs i p' ks' | (p', Err e) => (p', Err e) end
  end.
(** x_i = 1 + x_i in the objective, recursive_minimum_eigen_optimizer.py:258-275; constraints are left as they are *)
Definition shift_objective (p : qp) (i : nat) : qp * result unit :=
  match shift_const p i with (p', Ok _) => shift_coefs i p' (seq 0 (num_vars p)) | (p', Err e) => (p', Err e) end.

(** [replacements]: the name of a variable to (name, whether the values are equal rather than complementary); recursive_minimum_eigen_optimizer.py:231, 251, 281 *)
Definition repls := list (string * (string * bool)).

Section Recursive.
Variable keep_zeros : bool.

(** The state of the loop: the caller's object, the current program, whether both are the same object, the replacements; recursive_minimum_eigen_optimizer.py:227-233 *)
Record rstate := mkR { rs_orig : qp; rs_cur : qp; rs_same : bool; rs_repl : repls }.
(** Writing to the current program in place; recursive_minimum_eigen_optimizer.py:261, 273, 275 *)
Definition write_cur (s : rstate) (p : qp) : rstate := mkR (if rs_same s then p else rs_orig s) p (rs_same s) (rs_repl s).

(** substitute_variables and the check of its status, recursive_minimum_eigen_optimizer.py:248-250 and 278-280 *)
Definition reduce_subst (s : rstate) (i j : nat) (xi xj : string) (eq : bool) : rstate * result unit :=
  match substitute keep_zeros (rs_cur s) [] [(KI (Z.of_nat i), (KI (Z.of_nat j), if eq then 1%Qc else (- (1))%Qc))] with
  | Err e => (s, Err e)
  | Ok p' => match p_status p' with
             | INFEASIBLE => (mkR (rs_orig s) p' false (rs_repl s), Err QiskitOptimizationError)
             | VALID => (mkR (rs_orig s) p' false (dset String.eqb xi (xj, eq) (rs_repl s)), Ok tt)
             end
  end.
(** One round, recursive_minimum_eigen_optimizer.py:241-281, given the answer of the optimizer *)
Definition reduce_round (s : rstate) (res : result opt_result) : rstate * result unit :=
  let p := rs_cur s in
  match (do r <- res; do m <- get_correlations r; do ij <- strongest m;
         do vi <- py_nth (p_vars p) (Z.of_nat (fst ij)); do vj <- py_nth (p_vars p) (Z.of_nat (snd ij));
         Ok (m, ij, v_name vi, v_name vj)) with
  | Err e => (s, Err e)
  | Ok (m, (i, j), xi, xj) =>
      if qltb 0 (get2 m i j) then reduce_subst s i j xi xj true
      else match shift_objective p i with
           | (p', Err e) => (write_cur s p', Err e)
           | (p', Ok _) => reduce_subst (write_cur s p') i j xi xj false
           end
  end.
(** The while loop, recursive_minimum_eigen_optimizer.py:233-236; the optimizer is called with the number of the round *)
Fixpoint reduce_loop (fuel : nat) (inner : nat -> qp -> result opt_result) (min k : nat) (s : rstate) : rstate * result unit :=
  if min <? num_vars (rs_cur s)
  then match fuel with
       | O => (s, Err OutOfFuel)
       | S f => match reduce_round s (inner k (rs_cur s)) with
                | (s', Ok _) => reduce_loop f inner min (S k) s'
                | (s', Err e) => (s', Err e)
                end
       end
  else (s, Ok tt).

(** find_value, recursive_minimum_eigen_optimizer.py:291-304 *)
Fixpoint find_value (fuel : nat) (rep : repls) (vals : list (string * Qc)) (x : string) : result (Qc * list (string * Qc)) :=
  match dget String.eqb x vals with
  | Some v => Ok (v, vals)
  | None => match dget String.eqb x rep with
            | None => Err QiskitOptimizationError
            | Some (y, eq) => match fuel with
                              | O => Err OutOfFuel
                              | S f => do vv <- find_value f rep vals y;
                                       let w := if eq then fst vv else (1 - fst vv)%Qc in
                                       Ok (w, dset String.eqb x w (snd vv))
                              end
            end
  end.
(** The values of the remaining variables, recursive_minimum_eigen_optimizer.py:287-289 *)
Definition base_values (vars : list variable) (x : option (list Qc)) : result (list (string * Qc)) :=
  foldM (fun d iv => match x with
                     | None => Err TypeError
                     | Some x => do a <- py_nth x (Z.of_nat (fst iv)); Ok (dset String.eqb (v_name (snd iv)) a d)
                     end) (combine (seq 0 (length vars)) vars) [].
(** Unrolling, recursive_minimum_eigen_optimizer.py:306-309 and 319 *)
Definition unroll (rep : repls) (vals : list (string * Qc)) (names : list string) : result (list Qc) :=
  do vals' <- foldM (fun d s => do vv <- find_value (S (length rep)) rep d s; Ok (snd vv)) names vals;
  mapM (fun s => match dget String.eqb s vals' with Some v => Ok v | None => Err KeyError end) names.

(** solve, recursive_minimum_eigen_optimizer.py:209-330: the caller's program afterwards, and the result with the replacements *)
Definition recursive_solve (inner : nat -> qp -> result opt_result) (final : qp -> result opt_result) (min : nat)
    (cs : list converter) (p : qp) : qp * result (opt_result * repls) :=
  if qubo_compatible p
  then match convert_all cs p with
       | Err e => (p, Err e)
       | Ok (q, fs) =>
           match reduce_loop (num_vars q) inner min 0 (mkR p q (match cs with [] => true | _ => false end) []) with
           | (s, Err e) => (rs_orig s, Err e)
           | (s, Ok _) =>
               (rs_orig s, do r <- final (rs_cur s);
                           do vals <- base_values (p_vars (rs_cur s)) (r_x r);
                           do x <- unroll (rs_repl s) vals (var_names q);
                           do res <- interpret (rs_orig s) fs [] x;
                           Ok (res, rs_repl s))
           end
       end
  else (p, Err QiskitOptimizationError).
End Recursive.
