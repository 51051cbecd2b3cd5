(** * Numerical solvers
    multistart_optimizer.py, cobyla_optimizer.py, slsqp_optimizer.py.

    The routines of scipy and the random numbers are given. *)
From Verif Require Export Algo.
Local Open Scope string_scope.
Local Open Scope list_scope.
Local Open Scope nat_scope.

(** ** MultiStartOptimizer *)
(** [uniform.rvs(loc, scale)], [u] in [0, 1) being drawn; a negative scale raises *)
Definition uniform (u lo width : Qc) : result Qc := if qltb width 0 then Err ValueError else Ok (lo + u * width)%Qc.
(** The first guess of trial [t], multistart_optimizer.py:78-83 *)
Definition first_guess (clip : Qc) (draw : nat -> nat -> Qc) (p : qp) (t : nat) : result (list Qc) :=
  match t with
  | O => Ok (repeat 0%Qc (num_vars p))
  | _ => mapM (fun iv => let lo := if qltb (- INFINITY) (v_lb (snd iv)) then v_lb (snd iv) else (- clip)%Qc in
                         let hi := if qltb (v_ub (snd iv)) INFINITY then v_ub (snd iv) else clip in
                         uniform (draw t (fst iv)) lo (hi - lo)%Qc) (combine (seq 0 (num_vars p)) (p_vars p))
  end.
(** One trial, multistart_optimizer.py:77-96; the state is [fval_sol] and [x_sol] *)
Definition trial_step (clip : Qc) (draw : nat -> nat -> Qc) (minimize : nat -> list Qc -> result (list Qc)) (p : qp)
    (st : Qc * option (list Qc)) (t : nat) : result (Qc * option (list Qc)) :=
  do x0 <- first_guess clip draw p t;
  do x <- minimize t x0;
  do f <- obj_eval (env_of p) (p_obj p) (XList x);
  let fval := (f * sense_val (o_sense (p_obj p)))%Qc in
  if qltb fval (fst st) then Ok ((fval * sense_val (o_sense (p_obj p)))%Qc, Some x) else Ok st.
(** multi_start_solve, multistart_optimizer.py:58-104; the feasibility check of None raises TypeError *)
Definition multi_start (trials : nat) (clip : Qc) (draw : nat -> nat -> Qc) (minimize : nat -> list Qc -> result (list Qc)) (p : qp) : result opt_result :=
  do st <- foldM (trial_step clip draw minimize p) (seq 0 trials) (INFINITY, None);
  match snd st with
  | None => Err TypeError
  | Some x => do s <- feas_status p x; make_result (Some x) (Some (fst st)) (p_vars p) s []
  end.

(** ** Compatibility: only continuous variables, cobyla_optimizer.py:86-102, slsqp_optimizer.py:153-169 *)
Definition continuous_only (p : qp) : bool :=
  length (p_vars p) <=? length (filter (fun v => match v_type v with CONTINUOUS => true | _ => false end) (p_vars p)).

(** ** CobylaOptimizer.solve, cobyla_optimizer.py:104-178 *)
(** The objective handed to the routines, cobyla_optimizer.py:121-122, slsqp_optimizer.py:188-189 *)
Definition handed_objective (p : qp) (x : list Qc) : result Qc :=
  do f <- obj_eval (env_of p) (p_obj p) (XList x); Ok (sense_val (o_sense (p_obj p)) * f)%Qc.
(** [x[j]]; cobyla_optimizer.py:134, 140 *)
Definition coord (x : list Qc) (j : nat) : result Qc := match nth_error x j with Some a => Ok a | None => Err IndexError end.
(** The bounds, cobyla_optimizer.py:128-142 *)
Definition cobyla_bounds (p : qp) : list (list Qc -> result Qc) :=
  flat_map (fun iv => (if qltb (- INFINITY) (v_lb (snd iv)) then [fun x => do a <- coord x (fst iv); Ok (a - v_lb (snd iv))%Qc] else []) ++
                      (if qltb (v_ub (snd iv)) INFINITY then [fun x => do a <- coord x (fst iv); Ok (v_ub (snd iv) - a)%Qc] else []))
    (combine (seq 0 (num_vars p)) (p_vars p)).
(** [rhs - c.evaluate(x)] and [c.evaluate(x) - rhs]; cobyla_optimizer.py:154-160, slsqp_optimizer.py:214-218 *)
Definition below (p : qp) (c : anycon) (x : list Qc) : result Qc := do v <- any_eval p c x; Ok (any_rhs c - v)%Qc.
(** The other difference, cobyla_optimizer.py:155, 160, slsqp_optimizer.py:218 *)
Definition above (p : qp) (c : anycon) (x : list Qc) : result Qc := do v <- any_eval p c x; Ok (v - any_rhs c)%Qc.
(** The constraints, cobyla_optimizer.py:146-162 *)
Definition cobyla_constraints (p : qp) : list (list Qc -> result Qc) :=
  cobyla_bounds p ++
  flat_map (fun c => match any_sense c with EQ => [below p c; above p c] | LE => [below p c] | GE => [above p c] end) (all_cons p).
(** [routine objective constraints t x0] is the call of fmin_cobyla *)
Definition cobyla_solve (routine : (list Qc -> result Qc) -> list (list Qc -> result Qc) -> nat -> list Qc -> result (list Qc))
    (trials : nat) (clip : Qc) (draw : nat -> nat -> Qc) (p : qp) : result opt_result :=
  if continuous_only p then multi_start trials clip draw (routine (handed_objective p) (cobyla_constraints p)) p
  else Err QiskitOptimizationError.

(** ** SlsqpOptimizer.solve, slsqp_optimizer.py:171-262; the raw output is left out *)
(** slsqp_optimizer.py:191-192 *)
Definition handed_gradient (p : qp) (x : list Qc) : result (list Qc) :=
  do g <- obj_grad (env_of p) (p_obj p) (XList x); Ok (map (fun a => sense_val (o_sense (p_obj p)) * a)%Qc g).
(** slsqp_optimizer.py:200-203 *)
Definition slsqp_bounds (p : qp) : list (Qc * Qc) := map (fun v => (v_lb v, v_ub v)) (p_vars p).
(** slsqp_optimizer.py:207-220 *)
Definition slsqp_eq (p : qp) : list (list Qc -> result Qc) :=
  flat_map (fun c => match any_sense c with EQ => [below p c] | _ => [] end) (all_cons p).
(** The inequalities, slsqp_optimizer.py:215-218 *)
Definition slsqp_ineq (p : qp) : list (list Qc -> result Qc) :=
  flat_map (fun c => match any_sense c with EQ => [] | LE => [below p c] | GE => [above p c] end) (all_cons p).
(** What fmin_slsqp gets, slsqp_optimizer.py:224-235 *)
Record slsqp_problem := mkSlsqp { sq_obj : list Qc -> result Qc; sq_grad : list Qc -> result (list Qc); sq_bounds : list (Qc * Qc);
  sq_eq : list (list Qc -> result Qc); sq_ineq : list (list Qc -> result Qc) }.
(** What fmin_slsqp gets, slsqp_optimizer.py:187-235 *)
Definition slsqp_handed (p : qp) : slsqp_problem := mkSlsqp (handed_objective p) (handed_gradient p) (slsqp_bounds p) (slsqp_eq p) (slsqp_ineq p).
(** solve, slsqp_optimizer.py:171-262 *)
Definition slsqp_solve (routine : slsqp_problem -> nat -> list Qc -> result (list Qc))
    (trials : nat) (clip : Qc) (draw : nat -> nat -> Qc) (p : qp) : result opt_result :=
  if continuous_only p then
    do r <- multi_start trials clip draw (routine (slsqp_handed p)) p;
    match r_x r with
    | None => Err TypeError
    | Some x => do s <- feas_status p x; make_result (Some x) (r_fval r) (r_vars r) s []
    end
  else Err QiskitOptimizationError.
