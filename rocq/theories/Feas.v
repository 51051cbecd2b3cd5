(** * Feasibility report, quadratic_program.py:1452-1509 *)
From Verif Require Export Program.
Local Open Scope nat_scope.

(** math.isclose with its default tolerances (rel_tol=1e-09, abs_tol=0), as called in
    quadratic_program.py:1490. *)
Definition rel_tol : Qc := (1 / qz 1000000000)%Qc.
(** [isclose(lhs, constraint.rhs)], quadratic_program.py:1490 *)
Definition isclose (a b : Qc) : bool := qleb (qabs (a - b)%Qc) (rel_tol * qmax (qabs a) (qabs b))%Qc.

(** quadratic_program.py:1475-1478: [val < variable.lowerbound or variable.upperbound < val] *)
Definition var_violated (v : variable) (a : Qc) : bool := qltb a (v_lb v) || qltb (v_ub v) a.
(** quadratic_program.py:1482-1491 *)
Definition con_violated (s : csense) (lhs rhs : Qc) : bool :=
  match s with LE => qltb rhs lhs | GE => qltb lhs rhs | EQ => negb (isclose lhs rhs) end.

(** A violated constraint in the returned list: linear or quadratic; quadratic_program.py:1481-1484 *)
Inductive anycon := CLin (c : lincon) | CQuad (c : quadcon).
(** [constraint.sense], quadratic_program.py:1486-1490 *)
Definition any_sense (c : anycon) : csense := match c with CLin c => lc_sense c | CQuad c => qc_sense c end.
(** [constraint.rhs], quadratic_program.py:1486-1490 *)
Definition any_rhs (c : anycon) : Qc := match c with CLin c => lc_rhs c | CQuad c => qc_rhs c end.
(** [constraint.evaluate(x)], quadratic_program.py:1485 *)
Definition any_eval (p : qp) (c : anycon) (x : list Qc) : result Qc :=
  match c with CLin c => eval_lincon p c x | CQuad c => eval_quadcon p c x end.
(** Linear constraints, then quadratic ones, quadratic_program.py:1482-1484 *)
Definition all_cons (p : qp) : list anycon := map CLin (p_lcs p) ++ map CQuad (p_qcs p).

(** get_feasibility_info, quadratic_program.py:1452-1495.  [get_variable(i)] for the i-th value
    is the i-th variable. *)
Definition get_feasibility_info (p : qp) (x : list Qc) : result (bool * list variable * list anycon) :=
  if negb (Nat.eqb (length x) (num_vars p)) then Err QiskitOptimizationError
  else
    let vv := map fst (filter (fun va => var_violated (fst va) (snd va)) (combine (p_vars p) x)) in
    do vc <- foldM (fun acc c =>
                      do lhs <- any_eval p c x;
                      Ok (if con_violated (any_sense c) lhs (any_rhs c) then acc ++ [c] else acc)) (all_cons p) [];
    Ok (match vv, vc with [], [] => true | _, _ => false end, vv, vc).

(** is_feasible, quadratic_program.py:1497-1509 *)
Definition is_feasible (p : qp) (x : list Qc) : result bool :=
  do r <- get_feasibility_info p x; Ok (fst (fst r)).
