(** * Substitution of variables

    Models the class SubstituteVariables, qiskit_optimization/problems/quadratic_program.py:1512-1790. *)
From Verif Require Export Conv.
Local Open Scope string_scope.
Local Open Scope list_scope.
Local Open Scope nat_scope.

(** quadratic_program.py:1516 *)
Definition CONST : string := "__CONSTANT__".

(** [_subs]: the name of a replaced variable to (name or CONST, factor), in insertion order; quadratic_program.py:1595, 1604, 1628 *)
Definition subs_t := list (string * (string * Qc)).

(** _subs_dict, quadratic_program.py:1593-1604 *)
Definition subs_const (src : qp) (subs : subs_t) (kv : key * Qc) : result subs_t :=
  do x <- get_variable src (fst kv);
  if dhas String.eqb (v_name x) subs then Err QiskitOptimizationError
  else Ok (dset String.eqb (v_name x) (CONST, snd kv) subs).
(** _subs_dict, quadratic_program.py:1606-1628 *)
Definition subs_var (src : qp) (subs : subs_t) (kv : key * (key * Qc)) : result subs_t :=
  let '(i, (j, v)) := kv in
  if qeqb v 0 then Err QiskitOptimizationError
  else
    do x <- get_variable src i;
    do y <- get_variable src j;
    if String.eqb (v_name x) (v_name y) then Err QiskitOptimizationError
    else if dhas String.eqb (v_name x) subs then Err QiskitOptimizationError
    else if dhas String.eqb (v_name y) subs then Err QiskitOptimizationError
    else Ok (dset String.eqb (v_name x) (v_name y, v) subs).
(** _subs_dict, quadratic_program.py:1593-1630; an argument None behaves like an empty dictionary *)
Definition subs_dict (src : qp) (constants : list (key * Qc)) (variables : list (key * (key * Qc))) : result subs_t :=
  do s <- foldM (subs_const src) constants [];
  foldM (subs_var src) variables s.

(** A bound divided by the factor, quadratic_program.py:1659-1666 *)
Definition scale_bound (b v : Qc) : Qc :=
  if qltb (qabs b) INFINITY then (b / v)%Qc else if qltb 0 v then b else (- b)%Qc.
(** The new bounds of the replacing variable, quadratic_program.py:1667-1675; the setters raise if they cross *)
Definition tighten (vi : variable) (v : Qc) (vj : variable) : result variable :=
  let nl := scale_bound (v_lb vi) v in
  let nu := scale_bound (v_ub vi) v in
  if qltb 0 v
  then do w <- var_set_lb vj (qmax (v_lb vj) nl); var_set_ub w (qmin (v_ub vj) nu)
  else do w <- var_set_lb vj (qmax (v_lb vj) nu); var_set_ub w (qmin (v_ub vj) nl).

(** _variables, quadratic_program.py:1635-1641 *)
Definition sub_copy (subs : subs_t) (dst : qp) (v : variable) : result qp :=
  if dhas String.eqb (v_name v) subs then Ok dst
  else ok_state (add_variable dst (v_lb v) (v_ub v) (v_type v) (Some (v_name v))).
(** _variables, quadratic_program.py:1643-1675; the state is (dst, feasible) *)
Definition sub_bound (src : qp) (st : qp * bool) (e : string * (string * Qc)) : result (qp * bool) :=
  let '(i, (j, v)) := e in
  do vi <- get_variable src (KS i);
  if String.eqb j CONST
  then Ok (fst st, snd st && (qleb (v_lb vi) v && qleb v (v_ub vi)))
  else if qeqb v 0 then Err QiskitOptimizationError
  else do dst <- ok_state (on_variable (fst st) (KS j) (tighten vi v)); Ok (dst, snd st).
(** _variables, quadratic_program.py:1632-1687 *)
Definition sub_variables (src : qp) (subs : subs_t) (dst : qp) : result (qp * bool) :=
  do d <- foldM (sub_copy subs) (p_vars src) dst;
  do st <- foldM (sub_bound src) subs (d, true);
  Ok (fst st, snd st && forallb (fun v => negb (qltb (v_ub v) (v_lb v))) (p_vars (fst st))).

(** [self._subs[i] if i in self._subs else (i, 1)] *)
Definition repl (subs : subs_t) (i : string) : string * Qc :=
  match dget String.eqb i subs with Some r => r | None => (i, 1%Qc) end.

(** _linear_expression, quadratic_program.py:1689-1705: the list of constants and the expression *)
Definition sub_lin_step (subs : subs_t) (st : list Qc * list (string * Qc)) (kv : string * Qc) : list Qc * list (string * Qc) :=
  let r := repl subs (fst kv) in
  let prod := (snd kv * snd r)%Qc in
  if String.eqb (fst r) CONST then (fst st ++ [prod], snd st) else (fst st, dadd String.eqb (fst r) prod (snd st)).
(** _linear_expression, quadratic_program.py:1689-1705 *)
Definition sub_lin (src : qp) (subs : subs_t) (dst : qp) (e : linexpr) : result (list Qc * linexpr) :=
  do d <- lin_to_dict_names (var_names src) e;
  let st := fold_left (sub_lin_step subs) d ([], []) in
  do l <- lin_make (env_of dst) (lcoef_or_empty (by_name (snd st)));
  Ok (fst st, l).

(** _quadratic_expression, quadratic_program.py:1707-1730 *)
Definition sub_quad_step (subs : subs_t) (st : list Qc * list (string * Qc) * list ((string * string) * Qc)) (kv : (string * string) * Qc)
  : list Qc * list (string * Qc) * list ((string * string) * Qc) :=
  let '(c, l, q) := st in
  let ri := repl subs (fst (fst kv)) in
  let rj := repl subs (snd (fst kv)) in
  let prod := (snd kv * snd ri * snd rj)%Qc in
  match String.eqb (fst ri) CONST, String.eqb (fst rj) CONST with
  | false, false => (c, l, dadd str2_eqb (fst ri, fst rj) prod q)
  | false, true => (c, dadd String.eqb (fst ri) prod l, q)
  | true, false => (c, dadd String.eqb (fst rj) prod l, q)
  | true, true => (c ++ [prod], l, q)
  end.
(** _quadratic_expression, quadratic_program.py:1707-1730 *)
Definition sub_quad (src : qp) (subs : subs_t) (dst : qp) (e : quadexpr) : result (list Qc * linexpr * quadexpr) :=
  do d <- quad_to_dict_names (var_names src) false e;
  let '(c, l, q) := fold_left (sub_quad_step subs) d ([], [], []) in
  do le <- lin_make (env_of dst) (lcoef_or_empty (by_name l));
  do qe <- quad_make (env_of dst) (qcoef_or_empty (by_name2 q));
  Ok (c, le, qe).

Section Substitution.
(** Whether scipy's sum of two dok matrices keeps entries that cancel; this differs between scipy versions. *)
Variable keep_zeros : bool.

(** [lin1.coefficients + lin2.coefficients]: scipy's sum of two dok matrices *)
Definition dok_add (a b : linexpr) : result linexpr :=
  if Nat.eqb (le_dim a) (le_dim b)
  then Ok (mkLin (le_dim a) (le_int a && le_int b)
         (fold_left (fun co kv => let s := (dgetq Nat.eqb (fst kv) co + snd kv)%Qc in
                                  if keep_zeros then dset Nat.eqb (fst kv) s co else dok_put Nat.eqb (fst kv) s co)
                    (le_co b) (le_co a)))
  else Err ValueError.

(** [math.fsum]; quadratic_program.py:1737, 1749, 1768 *)
Definition fsum (l : list Qc) : Qc := fold_left Qcplus l 0%Qc.

(** _objective, quadratic_program.py:1732-1743 *)
Definition sub_objective (src : qp) (subs : subs_t) (dst : qp) : result qp :=
  let o := p_obj src in
  do l <- sub_lin src subs dst (o_lin o);
  do q <- sub_quad src subs dst (o_quad o);
  let '(c2, l2, q2) := q in
  do lin <- dok_add (snd l) l2;
  ok_state (set_objective dst (o_sense o) (fsum ([o_const o] ++ fst l ++ c2)) (Some (LSparse lin)) (Some (QSparse q2))).

(** _feasible, quadratic_program.py:1567-1582 *)
Definition zero_feasible (s : csense) (rhs : Qc) : bool :=
  match s with EQ => qeqb 0 rhs | LE => qleb 0 rhs | GE => qleb rhs 0 end.

(** _linear_constraints, quadratic_program.py:1745-1761; the state is (dst, feasible) *)
Definition sub_lincon (src : qp) (subs : subs_t) (st : qp * bool) (c : lincon) : result (qp * bool) :=
  do l <- sub_lin src subs (fst st) (lc_lin c);
  let rhs := (- fsum ([(- lc_rhs c)%Qc] ++ fst l))%Qc in
  match le_co (snd l) with
  | _ :: _ => do dst <- ok_state (linear_constraint (fst st) (Some (LSparse (snd l))) (SVal (lc_sense c)) rhs (Some (lc_name c)));
              Ok (dst, snd st)
  | [] => Ok (fst st, snd st && zero_feasible (lc_sense c) rhs)
  end.

(** The loop prefixing underscores, quadratic_program.py:1780-1783 *)
Fixpoint free_name (fuel : nat) (taken : list string) (name : string) : result string :=
  match fuel with
  | O => Err OutOfFuel
  | S f => if str_mem name taken then free_name f taken ("_" ++ name)%string else Ok name
  end.

(** _quadratic_constraints, quadratic_program.py:1763-1790 *)
Definition sub_quadcon (src : qp) (subs : subs_t) (st : qp * bool) (c : quadcon) : result (qp * bool) :=
  do l <- sub_lin src subs (fst st) (qc_lin c);
  do q <- sub_quad src subs (fst st) (qc_quad c);
  let '(c2, l2, q2) := q in
  let rhs := (- fsum ([(- qc_rhs c)%Qc] ++ fst l ++ c2))%Qc in
  do lin <- dok_add (snd l) l2;
  match qe_co q2, le_co lin with
  | _ :: _, _ =>
      do dst <- ok_state (quadratic_constraint (fst st) (Some (LSparse lin)) (Some (QSparse q2)) (SVal (qc_sense c)) rhs (Some (qc_name c)));
      Ok (dst, snd st)
  | [], _ :: _ =>
      let taken := map lc_name (p_lcs (fst st)) in
      do name <- free_name (S (length taken)) taken (qc_name c);
      do dst <- ok_state (linear_constraint (fst st) (Some (LSparse lin)) (SVal (qc_sense c)) rhs (Some name));
      Ok (dst, snd st)
  | [], [] => Ok (fst st, snd st && zero_feasible (qc_sense c) rhs)
  end.

(** substitute_variables, quadratic_program.py:1523-1564 *)
Definition substitute (src : qp) (constants : list (key * Qc)) (variables : list (key * (key * Qc))) : result qp :=
  do subs <- subs_dict src constants variables;
  do v <- sub_variables src subs (new_qp (p_name src));
  do dst <- sub_objective src subs (fst v);
  do st1 <- foldM (sub_lincon src subs) (p_lcs src) (dst, snd v);
  do st2 <- foldM (sub_quadcon src subs) (p_qcs src) st1;
  Ok (if snd st2 then fst st2 else set_status INFEASIBLE (fst st2)).
End Substitution.
