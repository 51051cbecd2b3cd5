(** * QuadraticProgram as a state machine

    Models qiskit_optimization/problems/variable.py, constraint.py,
    linear_constraint.py, quadratic_constraint.py and the container part of
    quadratic_program.py.  Every API call returns the new state together with
    its result, so that effects made before an exception are visible. *)
From Verif Require Export Expr.
Local Open Scope string_scope.
Local Open Scope nat_scope.

(** ** Elements *)
(** variable.py:23-28 *)
Inductive vartype := CONTINUOUS | BINARY | INTEGER.
(** Equality of types, variable.py:23-28 *)
Definition vartype_eqb (a b : vartype) : bool :=
  match a, b with CONTINUOUS, CONTINUOUS | BINARY, BINARY | INTEGER, INTEGER => true | _, _ => false end.

(** variable.py:31-67 *)
Record variable := mkVar { v_name : string; v_lb : Qc; v_ub : Qc; v_type : vartype }.

(** infinity.py:16 *)
Definition INFINITY : Qc := qz 100000000000000000000.

(** Variable.__init__, variable.py:36-67 *)
Definition var_make (name : string) (lb ub : Qc) (ty : vartype) : result variable :=
  if qltb ub lb then Err QiskitOptimizationError else Ok (mkVar name lb ub ty).
(** lowerbound setter, variable.py:87-99 *)
Definition var_set_lb (v : variable) (lb : Qc) : result variable :=
  if qltb (v_ub v) lb then Err QiskitOptimizationError else Ok (mkVar (v_name v) lb (v_ub v) (v_type v)).
(** upperbound setter, variable.py:110-122 *)
Definition var_set_ub (v : variable) (ub : Qc) : result variable :=
  if qltb ub (v_lb v) then Err QiskitOptimizationError else Ok (mkVar (v_name v) (v_lb v) ub (v_type v)).

(** constraint.py:25-31 *)
Inductive csense := LE | GE | EQ.
(** Equality of senses, constraint.py:25-31 *)
Definition csense_eqb (a b : csense) : bool :=
  match a, b with LE, LE | GE, GE | EQ, EQ => true | _, _ => false end.

(** The argument of [convert], constraint.py:34 *)
Inductive sense_arg := SStr (s : string) | SVal (c : csense).

(** ConstraintSense.convert, constraint.py:34-69 *)
Definition sense_convert (a : sense_arg) : result csense :=
  match a with
  | SVal c => Ok c
  | SStr s =>
      let s := upper s in
      if negb (str_mem s ["E"; "L"; "G"; "EQ"; "LE"; "GE"; "="; "=="; "<="; "<"; ">="; ">"])
      then Err QiskitOptimizationError
      else if str_mem s ["E"; "EQ"; "="; "=="] then Ok EQ
      else if str_mem s ["L"; "LE"; "<="; "<"] then Ok LE
      else Ok GE
  end.

(** linear_constraint.py, quadratic_constraint.py; linear_constraint.py:24-81, constraint.py:72-136 *)
Record lincon := mkLC { lc_name : string; lc_lin : linexpr; lc_sense : csense; lc_rhs : Qc }.
(** quadratic_constraint.py:25-120, constraint.py:72-136 *)
Record quadcon := mkQC { qc_name : string; qc_lin : linexpr; qc_quad : quadexpr; qc_sense : csense; qc_rhs : Qc }.

(** quadratic_program.py:58-62 *)
Inductive status := VALID | INFEASIBLE.

(** The fields of QuadraticProgram, quadratic_program.py:74-91. *)
Record qp := mkQP {
  p_name : string;
  p_status : status;
  p_vars : list variable;
  p_vidx : list (string * nat);
  p_lcs : list lincon;
  p_lidx : list (string * nat);
  p_qcs : list quadcon;
  p_qidx : list (string * nat);
  p_obj : objective }.

(** Field updates; quadratic_program.py:123-130 *)
Definition set_name s p := mkQP s (p_status p) (p_vars p) (p_vidx p) (p_lcs p) (p_lidx p) (p_qcs p) (p_qidx p) (p_obj p).
(** [_status], quadratic_program.py:80, 1562 *)
Definition set_status s p := mkQP (p_name p) s (p_vars p) (p_vidx p) (p_lcs p) (p_lidx p) (p_qcs p) (p_qidx p) (p_obj p).
(** [_variables], quadratic_program.py:82, 229 *)
Definition set_vars v p := mkQP (p_name p) (p_status p) v (p_vidx p) (p_lcs p) (p_lidx p) (p_qcs p) (p_qidx p) (p_obj p).
(** [_variables_index], quadratic_program.py:83, 227 *)
Definition set_vidx v p := mkQP (p_name p) (p_status p) (p_vars p) v (p_lcs p) (p_lidx p) (p_qcs p) (p_qidx p) (p_obj p).
(** [_linear_constraints], quadratic_program.py:85, 653, 791 *)
Definition set_lcs v p := mkQP (p_name p) (p_status p) (p_vars p) (p_vidx p) v (p_lidx p) (p_qcs p) (p_qidx p) (p_obj p).
(** [_linear_constraints_index], quadratic_program.py:86, 649, 792 *)
Definition set_lidx v p := mkQP (p_name p) (p_status p) (p_vars p) (p_vidx p) (p_lcs p) v (p_qcs p) (p_qidx p) (p_obj p).
(** [_quadratic_constraints], quadratic_program.py:88, 808 *)
Definition set_qcs v p := mkQP (p_name p) (p_status p) (p_vars p) (p_vidx p) (p_lcs p) (p_lidx p) v (p_qidx p) (p_obj p).
(** [_quadratic_constraints_index], quadratic_program.py:89, 809 *)
Definition set_qidx v p := mkQP (p_name p) (p_status p) (p_vars p) (p_vidx p) (p_lcs p) (p_lidx p) (p_qcs p) v (p_obj p).
(** [_objective], quadratic_program.py:91, 112, 843, 868 *)
Definition set_obj v p := mkQP (p_name p) (p_status p) (p_vars p) (p_vidx p) (p_lcs p) (p_lidx p) (p_qcs p) (p_qidx p) v.

(** [get_num_vars()], quadratic_program.py:557-569 *)
Definition num_vars (p : qp) : nat := length (p_vars p).
(** The parent of an expression, quadratic_program_element.py:21-43 *)
Definition env_of (p : qp) : venv := mkEnv (num_vars p) (p_vidx p).
(** [x.name for x in variables], quadratic_program.py:142-158 *)
Definition var_names (p : qp) : list string := map v_name (p_vars p).

(** The objective of a program without variables: QuadraticObjective(self); quadratic_program.py:91, quadratic_objective.py:40-70 *)
Definition empty_obj : objective := mkObj 0 (mkLin 0 false []) (mkQuad 0 false []) MINIMIZE.

(** QuadraticProgram(name), quadratic_program.py:74-91 *)
Definition new_qp (name : string) : qp := mkQP name VALID [] [] [] [] [] [] empty_obj.

(** clear, quadratic_program.py:96-112 *)
Definition clear (p : qp) : qp :=
  set_obj empty_obj (set_qidx [] (set_qcs [] (set_lidx [] (set_lcs [] (set_vidx [] (set_vars [] (set_status VALID (set_name "" p)))))))).

(** get_num_vars(vartype), quadratic_program.py:557-569 *)
Definition count_type (t : vartype) (p : qp) : nat :=
  length (filter (fun v => vartype_eqb (v_type v) t) (p_vars p)).

(** get_variable, quadratic_program.py:543-555; the same code serves both kinds of constraints
    (656-672, 753-769). *)
Definition lookup {A} (l : list A) (idx : list (string * nat)) (k : key) : result A :=
  match k with
  | KI z => py_nth l z
  | KS s => match dget String.eqb s idx with Some i => py_nth l (Z.of_nat i) | None => Err KeyError end
  end.
(** get_variable, quadratic_program.py:543-555 *)
Definition get_variable (p : qp) (k : key) : result variable := lookup (p_vars p) (p_vidx p) k.
(** get_linear_constraint, quadratic_program.py:656-672 *)
Definition get_linear_constraint (p : qp) (k : key) : result lincon := lookup (p_lcs p) (p_lidx p) k.
(** get_quadratic_constraint, quadratic_program.py:753-769 *)
Definition get_quadratic_constraint (p : qp) (k : key) : result quadcon := lookup (p_qcs p) (p_qidx p) k.

(** ** Adding variables *)
(** [keys]: a number of variables, or a sequence (elements already as strings); quadratic_program.py:176, 183, 216 *)
Inductive keys_arg := KCount (n : Z) | KSeq (l : list string).

(** _find_name, quadratic_program.py:198-211. *)
Fixpoint find_name (fuel : nat) (idx : list (string * nat)) (name fmt : string) (k : nat) (prev : option string)
  : result (string * nat) :=
  match fuel with
  | O => Err OutOfFuel
  | S fuel' =>
      do t <- py_format fmt (str_nat k);
      let new_name := name ++ t in
      if match prev with Some s => String.eqb new_name s | None => false end
      then Err QiskitOptimizationError
      else if dhas String.eqb new_name idx
      then find_name fuel' idx name fmt (S k) (Some new_name)
      else Ok (new_name, S k)
  end.
(** Fuel for the loop of quadratic_program.py:200-210 *)
Definition find_name_fuel (idx : list (string * nat)) : nat := S (S (length idx)).

(** One round of the loop quadratic_program.py:217-230: the index entry is
    written before the Variable is built. *)
Definition add_named (p : qp) (nm : string) (lb ub : Qc) (ty : vartype) : qp * result unit :=
  if dhas String.eqb nm (p_vidx p) then (p, Err QiskitOptimizationError)
  else
    let p1 := set_vidx (dset String.eqb nm (num_vars p) (p_vidx p)) p in
    match var_make nm lb ub ty with
    | Err e => (p1, Err e)
    | Ok v => (set_vars (p_vars p1 ++ [v]) p1, Ok tt)
    end.

(** The loop over a sequence, quadratic_program.py:217-230 *)
Fixpoint add_seq (p : qp) (keys : list string) (lb ub : Qc) (ty : vartype) (name fmt : string)
  : qp * result (list string) :=
  match keys with
  | [] => (p, Ok [])
  | key :: rest =>
      match py_format fmt key with
      | Err e => (p, Err e)
      | Ok t =>
          let nm := name ++ t in
          match add_named p nm lb ub ty with
          | (p1, Err e) => (p1, Err e)
          | (p1, Ok _) =>
              match add_seq p1 rest lb ub ty name fmt with
              | (p2, Err e) => (p2, Err e)
              | (p2, Ok l) => (p2, Ok (nm :: l))
              end
          end
      end
  end.

(** The loop over a number, quadratic_program.py:217-230 *)
Fixpoint add_count (p : qp) (n : nat) (k : nat) (lb ub : Qc) (ty : vartype) (name fmt : string)
  : qp * result (list string) :=
  match n with
  | O => (p, Ok [])
  | S n' =>
      match find_name (find_name_fuel (p_vidx p)) (p_vidx p) name fmt k None with
      | Err e => (p, Err e)
      | Ok (nm, k') =>
          match add_named p nm lb ub ty with
          | (p1, Err e) => (p1, Err e)
          | (p1, Ok _) =>
              match add_count p1 n' k' lb ub ty name fmt with
              | (p2, Err e) => (p2, Err e)
              | (p2, Ok l) => (p2, Ok (nm :: l))
              end
          end
      end
  end.

(** _add_variables, quadratic_program.py:174-231.  Returns the names of the new variables. *)
Definition add_variables (p : qp) (keys : keys_arg) (lb ub : Qc) (ty : vartype) (name : option string) (fmt : string)
  : qp * result (list string) :=
  match keys with
  | KCount n =>
      if (n <? 1)%Z then (p, Err QiskitOptimizationError)
      else if contains "{{}}" fmt then (p, Err QiskitOptimizationError)
      else if 1 <? count_slots fmt then (p, Err QiskitOptimizationError)
      else add_count p (Z.to_nat n) (num_vars p) lb ub ty (match name with Some s => s | None => "x" end) fmt
  | KSeq l =>
      if contains "{{}}" fmt then (p, Err QiskitOptimizationError)
      else if 1 <? count_slots fmt then (p, Err QiskitOptimizationError)
      else add_seq p l lb ub ty (match name with Some s => s | None => "x" end) fmt
  end.

(** _add_variable, quadratic_program.py:160-172 *)
Definition add_variable (p : qp) (lb ub : Qc) (ty : vartype) (name : option string) : qp * result (list string) :=
  match name with
  | None => add_variables p (KCount 1) lb ub ty (Some "x") "{}"
  | Some s => add_variables p (KCount 1) lb ub ty (Some s) ""
  end.

(** binary_var, integer_var, continuous_var, quadratic_program.py:392-404, 460-479, 305-324 *)
Definition binary_var (p : qp) (name : option string) := add_variable p 0 1 BINARY name.
(** integer_var, quadratic_program.py:460-479 *)
Definition integer_var (p : qp) (lb ub : Qc) (name : option string) := add_variable p lb ub INTEGER name.
(** continuous_var, quadratic_program.py:305-324 *)
Definition continuous_var (p : qp) (lb ub : Qc) (name : option string) := add_variable p lb ub CONTINUOUS name.

(** ** Constraints *)
(** Loop for automatic constraint names, quadratic_program.py:645-648 and 738-741. *)
Fixpoint auto_name (fuel : nat) (idx : list (string * nat)) (pre : string) (k : nat) : result string :=
  match fuel with
  | O => Err OutOfFuel
  | S f => let nm := pre ++ str_nat k in
           if dhas String.eqb nm idx then auto_name f idx pre (S k) else Ok nm
  end.
(** Fuel for the loops of quadratic_program.py:646-647, 739-740 *)
Definition auto_fuel (idx : list (string * nat)) : nat := S (length idx).

(** The choice of the name, quadratic_program.py:639-648 and 732-741;
    [if name:] is false for None and for the empty string. *)
Definition con_name (idx : list (string * nat)) (count : nat) (pre : string) (name : option string) : result string :=
  match name with
  | Some (String c r) =>
      if dhas String.eqb (String c r) idx then Err QiskitOptimizationError else Ok (String c r)
  | _ => auto_name (auto_fuel idx) idx pre count
  end.

(** [linear is None], quadratic_program.py:650-651, 743-744 *)
Definition lcoef_or_empty (l : option lincoef) : lincoef := match l with Some l => l | None => LDict [] end.
(** [quadratic is None], quadratic_program.py:745-746 *)
Definition qcoef_or_empty (q : option quadcoef) : quadcoef := match q with Some q => q | None => QDict [] end.

(** linear_constraint, quadratic_program.py:613-654.  The index is written
    before the sense and the coefficients are looked at. *)
Definition linear_constraint (p : qp) (lin : option lincoef) (s : sense_arg) (rhs : Qc) (name : option string)
  : qp * result unit :=
  match con_name (p_lidx p) (length (p_lcs p)) "c" name with
  | Err e => (p, Err e)
  | Ok nm =>
      let p1 := set_lidx (dset String.eqb nm (length (p_lcs p)) (p_lidx p)) p in
      match (do c <- sense_convert s;
             do le <- lin_make (env_of p) (lcoef_or_empty lin);
             Ok (mkLC nm le c rhs)) with
      | Err e => (p1, Err e)
      | Ok con => (set_lcs (p_lcs p1 ++ [con]) p1, Ok tt)
      end
  end.

(** quadratic_constraint, quadratic_program.py:700-751 *)
Definition quadratic_constraint (p : qp) (lin : option lincoef) (quad : option quadcoef) (s : sense_arg) (rhs : Qc)
    (name : option string) : qp * result unit :=
  match con_name (p_qidx p) (length (p_qcs p)) "q" name with
  | Err e => (p, Err e)
  | Ok nm =>
      let p1 := set_qidx (dset String.eqb nm (length (p_qcs p)) (p_qidx p)) p in
      match (do c <- sense_convert s;
             do le <- lin_make (env_of p) (lcoef_or_empty lin);
             do qe <- quad_make (env_of p) (qcoef_or_empty quad);
             Ok (mkQC nm le qe c rhs)) with
      | Err e => (p1, Err e)
      | Ok con => (set_qcs (p_qcs p1 ++ [con]) p1, Ok tt)
      end
  end.

(** {cst.name: j for j, cst in enumerate(...)}, quadratic_program.py:792-794 *)
Definition reindex {A} (nm : A -> string) (l : list A) : list (string * nat) :=
  fold_left (fun d ja => dset String.eqb (nm (snd ja)) (fst ja) d) (combine (seq 0 (length l)) l) [].

(** Position addressed by [del list[i]] with i an int, or a str looked up in the index; quadratic_program.py:789-791, 806-808 *)
Definition del_pos {A} (l : list A) (idx : list (string * nat)) (k : key) : result nat :=
  match k with
  | KI z => match py_index (length l) z with Some i => Ok i | None => Err IndexError end
  | KS s => match dget String.eqb s idx with
            | Some i => if i <? length l then Ok i else Err IndexError
            | None => Err KeyError end
  end.

(** remove_linear_constraint, quadratic_program.py:779-794 *)
Definition remove_linear_constraint (p : qp) (k : key) : qp * result unit :=
  match del_pos (p_lcs p) (p_lidx p) k with
  | Err e => (p, Err e)
  | Ok i => let l := delete_at i (p_lcs p) in (set_lidx (reindex lc_name l) (set_lcs l p), Ok tt)
  end.
(** remove_quadratic_constraint, quadratic_program.py:796-811 *)
Definition remove_quadratic_constraint (p : qp) (k : key) : qp * result unit :=
  match del_pos (p_qcs p) (p_qidx p) k with
  | Err e => (p, Err e)
  | Ok i => let l := delete_at i (p_qcs p) in (set_qidx (reindex qc_name l) (set_qcs l p), Ok tt)
  end.

(** minimize / maximize, quadratic_program.py:822-870 *)
Definition set_objective (p : qp) (s : objsense) (c : Qc) (lin : option lincoef) (quad : option quadcoef)
  : qp * result unit :=
  match obj_make (env_of p) c lin quad s with
  | Err e => (p, Err e)
  | Ok o => (set_obj o p, Ok tt)
  end.

(** Assigning a bound or the type of [get_variable(k)]; variable.py:87-141. *)
Definition key_pos {A} (l : list A) (idx : list (string * nat)) (k : key) : result nat := del_pos l idx k.
(** Writing to a variable, quadratic_program.py:543-555 *)
Definition on_variable (p : qp) (k : key) (f : variable -> result variable) : qp * result unit :=
  match key_pos (p_vars p) (p_vidx p) k with
  | Err e => (p, Err e)
  | Ok i =>
      match nth_error (p_vars p) i with
      | None => (p, Err IndexError)
      | Some v => match f v with
                  | Err e => (p, Err e)
                  | Ok v' => (set_vars (update i v' (p_vars p)) p, Ok tt)
                  end
      end
  end.

(** Assigning an attribute of a linear or quadratic constraint; constraint.py:111-136, linear_constraint.py:58-70 *)
Definition on_lincon (p : qp) (k : key) (f : lincon -> result lincon) : qp * result unit :=
  match key_pos (p_lcs p) (p_lidx p) k with
  | Err e => (p, Err e)
  | Ok i => match nth_error (p_lcs p) i with
            | None => (p, Err IndexError)
            | Some c => match f c with Err e => (p, Err e) | Ok c' => (set_lcs (update i c' (p_lcs p)) p, Ok tt) end
            end
  end.
(** Writing to a quadratic constraint, constraint.py:111-136, quadratic_constraint.py:68-109 *)
Definition on_quadcon (p : qp) (k : key) (f : quadcon -> result quadcon) : qp * result unit :=
  match key_pos (p_qcs p) (p_qidx p) k with
  | Err e => (p, Err e)
  | Ok i => match nth_error (p_qcs p) i with
            | None => (p, Err IndexError)
            | Some c => match f c with Err e => (p, Err e) | Ok c' => (set_qcs (update i c' (p_qcs p)) p, Ok tt) end
            end
  end.
(** Writing to the objective, quadratic_objective.py:81-155 *)
Definition on_objective (p : qp) (f : objective -> result objective) : qp * result unit :=
  match f (p_obj p) with Err e => (p, Err e) | Ok o => (set_obj o p, Ok tt) end.

(** ** Histories of API calls *)
(** The calls of quadratic_program.py:96-870, their elements and linear_expression.py:59, quadratic_expression.py:69 *)
Inductive op :=
| OAddVars (keys : keys_arg) (lb ub : Qc) (ty : vartype) (name : option string) (fmt : string)
| OAddVar (lb ub : Qc) (ty : vartype) (name : option string)
| OLinCon (lin : option lincoef) (s : sense_arg) (rhs : Qc) (name : option string)
| OQuadCon (lin : option lincoef) (quad : option quadcoef) (s : sense_arg) (rhs : Qc) (name : option string)
| ORemLin (k : key)
| ORemQuad (k : key)
| OObjective (s : objsense) (c : Qc) (lin : option lincoef) (quad : option quadcoef)
| OClear
| OSetName (s : string)
| OSetLb (k : key) (lb : Qc)
| OSetUb (k : key) (ub : Qc)
| OSetType (k : key) (ty : vartype)
| OLinSense (k : key) (c : csense)
| OLinRhs (k : key) (r : Qc)
| OLinCoef (k : key) (c : lincoef)
| OLinItem (k : key) (i : key) (v : Qc)
| OQuadSense (k : key) (c : csense)
| OQuadRhs (k : key) (r : Qc)
| OQuadLin (k : key) (c : lincoef)
| OQuadQuad (k : key) (c : quadcoef)
| OObjConst (c : Qc)
| OObjSense (s : objsense)
| OObjLin (c : lincoef)
| OObjQuad (c : quadcoef)
| OObjLinItem (k : key) (v : Qc)
| OObjQuadItem (k : key * key) (v : Qc).

(** The returned object is left out, quadratic_program.py:172, 654 *)
Definition drop_out {A} (x : qp * result A) : qp * result unit :=
  match x with (p, Ok _) => (p, Ok tt) | (p, Err e) => (p, Err e) end.

(** One call, quadratic_program.py:96-870 *)
Definition step (p : qp) (o : op) : qp * result unit :=
  match o with
  | OAddVars keys lb ub ty name fmt => drop_out (add_variables p keys lb ub ty name fmt)
  | OAddVar lb ub ty name => drop_out (add_variable p lb ub ty name)
  | OLinCon lin s rhs name => linear_constraint p lin s rhs name
  | OQuadCon lin quad s rhs name => quadratic_constraint p lin quad s rhs name
  | ORemLin k => remove_linear_constraint p k
  | ORemQuad k => remove_quadratic_constraint p k
  | OObjective s c lin quad => set_objective p s c lin quad
  | OClear => (clear p, Ok tt)
  | OSetName s => (set_name s p, Ok tt)
  | OSetLb k lb => on_variable p k (fun v => var_set_lb v lb)
  | OSetUb k ub => on_variable p k (fun v => var_set_ub v ub)
  | OSetType k ty => on_variable p k (fun v => Ok (mkVar (v_name v) (v_lb v) (v_ub v) ty))
  | OLinSense k c => on_lincon p k (fun x => Ok (mkLC (lc_name x) (lc_lin x) c (lc_rhs x)))
  | OLinRhs k r => on_lincon p k (fun x => Ok (mkLC (lc_name x) (lc_lin x) (lc_sense x) r))
  | OLinCoef k c => on_lincon p k (fun x => do e <- lin_make (env_of p) c; Ok (mkLC (lc_name x) e (lc_sense x) (lc_rhs x)))
  | OLinItem k i v => on_lincon p k (fun x => do e <- lin_set (env_of p) (lc_lin x) i v; Ok (mkLC (lc_name x) e (lc_sense x) (lc_rhs x)))
  | OQuadSense k c => on_quadcon p k (fun x => Ok (mkQC (qc_name x) (qc_lin x) (qc_quad x) c (qc_rhs x)))
  | OQuadRhs k r => on_quadcon p k (fun x => Ok (mkQC (qc_name x) (qc_lin x) (qc_quad x) (qc_sense x) r))
  | OQuadLin k c => on_quadcon p k (fun x => do e <- lin_make (env_of p) c; Ok (mkQC (qc_name x) e (qc_quad x) (qc_sense x) (qc_rhs x)))
  | OQuadQuad k c => on_quadcon p k (fun x => do e <- quad_make (env_of p) c; Ok (mkQC (qc_name x) (qc_lin x) e (qc_sense x) (qc_rhs x)))
  | OObjConst c => on_objective p (fun o => Ok (mkObj c (o_lin o) (o_quad o) (o_sense o)))
  | OObjSense s => on_objective p (fun o => Ok (mkObj (o_const o) (o_lin o) (o_quad o) s))
  | OObjLin c => on_objective p (fun o => do e <- lin_make (env_of p) c; Ok (mkObj (o_const o) e (o_quad o) (o_sense o)))
  | OObjQuad c => on_objective p (fun o => do e <- quad_make (env_of p) c; Ok (mkObj (o_const o) (o_lin o) e (o_sense o)))
  | OObjLinItem k v => on_objective p (fun o => do e <- lin_set (env_of p) (o_lin o) k v; Ok (mkObj (o_const o) e (o_quad o) (o_sense o)))
  | OObjQuadItem k v => on_objective p (fun o => do e <- quad_set (env_of p) (o_quad o) k v; Ok (mkObj (o_const o) (o_lin o) e (o_sense o)))
  end.

(** State after a history; exceptions are caught by the caller and the program is used on; quadratic_program.py:96-870 *)
Definition run (p : qp) (ops : list op) : qp := fold_left (fun q o => fst (step q o)) ops p.

(** A history in which no call raises; quadratic_program.py:96-870 *)
Fixpoint run_ok (p : qp) (ops : list op) : result qp :=
  match ops with
  | [] => Ok p
  | o :: rest => match step p o with (q, Ok _) => run_ok q rest | (_, Err e) => Err e end
  end.

(** Evaluation of the objective and of constraints at a point given as a list; quadratic_objective.py:157-166 *)
Definition eval_obj (p : qp) (x : list Qc) : result Qc := obj_eval (env_of p) (p_obj p) (XList x).
(** LinearConstraint.evaluate, linear_constraint.py:72-81 *)
Definition eval_lincon (p : qp) (c : lincon) (x : list Qc) : result Qc := lin_eval (env_of p) (lc_lin c) (XList x).
(** QuadraticConstraint.evaluate, quadratic_constraint.py:111-120 *)
Definition eval_quadcon (p : qp) (c : quadcon) (x : list Qc) : result Qc :=
  do a <- lin_eval (env_of p) (qc_lin c) (XList x);
  do b <- quad_eval (env_of p) (qc_quad c) (XList x);
  Ok (a + b)%Qc.
