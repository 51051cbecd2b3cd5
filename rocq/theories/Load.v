(** * Loading a model into a program that is already there

    from_docplex and read_from_lp_file once more, now as calls on a program: what the program holds when the call returns
    and when it raises.  ([from_docplex] in Docplex.v gives the program of a successful call.) *)
From Verif Require Export Read.
Local Open Scope string_scope.
Local Open Scope list_scope.
Local Open Scope nat_scope.

(** One variable, quadratic_program.py:896-907; the name it got *)
Definition load_var (p : qp) (v : dvar) : qp * result string :=
  match (match dv_type v with
         | DContinuous => continuous_var p (dv_lb v) (dv_ub v) (dv_name v)
         | DBinary => binary_var p (dv_name v)
         | DInteger => integer_var p (dv_lb v) (dv_ub v) (dv_name v)
         | DOtherType => (p, Err QiskitOptimizationError)
         end) with
  | (q, Ok (s :: _)) => (q, Ok s)
  | (q, Ok []) => (q, Err IndexError)
  | (q, Err e) => (q, Err e)
  end.
(** The variables one after the other, quadratic_program.py:895-907; var_names in the order of the variables *)
Fixpoint load_vars (l : list dvar) (p : qp) (names : list string) : qp * result (list string) :=
  match l with
  | [] => (p, Ok names)
  | v :: l' => match load_var p v with
               | (q, Ok s) => load_vars l' q (names ++ [s])
               | (q, Err e) => (q, Err e)
               end
  end.
(** quadratic_program.py:941-979 *)
Definition load_lincon (names : list string) (p : qp) (c : dcon) : qp * result unit :=
  match c with
  | DQuadratic _ _ _ _ => (p, Ok tt)
  | DOtherCon => (p, Err QiskitOptimizationError)
  | DLinear name s l r =>
      with_value (do d <- put_lin names (de_lin l) []; take_lin names (de_lin r) d) p (fun d =>
      linear_constraint p (by_name d) (SStr (sense_text s)) (de_const r - de_const l)%Qc name)
  end.
(** quadratic_program.py:982-1026 *)
Definition load_quadcon (names : list string) (p : qp) (c : dcon) : qp * result unit :=
  match c with
  | DQuadratic name s l r =>
      with_value (do d <- put_lin names (de_lin l) []; do q <- put_quad names (de_quad l) []; do d <- take_lin names (de_lin r) d;
                  do q <- take_quad names (de_quad r) q; Ok (d, q)) p (fun dq =>
      quadratic_constraint p (by_name (fst dq)) (by_name2 (snd dq)) (SStr (sense_text s)) (de_const r - de_const l)%Qc name)
  | _ => (p, Ok tt)
  end.
(** from_docplex, quadratic_program.py:872-1026: clear, the name (line 891), the variables, the objective, the linear constraints and
    the quadratic ones; what has been done stays when a step raises *)
Definition load_docplex (p : qp) (m : dmodel) : qp * result unit :=
  match load_vars (dm_vars m) (set_name (dm_name m) (clear p)) [] with
  | (q, Err e) => (q, Err e)
  | (q, Ok names) =>
      with_value (do lin <- put_lin names (de_lin (dm_obj m)) []; do quad <- put_quad names (de_quad (dm_obj m)) []; Ok (lin, quad)) q (fun lq =>
      then_build (set_objective q (dm_sense m) (de_const (dm_obj m)) (by_name (fst lq)) (by_name2 (snd lq))) (fun q =>
      then_build (build_all (load_lincon names) (dm_cons m) q) (build_all (load_quadcon names) (dm_cons m))))
  end.
(** read_from_lp_file, quadratic_program.py:1151-1189: the file is read before the program is touched *)
Definition load_lp (reader : list string -> string -> result dmodel) (p : qp) (file : list string) : qp * result unit :=
  with_value (reader file (parse_problem_name file)) p (load_docplex p).
