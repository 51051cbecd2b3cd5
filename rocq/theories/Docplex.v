(** * docplex models, from_docplex and to_docplex

    docplex is an external library.  Modelled is what quadratic_program.py and the applications use of it: a model is a list
    of variables, an objective and a list of constraints; an expression is a constant, a list of linear terms and a list of
    products, each variable (pair) occurring at most once; expressions are added, scaled and multiplied.  Variables are named
    by their position.  Not modelled: naming of models, the rounding of bounds beyond 1e20 and of fractional bounds of
    integer variables, and warnings.  Whether docplex stores terms with coefficient 0 makes no difference below. *)
From Verif Require Export Subst.
Local Open Scope string_scope.
Local Open Scope list_scope.
Local Open Scope nat_scope.

(** ** docplex data *)
(** The types told apart in quadratic_program.py:897-906 *)
Inductive dtype := DContinuous | DBinary | DInteger | DOtherType.
(** A variable of a model, quadratic_program.py:896-907 *)
Record dvar := mkDVar { dv_name : option string; dv_type : dtype; dv_lb : Qc; dv_ub : Qc }.
(** An expression, quadratic_program.py:917-932 *)
Record dexpr := mkDE { de_const : Qc; de_lin : list (nat * Qc); de_quad : list ((nat * nat) * Qc) }.
(** Linear and quadratic constraints, and everything else (indicator, not-equal, logical, ...); quadratic_program.py:941-1026 *)
Inductive dcon :=
| DLinear (name : option string) (s : csense) (left right : dexpr)
| DQuadratic (name : option string) (s : csense) (left right : dexpr)
| DOtherCon.
(** A model, quadratic_program.py:872, 1039 *)
Record dmodel := mkDM { dm_name : string; dm_vars : list dvar; dm_sense : objsense; dm_obj : dexpr; dm_cons : list dcon }.

(** ** Arithmetic of docplex expressions (used by to_docplex and by the applications) *)
(** A number, quadratic_program.py:1055, 1071, 1095 *)
Definition d_num (c : Qc) : dexpr := mkDE c [] [].
(** A variable, quadratic_program.py:1045-1049 *)
Definition d_var (i : nat) : dexpr := mkDE 0 [(i, 1%Qc)] [].
(** [a + b], quadratic_program.py:1057-1059 *)
Definition d_add (a b : dexpr) : dexpr :=
  mkDE (de_const a + de_const b)%Qc
       (fold_left (fun d kv => dadd Nat.eqb (fst kv) (snd kv) d) (de_lin b) (de_lin a))
       (fold_left (fun d kv => dadd nat2_eqb (fst kv) (snd kv) d) (de_quad b) (de_quad a)).
(** [v * a], quadratic_program.py:1057-1059 *)
Definition d_scale (c : Qc) (a : dexpr) : dexpr :=
  mkDE (c * de_const a)%Qc (map (fun kv => (fst kv, (c * snd kv)%Qc)) (de_lin a)) (map (fun kv => (fst kv, (c * snd kv)%Qc)) (de_quad a)).
(** [a - b], max_cut.py:49-50 *)
Definition d_sub (a b : dexpr) : dexpr := d_add a (d_scale (- (1))%Qc b).
(** mdl.sum; max_cut.py:48, clique.py:64 *)
Definition d_sum (l : list dexpr) : dexpr := fold_left d_add l (d_num 0).
(** The product of two linear expressions; the variables of a product are ordered; quadratic_program.py:1059, max_cut.py:49-50 *)
Definition d_pair (i j : nat) : nat * nat := (Nat.min i j, Nat.max i j).
(** [a * b], quadratic_program.py:1059, max_cut.py:49-50 *)
Definition d_mul (a b : dexpr) : dexpr :=
  mkDE (de_const a * de_const b)%Qc
       (fold_left (fun d kv => dadd Nat.eqb (fst kv) (snd kv) d)
          (map (fun kv => (fst kv, (de_const b * snd kv)%Qc)) (de_lin a) ++ map (fun kv => (fst kv, (de_const a * snd kv)%Qc)) (de_lin b)) [])
       (fold_left (fun d kv => dadd nat2_eqb (fst kv) (snd kv) d)
          (flat_map (fun ka => map (fun kb => (d_pair (fst ka) (fst kb), (snd ka * snd kb)%Qc)) (de_lin b)) (de_lin a)) []).

(** ** from_docplex *)
(** The variables, quadratic_program.py:896-907; their names are kept *)
Definition import_var (st : qp * list string) (v : dvar) : result (qp * list string) :=
  match (match dv_type v with
         | DContinuous => continuous_var (fst st) (dv_lb v) (dv_ub v) (dv_name v)
         | DBinary => binary_var (fst st) (dv_name v)
         | DInteger => integer_var (fst st) (dv_lb v) (dv_ub v) (dv_name v)
         | DOtherType => (fst st, Err QiskitOptimizationError)
         end) with
  | (q, Ok (s :: _)) => Ok (q, snd st ++ [s])
  | (_, Ok []) => Err IndexError
  | (_, Err e) => Err e
  end.
(** linear[var_names[x]] = get_coef(x), quadratic_program.py:920-923, 967-968, 994-995 and 1002-1003 *)
Definition put_lin (names : list string) (l : list (nat * Qc)) (d : list (string * Qc)) : result (list (string * Qc)) :=
  foldM (fun d kv => do s <- name_at names (fst kv); Ok (dset String.eqb s (snd kv) d)) l d.
(** linear[x] = linear.get(x, 0.0) - get_coef(x), quadratic_program.py:969-970, 1006-1009 and 1016-1017 *)
Definition take_lin (names : list string) (l : list (nat * Qc)) (d : list (string * Qc)) : result (list (string * Qc)) :=
  foldM (fun d kv => do s <- name_at names (fst kv); Ok (dset String.eqb s (dgetq String.eqb s d - snd kv)%Qc d)) l d.
(** quadratic[i, j] = v, quadratic_program.py:926-932 and 996-1000 *)
Definition put_quad (names : list string) (l : list ((nat * nat) * Qc)) (d : list ((string * string) * Qc)) : result (list ((string * string) * Qc)) :=
  foldM (fun d kv => do s <- name_at names (fst (fst kv)); do t <- name_at names (snd (fst kv)); Ok (dset str2_eqb (s, t) (snd kv) d)) l d.
(** quadratic[i, j] = quadratic.get((i, j), 0.0) - v, quadratic_program.py:1010-1014 *)
Definition take_quad (names : list string) (l : list ((nat * nat) * Qc)) (d : list ((string * string) * Qc)) : result (list ((string * string) * Qc)) :=
  foldM (fun d kv => do s <- name_at names (fst (fst kv)); do t <- name_at names (snd (fst kv));
                     Ok (dset str2_eqb (s, t) (dgetq str2_eqb (s, t) d - snd kv)%Qc d)) l d.
(** The sense as it is passed on, quadratic_program.py:972-979 and 1019-1026 *)
Definition sense_text (s : csense) : string := match s with EQ => "==" | GE => ">=" | LE => "<=" end.
(** Linear constraints, quadratic_program.py:941-979; quadratic ones are skipped, others rejected *)
Definition import_lincon (names : list string) (p : qp) (c : dcon) : result qp :=
  match c with
  | DQuadratic _ _ _ _ => Ok p
  | DOtherCon => Err QiskitOptimizationError
  | DLinear name s l r =>
      do d <- put_lin names (de_lin l) [];
      do d <- take_lin names (de_lin r) d;
      ok_state (linear_constraint p (by_name d) (SStr (sense_text s)) (de_const r - de_const l)%Qc name)
  end.
(** Quadratic constraints, quadratic_program.py:982-1026 *)
Definition import_quadcon (names : list string) (p : qp) (c : dcon) : result qp :=
  match c with
  | DQuadratic name s l r =>
      do d <- put_lin names (de_lin l) [];
      do q <- put_quad names (de_quad l) [];
      do d <- take_lin names (de_lin r) d;
      do q <- take_quad names (de_quad r) q;
      ok_state (quadratic_constraint p (by_name d) (by_name2 q) (SStr (sense_text s)) (de_const r - de_const l)%Qc name)
  | _ => Ok p
  end.
(** from_docplex, quadratic_program.py:872-1026, without the state that a failing call leaves behind *)
Definition from_docplex (m : dmodel) : result qp :=
  do st <- foldM import_var (dm_vars m) (new_qp (dm_name m), []);
  let names := snd st in
  do lin <- put_lin names (de_lin (dm_obj m)) [];
  do quad <- put_quad names (de_quad (dm_obj m)) [];
  do p <- ok_state (set_objective (fst st) (dm_sense m) (de_const (dm_obj m)) (by_name lin) (by_name2 quad));
  do p <- foldM (import_lincon names) (dm_cons m) p;
  foldM (import_quadcon names) (dm_cons m) p.

(** ** to_docplex *)
(** The variables, quadratic_program.py:1042-1052 *)
Definition export_var (v : variable) : dvar :=
  match v_type v with
  | CONTINUOUS => mkDVar (Some (v_name v)) DContinuous (v_lb v) (v_ub v)
  | BINARY => mkDVar (Some (v_name v)) DBinary 0 1
  | INTEGER => mkDVar (Some (v_name v)) DInteger (v_lb v) (v_ub v)
  end.
(** A sum of terms v * var[i], then v * var[i] * var[j], quadratic_program.py:1055-1059, 1071-1073 and 1095-1099 *)
Definition export_expr (c : Qc) (l : linexpr) (q : list ((nat * nat) * Qc)) : dexpr :=
  let e := fold_left (fun e kv => d_add e (d_scale (snd kv) (d_var (fst kv)))) (lin_to_dict l) (d_num c) in
  fold_left (fun e kv => d_add e (d_mul (d_scale (snd kv) (d_var (fst (fst kv)))) (d_var (snd (fst kv))))) q e.
(** A comparison of the Python number 0 with the right-hand side is a truth value: docplex drops True and raises
    DOcplexException for False. *)
Definition export_trivial (s : csense) (rhs : Qc) : result (list dcon) :=
  if match s with EQ => qeqb 0 rhs | GE => qleb rhs 0 | LE => qleb 0 rhs end then Ok [] else Err DOcplexException.
(** Linear constraints, quadratic_program.py:1066-1083 *)
Definition export_lincon (c : lincon) : result (list dcon) :=
  match le_co (lc_lin c) with
  | [] => if qeqb (lc_rhs c) 0 then Ok [] else export_trivial (lc_sense c) (lc_rhs c)
  | _ => Ok [DLinear (Some (lc_name c)) (lc_sense c) (export_expr 0 (lc_lin c) []) (d_num (lc_rhs c))]
  end.
(** Quadratic constraints, quadratic_program.py:1086-1109; without products docplex makes a linear constraint of it *)
Definition export_quadcon (c : quadcon) : result (list dcon) :=
  match le_co (qc_lin c), qe_co (qc_quad c) with
  | [], [] => if qeqb (qc_rhs c) 0 then Ok [] else export_trivial (qc_sense c) (qc_rhs c)
  | _, [] => Ok [DLinear (Some (qc_name c)) (qc_sense c) (export_expr 0 (qc_lin c) []) (d_num (qc_rhs c))]
  | _, _ => Ok [DQuadratic (Some (qc_name c)) (qc_sense c) (export_expr 0 (qc_lin c) (quad_to_dict false (qc_quad c))) (d_num (qc_rhs c))]
  end.
(** to_docplex, quadratic_program.py:1028-1111 *)
Definition to_docplex (p : qp) : result dmodel :=
  do ls <- mapM export_lincon (p_lcs p);
  do qs <- mapM export_quadcon (p_qcs p);
  Ok (mkDM (p_name p) (map export_var (p_vars p)) (o_sense (p_obj p))
        (export_expr (o_const (p_obj p)) (o_lin (p_obj p)) (quad_to_dict false (o_quad (p_obj p))))
        (concat ls ++ concat qs)).
