(** * Linear and quadratic expressions

    Models qiskit_optimization/problems/linear_expression.py,
    quadratic_expression.py and quadratic_objective.py.

    A scipy [dok_matrix] is a shape, a flag telling whether its dtype is an
    integer type (assignments then truncate, as numpy does), and a dictionary
    of stored entries.  The parent program enters only through its number of
    variables and its name index, the record [venv]. *)
From Verif Require Export Py.
Local Open Scope Qc_scope.
Local Open Scope nat_scope.

(** What expressions need from the parent program: [get_num_vars()] and
    [variables_index]; quadratic_program_element.py:36-43, linear_expression.py:56, 87 *)
Record venv := mkEnv { ve_n : nat; ve_idx : list (string * nat) }.

(** A variable is addressed by an int or a str; linear_expression.py:46, 59, quadratic_expression.py:53, 69 *)
Inductive key := KI (z : Z) | KS (s : string).

(** [if isinstance(i, str): i = variables_index[i]]
    (linear_expression.py:55-56, quadratic_expression.py:62-66). *)
Definition resolve (env : venv) (k : key) : result Z :=
  match k with
  | KI z => Ok z
  | KS s => match dget String.eqb s (ve_idx env) with Some i => Ok (Z.of_nat i) | None => Err KeyError end
  end.

(** Index check of scipy's dok_matrix, negative indices count from the end; linear_expression.py:57, 62, 91, quadratic_expression.py:67, 81, 113 *)
Definition dok_index (dim : nat) (z : Z) : result nat :=
  match py_index dim z with Some i => Ok i | None => Err IndexError end.

(** numpy conversion of an assigned value to the dtype of the matrix; linear_expression.py:62, quadratic_expression.py:81 *)
Definition dtype_cast (int : bool) (v : Qc) : Qc :=
  if int then (if qleb 0 v then qz (qfloor v) else qz (qceil v)) else v.

(** [dok[...] = v]: a zero removes the entry; linear_expression.py:62, 91, quadratic_expression.py:81, 113 *)
Definition dok_put {K} (eqb : K -> K -> bool) (k : K) (v : Qc) (co : list (K * Qc)) : list (K * Qc) :=
  if qeqb v 0 then drem eqb k co else dset eqb k v co.

(** ** Linear expressions *)
(** [_coefficients] of shape (1, le_dim). *)
Record linexpr := mkLin { le_dim : nat; le_int : bool; le_co : list (nat * Qc) }.

(** Accepted coefficient formats (linear_expression.py:64-66).  [LList ints l]:
    a list or 1-d array, [ints] if its dtype is an integer type;
    [LSparse e]: a sparse matrix with one row. *)
Inductive lincoef :=
| LList (ints : bool) (l : list Qc)
| LDict (d : list (key * Qc))
| LSparse (e : linexpr).

(** Entries of a list that are stored, linear_expression.py:83, quadratic_expression.py:104 *)
Definition nonzero {K} (l : list (K * Qc)) : list (K * Qc) :=
  filter (fun kv => negb (qeqb (snd kv) 0)) l.

(** linear_expression.py:84-91: one assignment of the dictionary branch. *)
Definition lin_put (env : venv) (e : linexpr) (kv : key * Qc) : result linexpr :=
  do z <- resolve env (fst kv);
  do i <- dok_index (le_dim e) z;
  Ok (mkLin (le_dim e) (le_int e) (dok_put Nat.eqb i (dtype_cast (le_int e) (snd kv)) (le_co e))).

(** [_coeffs_to_dok_matrix], linear_expression.py:64-95. *)
Definition lin_make (env : venv) (c : lincoef) : result linexpr :=
  match c with
  | LList ints l => Ok (mkLin (length l) ints (nonzero (combine (seq 0 (length l)) l)))
  | LSparse e => Ok e
  | LDict d => foldM (lin_put env) d (mkLin (ve_n env) false [])
  end.

(** [__getitem__], linear_expression.py:46-57. *)
Definition lin_get (env : venv) (e : linexpr) (k : key) : result Qc :=
  do z <- resolve env k;
  do i <- dok_index (le_dim e) z;
  Ok (dgetq Nat.eqb i (le_co e)).

(** [__setitem__], linear_expression.py:59-62. *)
Definition lin_set (env : venv) (e : linexpr) (k : key) (v : Qc) : result linexpr :=
  lin_put env e (k, v).

(** [to_array], linear_expression.py:118-124. *)
Definition lin_to_array (e : linexpr) : list Qc :=
  map (fun i => dgetq Nat.eqb i (le_co e)) (seq 0 (le_dim e)).

(** [to_dict()], linear_expression.py:126-142, with indices. *)
Definition lin_to_dict (e : linexpr) : list (nat * Qc) := le_co e.

(** [to_dict(use_name=True)], given the names of the program's variables; linear_expression.py:138, quadratic_expression.py:188-189 *)
Definition name_at (names : list string) (i : nat) : result string :=
  match nth_error names i with Some s => Ok s | None => Err IndexError end.
(** [to_dict(use_name=True)], linear_expression.py:136-140 *)
Definition lin_to_dict_names (names : list string) (e : linexpr) : result (list (string * Qc)) :=
  foldM (fun d kv => do s <- name_at names (fst kv); Ok (dset String.eqb s (snd kv) d)) (le_co e) [].

(** Evaluation points: a list/array or a dictionary; linear_expression.py:144, quadratic_expression.py:196, 230-232 *)
Inductive xarg := XList (l : list Qc) | XDict (d : list (key * Qc)).

(** [evaluate], linear_expression.py:144-160: [x @ coefficients.T], scipy checks the shapes. *)
Definition lin_eval (env : venv) (e : linexpr) (x : xarg) : result Qc :=
  do X <- lin_make env (match x with XList l => LList false l | XDict d => LDict d end);
  if Nat.eqb (le_dim X) (le_dim e)
  then Ok (fold_right (fun iv s => snd iv * dgetq Nat.eqb (fst iv) (le_co e) + s)%Qc 0%Qc (le_co X))
  else Err ValueError.

(** [evaluate_gradient], linear_expression.py:163-174. *)
Definition lin_grad (e : linexpr) : list Qc := lin_to_array e.

(** ** Quadratic expressions *)
(** [_coefficients] of shape (qe_dim, qe_dim); quadratic_expression.py:28-51, 133-140 *)
Record quadexpr := mkQuad { qe_dim : nat; qe_int : bool; qe_co : list ((nat * nat) * Qc) }.

(** Accepted coefficient formats, quadratic_expression.py:83-91, 103-118 *)
Inductive quadcoef :=
| QList (ints : bool) (rows : list (list Qc))
| QDict (d : list ((key * key) * Qc))
| QSparse (e : quadexpr).

(** The entry at (i, j), quadratic_expression.py:67 *)
Definition mget (co : list ((nat * nat) * Qc)) (i j : nat) : Qc := dgetq nat2_eqb (i, j) co.

(** Entries of a dense description in row-major order, zeros dropped
    (conversion csr -> dok after an arithmetic operation); quadratic_expression.py:125, 131 *)
Definition dense_entries (n : nat) (f : nat -> nat -> Qc) : list ((nat * nat) * Qc) :=
  nonzero (flat_map (fun i => map (fun j => ((i, j), f i j)) (seq 0 n)) (seq 0 n)).

(** [_triangle_matrix], quadratic_expression.py:121-125: mat + lower.T - lower. *)
Definition triangle (n : nat) (co : list ((nat * nat) * Qc)) : list ((nat * nat) * Qc) :=
  dense_entries n (fun i j =>
    let lower := fun a b => if b <? a then mget co a b else 0%Qc in
    (mget co i j + lower j i - lower i j)%Qc).

(** [_symmetric_matrix], quadratic_expression.py:127-131: mat + upper.T - upper, upper halved. *)
Definition sym_matrix (n : nat) (co : list ((nat * nat) * Qc)) : list ((nat * nat) * Qc) :=
  dense_entries n (fun i j =>
    let upper := fun a b => if a <? b then (mget co a b / 2)%Qc else 0%Qc in
    (mget co i j + upper j i - upper i j)%Qc).

(** quadratic_expression.py:107-112: one assignment of the dictionary branch. *)
Definition quad_put_raw (env : venv) (n : nat) (co : list ((nat * nat) * Qc)) (kv : (key * key) * Qc)
  : result (list ((nat * nat) * Qc)) :=
  do zi <- resolve env (fst (fst kv));
  do zj <- resolve env (snd (fst kv));
  do i <- dok_index n zi;
  do j <- dok_index n zj;
  Ok (dok_put nat2_eqb (i, j) (snd kv) co).

(** Entries of a list of rows; quadratic_expression.py:104 *)
Definition rows_entries (rows : list (list Qc)) : list ((nat * nat) * Qc) :=
  nonzero (flat_map (fun ir => map (fun jv => ((fst ir, fst jv), snd jv)) (combine (seq 0 (length (snd ir))) (snd ir)))
                    (combine (seq 0 (length rows)) rows)).

(** [_coeffs_to_dok_matrix], quadratic_expression.py:83-119.  A list of rows
    that is not square raises in numpy/scipy. *)
Definition quad_make (env : venv) (c : quadcoef) : result quadexpr :=
  match c with
  | QList ints rows =>
      let n := length rows in
      if forallb (fun r => Nat.eqb (length r) n) rows
      then Ok (mkQuad n ints (triangle n (rows_entries rows)))
      else Err ValueError
  | QSparse e => Ok (mkQuad (qe_dim e) (qe_int e) (triangle (qe_dim e) (qe_co e)))
  | QDict d =>
      do co <- foldM (quad_put_raw env (ve_n env)) d [];
      Ok (mkQuad (ve_n env) false (triangle (ve_n env) co))
  end.

(** Index pair (min(i, j), max(i, j)) of __getitem__ and __setitem__,
    quadratic_expression.py:53-67 and 69-81: min and max are taken before
    negative indices are resolved by scipy. *)
Definition quad_pos (env : venv) (n : nat) (k : key * key) : result (nat * nat) :=
  do zi <- resolve env (fst k);
  do zj <- resolve env (snd k);
  do i <- dok_index n (Z.min zi zj);
  do j <- dok_index n (Z.max zi zj);
  Ok (i, j).

(** __getitem__, quadratic_expression.py:53-67 *)
Definition quad_get (env : venv) (e : quadexpr) (k : key * key) : result Qc :=
  do ij <- quad_pos env (qe_dim e) k;
  Ok (dgetq nat2_eqb ij (qe_co e)).

(** __setitem__, quadratic_expression.py:69-81 *)
Definition quad_set (env : venv) (e : quadexpr) (k : key * key) (v : Qc) : result quadexpr :=
  do ij <- quad_pos env (qe_dim e) k;
  Ok (mkQuad (qe_dim e) (qe_int e) (dok_put nat2_eqb ij (dtype_cast (qe_int e) v) (qe_co e))).

(** [to_array(symmetric)], quadratic_expression.py:159-169. *)
Definition quad_entries (sym : bool) (e : quadexpr) : list ((nat * nat) * Qc) :=
  if sym then sym_matrix (qe_dim e) (qe_co e) else qe_co e.
(** [to_array(symmetric)], quadratic_expression.py:159-169 *)
Definition quad_to_array (sym : bool) (e : quadexpr) : list (list Qc) :=
  map (fun i => map (fun j => mget (quad_entries sym e) i j) (seq 0 (qe_dim e))) (seq 0 (qe_dim e)).

(** [to_dict(symmetric)], quadratic_expression.py:171-194. *)
Definition quad_to_dict (sym : bool) (e : quadexpr) : list ((nat * nat) * Qc) := quad_entries sym e.
(** [to_dict(symmetric, use_name=True)], quadratic_expression.py:185-192 *)
Definition quad_to_dict_names (names : list string) (sym : bool) (e : quadexpr)
  : result (list ((string * string) * Qc)) :=
  foldM (fun d kv => do s <- name_at names (fst (fst kv)); do t <- name_at names (snd (fst kv));
                     Ok (dset str2_eqb (s, t) (snd kv) d)) (quad_entries sym e) [].

(** [_cast_as_array], quadratic_expression.py:230-243. *)
Definition cast_array (env : venv) (x : xarg) : result (list Qc) :=
  match x with
  | XList l => Ok l
  | XDict d =>
      foldM (fun l kv => do z <- resolve env (fst kv);
                         do i <- dok_index (length l) z; Ok (update i (snd kv) l))
            d (repeat 0%Qc (ve_n env))
  end.

(** [evaluate], quadratic_expression.py:196-211: x @ Q @ x. *)
Definition quad_eval (env : venv) (e : quadexpr) (x : xarg) : result Qc :=
  do l <- cast_array env x;
  if Nat.eqb (length l) (qe_dim e)
  then Ok (fold_right (fun kv s => snd kv * nth (fst (fst kv)) l 0 * nth (snd (fst kv)) l 0 + s)%Qc 0%Qc (qe_co e))
  else Err ValueError.

(** [evaluate_gradient], quadratic_expression.py:213-228: (Q.T + Q) @ x. *)
Definition quad_grad (env : venv) (e : quadexpr) (x : xarg) : result (list Qc) :=
  do l <- cast_array env x;
  if Nat.eqb (length l) (qe_dim e)
  then Ok (map (fun k => fold_right (fun j s => (mget (qe_co e) j k + mget (qe_co e) k j) * nth j l 0 + s)%Qc 0%Qc
                                    (seq 0 (qe_dim e)))
               (seq 0 (qe_dim e)))
  else Err ValueError.

(** ** Objective functions, quadratic_objective.py *)
(** ObjSense, quadratic_objective.py:26-30 *)
Inductive objsense := MINIMIZE | MAXIMIZE.
(** [ObjSense.value], quadratic_objective.py:26-30. *)
Definition sense_val (s : objsense) : Qc := match s with MINIMIZE => 1%Qc | MAXIMIZE => (- (1))%Qc end.

(** QuadraticObjective, quadratic_objective.py:33-155 *)
Record objective := mkObj { o_const : Qc; o_lin : linexpr; o_quad : quadexpr; o_sense : objsense }.

(** [__init__], quadratic_objective.py:40-70: missing parts become {}. *)
Definition obj_make (env : venv) (c : Qc) (l : option lincoef) (q : option quadcoef) (s : objsense)
  : result objective :=
  do le <- lin_make env (match l with Some l => l | None => LDict [] end);
  do qe <- quad_make env (match q with Some q => q | None => QDict [] end);
  Ok (mkObj c le qe s).

(** [evaluate], quadratic_objective.py:157-166. *)
Definition obj_eval (env : venv) (o : objective) (x : xarg) : result Qc :=
  do a <- lin_eval env (o_lin o) x;
  do b <- quad_eval env (o_quad o) x;
  Ok (o_const o + a + b)%Qc.

(** numpy addition of two 1-d arrays, with broadcasting of length 1. *)
Fixpoint zip_add (a b : list Qc) : list Qc :=
  match a, b with x :: a', y :: b' => (x + y)%Qc :: zip_add a' b' | _, _ => [] end.
(** Sum of the two gradients, quadratic_objective.py:177 *)
Definition np_add (a b : list Qc) : result (list Qc) :=
  if Nat.eqb (length a) (length b) then Ok (zip_add a b)
  else match a, b with
       | [x], _ => Ok (map (fun y => x + y)%Qc b)
       | _, [y] => Ok (map (fun x => x + y)%Qc a)
       | _, _ => Err ValueError
       end.

(** [evaluate_gradient], quadratic_objective.py:168-177. *)
Definition obj_grad (env : venv) (o : objective) (x : xarg) : result (list Qc) :=
  do b <- quad_grad env (o_quad o) x;
  np_add (lin_grad (o_lin o)) b.
