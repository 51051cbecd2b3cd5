(** * Variables in bulk, counts of variables and constraints
    quadratic_program.py *)
From Verif Require Export Program.
Local Open Scope string_scope.
Local Open Scope list_scope.
Local Open Scope nat_scope.

(** The variables that _add_variables returns beside the names, quadratic_program.py:226-231: those appended *)
Definition add_variables2 (p : qp) (keys : keys_arg) (lb ub : Qc) (ty : vartype) (name : option string) (fmt : string) : qp * result (list string * list variable) :=
  let (q, r) := add_variables p keys lb ub ty name fmt in
  (q, do names <- r; Ok (names, skipn (num_vars p) (p_vars q))).
(** [dict(zip(names, variables))]: a later entry replaces an earlier one with the same name; quadratic_program.py:267-269 *)
Definition dict_zip {A} (names : list string) (l : list A) : list (string * A) := fold_left (fun d na => dset String.eqb (fst na) (snd na) d) (combine names l) [].
(** _var_dict, quadratic_program.py:233-269 *)
Definition var_dict (p : qp) (keys : keys_arg) (lb ub : Qc) (ty : vartype) (name : option string) (fmt : string) : qp * result (list (string * variable)) :=
  let (q, r) := add_variables2 p keys lb ub ty name fmt in (q, do nl <- r; Ok (dict_zip (fst nl) (snd nl))).
(** _var_list, quadratic_program.py:271-303 *)
Definition var_list (p : qp) (keys : keys_arg) (lb ub : Qc) (ty : vartype) (name : option string) (fmt : string) : qp * result (list variable) :=
  let (q, r) := add_variables2 p keys lb ub ty name fmt in (q, do nl <- r; Ok (snd nl)).
(** The public methods, quadratic_program.py:326-390, 406-458, 481-541; bounds that are not given are 0 and INFINITY, the format is "{}" *)
Definition or_else {A} (o : option A) (a : A) : A := match o with Some b => b | None => a end.
(** binary_var_dict, quadratic_program.py:406-431 *)
Definition binary_var_dict (p : qp) (keys : keys_arg) (name fmt : option string) := var_dict p keys 0 1 BINARY name (or_else fmt "{}").
(** binary_var_list, quadratic_program.py:433-458 *)
Definition binary_var_list (p : qp) (keys : keys_arg) (name fmt : option string) := var_list p keys 0 1 BINARY name (or_else fmt "{}").
(** integer_var_dict, quadratic_program.py:481-510 *)
Definition integer_var_dict (p : qp) (keys : keys_arg) (lb ub : option Qc) (name fmt : option string) := var_dict p keys (or_else lb 0%Qc) (or_else ub INFINITY) INTEGER name (or_else fmt "{}").
(** integer_var_list, quadratic_program.py:512-541 *)
Definition integer_var_list (p : qp) (keys : keys_arg) (lb ub : option Qc) (name fmt : option string) := var_list p keys (or_else lb 0%Qc) (or_else ub INFINITY) INTEGER name (or_else fmt "{}").
(** continuous_var_dict, quadratic_program.py:326-357 *)
Definition continuous_var_dict (p : qp) (keys : keys_arg) (lb ub : option Qc) (name fmt : option string) := var_dict p keys (or_else lb 0%Qc) (or_else ub INFINITY) CONTINUOUS name (or_else fmt "{}").
(** continuous_var_list, quadratic_program.py:359-390 *)
Definition continuous_var_list (p : qp) (keys : keys_arg) (lb ub : option Qc) (name fmt : option string) := var_list p keys (or_else lb 0%Qc) (or_else ub INFINITY) CONTINUOUS name (or_else fmt "{}").
(** get_num_vars and the three getters, quadratic_program.py:557-593; members of VarType are true, also the one with the value 0 *)
Definition get_num_vars (p : qp) (t : option vartype) : nat := match t with Some t => count_type t p | None => num_vars p end.
(** get_num_continuous_vars, quadratic_program.py:571-577 *)
Definition get_num_continuous_vars (p : qp) : nat := get_num_vars p (Some CONTINUOUS).
(** get_num_binary_vars, quadratic_program.py:579-585 *)
Definition get_num_binary_vars (p : qp) : nat := get_num_vars p (Some BINARY).
(** get_num_integer_vars, quadratic_program.py:587-593 *)
Definition get_num_integer_vars (p : qp) : nat := get_num_vars p (Some INTEGER).
