(** * Problems read from files
    problems/quadratic_program.py:1151-1203, applications/tsp.py:144-201 *)
From Verif Require Export Docplex Draw Files.
Local Open Scope string_scope.
Local Open Scope list_scope.
Local Open Scope nat_scope.

(** ** The name of the problem in an LP file, quadratic_program.py:1173-1185
    A file is the list of its lines, each with its end.  Text is ASCII. *)
(** What [str.strip] takes for white space; quadratic_program.py:1182 *)
Definition py_space (c : ascii) : bool := let n := nat_of_ascii c in ((9 <=? n) && (n <=? 13)) || ((28 <=? n) && (n <=? 32)).
(** [s.lstrip()]; quadratic_program.py:1182 *)
Fixpoint lstrip (s : string) : string := match s with String c r => if py_space c then lstrip r else s | "" => "" end.
(** [s.rstrip()]; quadratic_program.py:1182 *)
Fixpoint rstrip (s : string) : string :=
  match s with String c r => match rstrip r with "" => if py_space c then "" else String c "" | t => String c t end | "" => "" end.
(** [s.strip()]; quadratic_program.py:1182 *)
Definition strip (s : string) : string := rstrip (lstrip s).
(** [s[n:]]; quadratic_program.py:1182 *)
Fixpoint drop (n : nat) (s : string) : string := match n, s with S n, String _ r => drop n r | _, _ => s end.
(** [prefix], quadratic_program.py:1177 *)
Definition name_prefix : string := "\Problem name:".
(** The loop over the lines, quadratic_program.py:1180-1184 *)
Fixpoint name_loop (name : string) (file : list string) : string :=
  match file with
  | [] => name
  | line :: rest =>
      let name := if prefix name_prefix line then strip (drop (String.length name_prefix) line) else name in
      if negb (prefix "\" line) then name else name_loop name rest
  end.
(** _parse_problem_name, quadratic_program.py:1173-1185 *)
Definition parse_problem_name (file : list string) : string := name_loop "" file.
(** read_from_lp_file, quadratic_program.py:1151-1189: the docplex reader is an argument; it gets the lines and the name of the model.
    Missing files and a missing CPLEX are not modelled. *)
Definition read_from_lp (reader : list string -> string -> result dmodel) (file : list string) : result qp :=
  do m <- reader file (parse_problem_name file); from_docplex m.
(** write_to_lp_file, quadratic_program.py:1191-1203: the docplex printer is an argument *)
Definition write_to_lp (printer : dmodel -> list string) (p : qp) : result (list string) := do m <- to_docplex p; Ok (printer m).

(** ** Tsp.parse_tsplib_format, tsp.py:144-201 *)
(** [max] and [min] of a generator that is not empty; tsp.py:190-193 *)
Definition py_max (a : Qc) (l : list Qc) : Qc := fold_left (fun m x => if qltb m x then x else m) l a.
(** tsp.py:191, 193 *)
Definition py_min (a : Qc) (l : list Qc) : Qc := fold_left (fun m x => if qltb x m then x else m) l a.
(** The graph of the coordinates, tsp.py:190-201; [np.hypot] is an argument *)
Definition tsplib_graph (hyp : Qc -> Qc -> Qc) (coord : list (Qc * Qc)) : result graph :=
  match coord with
  | [] => Err ValueError
  | c :: r =>
      let x_max := py_max (fst c) (map fst r) in let x_min := py_min (fst c) (map fst r) in
      let y_max := py_max (snd c) (map snd r) in let y_min := py_min (snd c) (map snd r) in
      Ok (geometric hyp (length coord) (hyp (x_max - x_min) (y_max - y_min) + 1)%Qc coord)
  end.
(** parse_tsplib_format, tsp.py:143-201 *)
Definition parse_tsplib (int_of : string -> result Z) (float_of : string -> result Qc) (hyp : Qc -> Qc -> Qc) (file : list string) : result graph :=
  do coord <- tsplib_coords int_of float_of file; tsplib_graph hyp coord.
