(** * Printing programs
    quadratic_program.py:93-94, 1113-1149 and 1191-1203: every method asks to_docplex for a model and leaves the rest to docplex,
    whose printers are the arguments [lp] and [pretty].

    Simplifications: what is printed or written is a value, and deprecation warnings are left out. *)
From Verif Require Export Docplex.
Local Open Scope nat_scope.

Section Print.
Variables lp pretty : dmodel -> string.
(** The ways to print a program, quadratic_program.py:93, 1113, 1121, 1135, 1191 *)
Inductive printing := Repr | LpString | PrettyString | PrettyPrint | LpFile.
(** __repr__, export_as_lp_string, pprint_as_string, prettyprint, write_to_lp_file; quadratic_program.py:93-94, 1113-1149, 1191-1203 *)
Definition printed (k : printing) (p : qp) : result string :=
  do m <- to_docplex p;
  Ok (match k with Repr | LpString | LpFile => lp m | PrettyString | PrettyPrint => pretty m end).
End Print.
