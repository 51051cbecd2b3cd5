(** * The small part of Python used by the modelled code

    Exceptions as values, dictionaries in insertion order, list indexing with
    negative indices, and a few string operations. *)
From Verif Require Export Num.

(** ** Exceptions *)
(** [OutOfFuel] is not a Python exception: it marks a loop whose fuel ran out;
    theorems show that it does not occur; raised in quadratic_program.py:184-225, 555, optimization_algorithm.py:180-186 and elsewhere *)
Inductive exn :=
| QiskitOptimizationError | KeyError | IndexError | ValueError | TypeError
| OverflowError | ZeroDivisionError | AttributeError | AssertionError | DOcplexException | CplexSolverError | OutOfFuel.

(** Equality of exceptions, for the tests of examples; exceptions told apart, goemans_williamson_optimizer.py:156 *)
Definition exn_eqb (a b : exn) : bool :=
  match a, b with
  | QiskitOptimizationError, QiskitOptimizationError | KeyError, KeyError
  | IndexError, IndexError | ValueError, ValueError | TypeError, TypeError
  | OverflowError, OverflowError | ZeroDivisionError, ZeroDivisionError
  | AttributeError, AttributeError | AssertionError, AssertionError | DOcplexException, DOcplexException
  | CplexSolverError, CplexSolverError | OutOfFuel, OutOfFuel => true
  | _, _ => false
  end.

(** What a call gives: a value or an exception, quadratic_program.py:222-231 *)
Inductive result (A : Type) := Ok (a : A) | Err (e : exn).
Arguments Ok {A} a.
Arguments Err {A} e.

(** Sequencing: an exception ends the call, quadratic_program.py:222-231 *)
Definition bind {A B} (r : result A) (f : A -> result B) : result B :=
  match r with Ok a => f a | Err e => Err e end.
Notation "'do' x <- e ; f" := (bind e (fun x => f))
  (at level 200, x name, e at level 100, f at level 200, right associativity).
Notation "'do' ' p <- e ; f" := (bind e (fun x => match x with p => f end))
  (at level 200, p pattern, e at level 100, f at level 200, right associativity).

(** A raise guarded by a condition; quadratic_program.py:183-196 *)
Definition check (b : bool) (e : exn) : result unit := if b then Ok tt else Err e.

(** A comprehension over calls that may raise, linear_expression.py:136-140 *)
Fixpoint mapM {A B} (f : A -> result B) (l : list A) : result (list B) :=
  match l with
  | [] => Ok []
  | a :: l' => do b <- f a; do bs <- mapM f l'; Ok (b :: bs)
  end.

(** A loop over calls that may raise, linear_expression.py:88-91 *)
Fixpoint foldM {A S} (f : S -> A -> result S) (l : list A) (s : S) : result S :=
  match l with
  | [] => Ok s
  | a :: l' => do s' <- f s a; foldM f l' s'
  end.

(** No exception is raised, as asked of the calls of quadratic_program.py:96-870 *)
Definition is_ok {A} (r : result A) : bool := match r with Ok _ => true | Err _ => false end.

(** Used in examples: the result is a given number; results of optimization_algorithm.py:160-186 *)
Definition res_is (r : result Qc) (v : Qc) : bool := match r with Ok a => qeqb a v | Err _ => false end.

(** ** Dictionaries in insertion order *)
Section Dict.
Context {K V : Type} (eqb : K -> K -> bool).

(** [d[k]] if [k] is present, linear_expression.py:56 *)
Fixpoint dget (k : K) (d : list (K * V)) : option V :=
  match d with
  | [] => None
  | (k', v) :: d' => if eqb k k' then Some v else dget k d'
  end.

(** [d[k] = v]; quadratic_program.py:227 *)
Fixpoint dset (k : K) (v : V) (d : list (K * V)) : list (K * V) :=
  match d with
  | [] => [(k, v)]
  | (k', v') :: d' => if eqb k k' then (k', v) :: d' else (k', v') :: dset k v d'
  end.

(** [del d[k]] if present; as writing zero into a sparse matrix does, linear_expression.py:62 *)
Fixpoint drem (k : K) (d : list (K * V)) : list (K * V) :=
  match d with
  | [] => []
  | (k', v') :: d' => if eqb k k' then d' else (k', v') :: drem k d'
  end.

(** [k in d], quadratic_program.py:206, 222 *)
Definition dhas (k : K) (d : list (K * V)) : bool :=
  match dget k d with Some _ => true | None => false end.
End Dict.

(** [d.get(k, 0)] and [d[k] += v] on a [defaultdict(int)]. *)
Definition dgetq {K} (eqb : K -> K -> bool) (k : K) (d : list (K * Qc)) : Qc :=
  match dget eqb k d with Some v => v | None => 0%Qc end.
(** [d[k] = d.get(k, 0) + v], quadratic_program.py:1701, 1719-1721 *)
Definition dadd {K} (eqb : K -> K -> bool) (k : K) (v : Qc) (d : list (K * Qc)) : list (K * Qc) :=
  dset eqb k (dgetq eqb k d + v)%Qc d.

(** Equality of index pairs, quadratic_expression.py:113 *)
Definition nat2_eqb (a b : nat * nat) : bool := Nat.eqb (fst a) (fst b) && Nat.eqb (snd a) (snd b).
(** Equality of name pairs, quadratic_expression.py:187-190 *)
Definition str2_eqb (a b : string * string) : bool := String.eqb (fst a) (fst b) && String.eqb (snd a) (snd b).

(** ** List indexing *)
(** Position addressed by a Python index (possibly negative) in a list of length [n]; quadratic_program.py:553, 670 *)
Definition py_index (n : nat) (z : Z) : option nat :=
  if (0 <=? z)%Z then (if (z <? Z.of_nat n)%Z then Some (Z.to_nat z) else None)
  else (if (- Z.of_nat n <=? z)%Z then Some (Z.to_nat (Z.of_nat n + z)) else None).

(** [l[z]], quadratic_program.py:553, 670 *)
Definition py_nth {A} (l : list A) (z : Z) : result A :=
  match py_index (length l) z with
  | Some i => match nth_error l i with Some a => Ok a | None => Err IndexError end
  | None => Err IndexError
  end.

(** [list[i] = a]; variable.py:99, recursive_minimum_eigen_optimizer.py:273 *)
Fixpoint update {A} (i : nat) (a : A) (l : list A) : list A :=
  match l, i with
  | [], _ => []
  | _ :: l', O => a :: l'
  | b :: l', S i' => b :: update i' a l'
  end.

(** [del list[i]]; quadratic_program.py:791, 808 *)
Fixpoint delete_at {A} (i : nat) (l : list A) : list A :=
  match l, i with
  | [], _ => []
  | _ :: l', O => l'
  | b :: l', S i' => b :: delete_at i' l'
  end.

(** ** Strings *)
Local Open Scope string_scope.
Local Open Scope nat_scope.

(** [str(n)] for a non-negative integer; quadratic_program.py:201, 648 *)
Definition digit (n : nat) : string := String (ascii_of_nat (48 + n mod 10)) "".
(** The digits of a number, quadratic_program.py:201, 648 *)
Fixpoint str_fuel (fuel n : nat) : string :=
  match fuel with
  | O => digit n
  | S f => if n <? 10 then digit n else str_fuel f (n / 10) ++ digit n
  end.
(** [str(n)], quadratic_program.py:201, 648 *)
Definition str_nat (n : nat) : string := str_fuel n n.

(** [str(z)] for an integer; quadratic_program.py:219 *)
Definition str_Z (z : Z) : string :=
  if (z <? 0)%Z then "-" ++ str_nat (Z.abs_nat z) else str_nat (Z.abs_nat z).

(** [sub in s], quadratic_program.py:189 *)
Definition contains (sub s : string) : bool :=
  match String.index 0 sub s with Some _ => true | None => false end.

(** Braces in a format, quadratic_program.py:189, 193 *)
Definition is_brace (c : ascii) : bool := Ascii.eqb c "{" || Ascii.eqb c "}".

(** [s.count("{}")]; quadratic_program.py:193 *)
Fixpoint count_slots (s : string) : nat :=
  match s with
  | String a ((String b r') as r) =>
      if Ascii.eqb a "{" && Ascii.eqb b "}" then S (count_slots r') else count_slots r
  | _ => 0
  end.

(** [s.format(arg)] for format strings whose only braces are slots "{}".
    Simplification: other brace constructs ("{0}", "{:d}", "{{") raise here,
    Python accepts some of them. *)
Fixpoint py_format (s arg : string) : result string :=
  match s with
  | "" => Ok ""
  | String a r =>
      match r with
      | String b r' =>
          if Ascii.eqb a "{" && Ascii.eqb b "}"
          then do t <- py_format r' arg; Ok (arg ++ t)
          else if is_brace a then Err ValueError
          else do t <- py_format r arg; Ok (String a t)
      | "" => if is_brace a then Err ValueError else Ok (String a "")
      end
  end.

(** [s.upper()] on ASCII letters; constraint.py:48 *)
Definition upper_ascii (c : ascii) : ascii :=
  let n := nat_of_ascii c in
  if (97 <=? n) && (n <=? 122) then ascii_of_nat (n - 32) else c.
(** [s.upper()], constraint.py:48 *)
Fixpoint upper (s : string) : string :=
  match s with "" => "" | String c r => String (upper_ascii c) (upper r) end.

(** [s in list of strings], constraint.py:49-66 *)
Definition str_mem (s : string) (l : list string) : bool := existsb (String.eqb s) l.

(** All characters of a string satisfy a test; decimal digits; warm_start_qaoa_optimizer.py:76 *)
Fixpoint all_chars (P : ascii -> bool) (s : string) : bool :=
  match s with EmptyString => true | String c r => P c && all_chars P r end.
(** Decimal digits, warm_start_qaoa_optimizer.py:76 *)
Definition is_digit (c : ascii) : bool := (48 <=? nat_of_ascii c) && (nat_of_ascii c <=? 57).
