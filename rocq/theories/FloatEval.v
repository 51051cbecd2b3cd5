(** * Evaluation and feasibility with floats
    The same functions as in Expr.v, Program.v and Feas.v, but every sum and product is rounded.  The numbers of a program are
    those that were written down; they are rounded when they are stored.

    Simplifications: no overflow or underflow and no fused operations; the numbers of the point are floats.  The order in which
    scipy and numpy add up is not fixed: a value is one of those that some order gives. *)
From Coq Require Import Permutation.
From Verif Require Export Feas.
Local Open Scope nat_scope.

(** The double nearest to a number, of two the one with the even last bit.  Exponents are not bounded. *)
Definition exponent (q : Qc) : Z :=
  let k := (Z.log2 (Z.abs (Qnum (this q))) - Z.log2 (Z.pos (Qden (this q))))%Z in
  if qleb (if (0 <=? k)%Z then qz (2 ^ k) else 1 / qz (2 ^ (- k)))%Qc (qabs q) then k else (k - 1)%Z.
(** The nearest whole number *)
Definition half_even (q : Qc) : Z :=
  let f := qfloor q in
  let r := (q - qz f)%Qc in
  if qltb r (1 / qz 2)%Qc then f else if qltb (1 / qz 2)%Qc r then (f + 1)%Z else if Z.even f then f else (f + 1)%Z.
(** Rounding of a float operation, of which linear_expression.py:157, quadratic_expression.py:208 and the sums of
    quadratic_objective.py:166 and quadratic_constraint.py:120 consist *)
Definition to_double (q : Qc) : Qc :=
  let e := (52 - exponent q)%Z in
  let s := (if (0 <=? e)%Z then qz (2 ^ e) else 1 / qz (2 ^ (- e)))%Qc in
  (qz (half_even (q * s)) / s)%Qc.

Section Rounded.
Variable rnd : Qc -> Qc.

(** A sum in some order, linear_expression.py:157, quadratic_expression.py:208 *)
Inductive float_sum : list Qc -> Qc -> Prop :=
| sum_none : float_sum [] 0%Qc
| sum_one a : float_sum [a] a
| sum_add l l1 l2 a b : l1 <> [] -> l2 <> [] -> Permutation l (l1 ++ l2) -> float_sum l1 a -> float_sum l2 b -> float_sum l (rnd (a + b)%Qc).

(** LinearExpression.evaluate, linear_expression.py:144-160 *)
Definition float_lin (e : linexpr) (x : list Qc) (v : Qc) : Prop :=
  float_sum (map (fun kc => rnd (rnd (snd kc) * nth (fst kc) x 0)%Qc) (le_co e)) v.
(** [x @ self.coefficients], quadratic_expression.py:208 *)
Definition float_column (e : quadexpr) (x : list Qc) (j : nat) (v : Qc) : Prop :=
  float_sum (map (fun kc => rnd (rnd (snd kc) * nth (fst (fst kc)) x 0)%Qc) (filter (fun kc => Nat.eqb (snd (fst kc)) j) (qe_co e))) v.
(** QuadraticExpression.evaluate, quadratic_expression.py:196-211 *)
Definition float_quad (e : quadexpr) (x : list Qc) (v : Qc) : Prop :=
  exists r, (forall j, j < qe_dim e -> float_column e x j (nth j r 0%Qc)) /\
    float_sum (map (fun j => rnd (nth j r 0 * nth j x 0)%Qc) (seq 0 (qe_dim e))) v.
(** QuadraticObjective.evaluate, quadratic_objective.py:157-166 *)
Definition float_obj (o : objective) (x : list Qc) (v : Qc) : Prop :=
  exists a b, float_lin (o_lin o) x a /\ float_quad (o_quad o) x b /\ v = rnd (rnd (rnd (o_const o) + a) + b)%Qc.
(** [constraint.evaluate(x)], quadratic_program.py:1485, linear_constraint.py:72-81, quadratic_constraint.py:111-120 *)
Definition float_lhs (c : anycon) (x : list Qc) (v : Qc) : Prop :=
  match c with
  | CLin c => float_lin (lc_lin c) x v
  | CQuad c => exists a b, float_lin (qc_lin c) x a /\ float_quad (qc_quad c) x b /\ v = rnd (a + b)%Qc
  end.
(** [isclose], quadratic_program.py:1490 *)
Definition float_isclose (a b : Qc) : bool :=
  qeqb a b || qleb (rnd (qabs (b - a))) (qabs (rnd (rnd rel_tol * b))) || qleb (rnd (qabs (b - a))) (qabs (rnd (rnd rel_tol * a))).
(** quadratic_program.py:1486-1491 *)
Definition float_violated (s : csense) (lhs rhs : Qc) : bool :=
  match s with LE => qltb (rnd rhs) lhs | GE => qltb lhs (rnd rhs) | EQ => negb (float_isclose lhs (rnd rhs)) end.
(** The bounds, quadratic_program.py:1475-1478 *)
Definition float_outside (v : variable) (a : Qc) : bool := qltb a (rnd (v_lb v)) || qltb (rnd (v_ub v)) a.
(** get_feasibility_info, quadratic_program.py:1452-1495, for a point of the right length; [lhs] are the values of the constraints *)
Definition float_info (p : qp) (x : list Qc) (lhs : anycon -> Qc) : bool * list variable * list anycon :=
  let vv := map fst (filter (fun va => float_outside (fst va) (snd va)) (combine (p_vars p) x)) in
  let vc := filter (fun c => float_violated (any_sense c) (lhs c) (any_rhs c)) (all_cons p) in
  (match vv, vc with [], [] => true | _, _ => false end, vv, vc).
End Rounded.
