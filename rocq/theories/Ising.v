(** * Ising operators

    Models [to_ising] and [from_ising], qiskit_optimization/problems/quadratic_program.py:1234-1450.

    The operator classes come from qiskit-terra, which is not part of /repo.  What the two functions use
    of them is modelled here from their documented behaviour: a Pauli string is a pair of flag arrays, a
    sum starts from the integer 0, two equal neighbouring single terms add up, any other sum keeps its
    terms in a list, and [reduce] on such a list adds the coefficients of equal strings and drops those
    that are numerically zero.  Coefficients are real.  The order in which [reduce] lists the strings is
    not modelled. *)
From Verif Require Export Conv.
Local Open Scope string_scope.
Local Open Scope list_scope.
Local Open Scope nat_scope.

(** [Pauli((z, x))]: the flags of the factors Z and X on each qubit; used in quadratic_program.py:1287, 1310 *)
Definition pauli := (list bool * list bool)%type.
(** Equality of Pauli strings, used by [PauliOp.add] and [reduce] (qiskit-terra); quadratic_program.py:1323, 1328 *)
Fixpoint flags_eqb (a b : list bool) : bool :=
  match a, b with
  | [], [] => true
  | u :: a', v :: b' => Bool.eqb u v && flags_eqb a' b'
  | _, _ => false
  end.
(** Equality of Pauli strings, quadratic_program.py:1323, 1328 *)
Definition pauli_eqb (p q : pauli) : bool := flags_eqb (fst p) (fst q) && flags_eqb (snd p) (snd q).

(** An operator: number of qubits and terms, the value returned in quadratic_program.py:1332 *)
Record qop := mkOp { op_n : nat; op_terms : list (pauli * Qc) }.

(** [zeros(num_nodes, dtype=bool)] and [z_p[i] = True], quadratic_program.py:1272, 1283-1285, 1307-1309 *)
Definition no_flags (n : nat) : list bool := repeat false n.
(** [z_p[i] = True], quadratic_program.py:1285, 1308-1309, 1313, 1317 *)
Definition set_flag (i : nat) (z : list bool) : result (list bool) :=
  if i <? length z then Ok (update i true z) else Err IndexError.

(** Terms collected so far with the offset, the loop state of quadratic_program.py:1270-1320 *)
Definition ising_state := (list (pauli * Qc) * Qc)%type.
(** One linear coefficient, quadratic_program.py:1282-1288 *)
Definition ising_lin (n : nat) (s : Qc) (st : ising_state) (kv : nat * Qc) : result ising_state :=
  let '(idx, coef) := kv in
  let weight := (coef * s / qz 2)%Qc in
  do z <- set_flag idx (no_flags n);
  Ok (fst st ++ [((z, no_flags n), (- weight)%Qc)], (snd st + weight)%Qc).
(** Merging (i, j) with (j, i), quadratic_program.py:1292-1297 *)
Definition ising_merge (co : list ((nat * nat) * Qc)) (kv : (nat * nat) * Qc) : list ((nat * nat) * Qc) :=
  let '((i, j), v) := kv in
  if j <? i then dadd nat2_eqb (j, i) v co else dadd nat2_eqb (i, j) v co.
(** One merged quadratic coefficient, quadratic_program.py:1300-1320 *)
Definition ising_quad (n : nat) (s : Qc) (st : ising_state) (kv : (nat * nat) * Qc) : result ising_state :=
  let '((i, j), coeff) := kv in
  let weight := (coeff * s / qz 4)%Qc in
  do st1 <- (if i =? j then Ok (fst st, (snd st + weight)%Qc)
             else do z <- set_flag i (no_flags n);
                  do z' <- set_flag j z;
                  Ok (fst st ++ [((z', no_flags n), weight)], snd st));
  do zi <- set_flag i (no_flags n);
  do zj <- set_flag j (no_flags n);
  Ok ((fst st1 ++ [((zi, no_flags n), (- weight)%Qc)]) ++ [((zj, no_flags n), (- weight)%Qc)], (snd st1 + weight)%Qc).

(** The value of [sum(PauliOp(...) ...)], quadratic_program.py:1323: the integer 0, a single Pauli
    operator, or a sum kept as a list *)
Inductive opsum := SZero | SOne (t : pauli * Qc) | SMany (l : list (pauli * Qc)).
(** One addition, quadratic_program.py:1323 *)
Definition sum_add (s : opsum) (t : pauli * Qc) : opsum :=
  match s with
  | SZero => SOne t
  | SOne u => if pauli_eqb (fst u) (fst t) then SOne (fst u, (snd u + snd t)%Qc) else SMany [u; t]
  | SMany l => SMany (l ++ [t])
  end.
(** The tolerance of [reduce]: coefficients up to 10^-8 count as zero *)
Definition ATOL : Qc := (1 / qz 100000000)%Qc.
(** [reduce] on a sum kept as a list; all terms dropped leaves zero times the identity; quadratic_program.py:1328 *)
Definition merge_terms (l : list (pauli * Qc)) : list (pauli * Qc) :=
  fold_left (fun d t => dadd pauli_eqb (fst t) (snd t) d) l [].
(** [qubit_op.reduce()], quadratic_program.py:1328 *)
Definition reduce_terms (n : nat) (l : list (pauli * Qc)) : list (pauli * Qc) :=
  match filter (fun t => qltb ATOL (qabs (snd t))) (merge_terms l) with
  | [] => [((no_flags n, no_flags n), 0%Qc)]
  | kept => kept
  end.
(** quadratic_program.py:1323-1330: [reduce], or the identity if nothing was summed *)
Definition finish_op (n : nat) (s : opsum) : list (pauli * Qc) :=
  match s with
  | SZero => [((no_flags n, no_flags n), 1%Qc)]
  | SOne t => [t]
  | SMany l => reduce_terms n l
  end.

(** to_ising, quadratic_program.py:1234-1332 *)
Definition to_ising (p : qp) : result (qop * Qc) :=
  if count_type BINARY p <? num_vars p then Err QiskitOptimizationError
  else if negb ((length (p_lcs p) =? 0) && (length (p_qcs p) =? 0)) then Err QiskitOptimizationError
  else
    let n := num_vars p in
    let s := sense_val (o_sense (p_obj p)) in
    do st <- foldM (ising_lin n s) (lin_to_dict (o_lin (p_obj p))) ([], (0 + o_const (p_obj p) * s)%Qc);
    let coeffs := fold_left ising_merge (quad_to_dict false (o_quad (p_obj p))) [] in
    do st <- foldM (ising_quad n s) coeffs st;
    Ok (mkOp n (finish_op n (fold_left sum_add (fst st) SZero)), snd st).

(** ** From an operator to a program *)
(** Positions of the flags that are set, quadratic_program.py:1386-1387, 1401-1402 *)
Definition flagged (z : list bool) : list nat :=
  map fst (filter (fun iz => snd iz) (combine (seq 0 (length z)) z)).
(** [qubo_matrix]: the entries written so far, all others are zero, quadratic_program.py:1374 *)
Definition matrix := list ((nat * nat) * Qc).
(** One Pauli term, quadratic_program.py:1381-1404 *)
Definition read_term (m : matrix) (t : pauli * Qc) : result matrix :=
  let '((z, x), c) := t in
  do m' <- match flagged z with
           | [i] => Ok (dset nat2_eqb (i, i) c m)
           | [i; j] => Ok (dset nat2_eqb (i, j) c m)
           | _ => Err QiskitOptimizationError
           end;
  if length (flagged x) =? 0 then Ok m' else Err QiskitOptimizationError.
(** State of the two conversion loops: matrix, linear_terms, quadratic_terms, offset; quadratic_program.py:1374, 1407-1408 *)
Record from_state := mkFrom { fr_m : matrix; fr_lin : list (nat * Qc); fr_quad : list ((nat * nat) * Qc); fr_off : Qc }.
(** One off-diagonal entry, quadratic_program.py:1415-1428 *)
Definition from_pair (st : from_state) (ij : nat * nat) : from_state :=
  let '(i, j) := ij in
  if j <=? i then st
  else
    let weight := mget (fr_m st) i j in
    let m1 := dadd nat2_eqb (i, j) (- weight)%Qc (fr_m st) in
    let m2 := dadd nat2_eqb (i, i) weight m1 in
    let m3 := dadd nat2_eqb (j, j) weight m2 in
    mkFrom m3 (fr_lin st) (dset nat2_eqb (i, j) (weight * qz 4)%Qc (fr_quad st)) (fr_off st - weight)%Qc.
(** One diagonal entry, quadratic_program.py:1432-1446 *)
Definition from_diag (linear : bool) (st : from_state) (i : nat) : from_state :=
  let weight := mget (fr_m st) i i in
  let coef := (weight * qz 2)%Qc in
  mkFrom (dadd nat2_eqb (i, i) (- weight)%Qc (fr_m st))
    (if linear then dset Nat.eqb i (- coef)%Qc (fr_lin st) else fr_lin st)
    (if linear then fr_quad st else dset nat2_eqb (i, i) (- coef)%Qc (fr_quad st))
    (fr_off st + weight)%Qc.
(** The pairs visited by the two nested loops in order, quadratic_program.py:1412-1413 *)
Definition row_major (n : nat) : list (nat * nat) := flat_map (fun i => map (fun j => (i, j)) (seq 0 n)) (seq 0 n).
(** quadratic_program.py:1407-1446 *)
Definition from_terms (n : nat) (linear : bool) (m : matrix) (offset : Qc) : from_state :=
  fold_left (from_diag linear) (seq 0 n) (fold_left from_pair (row_major n) (mkFrom m [] [] offset)).

(** The binary variables x_0, x_1, ..., quadratic_program.py:1367-1368 *)
Definition add_bit (st : qp * result unit) (i : nat) : qp * result unit :=
  match snd st with
  | Err e => st
  | Ok _ => let '(q, r) := binary_var (fst st) (Some ("x_" ++ str_nat i)%string) in (q, do _ <- r; Ok tt)
  end.
(** from_ising, quadratic_program.py:1334-1450, on the list of terms that the loop in line 1381 visits.
    Whether the operator classes merge equal Pauli strings of a caller's operator before that point is
    decided in qiskit-terra; here the list is taken as it is. *)
Definition from_ising (p : qp) (op : qop) (offset : Qc) (linear : bool) : qp * result unit :=
  let n := op_n op in
  let '(q, r) := fold_left add_bit (seq 0 n) (p, Ok tt) in
  match r with
  | Err e => (q, Err e)
  | Ok _ =>
      match foldM read_term (op_terms op) [] with
      | Err e => (q, Err e)
      | Ok m =>
          let st := from_terms n linear m offset in
          set_objective q MINIMIZE (fr_off st) (by_index (fr_lin st)) (by_index2 (fr_quad st))
      end
  end.
