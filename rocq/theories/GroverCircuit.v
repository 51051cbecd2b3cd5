(** * Circuits of the Grover search
    grover_optimizer.py:121-152 and 232-240.

    Simplifications: [QuadraticForm] of qiskit-terra is the map of its documentation (|x>|0> becomes |x>|value mod 2^m>, with the most significant digit
    first for little_endian=False), for whole values only, and is applied to states with value register 0 only; the circuit of [Grover] is that of its documentation:
    the state preparation, then in every rotation the oracle and the reflection about the prepared state.  The oracle qubit is left out, no gate acts on it. *)
From Verif Require Export Circuit Grover.
From Coq Require Import ZArith.
Local Open Scope list_scope.
Local Open Scope R_scope.

(** The last [m] binary digits of a whole number, most significant first; grover_optimizer.py:127-129 *)
Fixpoint digits_of (m : nat) (z : Z) : list bool :=
  match m with O => [] | S m' => Z.odd (z / 2 ^ Z.of_nat m') :: digits_of m' z end.
(** The number computed by [QuadraticForm(num_value_qubits, quadratic, linear, offset)] from the arrays of the objective, grover_optimizer.py:122-129;
    qubit [j] of the key register holds variable [j] *)
Definition form_value (q : qp) (key : list bool) : Z :=
  let l := lin_to_array (o_lin (p_obj q)) in let a := quad_to_array false (o_quad (p_obj q)) in
  let x := map (fun b : bool => if b then 1%Qc else 0%Qc) key in
  qfloor (o_const (p_obj q) + fold_right (fun lx s => fst lx * snd lx + s)%Qc 0%Qc (combine l x)
          + fold_right (fun rx s => snd rx * fold_right (fun ax t => fst ax * snd ax + t)%Qc 0%Qc (combine (fst rx) x) + s)%Qc 0%Qc (combine a x))%Qc.
(** QuadraticForm, grover_optimizer.py:127-129, 133 *)
Definition quadratic_form (n m : nat) (f : list bool -> Z) (s : state) : state := fun b =>
  if bits_eqb (skipn n b) (digits_of m (f (firstn n b))) then s (firstn n b ++ repeat false m) else C0.
(** _get_a_operator, grover_optimizer.py:121-134, applied to the state 0 *)
Definition a_state (q : qp) (m : nat) : state :=
  let n := length (lin_to_array (o_lin (p_obj q))) in
  quadratic_form n m (form_value q) (run_circuit (map (fun i => (m_h, i)) (seq 0 n)) zero_state).
(** _get_oracle, grover_optimizer.py:136-143, with [n] key qubits *)
Definition grover_oracle (n : nat) : list gate := [(m_z, n)].
(** is_good_state, grover_optimizer.py:145-150.  It is defined with two parameters, [self] included, but is no method: called with a measurement only it raises TypeError. *)
Definition is_good_state (n m : nat) (args : list (list bool)) : result bool :=
  match args with
  | [_; measurement] => match firstn m (skipn n measurement) with [] => Err IndexError | b :: _ => Ok b end
  | _ => Err TypeError
  end.
(** Inner product over all bits of length [k]; grover_optimizer.py:238-240 *)
Fixpoint bit_lists (k : nat) : list (list bool) := match k with O => [[]] | S k' => map (cons false) (bit_lists k') ++ map (cons true) (bit_lists k') end.
(** Inner product of two states, for grover_optimizer.py:238-240 *)
Definition inner_product (k : nat) (s t : state) : C :=
  fold_right (fun b z => Cplus (Cmul (fst (s b), - snd (s b)) (t b)) z) C0 (bit_lists k).
(** One rotation: oracle, then 2 |a><a| - 1 *)
Definition rotation (n m : nat) (a s : state) : state :=
  let t := run_circuit (grover_oracle n) s in
  let w := inner_product (n + m) a t in fun b => Cminus (Cmul (Cmul (RC 2) w) (a b)) (t b).
(** [grover.construct_circuit(problem=amp_problem, power=rotation_count)], grover_optimizer.py:238-240 *)
Definition grover_state (q : qp) (m rotations : nat) : state :=
  Nat.iter rotations (rotation (length (lin_to_array (o_lin (p_obj q)))) m (a_state q m)) (a_state q m).
