(** * Circuits
    What the gates used in qiskit_optimization do to a state vector.  The matrices are those of the gates [ry], [rz], [rx], [h] and [z] in qiskit-terra.

    Simplifications: numbers are real and complex numbers, not floats; a state gives every list of bits (qubit 0 first) an amplitude. *)
From Coq Require Export Reals List Bool.
From Coq Require Import Lra.
Export ListNotations.
Local Open Scope R_scope.

(** ** Complex numbers *)
(** Complex numbers, the amplitudes of warm_start_qaoa_optimizer.py:156-194 and grover_optimizer.py:121-143 *)
Definition C : Type := (R * R)%type.
(** Zero, for grover_optimizer.py:341 *)
Definition C0 : C := (0, 0).
(** One, for grover_optimizer.py:341 *)
Definition C1 : C := (1, 0).
(** Sum, for grover_optimizer.py:341 *)
Definition Cplus (a b : C) : C := (fst a + fst b, snd a + snd b).
(** Product, for grover_optimizer.py:341 *)
Definition Cmul (a b : C) : C := (fst a * fst b - snd a * snd b, fst a * snd b + snd a * fst b).
(** Opposite, for grover_optimizer.py:341 *)
Definition Copp (a : C) : C := (- fst a, - snd a).
(** Difference, for grover_optimizer.py:341 *)
Definition Cminus (a b : C) : C := Cplus a (Copp b).
(** A real number as a complex one, for grover_optimizer.py:341 *)
Definition RC (x : R) : C := (x, 0).
(** The number of modulus 1 with angle [a] *)
Definition cis (a : R) : C := (cos a, sin a).
(** The square of the modulus, the probability of an amplitude; grover_optimizer.py:341 *)
Definition Cnorm2 (a : C) : R := fst a * fst a + snd a * snd a.

(** ** Gates *)
(** A gate on one qubit as a matrix, as appended in warm_start_qaoa_optimizer.py:170, 190-192 *)
Record mat2 := mkM { m00 : C; m01 : C; m10 : C; m11 : C }.
(** RYGate of qiskit-terra, used in warm_start_qaoa_optimizer.py:170, 190 and 192 *)
Definition m_ry (t : R) : mat2 := mkM (RC (cos (t / 2))) (RC (- sin (t / 2))) (RC (sin (t / 2))) (RC (cos (t / 2))).
(** RZGate of qiskit-terra, used in warm_start_qaoa_optimizer.py:191 *)
Definition m_rz (t : R) : mat2 := mkM (cis (- (t / 2))) C0 C0 (cis (t / 2)).
(** RXGate of qiskit-terra, the mixer of the QAOA in qiskit-terra; compared with the mixer of warm_start_qaoa_optimizer.py:174-194 *)
Definition m_rx (t : R) : mat2 := mkM (RC (cos (t / 2))) (0, - sin (t / 2)) (0, - sin (t / 2)) (RC (cos (t / 2))).
(** HGate of qiskit-terra, used in grover_optimizer.py:132 *)
Definition m_h : mat2 := mkM (RC (/ sqrt 2)) (RC (/ sqrt 2)) (RC (/ sqrt 2)) (RC (- / sqrt 2)).
(** ZGate of qiskit-terra, used in grover_optimizer.py:143 *)
Definition m_z : mat2 := mkM C1 C0 C0 (RC (-1)).

(** A gate on one qubit, and circuits of such gates; warm_start_qaoa_optimizer.py:170, 190-192 *)
Definition gate : Type := (mat2 * nat)%type.
(** The amplitudes of the basis states, the object of grover_optimizer.py:337 *)
Definition state : Type := list bool -> C.
(** A basis state with one bit changed, for the action of a gate of warm_start_qaoa_optimizer.py:170 *)
Fixpoint set_bit (q : nat) (v : bool) (b : list bool) : list bool :=
  match b with [] => [] | x :: r => match q with O => v :: r | S q' => x :: set_bit q' v r end end.
(** The action of a gate on a state, for warm_start_qaoa_optimizer.py:170, 190-192 *)
Definition apply_gate (g : gate) (s : state) : state := fun b =>
  let u := fst g in let q := snd g in let s0 := s (set_bit q false b) in let s1 := s (set_bit q true b) in
  if nth q b false then Cplus (Cmul (m10 u) s0) (Cmul (m11 u) s1) else Cplus (Cmul (m00 u) s0) (Cmul (m01 u) s1).
(** Gates act in the order of the calls that append them; warm_start_qaoa_optimizer.py:168-170, 187-192 *)
Definition run_circuit (gs : list gate) (s : state) : state := fold_left (fun s g => apply_gate g s) gs s.
(** All qubits in state 0 *)
Definition zero_state : state := fun b => if forallb negb b then C1 else C0.
