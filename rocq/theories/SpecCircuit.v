(** * What the circuits should do *)
From Verif Require Export WarmCircuit.
Local Open Scope list_scope.
Local Open Scope R_scope.

(** States of [n] qubits that are the same, and the same up to a phase *)
Definition same_state (n : nat) (s t : state) : Prop := forall b, length b = n -> s b = t b.
Definition same_ray (n : nat) (s t : state) : Prop := exists a, forall b, length b = n -> t b = Cmul (cis a) (s b).
(** The probability to measure the bits [b] *)
Definition prob (s : state) (b : list bool) : R := Cnorm2 (s b).
Fixpoint all_bools (n : nat) : list (list bool) := match n with O => [[]] | S n' => map (cons false) (all_bools n') ++ map (cons true) (all_bools n') end.
Fixpoint Rsum (l : list R) : R := match l with [] => 0 | x :: r => x + Rsum r end.
(** The probability to measure bits with a property *)
Definition prob_of (n : nat) (s : state) (f : list bool -> bool) : R := Rsum (map (prob s) (filter f (all_bools n))).
(** The probability of [b] if bit [i] is 1 with probability [c_i], independently of each other *)
Fixpoint independent (cs : list R) (b : list bool) : R :=
  match cs, b with c :: cs', x :: b' => (if x then c else 1 - c) * independent cs' b' | _, _ => 1 end.
(** The mixer of the standard QAOA, and its initial state *)
Definition standard_mixer (n : nat) (beta : R) : list gate := map (fun q => (m_rx (2 * beta), q)) (seq 0 n).
Definition standard_initial (n : nat) : list gate := map (fun q => (m_h, q)) (seq 0 n).
(** A layer of QAOA: every amplitude gets the phase of its cost, then the mixer acts. *)
Definition layer (cs : list Qc) (s : state) (l : (list bool -> R) * R) : state := run_circuit (create_mixer cs (snd l)) (fun b => Cmul (cis (fst l b)) (s b)).
Definition qaoa_state (cs : list Qc) (ls : list ((list bool -> R) * R)) : state := fold_left (layer cs) ls (run_circuit (create_initial_state cs) zero_state).
(** The probabilities of a state of [n] qubits sum up to 1. *)
Definition normed (n : nat) (s : state) : Prop := prob_of n s (fun _ => true) = 1.
(** The bits of a point *)
Definition bools (x : list Qc) : list bool := map (fun a => qeqb a 1) x.
