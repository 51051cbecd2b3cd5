(** * What the circuits of the Grover search should do *)
From Verif Require Export SpecCircuit SpecGrover GroverCircuit.
Local Open Scope list_scope.
Local Open Scope R_scope.

(** The assignments whose value is negative *)
Definition point_of (key : list bool) : list Qc := map digit_q key.
Definition negative (q : qp) (key : list bool) : bool := qltb (obj_at (p_obj q) (point_of key)) 0.
(** How many of the assignments are marked, among how many *)
Definition marked (n : nat) (f : list bool -> bool) : nat := length (filter f (all_bools n)).
(** The angle of the search: the sine is the square root of the part that is marked. *)
Definition search_angle (n : nat) (f : list bool -> bool) : R := asin (sqrt (INR (marked n f) / INR (2 ^ n))).
(** All values of a program with [n] variables are whole numbers that can be written with [m] digits. *)
Definition whole_values (n : nat) (q : qp) : Prop := forall key, length key = n -> integral (obj_at (p_obj q) (point_of key)).
Definition values_fit (n m : nat) (q : qp) : Prop := forall key, length key = n -> (- half m <= obj_at (p_obj q) (point_of key))%Qc /\ (obj_at (p_obj q) (point_of key) < half m)%Qc.
(** Outcomes are drawn: an outcome has a positive probability in the state of the circuit, for programs with [n] variables. *)
Definition drawn (n m : nat) (measure : nat -> qp -> nat -> list bool * circuit_results) : Prop :=
  forall it q r, le_dim (o_lin (p_obj q)) = n -> qe_dim (o_quad (p_obj q)) = n -> length (fst (measure it q r)) = (n + m)%nat /\ prob (grover_state q m r) (fst (measure it q r)) <> 0.
