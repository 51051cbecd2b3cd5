(** * Specification of the Grover search *)
From Verif Require Export SpecAlgo Grover.
Local Open Scope nat_scope.

(** The number with the given binary digits, most significant first; in two's complement the first digit counts negatively. *)
Fixpoint magnitude (v : list bool) : Z :=
  match v with [] => 0%Z | b :: v' => ((if b then 2 ^ Z.of_nat (length v') else 0) + magnitude v')%Z end.
Definition twos (v : list bool) : Z :=
  match v with [] => 0%Z | b :: v' => ((if b then - 2 ^ Z.of_nat (length v') else 0) + magnitude v')%Z end.
(** The last [m] binary digits of a whole number (two's complement for negative ones) *)
Definition register_of (m : nat) (z : Z) : list bool := rev (map (fun i => Z.testbit z (Z.of_nat i)) (seq 0 m)).

(** The registers of an outcome *)
Definition key_point (n : nat) (out : list bool) : list Qc := map digit_q (firstn n out).
Definition value_register (n m : nat) (out : list bool) : list bool := firstn m (skipn n out).
Definition sized_outcomes (n m : nat) (measure : nat -> qp -> nat -> list bool * circuit_results) : Prop :=
  forall it q r, n + m <= length (fst (measure it q r)).
(** The value register holds, modulo its size, the objective of the program at the assignment in the key register. *)
Definition honest (n m : nat) (measure : nat -> qp -> nat -> list bool * circuit_results) : Prop :=
  forall it q r z, obj_at (p_obj q) (key_point n (fst (measure it q r))) = qz z ->
    exists c, twos (value_register n m (fst (measure it q r))) = (z + c * 2 ^ Z.of_nat m)%Z.

(** The objective as it is minimised *)
Definition cost (q : qp) (x : list Qc) : Qc := (sign (o_sense (p_obj q)) * obj_at (p_obj q) x)%Qc.
(** Half the size of a register of [m] digits *)
Definition half (m : nat) : Qc := qz (2 ^ (Z.of_nat m - 1)).
(** All values, and the differences of any two, can be written with [m] digits. *)
Definition register_fits (m : nat) (q : qp) : Prop :=
  forall x, bits (num_vars q) x -> (- half m <= cost q x)%Qc /\ (cost q x < half m)%Qc /\
    forall y, bits (num_vars q) y -> (cost q x - cost q y < half m)%Qc.
(** Constant and coefficients are whole numbers. *)
Definition integer_objective (q : qp) : Prop :=
  integral (o_const (p_obj q)) /\ (forall i, integral (coef1 (o_lin (p_obj q)) i)) /\ (forall i j, integral (coef2 (o_quad (p_obj q)) i j)).
(** Relative frequency of an assignment among counted outcomes, given with the last qubit first *)
Definition frequency (n : nat) (shots : Qc) (counts : list (list bool * Qc)) (x : list Qc) : Qc :=
  (sumof (fun bc => if tuple_eqb (key_point n (rev (fst bc))) x then snd bc else 0%Qc) counts / shots)%Qc.
