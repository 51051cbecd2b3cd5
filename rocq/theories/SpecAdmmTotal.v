(** * When ADMM should answer *)
From Verif Require Export SpecCplex SpecLagr SpecTotal.
Local Open Scope nat_scope.

(** An optimizer that answers every problem with one number per variable *)
Definition answers_all (f : nat -> qp -> result (list Qc)) : Prop := forall k q, exists x, f k q = Ok x /\ length x = num_vars q.
(** No binary variable must be above 1. *)
Definition bits_reach (p : qp) : Prop := Forall (fun v => v_type v = BINARY -> (v_lb v <= 1)%Qc) (p_vars p).
(** The error [e] is the doing of the optimizer [f]: it raised it, or it gave a point of a wrong size. *)
Definition at_fault (f : nat -> qp -> result (list Qc)) (e : exn) : Prop :=
  exists k q, f k q = Err e \/ (e = QiskitOptimizationError /\ exists x, f k q = Ok x /\ length x <> num_vars q).
