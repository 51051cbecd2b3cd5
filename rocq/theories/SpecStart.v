(** * Where the numerical solvers should start *)
From Verif Require Export SpecSolvers.
Local Open Scope nat_scope.

(** [a] lies within the bounds of [v]; where there is no bound [clip] takes its place. *)
Definition in_start_range (clip : Qc) (v : variable) (a : Qc) : Prop :=
  ((- INFINITY < v_lb v)%Qc -> (v_lb v <= a)%Qc) /\ ((v_lb v <= - INFINITY)%Qc -> (- clip <= a)%Qc) /\
  ((v_ub v < INFINITY)%Qc -> (a <= v_ub v)%Qc) /\ ((INFINITY <= v_ub v)%Qc -> (a <= clip)%Qc).
(** There is a place to start. *)
Definition has_start (clip : Qc) (v : variable) : Prop := exists a, in_start_range clip v a.
(** The random numbers are at least 0 and below 1. *)
Definition unit_draws (draw : nat -> nat -> Qc) : Prop := forall t i, (0 <= draw t i)%Qc /\ (draw t i < 1)%Qc.
(** [a] is not the upper end of its range, unless it is the only place. *)
Definition not_top (clip : Qc) (v : variable) (a : Qc) : Prop := (exists b, in_start_range clip v b /\ (a < b)%Qc) \/ (forall b, in_start_range clip v b -> b = a).
(** [x] minimises [f] among the points of [n] numbers with [P]. *)
Definition minimises (n : nat) (f : list Qc -> result Qc) (P : list Qc -> Prop) (x : list Qc) : Prop :=
  length x = n /\ P x /\ forall y, length y = n -> P y -> exists a b, f x = Ok a /\ f y = Ok b /\ (a <= b)%Qc.
(** What a routine of scipy that solves every problem would do. *)
Definition cobyla_exact (routine : (list Qc -> result Qc) -> list (list Qc -> result Qc) -> nat -> list Qc -> result (list Qc)) (n : nat)
    (f : list Qc -> result Qc) (cs : list (list Qc -> result Qc)) : Prop :=
  forall t x0, exists x, routine f cs t x0 = Ok x /\ minimises n f (fun y => Forall (nonneg_at y) cs) x.
Definition slsqp_exact (routine : slsqp_problem -> nat -> list Qc -> result (list Qc)) (n : nat) (h : slsqp_problem) : Prop :=
  forall t x0, exists x, routine h t x0 = Ok x /\
    minimises n (sq_obj h) (fun y => Forall2 within (sq_bounds h) y /\ Forall (zero_at y) (sq_eq h) /\ Forall (nonneg_at y) (sq_ineq h)) x.
(** [x] is as good as every point with [P], for the sense of the objective. *)
Definition best_of (p : qp) (P : list Qc -> Prop) (x : list Qc) : Prop := P x /\ forall y, P y -> at_least (o_sense (p_obj p)) (obj_at (p_obj p) x) (obj_at (p_obj p) y).
