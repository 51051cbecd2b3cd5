(** * Grover search for products of any variables: lemmas for C46 *)
From Verif Require Export GroverFacts3 QuboAny.
Local Open Scope string_scope.
Local Open Scope list_scope.
Local Open Scope nat_scope.

Section Any.
Variables (n_value n_iter : nat) (root : Qc -> Qc) (spin : nat -> nat -> nat) (measure : nat -> qp -> nat -> list bool * circuit_results) (fuel : nat).
Variables (pen : option Qc) (p : qp) (r : qubo_run).
Notation q := (r_qubo r).
Notation solve := (grover_solve n_value n_iter root spin measure fuel (default_converters pen) p).
Hypothesis W : prog_wf p.
Hypothesis H : to_qubo pen p = Ok r.
Hypothesis Pos : 0 < num_vars q.
Hypothesis Pv : 0 < n_value.
Hypothesis Sized : sized_outcomes (num_vars q) n_value measure.
Hypothesis Honest : honest (num_vars q) n_value measure.
Hypothesis Int : integer_objective q.
Hypothesis Fits : register_fits n_value q.
Lemma grover_any p' g : shapes (num_vars p) p -> Forall plain (p_vars p) -> int_bounds p -> (exists x, feasible p x) ->
  match pen with Some c => (weight (p_obj (r_bin r)) < c)%Qc | None => True end -> solve = (p', Ok g) ->
  (exists out v, In (out, v) (gr_log g) /\ optimal q (key_point (num_vars q) out)) ->
  exists x z, r_x (gr_res g) = Some (firstn (num_vars p) z) /\ feasible p (firstn (num_vars p) z) /\
    r_fval (gr_res g) = Some (obj_at (p_obj p) (firstn (num_vars p) z)) /\ r_status (gr_res g) = SUCCESS /\
    bits_mean r x z /\ forall x' z', bits_mean r x' z' -> at_least (o_sense (p_obj p)) (worth p r z x) (worth p r z' x').
Proof using W H Pos Pv Sized Honest Int Fits.
  intros Sh P IB F Pen E (out & v & Io & Oo). destruct (solve_best _ _ _ _ _ _ _ _ _ _ (default_convert pen p r H) (qubo_obj_shaped pen p r W H) Pos Pv Sized (default_upper pen p r H) Int Honest Fits _ _ W E) as (x & y & Bx & _ & Best & _ & (z & Dz & Qy) & X & R).
  cbn [decodes] in Dz. subst z. destruct R as [Fv St]; [discriminate|].
  assert (optimal q x) as O. { split; [now apply (qubo_feasible_bits pen p r W H)|]. intros z Fz. pose proof (Best _ _ Io) as B1. pose proof (proj2 Oo z Fz) as B2. destruct (o_sense (p_obj q)); simpl in *; qlra. }
  apply (optimal_any pen p r W H P IB F Pen) in O. destruct O as (z & Bm & Top). destruct (stands_point pen p r W H P IB F x z Bm) as (Q' & Fy & _).
  rewrite Qy in Q'. injection Q' as Ey. rewrite <- Ey in *. exists x, z. rewrite <- Ey. split; [exact X|]. split; [exact Fy|]. split; [exact Fv|].
  split; [|split; [exact Bm|exact Top]]. destruct St as [[St _]|[_ N]]; [exact St|]. exfalso. apply N.
  pose proof (feasible_is_feasible p y Sh Fy) as I. apply (is_feasible_spec p y Sh) in I; auto. symmetry. exact (Forall2_length _ _ _ (proj1 Fy)).
Qed.
End Any.
