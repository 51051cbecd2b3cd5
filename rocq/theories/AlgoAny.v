(** * The default conversion and the eigenvalue solver for products of any variables: lemmas for C40 *)
From Verif Require Export AlgoFacts3 QuboAny.
Local Open Scope string_scope.
Local Open Scope list_scope.
Local Open Scope nat_scope.

Section Any.
Variables (solver : eigensolver) (pen : option Qc) (p : qp) (r : qubo_run) (e : eigenstate).
Hypothesis W : prog_wf p.
Hypothesis H : to_qubo pen p = Ok r.
Hypothesis Pos : 0 < num_vars (r_qubo r).
Hypothesis Se : sized_state (num_vars (r_qubo r)) e.
Hypothesis Hs : forall op off, to_ising (r_qubo r) = Ok (op, off) -> solver op = Ok (Some e).
Lemma default_any g m : Forall plain (p_vars p) -> int_bounds p -> (exists x, feasible p x) ->
  match pen with Some c => (weight (p_obj (r_bin r)) < c)%Qc | None => True end -> on_grid g (r_qubo r) -> (4 / qz 100000000 < g)%Qc ->
  (exists op off x pr, to_ising (r_qubo r) = Ok (op, off) /\ kept (r_qubo r) e x pr /\ ground (num_vars (r_qubo r)) op x) ->
  shapes (num_vars p) p -> min_eigen_solve solver (default_converters pen) p = Ok m ->
  exists x z, r_x (m_res m) = Some (firstn (num_vars p) z) /\ feasible p (firstn (num_vars p) z) /\
    r_fval (m_res m) = Some (obj_at (p_obj p) (firstn (num_vars p) z)) /\ r_status (m_res m) = SUCCESS /\
    bits_mean r x z /\ forall x' z', bits_mean r x' z' -> at_least (o_sense (p_obj p)) (worth p r z x) (worth p r z' x').
Proof using W H Hs Pos Se.
  intros P IB F Pen G Hg (op & off & x0 & pr0 & E & K0 & G0) S M. destruct (qubo_wf pen p r H) as (_ & _ & W3).
  destruct (default_best solver pen p r e W H Pos Se Hs m M) as (x & y & (pr & _ & B) & Bx & Q & X & Fv & St).
  assert (optimal (r_qubo r) x) as O.
  { split; [now apply (qubo_feasible_bits pen p r W H)|]. intros z Fz. apply (qubo_feasible_bits pen p r W H) in Fz.
    pose proof (ground_best _ _ _ _ _ W3 E G Hg G0 z Fz) as A. specialize (B _ _ K0). destruct (o_sense (p_obj (r_qubo r))); simpl in *; qlra. }
  apply (optimal_any pen p r W H P IB F Pen) in O. destruct O as (z & Bm & Best). destruct (stands_point pen p r W H P IB F x z Bm) as (Q' & Fy & _).
  rewrite Q in Q'. injection Q' as Ey. rewrite <- Ey in *. exists x, z. rewrite <- Ey. split; [exact X|]. split; [exact Fy|]. split; [exact Fv|].
  split; [|split; [exact Bm|exact Best]]. destruct St as [[St _]|[_ N]]; [exact St|]. exfalso. apply N.
  pose proof (feasible_is_feasible p y S Fy) as I. apply (is_feasible_spec p y S) in I; auto. symmetry. exact (Forall2_length _ _ _ (proj1 Fy)).
Qed.
End Any.
