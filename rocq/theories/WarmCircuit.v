(** * Circuits of the warm start
    warm_start_qaoa_optimizer.py:156-194 (WarmStartQAOAFactory). *)
From Verif Require Export Circuit Warm.
From Coq Require Export Qreals Ratan.
Local Open Scope list_scope.
Local Open Scope R_scope.

(** The real number of a rational value; warm_start_qaoa_optimizer.py:169, 188 *)
Definition Qc2R (c : Qc) : R := Q2R (this c).
(** [theta = 2 * np.arcsin(np.sqrt(relaxed_value))], warm_start_qaoa_optimizer.py:169 and 188 *)
Definition warm_angle (c : Qc) : R := 2 * asin (sqrt (Qc2R c)).
(** The loops over [enumerate(initial_variables)] with the gates of one variable, warm_start_qaoa_optimizer.py:168-170 and 187-192 *)
Definition per_variable (us : Qc -> list mat2) (cs : list Qc) : list gate :=
  concat (map (fun ic => map (fun u => (u, fst ic)) (us (snd ic))) (combine (seq 0 (length cs)) cs)).
(** create_initial_state, warm_start_qaoa_optimizer.py:156-172 *)
Definition create_initial_state (cs : list Qc) : list gate := per_variable (fun c => [m_ry (warm_angle c)]) cs.
(** create_mixer, warm_start_qaoa_optimizer.py:174-194, for a value of the parameter [beta] *)
Definition create_mixer (cs : list Qc) (beta : R) : list gate :=
  per_variable (fun c => [m_ry (- warm_angle c); m_rz (-2 * beta); m_ry (warm_angle c)]) cs.
