(** * The semidefinite program of GoemansWilliamsonOptimizer
    _solve_max_cut_sdp, goemans_williamson_optimizer.py:244-271: what is handed to cvxpy. *)
From Verif Require Export Goemans.
Local Open Scope nat_scope.

(** [x[i, j]]; goemans_williamson_optimizer.py:262, 265 *)
Definition cell2 (x : ndarray2) (i j : nat) : Qc := nth j (nth i x []) 0%Qc.
(** The diagonal is 1, goemans_williamson_optimizer.py:261-262 *)
Definition sdp_diagonal (adj x : ndarray2) : bool := forallb (fun i => qeqb (cell2 x i i) 1) (seq 0 (length adj)).
(** [cvx.sum(cvx.multiply(adj_matrix, ones - x))], which is maximised, goemans_williamson_optimizer.py:265-269 *)
Definition sdp_objective (adj x : ndarray2) : Qc :=
  np_sum (map (fun rows => np_sum (map (fun ab => (fst ab * (1 - snd ab))%Qc) (combine (fst rows) (snd rows)))) (combine adj x)).
