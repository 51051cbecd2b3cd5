(** * Programs with whole coefficients, and what solving them means *)
From Verif Require Export SpecSolve SpecIsing SpecAlgo SpecGrover.
Local Open Scope nat_scope.

(** [a] is a whole multiple of [g]. *)
Definition multiple (g a : Qc) : Prop := exists z, a = (qz z * g)%Qc.
(** 1 is a whole multiple of [g] (as for 1, 1/2, 1/100) and [g] is not too small for [to_ising]. *)
Definition grid (g : Qc) : Prop := multiple g 1 /\ (4 / qz 100000000 < g)%Qc.
(** The objective is made of whole multiples of [g]; bounds, coefficients of constraints and right-hand sides of equations are whole. *)
Definition whole_data (g : Qc) (p : qp) : Prop :=
  multiple g (o_const (p_obj p)) /\ on_grid g p /\
  (forall v, In v (p_vars p) -> integral (v_lb v) /\ integral (v_ub v)) /\
  forall c, In c (p_lcs p) -> (forall i, integral (coef1 (lc_lin c) i)) /\ (lc_sense c = EQ -> integral (lc_rhs c)).

(** MinimumEigenOptimizer answers with a point with [good], whenever its solver finds the lowest energy: the program has a QUBO and a
    Hamiltonian, and if a basis state of lowest energy is among the outcomes of probability at least 1e-6 of the state that the solver returns, the result is a success. *)
Definition eigen_solved (p : qp) (good : list Qc -> Prop) : Prop :=
  exists r op off, to_qubo None p = Ok r /\ to_ising (r_qubo r) = Ok (op, off) /\
    forall solver e x pr, 0 < num_vars (r_qubo r) -> solver op = Ok (Some e) -> sized_state (num_vars (r_qubo r)) e -> kept (r_qubo r) e x pr -> ground (num_vars (r_qubo r)) op x ->
      exists m y, min_eigen_solve solver (default_converters None) p = Ok m /\ r_x (m_res m) = Some y /\ good y /\ r_fval (m_res m) = Some (obj_at (p_obj p) y) /\ r_status (m_res m) = SUCCESS.
(** GroverOptimizer answers with a point with [good], whenever it measures a best point: for value registers that are wide enough and hold the objective. *)
Definition grover_solved (p : qp) (good : list Qc -> Prop) : Prop :=
  exists r, to_qubo None p = Ok r /\
    forall n_value n_iter root spin measure fuel p' g, 0 < num_vars (r_qubo r) -> 0 < n_value -> sized_outcomes (num_vars (r_qubo r)) n_value measure -> honest (num_vars (r_qubo r)) n_value measure ->
      register_fits n_value (r_qubo r) -> grover_solve n_value n_iter root spin measure fuel (default_converters None) p = (p', Ok g) ->
      (exists out v, In (out, v) (gr_log g) /\ optimal (r_qubo r) (key_point (num_vars (r_qubo r)) out)) ->
      exists y, r_x (gr_res g) = Some y /\ good y /\ r_fval (gr_res g) = Some (obj_at (p_obj p) y) /\ r_status (gr_res g) = SUCCESS.

(** ** What a good answer is *)
Definition best_cut (g : graph) (x : list Qc) : Prop :=
  let (a, b) := maxcut_interpret x in two_parts g a b /\ forall a' b', two_parts g a' b' -> (cut_weight g a' b' <= cut_weight g a b)%Qc.
Definition best_halves (g : graph) (x : list Qc) : Prop :=
  let (a, b) := gpart_interpret x in two_parts g a b /\ node_set g b /\ length b = g_n g / 2 /\
    forall a' b', two_parts g a' b' -> node_set g b' -> length b' = g_n g / 2 -> (cut_weight g a b <= cut_weight g a' b')%Qc.
Definition least_cover (g : graph) (x : list Qc) : Prop := is_cover g (cover_interpret x) /\ forall l, is_cover g l -> length (cover_interpret x) <= length l.
Definition largest_stable (g : graph) (x : list Qc) : Prop := is_stable g (stable_interpret x) /\ forall l, is_stable g l -> length l <= length (stable_interpret x).
Definition largest_clique (g : graph) (x : list Qc) : Prop := is_clique g (clique_interpret x) /\ forall l, is_clique g l -> length l <= length (clique_interpret x).
Definition clique_of (g : graph) (k : nat) (x : list Qc) : Prop := is_clique g (clique_interpret x) /\ length (clique_interpret x) = k.
Definition best_packing (subs : list (list Z)) (x : list Qc) : Prop :=
  exists l, pick_subsets subs x = Ok l /\ l = chosen subs x /\ ForallOrdPairs disjoint l /\
    forall y, bits (length subs) y -> ForallOrdPairs disjoint (chosen subs y) -> length (chosen subs y) <= length l.
Definition least_exact (subs : list (list Z)) (x : list Qc) : Prop :=
  exists l, pick_subsets subs x = Ok l /\ l = chosen subs x /\ (forall s e, In s subs -> In e s -> once e l) /\
    forall y, bits (length subs) y -> (forall s e, In s subs -> In e s -> once e (chosen subs y)) -> length l <= length (chosen subs y).
Definition best_load (values weights : list Qc) (limit : Qc) (x : list Qc) : Prop :=
  bits (length values) x /\ (total (chosen weights x) <= limit)%Qc /\
  forall y, bits (length values) y -> (total (chosen weights y) <= limit)%Qc -> (total (chosen values y) <= total (chosen values x))%Qc.
Definition equal_parts (nums x : list Qc) : Prop := exists a b, partition_interpret nums x = Ok (a, b) /\ Permutation (a ++ b) nums /\ total a = total b.
Definition shortest_tour (g : graph) (w : nat -> nat -> Qc) (x : list Qc) : Prop :=
  exists l v, tsp_interpret x = map One l /\ Permutation l (seq 0 (g_n g)) /\ tsp_value l w = Ok v /\
    forall l' v', Permutation l' (seq 0 (g_n g)) -> tsp_value l' w = Ok v' -> (v <= v')%Qc.
Definition shortest_routes (g : graph) (w : nat -> nat -> Qc) (vehicles : Z) (depot : nat) (x : list Qc) : Prop :=
  exists routes, vrp_interpret g vehicles depot x = Ok routes /\ good_routes (g_n g) vehicles depot routes /\
    forall others, good_routes (g_n g) vehicles depot others -> (sumof (fun e => w (fst e) (snd e)) (concat routes) <= sumof (fun e => w (fst e) (snd e)) (concat others))%Qc.
