(** * Graphs with any labels, and graphs given as matrices
    qiskit_optimization/applications/graph_optimization_application.py and the applications that use it.

    The graph is [nx.Graph(graph).copy(as_view=True)], graph_optimization_application.py:38-45.  Nodes are in the order of the graph; labels are
    integers or strings.  Edges are in the order of [graph.edges]; their ends are nodes ([lg_ok] in SpecGraph.v). *)
From Verif Require Export App.
Local Open Scope string_scope.
Local Open Scope list_scope.
Local Open Scope nat_scope.

(** A label; graph_optimization_application.py:38-45 *)
Inductive label := LInt (z : Z) | LText (s : string).
(** Equality of labels, the keys of [graph.nodes]; graph_optimization_application.py:45 *)
Definition label_eqb (a b : label) : bool :=
  match a, b with LInt x, LInt y => Z.eqb x y | LText s, LText t => String.eqb s t | _, _ => false end.
(** An edge with its weight, if it has one; graph_optimization_application.py:45 *)
Definition ledge : Type := (label * label) * option Qc.
(** [self._graph], graph_optimization_application.py:45 *)
Record lgraph := mkLG { lg_nodes : list label; lg_edges : list ledge }.
(** [self._graph.number_of_nodes()], max_cut.py:44, vertex_cover.py:42, stable_set.py:43, clique.py:59, graph_partition.py:42, tsp.py:45, vehicle_routing.py:62 *)
Definition lg_n (g : lgraph) : nat := length (lg_nodes g).

(** [x[w]] for the dictionary [{i: ... for i in range(n)}], max_cut.py:43-45, vertex_cover.py:43, stable_set.py:44, clique.py:60, graph_partition.py:43 *)
Definition slot_of (n : nat) (l : label) : result nat :=
  match l with
  | LInt z => if (0 <=? z)%Z && (z <? Z.of_nat n)%Z then Ok (Z.to_nat z) else Err KeyError
  | LText _ => Err KeyError
  end.
(** The variables of the ends of an edge; max_cut.py:49-50, vertex_cover.py:46, stable_set.py:49, graph_partition.py:47 *)
Definition slots_of (n : nat) (e : ledge) : result ((nat * nat) * option Qc) :=
  do i <- slot_of n (fst (fst e)); do j <- slot_of n (snd (fst e)); Ok ((i, j), snd e).
(** The loops over [self._graph.edges]; max_cut.py:48-52, vertex_cover.py:45-46, stable_set.py:48-49, graph_partition.py:46-49 *)
Definition over_edges (f : graph -> result qp) (g : lgraph) : result qp :=
  do es <- mapM (slots_of (lg_n g)) (lg_edges g); f (mkGraph (lg_n g) es).
(** Maxcut.to_quadratic_program, max_cut.py:34-56 *)
Definition maxcut_labelled := over_edges maxcut_program.
(** VertexCover.to_quadratic_program, vertex_cover.py:33-50 *)
Definition cover_labelled := over_edges cover_program.
(** StableSet.to_quadratic_program, stable_set.py:34-53 *)
Definition stable_labelled := over_edges stable_program.
(** GraphPartition.to_quadratic_program, graph_partition.py:33-54 *)
Definition gpart_labelled := over_edges gpart_program.

(** Whether two nodes are joined; [nx.complement], clique.py:56 *)
Definition ljoined (g : lgraph) (a b : label) : bool :=
  existsb (fun e => (label_eqb (fst (fst e)) a && label_eqb (snd (fst e)) b) || (label_eqb (fst (fst e)) b && label_eqb (snd (fst e)) a)) (lg_edges g).
(** The pairs of nodes that are not joined, each in the order of the nodes; [nx.complement(self._graph).edges], clique.py:56, 61 *)
Fixpoint co_pairs (g : lgraph) (l : list label) : list (label * label) :=
  match l with [] => [] | a :: r => map (fun b => (a, b)) (filter (fun b => negb (ljoined g a b)) r) ++ co_pairs g r end.
(** Clique.to_quadratic_program, clique.py:46-69 *)
Definition clique_labelled (g : lgraph) (size : option Z) : result qp :=
  do pairs <- mapM (fun e => do i <- slot_of (lg_n g) (fst e); do j <- slot_of (lg_n g) (snd e); Ok (i, j)) (co_pairs g (lg_nodes g));
  clique_model (lg_n g) pairs size.

(** The edges that [self._graph.edges[i, j]] finds for [i, j] in [range(n)], tsp.py:51-57, vehicle_routing.py:68-75 *)
Definition found_edges (g : lgraph) : list ((nat * nat) * option Qc) :=
  flat_map (fun e => match slots_of (lg_n g) e with Ok e' => [e'] | Err _ => [] end) (lg_edges g).
(** Tsp.to_quadratic_program, tsp.py:36-65 *)
Definition tsp_labelled (g : lgraph) : result qp := tsp_program (mkGraph (lg_n g) (found_edges g)).
(** VehicleRouting.to_quadratic_program, vehicle_routing.py:53-104 *)
Definition vrp_labelled (g : lgraph) (vehicles : Z) (depot : nat) : result qp := vrp_program (mkGraph (lg_n g) (found_edges g)) vehicles depot.

(** ** Matrices
    [nx.Graph(array)] for a square array, graph_optimization_application.py:38-45: networkx adds the edges (u, v) of the entries that are not 0, row by row,
    and the entry below the diagonal, which comes later, replaces the weight.  The edges are listed by their smaller node, neighbours in the order in
    which they were added. *)
(** The weight of the edge between i and j, i <= j; graph_optimization_application.py:45 *)
Definition late_entry (a : nat -> nat -> Qc) (i j : nat) : Qc := if qeqb (a j i) 0 then a i j else a j i.
(** The edges of the node i to later nodes and itself, graph_optimization_application.py:45 *)
Definition row_edges (n : nat) (a : nat -> nat -> Qc) (i : nat) : list ((nat * nat) * option Qc) :=
  map (fun j => ((i, j), Some (late_entry a i j))) (filter (fun j => negb (qeqb (a i j) 0)) (seq i (n - i)) ++ filter (fun j => qeqb (a i j) 0 && negb (qeqb (a j i) 0)) (seq i (n - i))).
(** The graph of a matrix, graph_optimization_application.py:45 *)
Definition matrix_graph (n : nat) (a : nat -> nat -> Qc) : graph := mkGraph n (flat_map (row_edges n a) (seq 0 n)).
