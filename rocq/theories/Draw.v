(** * What the applications hand to the drawing library, and random instances
    qiskit_optimization/applications/*.py.  Colours are strings; [order] is [self._graph.nodes], the nodes in the order in which they came into the graph.
    Drawing itself (networkx, matplotlib) is left out. *)
From Verif Require Export App.
Local Open Scope string_scope.
Local Open Scope list_scope.
Local Open Scope nat_scope.

(** [x[node]] of an array; vertex_cover.py:86, stable_set.py:89 *)
Definition value_at (x : list Qc) (v : nat) : result Qc := match nth_error x v with Some a => Ok a | None => Err IndexError end.
(** VertexCover._node_colors and Clique._node_colors, vertex_cover.py:82-86, clique.py:101-105 *)
Definition cover_colors (order : list nat) (x : list Qc) : result (list string) :=
  mapM (fun v => do a <- value_at x v; Ok (if qeqb a 0 then "darkgrey" else "r")) order.
(** Clique._node_colors, clique.py:101-105 *)
Definition clique_colors := cover_colors.
(** StableSet._node_colors, stable_set.py:85-89 *)
Definition stable_colors (order : list nat) (x : list Qc) : result (list string) :=
  mapM (fun v => do a <- value_at x v; Ok (if qeqb a 1 then "r" else "darkgrey")) order.
(** GraphPartition._node_colors, graph_partition.py:88-92 *)
Definition gpart_colors (order : list nat) (x : list Qc) : result (list string) :=
  mapM (fun v => do a <- value_at x v; Ok (if qeqb a 0 then "b" else "r")) order.
(** Maxcut._node_color, max_cut.py:90-94 *)
Definition maxcut_colors (x : list Qc) : list string := map (fun a => if qeqb a 0 then "r" else "b") x.
(** Tsp._edgelist, tsp.py:114-117 *)
Definition tsp_edgelist (x : list Qc) : list (step_of_route * step_of_route) :=
  let route := tsp_interpret x in
  map (fun i => (nth i route (Many []), nth ((i + 1) mod length route) route (Many []))) (seq 0 (length route)).
(** VehicleRouting._edgelist, vehicle_routing.py:172-175 *)
Definition vrp_edgelist (routes : list (list (nat * nat))) : list (nat * nat) :=
  flat_map (fun k => nth k routes []) (seq 0 (length routes)).
(** VehicleRouting._edge_color, vehicle_routing.py:177-180 *)
Definition vrp_edge_color (routes : list (list (nat * nat))) : list Qc :=
  flat_map (fun k => map (fun _ => qn k / qn (length routes))%Qc (nth k routes [])) (seq 0 (length routes)).

(** ** Random instances *)
(** [np.rint]: the nearest integer, the even one of two; tsp.py:140, vehicle_routing.py:246 *)
Definition np_rint (q : Qc) : Qc :=
  let f := qfloor q in
  match (q - qz f ?= 1 / qz 2)%Qc with Lt => qz f | Gt => qz (f + 1) | Eq => if Z.even f then qz f else qz (f + 1) end.
Section Random.
(** [np.hypot] is an argument. *)
Variable hyp : Qc -> Qc -> Qc.
(** [graph.nodes[w]["pos"]], tsp.py:139, vehicle_routing.py:245 *)
Definition coord (pos : list (Qc * Qc)) (i : nat) : Qc * Qc := nth i pos (0, 0)%Qc.
(** The distance of two nodes, tsp.py:139-140, vehicle_routing.py:244-246 *)
Definition distance (pos : list (Qc * Qc)) (i j : nat) : Qc := hyp (fst (coord pos i) - fst (coord pos j))%Qc (snd (coord pos i) - snd (coord pos j))%Qc.
(** [nx.random_geometric_graph(n, radius, pos=pos)] with the weights, tsp.py:137-140, vehicle_routing.py:243-246: pairs of nodes whose distance is not greater than the radius *)
Definition geometric (n : nat) (radius : Qc) (pos : list (Qc * Qc)) : graph :=
  mkGraph n (flat_map (fun i => flat_map (fun j => if qleb (distance pos i j) radius then [((i, j), Some (np_rint (distance pos i j)))] else []) (seq (S i) (n - S i))) (seq 0 n)).
(** The generators: a state, what a seed makes of it, and a draw *)
Context {S : Type}.
(** [n] pairs of draws, row by row; tsp.py:135, vehicle_routing.py:242 *)
Fixpoint draw_pairs (draw : S -> Qc * S) (n : nat) (st : S) : list (Qc * Qc) * S :=
  match n with
  | O => ([], st)
  | Datatypes.S n' => let (a, st1) := draw st in let (b, st2) := draw st1 in let (l, st3) := draw_pairs draw n' st2 in ((a, b) :: l, st3)
  end.
(** Tsp.create_random_instance, tsp.py:119-141: [if seed:] *)
Definition tsp_random (reseed : Z -> S) (uniform : Qc -> Qc -> S -> Qc * S) (n : nat) (low high : Qc) (seed : option Z) (st : S) : graph * S :=
  let st := match seed with Some s => if Z.eqb s 0 then st else reseed s | None => st end in
  let (pos, st) := draw_pairs (uniform low high) n st in
  (geometric n (hyp (high - low) (high - low) + 1)%Qc pos, st).
(** VehicleRouting.create_random_instance, vehicle_routing.py:218-247: [random.seed(None)] takes the clock or the system ([entropy]); [randint] raises for an empty range *)
Definition vrp_random (reseed : Z -> S) (entropy : S) (randint : Z -> Z -> S -> Z * S) (n : nat) (low high : Z) (seed : option Z) (vehicles : Z) (depot : nat) : result (graph * Z * nat * S) :=
  let st := match seed with Some s => reseed s | None => entropy end in
  if (0 <? n) && (high <? low)%Z then Err ValueError
  else
    let (pos, st) := draw_pairs (fun st => let (a, st) := randint low high st in (qz a, st)) n st in
    Ok (geometric n (hyp (qz (high - low)) (qz (high - low)) + 1)%Qc pos, vehicles, depot, st).
End Random.
