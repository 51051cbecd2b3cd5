(** * The applications
    qiskit_optimization/applications/*.py.

    Graphs are networkx graphs with the nodes 0, ..., n-1, other labels are in Graphs.v; an edge has an optional weight.  A result is given by its point, so [_result_to_x] (optimization_application.py:48-59)
    is the identity.  Drawing and random instances are in Draw.v. *)
From Verif Require Export Docplex Recur.
Local Open Scope string_scope.
Local Open Scope list_scope.
Local Open Scope nat_scope.

(** [self._graph], graph_optimization_application.py:38-45 *)
Record graph := mkGraph { g_n : nat; g_edges : list ((nat * nat) * option Qc) }.
(** [setdefault("weight", 1)], max_cut.py:46-47, graph_partition.py:44-45, stable_set.py:45-46 *)
Definition edge_w (e : (nat * nat) * option Qc) : Qc := match snd e with Some w => w | None => 1%Qc end.
(** Whether [self._graph.edges[i, j]] exists; tsp.py:52, vehicle_routing.py:70 *)
Definition same_edge (i j : nat) (e : (nat * nat) * option Qc) : bool :=
  (Nat.eqb (fst (fst e)) i && Nat.eqb (snd (fst e)) j) || (Nat.eqb (fst (fst e)) j && Nat.eqb (snd (fst e)) i).
(** [self._graph.edges[i, j]["weight"]]; tsp.py:52, vehicle_routing.py:70 *)
Definition weight_of (g : graph) (i j : nat) : result Qc :=
  match find (same_edge i j) (g_edges g) with Some (_, Some w) => Ok w | _ => Err KeyError end.

(** A docplex model of binary variables of the given names, imported; max_cut.py:42-56 and the same lines of the other applications *)
Definition binary_model (name : string) (names : list string) (s : objsense) (obj : dexpr) (cons : list dcon) : result qp :=
  from_docplex (mkDM name (map (fun nm => mkDVar (Some nm) DBinary 0 1) names) s obj cons).
(** ["x_{0}".format(i)] *)
Definition x_name (i : nat) : string := "x_" ++ str_nat i.
(** ["x_{0}_{1}".format(i, j)] *)
Definition x_name2 (i j : nat) : string := "x_" ++ str_nat i ++ "_" ++ str_nat j.
(** [mdl.sum(x[i] for i in x)]; clique.py:64, 66, vertex_cover.py:44, stable_set.py:47, set_packing.py:54, exact_cover.py:53 *)
Definition sum_all (n : nat) : dexpr := d_sum (map d_var (seq 0 n)).
(** The positions with [if value:], in order: vertex_cover.py:61-65, stable_set.py:64-68, clique.py:80-84, knapsack.py:69 *)
Fixpoint picked (i : nat) (x : list Qc) : list nat :=
  match x with [] => [] | a :: r => if qeqb a 0 then picked (S i) r else i :: picked (S i) r end.
(** The positions with [value == 0] and the others: max_cut.py:82-88, graph_partition.py:66-72 *)
Fixpoint two_sides (i : nat) (x : list Qc) : list nat * list nat :=
  match x with
  | [] => ([], [])
  | a :: r => let (zs, os) := two_sides (S i) r in if qeqb a 0 then (i :: zs, os) else (zs, i :: os)
  end.

(** ** Max-cut *)
(** Maxcut.to_quadratic_program, max_cut.py:34-56 *)
Definition cut_term (e : (nat * nat) * option Qc) : dexpr :=
  let i := fst (fst e) in let j := snd (fst e) in
  d_add (d_mul (d_scale (edge_w e) (d_var i)) (d_sub (d_num 1) (d_var j)))
        (d_mul (d_scale (edge_w e) (d_var j)) (d_sub (d_num 1) (d_var i))).
(** Maxcut.to_quadratic_program, max_cut.py:34-56 *)
Definition maxcut_program (g : graph) : result qp :=
  binary_model "Max-cut" (map x_name (seq 0 (g_n g))) MAXIMIZE (d_sum (map cut_term (g_edges g))) [].
(** Maxcut.interpret, max_cut.py:72-88 *)
Definition maxcut_interpret (x : list Qc) : list nat * list nat := two_sides 0 x.
(** get_gset_result, max_cut.py:129-138: the dictionary, in order *)
Definition gset_result (x : list Qc) : list (nat * Qc) := map (fun i => (i + 1, (1 - nth i x 0)%Qc)) (seq 0 (length x)).

(** ** Vertex cover *)
(** VertexCover.to_quadratic_program, vertex_cover.py:33-50 *)
Definition cover_program (g : graph) : result qp :=
  binary_model "Vertex cover" (map x_name (seq 0 (g_n g))) MINIMIZE (sum_all (g_n g))
    (map (fun e => DLinear None GE (d_add (d_var (fst (fst e))) (d_var (snd (fst e)))) (d_num 1)) (g_edges g)).
(** VertexCover.interpret, vertex_cover.py:52-66 *)
Definition cover_interpret (x : list Qc) : list nat := picked 0 x.

(** ** Stable set *)
(** StableSet.to_quadratic_program, stable_set.py:34-53 *)
Definition stable_program (g : graph) : result qp :=
  binary_model "Stable set" (map x_name (seq 0 (g_n g))) MAXIMIZE (sum_all (g_n g))
    (map (fun e => DLinear None LE (d_add (d_var (fst (fst e))) (d_var (snd (fst e)))) (d_num 1)) (g_edges g)).
(** StableSet.interpret, stable_set.py:55-69 *)
Definition stable_interpret (x : list Qc) : list nat := picked 0 x.

(** ** Clique *)
(** [nx.complement]: the pairs of different nodes that are not joined; clique.py:56, 61 *)
Definition co_edges (g : graph) : list (nat * nat) :=
  flat_map (fun i => map (fun j => (i, j)) (filter (fun j => negb (existsb (same_edge i j) (g_edges g))) (seq (S i) (g_n g - S i)))) (seq 0 (g_n g)).
(** Clique.to_quadratic_program, clique.py:46-69, for the edges of the complement *)
Definition clique_model (n : nat) (pairs : list (nat * nat)) (size : option Z) : result qp :=
  let cs := map (fun e => DLinear None LE (d_add (d_var (fst e)) (d_var (snd e))) (d_num 1)) pairs in
  match size with
  | None => binary_model "Clique" (map x_name (seq 0 n)) MAXIMIZE (sum_all n) cs
  | Some k => binary_model "Clique" (map x_name (seq 0 n)) MINIMIZE (d_num 0) (cs ++ [DLinear None EQ (sum_all n) (d_num (qz k))])
  end.
(** Clique.to_quadratic_program, clique.py:46-69 *)
Definition clique_program (g : graph) (size : option Z) : result qp := clique_model (g_n g) (co_edges g) size.
(** Clique.interpret, clique.py:71-85 *)
Definition clique_interpret (x : list Qc) : list nat := picked 0 x.

(** ** Set packing and exact cover *)
(** [np.unique]: sorted, without duplicates; set_packing.py:38-42, exact_cover.py:37-41 *)
Fixpoint put_sorted (z : Z) (l : list Z) : list Z :=
  match l with [] => [z] | y :: r => if (z <? y)%Z then z :: l else if (z =? y)%Z then l else y :: put_sorted z r end.
(** [np.unique], set_packing.py:42, exact_cover.py:41 *)
Definition unique (l : list Z) : list Z := fold_right put_sorted [] l.
(** [self._set], set_packing.py:39-42, exact_cover.py:38-41 *)
Definition elements (subs : list (list Z)) : list Z := unique (concat subs).
(** [element in sub]; set_packing.py:57, exact_cover.py:56 *)
Definition has_elem (e : Z) (sub : list Z) : bool := existsb (Z.eqb e) sub.
(** [mdl.sum(x[i] for i, sub in enumerate(self._subsets) if element in sub)]; set_packing.py:57, exact_cover.py:56 *)
Definition holders (e : Z) (subs : list (list Z)) : dexpr :=
  d_sum (map (fun iu => d_var (fst iu)) (filter (fun iu => has_elem e (snd iu)) (combine (seq 0 (length subs)) subs))).
(** SetPacking.to_quadratic_program, set_packing.py:44-61 *)
Definition packing_program (subs : list (list Z)) : result qp :=
  binary_model "Set packing" (map x_name (seq 0 (length subs))) MAXIMIZE (sum_all (length subs))
    (map (fun e => DLinear None LE (holders e subs) (d_num 1)) (elements subs)).
(** ExactCover.to_quadratic_program, exact_cover.py:43-60 *)
Definition exact_program (subs : list (list Z)) : result qp :=
  binary_model "Exact cover" (map x_name (seq 0 (length subs))) MINIMIZE (sum_all (length subs))
    (map (fun e => DLinear None EQ (holders e subs) (d_num 1)) (elements subs)).
(** SetPacking.interpret and ExactCover.interpret, set_packing.py:63-77, exact_cover.py:62-76 *)
Definition pick_subsets (subs : list (list Z)) (x : list Qc) : result (list (list Z)) :=
  mapM (fun i => match nth_error subs i with Some s => Ok s | None => Err IndexError end) (picked 0 x).

(** ** Knapsack *)
(** Knapsack.to_quadratic_program, knapsack.py:43-57; [self._weights[i]] raises on a list that is too short *)
Definition weighted_sum (l : list Qc) (n : nat) : dexpr := d_sum (map (fun i => d_scale (nth i l 0%Qc) (d_var i)) (seq 0 n)).
(** Knapsack.to_quadratic_program, knapsack.py:43-57 *)
Definition knapsack_program (values weights : list Qc) (limit : Qc) : result qp :=
  if length weights <? length values then Err IndexError
  else binary_model "Knapsack" (map x_name (seq 0 (length values))) MAXIMIZE (weighted_sum values (length values))
         [DLinear None LE (weighted_sum weights (length values)) (d_num limit)].
(** Knapsack.interpret, knapsack.py:59-69 *)
Definition knapsack_interpret (x : list Qc) : list nat := picked 0 x.

(** ** Number partition *)
(** NumberPartition.to_quadratic_program, number_partition.py:40-55 *)
Definition partition_program (nums : list Qc) : result qp :=
  binary_model "Number partitioning" (map x_name (seq 0 (length nums))) MINIMIZE (d_num 0)
    [DLinear None EQ (d_sum (map (fun ia => d_scale (snd ia) (d_add (d_scale (- qz 2) (d_var (fst ia))) (d_num 1))) (combine (seq 0 (length nums)) nums))) (d_num 0)].
(** NumberPartition.interpret, number_partition.py:57-73 *)
Definition partition_interpret (nums : list Qc) (x : list Qc) : result (list Qc * list Qc) :=
  let sides := two_sides 0 x in
  let get := mapM (fun i => match nth_error nums i with Some a => Ok a | None => Err IndexError end) in
  do a <- get (fst sides); do b <- get (snd sides); Ok (a, b).

(** ** Graph partition *)
(** GraphPartition.to_quadratic_program, graph_partition.py:33-54 *)
Definition gpart_term (e : (nat * nat) * option Qc) : dexpr :=
  let i := fst (fst e) in let j := snd (fst e) in
  d_scale (edge_w e) (d_sub (d_add (d_var i) (d_var j)) (d_mul (d_scale (qz 2) (d_var i)) (d_var j))).
(** GraphPartition.to_quadratic_program, graph_partition.py:33-54 *)
Definition gpart_program (g : graph) : result qp :=
  binary_model "Graph partition" (map x_name (seq 0 (g_n g))) MINIMIZE (d_sum (map gpart_term (g_edges g)))
    [DLinear None EQ (sum_all (g_n g)) (d_num (qn (g_n g / 2)))].
(** GraphPartition.interpret, graph_partition.py:56-72 *)
Definition gpart_interpret (x : list Qc) : list nat * list nat := two_sides 0 x.

(** ** Travelling salesman *)
(** Tsp.to_quadratic_program, tsp.py:36-65; x[(i, k)] is the variable i * n + k *)
Definition tsp_names (n : nat) : list string := flat_map (fun i => map (fun k => x_name2 i k) (seq 0 n)) (seq 0 n).
(** The order of the terms, tsp.py:53-56 *)
Definition tsp_triples (n : nat) : list (nat * nat * nat) :=
  flat_map (fun i => flat_map (fun j => if Nat.eqb i j then [] else map (fun k => (i, j, k)) (seq 0 n)) (seq 0 n)) (seq 0 n).
(** One term of the objective, tsp.py:52 *)
Definition tsp_term (g : graph) (t : nat * nat * nat) : result dexpr :=
  let '(i, j, k) := t in let n := g_n g in
  do w <- weight_of g i j; Ok (d_mul (d_scale w (d_var (i * n + k))) (d_var (j * n + (k + 1) mod n))).
(** Tsp.to_quadratic_program, tsp.py:36-65 *)
Definition tsp_program (g : graph) : result qp :=
  let n := g_n g in
  do ts <- mapM (tsp_term g) (tsp_triples n);
  binary_model "TSP" (tsp_names n) MINIMIZE (d_sum ts)
    (map (fun i => DLinear None EQ (d_sum (map (fun k => d_var (i * n + k)) (seq 0 n))) (d_num 1)) (seq 0 n) ++
     map (fun k => DLinear None EQ (d_sum (map (fun i => d_var (i * n + k)) (seq 0 n))) (d_num 1)) (seq 0 n)).
(** A route entry: a node, or a list of nodes; tsp.py:86-89 *)
Inductive step_of_route := One (i : nat) | Many (l : list nat).
(** Tsp.interpret, tsp.py:67-90; [int(np.sqrt(len(x)))] is exact up to 2^52 *)
Definition tsp_interpret (x : list Qc) : list step_of_route :=
  let n := Nat.sqrt (length x) in
  map (fun k => match filter (fun i => negb (qeqb (nth (i * n + k) x 0%Qc) 0)) (seq 0 n) with [i] => One i | l => Many l end) (seq 0 n).
(** Tsp.tsp_value, tsp.py:203-217, for a matrix given as a function *)
Fixpoint path_length (adj : nat -> nat -> Qc) (z : list nat) : Qc :=
  match z with a :: (b :: _) as r => (adj a b + path_length adj r)%Qc | _ => 0%Qc end.
(** Tsp.tsp_value, tsp.py:203-217 *)
Definition tsp_value (z : list nat) (adj : nat -> nat -> Qc) : result Qc :=
  match z with [] => Err IndexError | a :: _ => Ok (path_length adj z + adj (last z a) a)%Qc end.

(** ** Vehicle routing *)
(** The pairs (i, j) with i != j in the order in which the variables are made, vehicle_routing.py:63-67 *)
Definition arcs (n : nat) : list (nat * nat) :=
  flat_map (fun i => map (fun j => (i, j)) (filter (fun j => negb (Nat.eqb i j)) (seq 0 n))) (seq 0 n).
(** The position of x[(i, j)]; vehicle_routing.py:63-67 *)
Definition arc_idx (n i j : nat) : nat := i * (n - 1) + (if j <? i then j else j - 1).
(** [itertools.combinations]; vehicle_routing.py:96 *)
Fixpoint combinations (k : nat) (l : list nat) : list (list nat) :=
  match k, l with
  | O, _ => [[]]
  | S _, [] => []
  | S k', a :: r => map (cons a) (combinations k' r) ++ combinations k r
  end.
(** [j for j in range(n) if i != j], vehicle_routing.py:79, 83, 86, 89 *)
Definition others (n i : nat) : list nat := filter (fun j => negb (Nat.eqb i j)) (seq 0 n).
(** The sets of at least two nodes without the depot, vehicle_routing.py:86-90 *)
Definition node_sets (n depot : nat) : list (list nat) :=
  flat_map (fun k => combinations k (others n depot)) (seq 2 (length (others n depot) - 1)).
(** VehicleRouting.to_quadratic_program, vehicle_routing.py:53-104; a depot outside of the graph raises KeyError *)
Definition vrp_program (g : graph) (vehicles : Z) (depot : nat) : result qp :=
  let n := g_n g in
  let x i j := d_var (arc_idx n i j) in
  do ws <- mapM (fun a => do w <- weight_of g (fst a) (snd a); Ok (d_scale w (x (fst a) (snd a)))) (arcs n);
  if negb (depot <? n) then Err KeyError
  else
    binary_model "Vehicle routing" (map (fun a => x_name2 (fst a) (snd a)) (arcs n)) MINIMIZE (d_sum ws)
      (map (fun i => DLinear None EQ (d_sum (map (fun j => x i j) (others n i))) (d_num 1)) (others n depot) ++
       map (fun j => DLinear None EQ (d_sum (map (fun i => x i j) (others n j))) (d_num 1)) (others n depot) ++
       [DLinear None EQ (d_sum (map (fun i => x i depot) (others n depot))) (d_num (qz vehicles));
        DLinear None EQ (d_sum (map (fun j => x depot j) (others n depot))) (d_num (qz vehicles))] ++
       map (fun c => DLinear None LE (d_sum (flat_map (fun i => map (fun j => x i j) (filter (fun j => negb (Nat.eqb i j)) c)) c)) (d_num (qn (length c) - 1)%Qc))
           (node_sets n depot)).
(** The chosen edges, vehicle_routing.py:115-124; a point that is too short raises IndexError *)
Definition chosen_arcs (n : nat) (x : list Qc) : result (list (nat * nat)) :=
  if length x <? length (arcs n) then Err IndexError
  else Ok (map fst (filter (fun av => negb (qeqb (snd av) 0)) (combine (arcs n) x))).
(** The first edge that leaves [start], and the others: the scan for i = 0, 1, ... and [edge_list.pop(i)] *)
Fixpoint pop_from (start : nat) (l : list (nat * nat)) : option ((nat * nat) * list (nat * nat)) :=
  match l with
  | [] => None
  | e :: r => if Nat.eqb (fst e) start then Some (e, r)
              else match pop_from start r with Some (f, r') => Some (f, e :: r') | None => None end
  end.
(** The while loop, vehicle_routing.py:127-141: the route found and the edges that are left; every round takes one edge *)
Fixpoint one_route (fuel depot start : nat) (l : list (nat * nat)) : list (nat * nat) * list (nat * nat) :=
  match fuel with
  | O => ([], l)
  | S fuel' =>
      match pop_from start l with
      | None => ([], l)
      | Some (e, r) =>
          if Nat.eqb (snd e) depot then ([e], r)
          else let (route, rest) := one_route fuel' depot (snd e) r in (e :: route, rest)
      end
  end.
(** The loop over the vehicles, vehicle_routing.py:126-141 *)
Fixpoint all_routes (k depot : nat) (l : list (nat * nat)) : list (list (nat * nat)) * list (nat * nat) :=
  match k with
  | O => ([], l)
  | S k' => let (route, rest) := one_route (length l) depot depot l in
            let (routes, left) := all_routes k' depot rest in (route :: routes, left)
  end.
(** VehicleRouting.interpret, vehicle_routing.py:106-145 *)
Definition vrp_interpret (g : graph) (vehicles : Z) (depot : nat) (x : list Qc) : result (list (list (nat * nat))) :=
  do l <- chosen_arcs (g_n g) x;
  let (routes, left) := all_routes (Z.to_nat vehicles) depot l in
  Ok (match left with [] => routes | _ => routes ++ [left] end).

(** ** sample_most_likely, optimization_application.py:61-87 *)
(** A dictionary (a key is the list of its digits as they are written), or an array of complex amplitudes; the sampling of a StateFn is left out; optimization_application.py:71-75 *)
Definition likely_dict (d : list (list bool * Qc)) : result (list Qc) :=
  match rev (sort_by (fun a b => qltb (snd a) (snd b)) d) with
  | [] => Err IndexError
  | (k, _) :: _ => Ok (map bit_q (rev k))
  end.
(** The loop [x[i] = k % 2; k >>= 1] *)
Fixpoint low_bits (n k : nat) : list Qc :=
  match n with O => [] | S n' => (if Nat.eqb (k mod 2) 0 then 0%Qc else 1%Qc) :: low_bits n' (k / 2) end.
(** Amplitudes are compared by the squares of their absolute values; the logarithm of 0 raises *)
Definition likely_vec (v : list (Qc * Qc)) : result (list Qc) :=
  match v with
  | [] => Err OverflowError
  | _ => do k <- argmax (map (fun a => fst a * fst a + snd a * snd a)%Qc v);
         Ok (low_bits (Nat.log2 (length v)) k)
  end.
