(** * C76, C77: the applications are solved through the QUBO *)
From Verif Require Import SolveFacts3 ConvMore.
Local Open Scope string_scope.
Local Open Scope list_scope.
Local Open Scope nat_scope.

(** For the examples: the points decoded from the best points of the QUBO *)
Definition best_points (q : qp) : list (list Qc) :=
  let value y := (sense_val (o_sense (p_obj q)) * obj_at (p_obj q) y)%Qc in
  let all := all_bits (num_vars q) in filter (fun y => forallb (fun z => qleb (value y) (value z)) all) all.
Definition decoded (m : result qp) : list (list Qc) :=
  match m with
  | Ok p => match to_qubo None p with Ok r => flat_map (fun y => match qubo_interpret r y with Ok x => [x] | Err _ => [] end) (best_points (r_qubo r)) | Err _ => [] end
  | Err _ => [] end.
Definition path : graph := mkGraph 3 [((0, 1), None); ((1, 2), None)].

(** ** C76 *)
Theorem C76_maxcut g : graph_wf g -> exists p, maxcut_program g = Ok p /\ solved p (fun x =>
  let (a, b) := maxcut_interpret x in two_parts g a b /\ forall a' b', two_parts g a' b' -> (cut_weight g a' b' <= cut_weight g a b)%Qc).
Proof. intros. apply answer_solved. now apply (maxcut_answer g). Qed.
(** The best cuts of a triangle with the weights 2, 3 and 1 part the node 1 from the others. *)
Example C76_maxcut_case : let g := mkGraph 3 [((0, 1), Some (qz 2)); ((1, 2), Some (qz 3)); ((0, 2), None)] in
  graph_wf g /\ map maxcut_interpret (decoded (maxcut_program g)) = [([0; 2], [1]); ([1], [0; 2])].
Proof. split; [repeat constructor|]. vm_compute. reflexivity. Qed.
Theorem C76_graph_partition g : graph_wf g -> exists p, gpart_program g = Ok p /\ solved p (fun x =>
  let (a, b) := gpart_interpret x in two_parts g a b /\ node_set g b /\ length b = g_n g / 2 /\
    forall a' b', two_parts g a' b' -> node_set g b' -> length b' = g_n g / 2 -> (cut_weight g a b <= cut_weight g a' b')%Qc).
Proof. intros. apply answer_solved. now apply (gpart_answer g). Qed.
Example C76_graph_partition_case : graph_wf path /\ map gpart_interpret (decoded (gpart_program path)) = [([0; 1], [2]); ([1; 2], [0])].
Proof. split; [repeat constructor|]. vm_compute. reflexivity. Qed.
Theorem C76_vertex_cover g : graph_wf g -> exists p, cover_program g = Ok p /\ solved p (fun x =>
  is_cover g (cover_interpret x) /\ forall l, is_cover g l -> length (cover_interpret x) <= length l).
Proof. intros. apply answer_solved. now apply (cover_answer g). Qed.
Example C76_vertex_cover_case : map cover_interpret (decoded (cover_program path)) = [[1]].
Proof. vm_compute. reflexivity. Qed.
Theorem C76_stable_set g : graph_wf g -> exists p, stable_program g = Ok p /\ solved p (fun x =>
  is_stable g (stable_interpret x) /\ forall l, is_stable g l -> length l <= length (stable_interpret x)).
Proof. intros. apply answer_solved. now apply (stable_answer g). Qed.
Example C76_stable_set_case : map stable_interpret (decoded (stable_program path)) = [[0; 2]].
Proof. vm_compute. reflexivity. Qed.
Theorem C76_clique g : exists p, clique_program g None = Ok p /\ solved p (fun x =>
  is_clique g (clique_interpret x) /\ forall l, is_clique g l -> length l <= length (clique_interpret x)).
Proof. intros. apply answer_solved. now apply (clique_answer g). Qed.
Theorem C76_clique_of_size g k : (exists l, is_clique g l /\ length l = k) -> exists p, clique_program g (Some (Z.of_nat k)) = Ok p /\ solved p (fun x =>
  is_clique g (clique_interpret x) /\ length (clique_interpret x) = k).
Proof. intros. apply answer_solved. now apply (clique_of_answer g k). Qed.
Example C76_clique_case : map clique_interpret (decoded (clique_program path None)) = [[1; 2]; [0; 1]] /\ map clique_interpret (decoded (clique_program path (Some 1%Z))) = [[2]; [1]; [0]].
Proof. split; vm_compute; reflexivity. Qed.
Theorem C76_set_packing subs : exists p, packing_program subs = Ok p /\ solved p (fun x =>
  exists l, pick_subsets subs x = Ok l /\ l = chosen subs x /\ ForallOrdPairs disjoint l /\
    forall y, bits (length subs) y -> ForallOrdPairs disjoint (chosen subs y) -> length (chosen subs y) <= length l).
Proof. intros. apply answer_solved. now apply (packing_answer subs). Qed.
Theorem C76_exact_cover subs : (exists y, bits (length subs) y /\ forall s e, In s subs -> In e s -> once e (chosen subs y)) ->
  exists p, exact_program subs = Ok p /\ solved p (fun x =>
    exists l, pick_subsets subs x = Ok l /\ l = chosen subs x /\ (forall s e, In s subs -> In e s -> once e l) /\
      forall y, bits (length subs) y -> (forall s e, In s subs -> In e s -> once e (chosen subs y)) -> length l <= length (chosen subs y)).
Proof. intros. apply answer_solved. now apply (exact_answer subs). Qed.
Example C76_sets_case : let subs := [[1; 2]; [2; 3]; [3]]%Z in
  map (pick_subsets subs) (decoded (packing_program subs)) = [Ok [[1; 2]; [3]]%Z] /\ map (pick_subsets subs) (decoded (exact_program subs)) = [Ok [[1; 2]; [3]]%Z].
Proof. split; vm_compute; reflexivity. Qed.
Theorem C76_tsp g w : complete g w -> 0 < g_n g -> exists p, tsp_program g = Ok p /\ solved p (fun x =>
  exists l v, tsp_interpret x = map One l /\ Permutation l (seq 0 (g_n g)) /\ tsp_value l w = Ok v /\
    forall l' v', Permutation l' (seq 0 (g_n g)) -> tsp_value l' w = Ok v' -> (v <= v')%Qc).
Proof. intros. apply answer_solved. now apply (tsp_answer g w). Qed.
Example C76_tsp_case : map tsp_interpret (decoded (tsp_program (mkGraph 2 [((0, 1), Some (qz 2))]))) = [[One 1; One 0]; [One 0; One 1]].
Proof. vm_compute. reflexivity. Qed.
Theorem C76_vehicle_routing g w vehicles depot : complete g w -> depot < g_n g -> (exists routes, good_routes (g_n g) vehicles depot routes) ->
  exists p, vrp_program g vehicles depot = Ok p /\ solved p (fun x =>
    exists routes, vrp_interpret g vehicles depot x = Ok routes /\ good_routes (g_n g) vehicles depot routes /\
      forall others, good_routes (g_n g) vehicles depot others ->
        (sumof (fun e => w (fst e) (snd e)) (concat routes) <= sumof (fun e => w (fst e) (snd e)) (concat others))%Qc).
Proof. intros. apply answer_solved. now apply (vrp_answer g w vehicles depot). Qed.
(** The program has 6 variables and the QUBO one more, the slack of x12 + x21 <= 1. *)
Example C76_vehicle_routing_case : let g := mkGraph 3 [((0, 1), Some (qz 2)); ((1, 2), Some (qz 3)); ((2, 0), Some (qz 4))] in
  match vrp_program g 2 0 with
  | Ok p => match to_qubo None p with
            | Ok r => match qubo_interpret r [1; 1; 1; 0; 1; 0; 1]%Qc with
                      | Ok x => vrp_interpret g 2 0 x = Ok [[(0, 1); (1, 0)]; [(0, 2); (2, 0)]] | Err _ => False end
            | Err _ => False end
  | Err _ => False end.
Proof. vm_compute. reflexivity. Qed.
Print Assumptions C76_maxcut.
Print Assumptions C76_graph_partition.
Print Assumptions C76_vertex_cover.
Print Assumptions C76_stable_set.
Print Assumptions C76_clique.
Print Assumptions C76_clique_of_size.
Print Assumptions C76_set_packing.
Print Assumptions C76_exact_cover.
Print Assumptions C76_tsp.
Print Assumptions C76_vehicle_routing.

(** ** C77 *)
(** Refuted: the weights 1/2 and 1/2 fit into a knapsack of 1, but there is no QUBO. *)
Theorem C77_knapsack_refuted : exists values weights limit p x, length values = length weights /\ knapsack_program values weights limit = Ok p /\ feasible p x /\
  to_qubo None p = Err QiskitOptimizationError.
Proof.
  set (half := Q2Qc (1 # 2)). assert (match knapsack_program [1%Qc; 1%Qc] [half; half] 1 with Ok p => feas_b p [1; 1]%Qc && match to_qubo None p with Err QiskitOptimizationError => true | _ => false end | Err _ => false end = true) as V by (vm_compute; reflexivity).
  exists [1%Qc; 1%Qc], [half; half], 1%Qc. destruct (knapsack_program [1%Qc; 1%Qc] [half; half] 1) as [p|]; [|discriminate V]. exists p, [1; 1]%Qc. apply andb_prop in V. destruct V as (F & V). split; [reflexivity|]. split; [reflexivity|]. split; [now apply feas_b_spec|].
  destruct (to_qubo None p) as [|e]; [discriminate V|]. destruct e; try discriminate V. reflexivity.
Qed.
(** Refuted: 1/4 = 1/4, but there is no QUBO. *)
Theorem C77_partition_refuted : exists nums p x, partition_program nums = Ok p /\ feasible p x /\ to_qubo None p = Err QiskitOptimizationError.
Proof.
  set (q := Q2Qc (1 # 4)). assert (match partition_program [q; q] with Ok p => feas_b p [1; 0]%Qc && match to_qubo None p with Err QiskitOptimizationError => true | _ => false end | Err _ => false end = true) as V by (vm_compute; reflexivity).
  exists [q; q]. destruct (partition_program [q; q]) as [p|]; [|discriminate V]. exists p, [1; 0]%Qc. apply andb_prop in V. destruct V as (F & V). split; [reflexivity|]. split; [now apply feas_b_spec|].
  destruct (to_qubo None p) as [|e]; [discriminate V|]. destruct e; try discriminate V. reflexivity.
Qed.
(** With integral weights, of whatever sign, and any limit that can be kept. *)
Theorem C77_knapsack_partial values weights limit : length values <= length weights -> Forall integral weights ->
  (exists y, bits (length values) y /\ (total (chosen weights y) <= limit)%Qc) -> exists p, knapsack_program values weights limit = Ok p /\ solved p (fun x =>
    bits (length values) x /\ (total (chosen weights x) <= limit)%Qc /\
    forall y, bits (length values) y -> (total (chosen weights y) <= limit)%Qc -> (total (chosen values y) <= total (chosen values x))%Qc).
Proof. intros. apply answer_solved. now apply (knapsack_answer values weights limit). Qed.
(** The slack 1 of the best packing has two encodings. *)
Example C77_knapsack_case : map knapsack_interpret (decoded (knapsack_program [qz 3; qz 4] [qz 2; qz 3] (qz 4))) = [[1]; [1]].
Proof. vm_compute. reflexivity. Qed.
(** With numbers whose doubles are integral. *)
Theorem C77_partition_partial nums : Forall (fun u => integral (qz 2 * u)) nums ->
  (exists y, bits (length nums) y /\ total (left_out nums y) = total (chosen nums y)) -> exists p, partition_program nums = Ok p /\ solved p (fun x =>
    exists a b, partition_interpret nums x = Ok (a, b) /\ Permutation (a ++ b) nums /\ total a = total b).
Proof. intros. apply answer_solved. now apply (partition_answer nums). Qed.
(** 1/2 + 1 = 3/2 *)
Example C77_partition_case : let nums := [Q2Qc (1 # 2); 1%Qc; Q2Qc (3 # 2)] in
  map (fun x => match partition_interpret nums x with Ok (a, b) => qs_eqb a [Q2Qc (1 # 2); 1%Qc] && qs_eqb b [Q2Qc (3 # 2)] | Err _ => false end) (decoded (partition_program nums)) = [true; false] /\
  forallb (fun x => match partition_interpret nums x with Ok (a, b) => qeqb (total a) (total b) | Err _ => false end) (decoded (partition_program nums)) = true.
Proof. split; vm_compute; reflexivity. Qed.
Print Assumptions C77_knapsack_refuted.
Print Assumptions C77_partition_refuted.
Print Assumptions C77_knapsack_partial.
Print Assumptions C77_partition_partial.
