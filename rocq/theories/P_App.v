(** * C55 to C66: the applications *)
From Verif Require Import AppFacts2 AppFacts3 AppFacts4 TspFacts VrpFacts3 FilesFacts ConvMore.
Local Open Scope string_scope.
Local Open Scope list_scope.
Local Open Scope nat_scope.

(** ** C55 *)
Theorem C55_maxcut g : graph_wf g -> exists p, maxcut_program g = Ok p /\ binary_program p (g_n g) MAXIMIZE /\ p_lcs p = [] /\
  (forall x, feasible p x <-> bits (g_n g) x) /\
  forall x, bits (g_n g) x -> let (a, b) := maxcut_interpret x in
    obj_at (p_obj p) x = sumof edge_weight (filter (crossing a b) (g_edges g)).
Proof. exact (maxcut_spec g). Qed.
Theorem C55_interpret x : let (a, b) := maxcut_interpret x in listed0 x a /\ listed x b.
Proof. pose proof (two_sides_spec x) as H. unfold maxcut_interpret. destruct (two_sides 0 x). exact H. Qed.
(** A triangle with the weights 2, 3 and 1; the cut {1} against {0, 2}. *)
Example C55_case : let g := mkGraph 3 [((0, 1), Some (qz 2)); ((1, 2), Some (qz 3)); ((0, 2), None)] in
  graph_wf g /\ maxcut_interpret [0; 1; 0]%Qc = ([0; 2], [1]) /\
  match maxcut_program g with Ok p => qeqb (obj_at (p_obj p) [0; 1; 0]%Qc) (qz 5) = true /\ feas_b p [0; 1; 0]%Qc = true | Err _ => False end.
Proof. split; [repeat constructor|]. split; [vm_compute; reflexivity|]. vm_compute. split; reflexivity. Qed.
(** The answer in Gset format numbers the nodes from 1 and names the sides the other way round: the same cut, of the same weight. *)
Theorem C55_gset g p x : graph_wf g -> maxcut_program g = Ok p -> bits (g_n g) x -> let y := map snd (gset_result x) in
  map fst (gset_result x) = seq 1 (g_n g) /\ bits (g_n g) y /\ maxcut_interpret y = (snd (maxcut_interpret x), fst (maxcut_interpret x)) /\ obj_at (p_obj p) y = obj_at (p_obj p) x.
Proof. exact (gset_answer g p x). Qed.
Example C55_gset_case : map fst (gset_result [0; 1; 0]%Qc) = [1; 2; 3] /\ qs_eqb (map snd (gset_result [0; 1; 0]%Qc)) [1; 0; 1]%Qc = true /\ maxcut_interpret [1; 0; 1]%Qc = ([1], [0; 2]) /\
  match maxcut_program (mkGraph 3 [((0, 1), Some (qz 2)); ((1, 2), Some (qz 3)); ((0, 2), None)]) with Ok p => qeqb (obj_at (p_obj p) [1; 0; 1]%Qc) (qz 5) = true | Err _ => False end.
Proof. vm_compute. auto. Qed.
Print Assumptions C55_gset.
Print Assumptions C55_maxcut.
Print Assumptions C55_interpret.

(** ** C56 *)
Theorem C56_cover g : graph_wf g -> exists p, cover_program g = Ok p /\ binary_program p (g_n g) MINIMIZE /\
  forall x, (feasible p x <-> bits (g_n g) x /\ forall e, In e (g_edges g) -> In (fst (fst e)) (cover_interpret x) \/ In (snd (fst e)) (cover_interpret x)) /\
    (bits (g_n g) x -> obj_at (p_obj p) x = qn (length (cover_interpret x))).
Proof. exact (cover_spec g). Qed.
Theorem C56_interpret x : listed x (cover_interpret x).
Proof. exact (picked_listed x). Qed.
(** The path 0 - 1 - 2 is covered by {1}, not by {0}. *)
Example C56_case : let g := mkGraph 3 [((0, 1), None); ((1, 2), None)] in
  graph_wf g /\ cover_interpret [0; 1; 0]%Qc = [1] /\
  match cover_program g with Ok p => feas_b p [0; 1; 0]%Qc = true /\ feas_b p [1; 0; 0]%Qc = false /\ qeqb (obj_at (p_obj p) [1; 0; 1]%Qc) (qz 2) = true | Err _ => False end.
Proof. split; [repeat constructor|]. split; [vm_compute; reflexivity|]. vm_compute. repeat split; reflexivity. Qed.
Print Assumptions C56_cover.
Print Assumptions C56_interpret.

(** ** C57 *)
Theorem C57_stable g : graph_wf g -> exists p, stable_program g = Ok p /\ binary_program p (g_n g) MAXIMIZE /\
  forall x, (feasible p x <-> bits (g_n g) x /\ forall e, In e (g_edges g) -> ~ (In (fst (fst e)) (stable_interpret x) /\ In (snd (fst e)) (stable_interpret x))) /\
    (bits (g_n g) x -> obj_at (p_obj p) x = qn (length (stable_interpret x))).
Proof. exact (stable_spec g). Qed.
Theorem C57_interpret x : listed x (stable_interpret x).
Proof. exact (picked_listed x). Qed.
Example C57_case : let g := mkGraph 3 [((0, 1), None); ((1, 2), None)] in
  graph_wf g /\ stable_interpret [1; 0; 1]%Qc = [0; 2] /\
  match stable_program g with Ok p => feas_b p [1; 0; 1]%Qc = true /\ feas_b p [1; 1; 0]%Qc = false /\ qeqb (obj_at (p_obj p) [1; 0; 1]%Qc) (qz 2) = true | Err _ => False end.
Proof. split; [repeat constructor|]. split; [vm_compute; reflexivity|]. vm_compute. repeat split; reflexivity. Qed.
Print Assumptions C57_stable.
Print Assumptions C57_interpret.

(** ** C58 *)
Theorem C58_clique g size : exists p, clique_program g size = Ok p /\
  binary_program p (g_n g) (match size with None => MAXIMIZE | Some _ => MINIMIZE end) /\
  forall x, (feasible p x <-> bits (g_n g) x /\ (forall i j, In i (clique_interpret x) -> In j (clique_interpret x) -> i <> j -> joined g i j) /\
                              forall k, size = Some k -> Z.of_nat (length (clique_interpret x)) = k) /\
    (bits (g_n g) x -> obj_at (p_obj p) x = match size with None => qn (length (clique_interpret x)) | Some _ => 0%Qc end).
Proof. exact (clique_spec g size). Qed.
Theorem C58_interpret x : listed x (clique_interpret x).
Proof. exact (picked_listed x). Qed.
(** A triangle with a tail: {0, 1, 2} is a clique, {1, 2, 3} is not; {0, 1} is not one of size 3. *)
Example C58_case : let g := mkGraph 4 [((0, 1), None); ((1, 2), None); ((2, 0), None); ((2, 3), None)] in
  clique_interpret [1; 1; 1; 0]%Qc = [0; 1; 2] /\
  match clique_program g None, clique_program g (Some 3%Z) with
  | Ok p, Ok p3 => feas_b p [1; 1; 1; 0]%Qc = true /\ feas_b p [0; 1; 1; 1]%Qc = false /\ feas_b p [1; 1; 0; 0]%Qc = true /\
                   feas_b p3 [1; 1; 0; 0]%Qc = false /\ feas_b p3 [1; 1; 1; 0]%Qc = true
  | _, _ => False end.
Proof. split; [vm_compute; reflexivity|]. vm_compute. repeat split; reflexivity. Qed.
Print Assumptions C58_clique.
Print Assumptions C58_interpret.

(** ** C59 *)
Theorem C59_packing subs : exists p, packing_program subs = Ok p /\ binary_program p (length subs) MAXIMIZE /\
  forall x, length x = length subs -> exists l, pick_subsets subs x = Ok l /\ l = chosen subs x /\
    (feasible p x <-> bits (length subs) x /\ ForallOrdPairs disjoint l) /\ (bits (length subs) x -> obj_at (p_obj p) x = qn (length l)).
Proof. exact (packing_spec subs). Qed.
Theorem C59_exact_cover subs : exists p, exact_program subs = Ok p /\ binary_program p (length subs) MINIMIZE /\
  forall x, length x = length subs -> exists l, pick_subsets subs x = Ok l /\ l = chosen subs x /\
    (feasible p x <-> bits (length subs) x /\ forall s e, In s subs -> In e s -> once e l) /\ (bits (length subs) x -> obj_at (p_obj p) x = qn (length l)).
Proof. exact (exact_spec subs). Qed.
(** Both programs have one constraint per element. *)
Theorem C59_rows subs : exists p q es, packing_program subs = Ok p /\ exact_program subs = Ok q /\ NoDup es /\ (forall e, In e es <-> exists s, In s subs /\ In e s) /\
  length (p_lcs p) = length es /\ length (p_lcs q) = length es.
Proof.
  destruct (packing_rows subs) as (p & es & Ep & N & I & L). destruct (exact_rows subs) as (q & es' & Eq & N' & I' & L'). exists p, q, es. repeat split; auto; try apply I. rewrite L'.
  apply Nat.le_antisymm; apply NoDup_incl_length; auto; intros e; rewrite I, I'; auto.
Qed.
(** {1, 2}, {2, 3}, {3}: the first and the third are disjoint and cover everything once. *)
Example C59_case : let subs := [[1; 2]; [2; 3]; [3]]%Z in
  pick_subsets subs [1; 0; 1]%Qc = Ok [[1; 2]; [3]]%Z /\
  match packing_program subs, exact_program subs with
  | Ok p, Ok e => feas_b p [1; 0; 1]%Qc = true /\ feas_b p [1; 1; 0]%Qc = false /\ feas_b p [0; 1; 0]%Qc = true /\
                  feas_b e [1; 0; 1]%Qc = true /\ feas_b e [0; 1; 0]%Qc = false /\ feas_b e [1; 1; 0]%Qc = false
  | _, _ => False end.
Proof. split; [vm_compute; reflexivity|]. vm_compute. repeat split; reflexivity. Qed.
Print Assumptions C59_packing.
Print Assumptions C59_exact_cover.
Print Assumptions C59_rows.

(** ** C60 *)
Theorem C60_knapsack values weights limit : length values <= length weights ->
  exists p, knapsack_program values weights limit = Ok p /\ binary_program p (length values) MAXIMIZE /\
    forall x, (feasible p x <-> bits (length values) x /\ (total (chosen weights x) <= limit)%Qc) /\
      (bits (length values) x -> obj_at (p_obj p) x = total (chosen values x)).
Proof. exact (knapsack_spec values weights limit). Qed.
Theorem C60_interpret x : listed x (knapsack_interpret x).
Proof. exact (picked_listed x). Qed.
Example C60_case : knapsack_interpret [1; 0; 1]%Qc = [0; 2] /\
  match knapsack_program [qz 3; qz 4; qz 5] [qz 2; qz 3; qz 4] (qz 6) with
  | Ok p => feas_b p [1; 0; 1]%Qc = true /\ feas_b p [0; 1; 1]%Qc = false /\ qeqb (obj_at (p_obj p) [1; 0; 1]%Qc) (qz 8) = true | Err _ => False end.
Proof. split; [vm_compute; reflexivity|]. vm_compute. repeat split; reflexivity. Qed.
Print Assumptions C60_knapsack.
Print Assumptions C60_interpret.

(** ** C61 *)
Theorem C61_partition nums : exists p, partition_program nums = Ok p /\ binary_program p (length nums) MINIMIZE /\
  forall x, length x = length nums -> exists a b, partition_interpret nums x = Ok (a, b) /\ Permutation (a ++ b) nums /\
    (feasible p x <-> bits (length nums) x /\ total a = total b) /\ (bits (length nums) x -> obj_at (p_obj p) x = 0%Qc).
Proof. exact (partition_spec nums). Qed.
Theorem C61_interpret nums x : length x = length nums -> partition_interpret nums x = Ok (left_out nums x, chosen nums x).
Proof. exact (partition_interpret_spec nums x). Qed.
(** 1 + 2 = 3 *)
Example C61_case : match partition_interpret [qz 1; qz 2; qz 3] [0; 0; 1]%Qc with Ok (a, b) => qs_eqb a [qz 1; qz 2] && qs_eqb b [qz 3] | Err _ => false end = true /\
  match partition_program [qz 1; qz 2; qz 3] with Ok p => feas_b p [0; 0; 1]%Qc = true /\ feas_b p [0; 1; 1]%Qc = false | Err _ => False end.
Proof. split; [vm_compute; reflexivity|]. vm_compute. split; reflexivity. Qed.
Print Assumptions C61_partition.
Print Assumptions C61_interpret.

(** ** C62 *)
Theorem C62_graph_partition g : graph_wf g -> exists p, gpart_program g = Ok p /\ binary_program p (g_n g) MINIMIZE /\
  forall x, let (a, b) := gpart_interpret x in
    (feasible p x <-> bits (g_n g) x /\ length b = g_n g / 2) /\
    (bits (g_n g) x -> obj_at (p_obj p) x = sumof edge_weight (filter (crossing a b) (g_edges g))).
Proof. exact (gpart_spec g). Qed.
Theorem C62_interpret x : let (a, b) := gpart_interpret x in listed0 x a /\ listed x b.
Proof. pose proof (two_sides_spec x) as H. unfold gpart_interpret. destruct (two_sides 0 x). exact H. Qed.
Example C62_case : let g := mkGraph 3 [((0, 1), Some (qz 2)); ((1, 2), Some (qz 3)); ((0, 2), None)] in
  graph_wf g /\ match gpart_program g with Ok p => feas_b p [0; 1; 0]%Qc = true /\ feas_b p [0; 1; 1]%Qc = false /\ qeqb (obj_at (p_obj p) [0; 1; 0]%Qc) (qz 5) = true | Err _ => False end.
Proof. split; [repeat constructor|]. vm_compute. repeat split; reflexivity. Qed.
Print Assumptions C62_graph_partition.
Print Assumptions C62_interpret.

(** ** C63 *)
Theorem C63_tsp g w : complete g w -> 0 < g_n g -> exists p, tsp_program g = Ok p /\ binary_program p (g_n g * g_n g) MINIMIZE /\
  (forall x, feasible p x <-> exists l, Permutation l (seq 0 (g_n g)) /\ x = perm_matrix (g_n g) l) /\
  forall l, Permutation l (seq 0 (g_n g)) -> tsp_interpret (perm_matrix (g_n g) l) = map One l /\
    tsp_value l w = Ok (obj_at (p_obj p) (perm_matrix (g_n g) l)).
Proof. exact (tsp_spec g w). Qed.
(** Three nodes, visited in the order 0, 2, 1. *)
Example C63_case : let g := mkGraph 3 [((0, 1), Some (qz 2)); ((1, 2), Some (qz 3)); ((2, 0), Some (qz 4))] in
  perm_matrix 3 [0; 2; 1] = [1; 0; 0; 0; 0; 1; 0; 1; 0]%Qc /\ tsp_interpret (perm_matrix 3 [0; 2; 1]) = [One 0; One 2; One 1] /\
  match tsp_program g with Ok p => feas_b p (perm_matrix 3 [0; 2; 1]) = true /\ feas_b p [1; 0; 0; 0; 0; 1; 0; 0; 1]%Qc = false /\
    qeqb (obj_at (p_obj p) (perm_matrix 3 [0; 2; 1])) (qz 9) = true | Err _ => False end.
Proof. split; [reflexivity|]. split; [vm_compute; reflexivity|]. vm_compute. repeat split; reflexivity. Qed.
Print Assumptions C63_tsp.

(** ** C64 *)
Theorem C64_vehicle_routing g w vehicles depot : complete g w -> depot < g_n g -> exists p, vrp_program g vehicles depot = Ok p /\
  binary_program p (g_n g * (g_n g - 1)) MINIMIZE /\
  (forall x, feasible p x <-> bits (g_n g * (g_n g - 1)) x /\ exists routes, good_routes (g_n g) vehicles depot routes /\ marks p x (concat routes)) /\
  forall x, feasible p x -> exists routes, vrp_interpret g vehicles depot x = Ok routes /\ good_routes (g_n g) vehicles depot routes /\
    marks p x (concat routes) /\ obj_at (p_obj p) x = sumof (fun e => w (fst e) (snd e)) (concat routes).
Proof. exact (vrp_spec g w vehicles depot). Qed.
(** Three nodes: one vehicle goes round, two vehicles go to and fro. *)
Example C64_case : let g := mkGraph 3 [((0, 1), Some (qz 2)); ((1, 2), Some (qz 3)); ((2, 0), Some (qz 4))] in
  vrp_interpret g 1 0 [1; 0; 0; 1; 1; 0]%Qc = Ok [[(0, 1); (1, 2); (2, 0)]] /\
  vrp_interpret g 2 0 [1; 1; 1; 0; 1; 0]%Qc = Ok [[(0, 1); (1, 0)]; [(0, 2); (2, 0)]] /\
  match vrp_program g 1 0, vrp_program g 2 0 with
  | Ok p, Ok p2 => feas_b p [1; 0; 0; 1; 1; 0]%Qc = true /\ feas_b p [1; 1; 1; 0; 1; 0]%Qc = false /\ feas_b p2 [1; 1; 1; 0; 1; 0]%Qc = true /\
      qeqb (obj_at (p_obj p) [1; 0; 0; 1; 1; 0]%Qc) (qz 9) = true
  | _, _ => False end.
Proof. split; [vm_compute; reflexivity|]. split; [vm_compute; reflexivity|]. vm_compute. repeat split; reflexivity. Qed.
Print Assumptions C64_vehicle_routing.

(** ** C65 *)
(** Refuted: the weight 5 of the only edge is read as 1. *)
Theorem C65_gset_refuted : exists n edges m, gset_wf n edges /\ parse_gset (gset_file n edges) = Ok m /\ ~ gset_faithful n edges m.
Proof.
  exists 2, [((1, 2), 5%Z)]. eexists. split; [|split; [vm_compute; reflexivity|]].
  - split; [constructor; [cbn; lia|constructor]|]. split; [repeat constructor; intros []|]. intros s t [[= <- <-]|[]] [E|[]]. discriminate E.
  - intros (_ & _ & H & _). destruct (H 1 2 5%Z (or_introl eq_refl)) as (E & _). discriminate E.
Qed.
(** Refuted for every file of the format, whatever the names, dimensions and coordinates: it is rejected because of its TYPE line ... *)
Theorem C65_tsplib_refuted : exists name dim rows, forall int_of float_of, tsplib_coords int_of float_of (tsplib_file name dim rows) = Err QiskitOptimizationError.
Proof. exists "t", "1", [("1", "0", "0")]. intros. reflexivity. Qed.
Theorem C65_type_rejected int_of float_of file a b : no_colon a = true -> no_colon b = true ->
  In ("TYPE" ++ a ++ ":" ++ b ++ endl)%string file \/ In ("EDGE_WEIGHT_TYPE" ++ a ++ ":" ++ b ++ endl)%string file ->
  exists e, tsplib_coords int_of float_of file = Err e.
Proof.
  intros A B [I|I].
  - apply (coords_stop int_of float_of file _) in I; [exact I|]. intros st. exists QiskitOptimizationError. exact (type_rejected int_of float_of a b A B st).
  - apply (coords_stop int_of float_of file _) in I; [exact I|]. intros st. exists QiskitOptimizationError. exact (weight_type_rejected int_of float_of a b A B st).
Qed.
(** ... and without such lines because of its last line, which is no number. *)
Theorem C65_eof_rejected int_of float_of pre mid post e0 : int_of "EOF" = Err e0 ->
  exists e, tsplib_coords int_of float_of (pre ++ ("NODE_COORD_SECTION" ++ endl)%string :: mid ++ ("EOF" ++ endl)%string :: post) = Err e.
Proof. exact (eof_rejected int_of float_of pre mid post e0). Qed.
(** What holds: the adjacency matrix has the right shape and pattern; an edge (s, t) has t - 1 in the place of its weight. *)
Theorem C65_gset_partial n edges : gset_wf n edges -> exists m, parse_gset (gset_file n edges) = Ok m /\
  length m = n /\ Forall (fun r => length r = n) m /\
  (forall i j, i < n -> j < n -> mat_at m i j = mat_at m j i) /\
  (forall s t w, In (s, t, w) edges -> mat_at m (s - 1) (t - 1) = Z.of_nat (t - 1)) /\
  (forall i j, i < n -> j < n -> ~ In (S i, S j) (map fst edges) -> ~ In (S j, S i) (map fst edges) -> mat_at m i j = 0%Z).
Proof. exact (gset_shape n edges). Qed.
(** Files that have nothing but the dimension and the coordinates are read. *)
Theorem C65_tsplib_partial int_of float_of dim rows vals : no_colon dim = true -> rows <> [] ->
  Forall (fun r => numeral (fst (fst r)) = true /\ plain_word (snd (fst r)) = true /\ plain_word (snd r) = true) rows ->
  int_of dim = Ok (Z.of_nat (length rows)) ->
  map (fun r => int_of (fst (fst r))) rows = map (fun k => Ok (Z.of_nat (S k))) (seq 0 (length rows)) ->
  map (fun r => float_of (snd (fst r))) rows = map (fun v => Ok (fst v)) vals ->
  map (fun r => float_of (snd r)) rows = map (fun v => Ok (snd v)) vals ->
  tsplib_coords int_of float_of (plain_file dim rows) = Ok vals.
Proof. exact (plain_read int_of float_of dim rows vals). Qed.
(** A short line, an empty one for example, makes a file that could be read without it unreadable. *)
Theorem C65_short_rejected int_of float_of pre mid post ws c : tsplib_coords int_of float_of (pre ++ ("NODE_COORD_SECTION" ++ endl)%string :: mid) = Ok c -> length ws < 3 ->
  (forall a, nth_error ws 0 = Some a -> numeral a = true /\ exists z, int_of a = Ok z) -> (forall b, nth_error ws 1 = Some b -> plain_word b = true /\ exists x, float_of b = Ok x) ->
  tsplib_coords int_of float_of (pre ++ ("NODE_COORD_SECTION" ++ endl)%string :: mid ++ short_line ws :: post) = Err IndexError.
Proof. exact (short_rejected int_of float_of pre mid post ws c). Qed.
(** A line with one of the four keywords and no colon gives IndexError, not the documented exception, if the lines before it can be read. *)
Theorem C65_colon_missing int_of float_of pre line post c key : In key ["NAME"; "TYPE"; "DIMENSION"; "EDGE_WEIGHT_TYPE"] -> prefix key line = true -> no_colon line = true ->
  pre = [] \/ tsplib_coords int_of float_of pre = Ok c -> tsplib_coords int_of float_of (pre ++ line :: post) = Err IndexError.
Proof.
  intros K P N [->|E]; [exact (keyed_rejected int_of float_of [] line post _ key K P N eq_refl)|]. unfold tsplib_coords in E. apply bind_ok in E. destruct E as (st & E & _).
  exact (keyed_rejected int_of float_of pre line post st key K P N E).
Qed.
Example C65_colon_case : let int_of s := if String.eqb s "1" then Ok 1%Z else Err ValueError in let float_of s := do z <- int_of s; Ok (qz z) in
  (exists c, tsplib_coords int_of float_of (plain_file "1" [("1", "1", "1")]) = Ok c) /\ tsplib_coords int_of float_of (plain_file "1" [("1", "1", "1")] ++ ["NAMES"; "2"]) = Err IndexError.
Proof. split; [eexists|]; vm_compute; reflexivity. Qed.
(** Which files in Gset format are refused and how: the header has two numbers, the first line that is not right counts, then the number of lines. *)
Theorem C65_gset_errors :
  parse_gset [] = Err AssertionError /\ (forall h lines, length h <> 2 -> parse_gset (h :: lines) = Err ValueError) /\
  (forall n m lines, (n < 0)%Z -> parse_gset ([n; m] :: lines) = Err ValueError) /\
  (forall n m pre bad post, (0 <= n)%Z -> Forall (gset_line_ok n) pre -> ~ gset_line_ok n bad -> parse_gset ([n; m] :: pre ++ bad :: post) = Err (if Nat.eqb (length bad) 3 then IndexError else ValueError)) /\
  forall n m lines, (0 <= n)%Z -> Forall (gset_line_ok n) lines -> (m <> Z.of_nat (length lines) -> parse_gset ([n; m] :: lines) = Err AssertionError) /\ (m = Z.of_nat (length lines) -> exists w, parse_gset ([n; m] :: lines) = Ok w).
Proof.
  split; [reflexivity|]. split; [intros [|a [|b [|c h]]] lines L; try reflexivity; now destruct L|]. split; [intros n m lines N; cbn [parse_gset]; now rewrite (proj2 (Z.ltb_lt n 0) N)|]. split.
  - intros n m pre bad post Hn F B. cbn [parse_gset]. rewrite (proj2 (Z.ltb_ge n 0) Hn). rewrite foldM_app. destruct (gset_fold_ok n pre F []) as (w & ->). cbn [bind foldM]. rewrite (gset_edge_bad n w bad Hn B). reflexivity.
  - intros n m lines Hn F. cbn [parse_gset]. rewrite (proj2 (Z.ltb_ge n 0) Hn). destruct (gset_fold_ok n lines F []) as (w & ->). cbn [bind]. destruct (Z.eqb_spec m (Z.of_nat (length lines))) as [E|E]; cbn [negb]; split; intro H; try contradiction; eauto.
Qed.
Example C65_errors_case : parse_gset [[2; 1]; [1; 3; 5]]%Z = Err IndexError /\ parse_gset [[2; 1]; [1; 2]]%Z = Err ValueError /\ parse_gset [[2; 1]; [0; 1; 5]]%Z = Ok [[0; 0]; [0; 0]]%Z /\
  let int_of s := if String.eqb s "1" then Ok 1%Z else Err ValueError in let float_of s := do z <- int_of s; Ok (qz z) in
  match tsplib_coords int_of float_of (plain_file "1" [("1", "1", "1")]) with Ok _ => true | Err _ => false end = true /\ tsplib_coords int_of float_of (plain_file "1" [("1", "1", "1")] ++ [endl]) = Err IndexError.
Proof. repeat split; vm_compute; reflexivity. Qed.
Print Assumptions C65_short_rejected.
Print Assumptions C65_colon_missing.
Print Assumptions C65_gset_errors.
Example C65_case :
  parse_gset [[3; 2]; [1; 2; 7]; [2; 3; -1]]%Z = Ok [[0; 1; 0]; [1; 0; 2]; [0; 2; 0]]%Z /\ parse_gset [[3; 2]; [1; 2; 7]]%Z = Err AssertionError /\
  let int_of s := if String.eqb s "1" then Ok 1%Z else if String.eqb s "2" then Ok 2%Z else Err ValueError in
  let float_of s := do z <- int_of s; Ok (qz z) in
  match tsplib_coords int_of float_of (plain_file "2" [("1", "2", "1"); ("2", "1", "2")]) with
  | Ok [(a, b); (c, d)] => qs_eqb [a; b; c; d] [qz 2; qz 1; qz 1; qz 2] = true | _ => False end.
Proof. split; [reflexivity|]. split; [reflexivity|]. vm_compute. reflexivity. Qed.
Print Assumptions C65_gset_refuted.
Print Assumptions C65_tsplib_refuted.
Print Assumptions C65_type_rejected.
Print Assumptions C65_eof_rejected.
Print Assumptions C65_gset_partial.
Print Assumptions C65_tsplib_partial.

(** ** C66 *)
Theorem C66_vector v : v <> [] -> exists k, first_largest (map abs2 v) k /\ likely_vec v = Ok (basis_point (Nat.log2 (length v)) k).
Proof. exact (likely_vec_spec v). Qed.
(** Of several strings with the largest count the last one is taken. *)
Theorem C66_counts d : d <> [] -> exists d1 k c d2, d = d1 ++ (k, c) :: d2 /\
  Forall (fun e => (snd e <= c)%Qc) d1 /\ Forall (fun e => (snd e < c)%Qc) d2 /\ likely_dict d = Ok (map digit_q (rev k)).
Proof. exact (likely_dict_spec d). Qed.
Example C66_case : likely_vec [(0, 0); (0, - qz 2); (1, 0); (qz 2, 0)]%Qc = Ok [1; 0]%Qc /\
  likely_dict [([true; false], qz 3); ([false; true], qz 3); ([true; true], qz 1)] = Ok [1; 0]%Qc.
Proof. split; apply res_qs_eq; vm_compute; reflexivity. Qed.
Print Assumptions C66_vector.
Print Assumptions C66_counts.
