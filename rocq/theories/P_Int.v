(** * C87, C88: whole coefficients, and the applications answered by the optimizers *)
From Verif Require Import IntFacts3 ConvMore.
Local Open Scope string_scope.
Local Open Scope list_scope.
Local Open Scope nat_scope.

(** ** C87 *)
(** The QUBO of a program on a grid is on the same grid, whatever slack variables, digits and penalties were needed. *)
Theorem C87_grid g pen p r : prog_wf p -> multiple g 1 -> whole_data g p -> match pen with Some c => multiple g c | None => True end -> to_qubo pen p = Ok r ->
  multiple g (o_const (p_obj (r_qubo r))) /\ on_grid g (r_qubo r).
Proof. intros W G D Pp H. pose proof (proj1 (qubo_inv pen p r H)) as K. apply qubo_compatible_iff in K. destruct K as (_ & Q & _). apply (qubo_grid g G pen p r W); auto. now apply data_whole. Qed.
(** In particular whole numbers stay whole, as the Grover search needs them. *)
Theorem C87_whole pen p r : prog_wf p -> whole_data 1 p -> match pen with Some c => integral c | None => True end -> to_qubo pen p = Ok r -> integer_objective (r_qubo r).
Proof.
  intros W D Pp H. apply grid_integer. apply (C87_grid 1 pen p r W (multiple_refl 1) D); [|exact H]. destruct pen; [now apply multiple_one|exact I].
Qed.
(** The conditions of C40 on the QUBO can be read off the program. *)
Theorem C87_min_eigen solver pen p r e g : prog_wf p -> shapes (num_vars p) p -> to_qubo pen p = Ok r -> 0 < num_vars (r_qubo r) ->
  sized_state (num_vars (r_qubo r)) e -> (forall op off, to_ising (r_qubo r) = Ok (op, off) -> solver op = Ok (Some e)) ->
  Forall plain (p_vars p) -> products_safe p (o_quad (p_obj p)) -> (exists x, feasible p x) -> grid g -> whole_data g p ->
  match pen with Some c => (weight (p_obj (r_bin r)) < c)%Qc /\ multiple g c | None => True end ->
  (exists op off x pr, to_ising (r_qubo r) = Ok (op, off) /\ kept (r_qubo r) e x pr /\ ground (num_vars (r_qubo r)) op x) ->
  exists m y, min_eigen_solve solver (default_converters pen) p = Ok m /\ r_x (m_res m) = Some y /\ optimal p y /\
    r_fval (m_res m) = Some (obj_at (p_obj p) y) /\ r_status (m_res m) = SUCCESS.
Proof.
  intros W S H Pos Se Sv P SF F (G & Hg) D Pen X. assert (exists x pr, kept (r_qubo r) e x pr) as K by (destruct X as (op & off & x & pr & _ & K & _); eauto).
  destruct (default_total solver pen p r e W H Pos Se Sv S K) as [m M]. assert (int_bounds p) as IB by (apply Forall_forall; intros v I _; now apply D).
  destruct (default_optimal solver pen p r e W H Pos Se Sv g m P IB SF F) as (y & Y); auto; [now destruct pen| |exists m, y; auto].
  apply (C87_grid g pen p r W G D); [|exact H]. now destruct pen.
Qed.
(** max i b / 2 - i with 3 i - 2 b <= 13/2 and i + b = 3, where 0 <= i <= 5 *)
Definition ex87 : qp := run (new_qp "") [OAddVar 0 (qz 5) INTEGER (Some "i"); OAddVar 0 1 BINARY (Some "b");
  OLinCon (Some (LDict [(KS "i", qz 3); (KS "b", qz (-2))])) (SStr "<=") (Q2Qc (13 # 2)) (Some "c"); OLinCon (Some (LDict [(KS "i", 1%Qc); (KS "b", 1%Qc)])) (SStr "==") (qz 3) (Some "d");
  OObjective MAXIMIZE 0 (Some (LDict [(KS "i", qz (-1))])) (Some (QDict [((KS "i", KS "b"), Q2Qc (1 # 2))]))].
Definition multiple_b (g a : Qc) : bool := is_integer (a / g)%Qc.
Example C87_case : prog_wf ex87 /\ num_vars ex87 = 2 /\ length (p_lcs ex87) = 2 /\ match to_qubo None ex87 with
  | Ok r => num_vars (r_qubo r) = 8 /\ multiple_b (Q2Qc (1 # 2)) (o_const (p_obj (r_qubo r))) && forallb (fun kv => multiple_b (Q2Qc (1 # 2)) (snd kv)) (le_co (o_lin (p_obj (r_qubo r)))) &&
      forallb (fun kv => multiple_b (Q2Qc (1 # 2)) (snd kv)) (qe_co (o_quad (p_obj (r_qubo r)))) = true /\ existsb (fun kv => negb (is_integer (snd kv))) (qe_co (o_quad (p_obj (r_qubo r)))) = true
  | Err _ => False end.
Proof. split; [apply reachable_wf; repeat constructor|]. vm_compute. auto. Qed.
(** The program is on the grid of halves. *)
Example C87_data_case : grid (Q2Qc (1 # 2)) /\ whole_data (Q2Qc (1 # 2)) ex87.
Proof.
  assert (forall a, multiple_b (Q2Qc (1 # 2)) a = true -> multiple (Q2Qc (1 # 2)) a) as M. { intros a H. apply is_integer_spec in H. destruct H as [z H]. exists z. rewrite <- H. field. discriminate. }
  split; [split; [apply M; vm_compute; reflexivity|vm_compute; reflexivity]|]. assert (multiple (Q2Qc (1 # 2)) 0) as Z by (apply M; vm_compute; reflexivity). split; [exact Z|]. split.
  - split; [apply (coef1_P _ Z)|apply (coef2_P _ Z)]; repeat constructor; apply M; vm_compute; reflexivity.
  - split.
    + assert (forallb (fun v => is_integer (v_lb v) && is_integer (v_ub v)) (p_vars ex87) = true) as V by (vm_compute; reflexivity). rewrite forallb_forall in V. intros v Iv. apply V in Iv. apply andb_prop in Iv. destruct Iv. split; now apply is_integer_spec.
    + assert (forallb (fun c => forallb (fun kv => is_integer (snd kv)) (le_co (lc_lin c)) && (match lc_sense c with EQ => is_integer (lc_rhs c) | _ => true end)) (p_lcs ex87) = true) as V by (vm_compute; reflexivity).
      rewrite forallb_forall in V. intros c Ic. apply V in Ic. apply andb_prop in Ic. destruct Ic as [A B]. split.
      * apply (coef1_P _ integral_0), Forall_forall. intros kv K. rewrite forallb_forall in A. now apply is_integer_spec, A.
      * intros Es. rewrite Es in B. now apply is_integer_spec.
Qed.
(** The right-hand sides of equations must be whole: x = 1/3 has the penalty (x - 1/3)^2. *)
Example C87_equation_case : match to_qubo None (run (new_qp "") [OAddVar 0 1 BINARY (Some "x"); OLinCon (Some (LDict [(KS "x", 1%Qc)])) (SStr "==") (Q2Qc (1 # 3)) (Some "c")]) with
  | Ok r => is_integer (coef1 (o_lin (p_obj (r_qubo r))) 0) = false | Err _ => False end.
Proof. vm_compute. reflexivity. Qed.
Print Assumptions C87_grid.
Print Assumptions C87_whole.
Print Assumptions C87_min_eigen.

(** ** C88 *)
(** For the examples: the answer to a uniform state, in which all outcomes are equally likely *)
Definition uniform_answer (m : result qp) : option (list Qc) :=
  match m with
  | Ok p => match to_qubo None p with
            | Ok r => match min_eigen_solve (fun _ => Ok (Some (EDict (map (fun x => (map (fun a => qeqb a 1) x, 1%Qc)) (all_bits (num_vars (r_qubo r))))))) (default_converters None) p with
                      | Ok a => match r_status (m_res a) with SUCCESS => r_x (m_res a) | _ => None end | Err _ => None end
            | Err _ => None end
  | Err _ => None end.
Theorem C88_maxcut q g : graph_wf q -> grid g -> (forall e, In e (g_edges q) -> multiple g (edge_weight e)) ->
  exists p, maxcut_program q = Ok p /\ eigen_solved p (best_cut q) /\ (g = 1%Qc -> grover_solved p (best_cut q)).
Proof. intros W G H. apply answers; [exact G|exact (maxcut_answer q W)|]. intros p E R _. now apply (maxcut_whole g G q). Qed.
Theorem C88_graph_partition q g : graph_wf q -> grid g -> (forall e, In e (g_edges q) -> multiple g (edge_weight e)) ->
  exists p, gpart_program q = Ok p /\ eigen_solved p (best_halves q) /\ (g = 1%Qc -> grover_solved p (best_halves q)).
Proof. intros W G H. apply answers; [exact G|exact (gpart_answer q W)|]. intros p E R _. now apply (gpart_whole g G q). Qed.
Theorem C88_vertex_cover q : graph_wf q -> exists p, cover_program q = Ok p /\ eigen_solved p (least_cover q) /\ grover_solved p (least_cover q).
Proof.
  intros W. assert (grid 1) as G by (split; [apply multiple_refl|vm_compute; reflexivity]). destruct (answers _ _ 1 G (cover_answer q W)) as (p & A & B & C); [intros p E R _; now apply (cover_whole 1 G q)|]. exists p. auto.
Qed.
Theorem C88_stable_set q : graph_wf q -> exists p, stable_program q = Ok p /\ eigen_solved p (largest_stable q) /\ grover_solved p (largest_stable q).
Proof.
  intros W. assert (grid 1) as G by (split; [apply multiple_refl|vm_compute; reflexivity]). destruct (answers _ _ 1 G (stable_answer q W)) as (p & A & B & C); [intros p E R _; now apply (stable_whole 1 G q)|]. exists p. auto.
Qed.
Theorem C88_clique q : exists p, clique_program q None = Ok p /\ eigen_solved p (largest_clique q) /\ grover_solved p (largest_clique q).
Proof.
  assert (grid 1) as G by (split; [apply multiple_refl|vm_compute; reflexivity]). destruct (answers _ _ 1 G (clique_answer q)) as (p & A & B & C); [intros p E R _; now apply (clique_whole 1 G q None)|]. exists p. auto.
Qed.
Theorem C88_clique_of_size q k : (exists l, is_clique q l /\ length l = k) ->
  exists p, clique_program q (Some (Z.of_nat k)) = Ok p /\ eigen_solved p (clique_of q k) /\ grover_solved p (clique_of q k).
Proof.
  intros X. assert (grid 1) as G by (split; [apply multiple_refl|vm_compute; reflexivity]). destruct (answers _ _ 1 G (clique_of_answer q k X)) as (p & A & B & C); [intros p E R _; now apply (clique_whole 1 G q (Some (Z.of_nat k)))|]. exists p. auto.
Qed.
Theorem C88_set_packing subs : exists p, packing_program subs = Ok p /\ eigen_solved p (best_packing subs) /\ grover_solved p (best_packing subs).
Proof.
  assert (grid 1) as G by (split; [apply multiple_refl|vm_compute; reflexivity]). destruct (answers _ _ 1 G (packing_answer subs)) as (p & A & B & C); [intros p E R _; now apply (packing_whole 1 G subs)|]. exists p. auto.
Qed.
Theorem C88_exact_cover subs : (exists y, bits (length subs) y /\ forall s e, In s subs -> In e s -> once e (chosen subs y)) ->
  exists p, exact_program subs = Ok p /\ eigen_solved p (least_exact subs) /\ grover_solved p (least_exact subs).
Proof.
  intros X. assert (grid 1) as G by (split; [apply multiple_refl|vm_compute; reflexivity]). destruct (answers _ _ 1 G (exact_answer subs X)) as (p & A & B & C); [intros p E R _; now apply (exact_whole 1 G subs)|]. exists p. auto.
Qed.
Theorem C88_knapsack values weights limit g : length values <= length weights -> Forall integral weights -> grid g -> Forall (multiple g) values ->
  (exists y, bits (length values) y /\ (total (chosen weights y) <= limit)%Qc) ->
  exists p, knapsack_program values weights limit = Ok p /\ eigen_solved p (best_load values weights limit) /\ (g = 1%Qc -> grover_solved p (best_load values weights limit)).
Proof. intros L I G V X. apply answers; [exact G|exact (knapsack_answer values weights limit L I X)|]. intros p E R _. now apply (knapsack_whole g G values weights limit). Qed.
Theorem C88_number_partition nums : Forall (fun u => integral (qz 2 * u)) nums -> (exists y, bits (length nums) y /\ total (left_out nums y) = total (chosen nums y)) ->
  exists p, partition_program nums = Ok p /\ eigen_solved p (equal_parts nums) /\ grover_solved p (equal_parts nums).
Proof.
  intros D X. assert (grid 1) as G by (split; [apply multiple_refl|vm_compute; reflexivity]). destruct (answers _ _ 1 G (partition_answer nums D X)) as (p & A & B & C).
  - intros p E R _. destruct X as (y & By & Ey). apply (partition_whole 1 G nums); auto. exact (partition_total nums y D By Ey).
  - exists p. auto.
Qed.
Theorem C88_tsp q w g : complete q w -> 0 < g_n q -> grid g -> (forall i j, i < g_n q -> j < g_n q -> i <> j -> multiple g (w i j)) ->
  exists p, tsp_program q = Ok p /\ eigen_solved p (shortest_tour q w) /\ (g = 1%Qc -> grover_solved p (shortest_tour q w)).
Proof. intros C Hn G V. apply answers; [exact G|exact (tsp_answer q w C Hn)|]. intros p E R _. now apply (tsp_whole g G q w). Qed.
Theorem C88_vehicle_routing q w vehicles depot g : complete q w -> depot < g_n q -> grid g -> (forall i j, i < g_n q -> j < g_n q -> i <> j -> multiple g (w i j)) ->
  (exists routes, good_routes (g_n q) vehicles depot routes) ->
  exists p, vrp_program q vehicles depot = Ok p /\ eigen_solved p (shortest_routes q w vehicles depot) /\ (g = 1%Qc -> grover_solved p (shortest_routes q w vehicles depot)).
Proof. intros C Hd G V X. apply answers; [exact G|exact (vrp_answer q w vehicles depot C Hd X)|]. intros p E R _. now apply (vrp_whole g G q w vehicles depot). Qed.
(** The weights 5/2, 3 and 1 are on the grid of halves. *)
Example C88_case :
  option_map maxcut_interpret (uniform_answer (maxcut_program (mkGraph 3 [((0, 1), Some (Q2Qc (5 # 2))); ((1, 2), Some (qz 3)); ((0, 2), None)]))) = Some ([0; 2], [1]) /\
  option_map cover_interpret (uniform_answer (cover_program (mkGraph 3 [((0, 1), None); ((1, 2), None)]))) = Some [1] /\
  option_map tsp_interpret (uniform_answer (tsp_program (mkGraph 2 [((0, 1), Some (qz 2))]))) = Some [One 1; One 0] /\
  option_map knapsack_interpret (uniform_answer (knapsack_program [qz 3; qz 4] [qz 2; qz 3] (qz 4))) = Some [1].
Proof. vm_compute. auto. Qed.
Print Assumptions C88_maxcut.
Print Assumptions C88_graph_partition.
Print Assumptions C88_vertex_cover.
Print Assumptions C88_stable_set.
Print Assumptions C88_clique.
Print Assumptions C88_clique_of_size.
Print Assumptions C88_set_packing.
Print Assumptions C88_exact_cover.
Print Assumptions C88_knapsack.
Print Assumptions C88_number_partition.
Print Assumptions C88_tsp.
Print Assumptions C88_vehicle_routing.
