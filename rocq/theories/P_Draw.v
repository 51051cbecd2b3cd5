(** * C83, C84: drawings and random instances *)
From Verif Require Import DrawFacts TspFacts VrpFacts3 AppFacts ConvMore.
Local Open Scope string_scope.
Local Open Scope list_scope.
Local Open Scope nat_scope.

(** ** C83 *)
(** Vertex cover, clique and graph partition paint exactly the nodes of the answer red, whatever the order of the nodes in the graph. *)
Theorem C83_nodes : forall n order x, Permutation order (seq 0 n) -> length x = n ->
  (exists cs, cover_colors order x = Ok cs /\ length cs = n /\ forall v, v < n -> (painted order cs v "r" <-> In v (cover_interpret x)) /\ (painted order cs v "darkgrey" <-> ~ In v (cover_interpret x))) /\
  (exists cs, clique_colors order x = Ok cs /\ length cs = n /\ forall v, v < n -> (painted order cs v "r" <-> In v (clique_interpret x)) /\ (painted order cs v "darkgrey" <-> ~ In v (clique_interpret x))) /\
  (exists cs, gpart_colors order x = Ok cs /\ length cs = n /\ forall v, v < n -> (painted order cs v "b" <-> In v (fst (gpart_interpret x))) /\ (painted order cs v "r" <-> In v (snd (gpart_interpret x)))).
Proof.
  intros n order x P L. assert (n <= length x) as Ln by lia. pose proof (proj2 (picked_listed x)) as K. pose proof (two_sides_spec x) as [[_ K0] [_ K1]]. split; [|split].
  1, 2: destruct (colors_spec (fun a => if qeqb a 0 then "darkgrey" else "r") n order x P Ln) as (cs & E & Lc & H); exists cs; split; [exact E|]; split; [exact Lc|]; intros v Hv; rewrite !H;
    unfold cover_interpret, clique_interpret; rewrite K; destruct (qeqb_spec (at_ x v) 0) as [Z|Z]; (split; split; [intros [_ A]|intro A|intros [_ A]|intro A]); try discriminate A; auto; try contradiction.
  destruct (colors_spec (fun a => if qeqb a 0 then "b" else "r") n order x P Ln) as (cs & E & Lc & H). exists cs. split; [exact E|]. split; [exact Lc|]. intros v Hv. rewrite !H. unfold gpart_interpret. rewrite K0, K1.
  destruct (qeqb_spec (at_ x v) 0) as [Z|Z]; (split; split; [intros [_ A]|intro A|intros [_ A]|intro A]); try discriminate A; auto; try contradiction; try (destruct A; contradiction). split; [lia|exact Z].
Qed.
Example C83_nodes_case : cover_colors [2; 0; 1] [1; 0; 1]%Qc = Ok ["r"; "r"; "darkgrey"] /\ gpart_colors [2; 0; 1] [1; 0; 0]%Qc = Ok ["b"; "r"; "b"] /\ cover_colors [2; 0; 1] [1; 0]%Qc = Err IndexError.
Proof. vm_compute. auto. Qed.
(** Max-cut does not: its colours are in the order of the variables, not of the nodes. *)
Theorem C83_maxcut_refuted : exists order x, Permutation order (seq 0 2) /\ length x = 2 /\ feasible (match maxcut_program (mkGraph 2 [((1, 0), Some 1%Qc)]) with Ok p => p | _ => new_qp "" end) x /\
  painted order (maxcut_colors x) 0 "b" /\ ~ painted order (maxcut_colors x) 0 "r" /\ In 0 (fst (maxcut_interpret x)).
Proof.
  exists [1; 0], [0; 1]%Qc. split; [apply perm_swap|]. split; [reflexivity|]. split; [apply feas_b_spec; vm_compute; reflexivity|]. split; [exists 1; vm_compute; auto|]. split.
  - intros (k & A & B). destruct k as [|[|[|k]]]; try discriminate A. discriminate B.
  - vm_compute. auto.
Qed.
(** The comment promises red for the variables that are 1; it is the other way round. *)
Theorem C83_comment_refuted : exists x, painted [0; 1] (maxcut_colors x) 0 "r" /\ at_ x 0 <> 1%Qc /\ painted [0; 1] (maxcut_colors x) 1 "b" /\ at_ x 1 = 1%Qc.
Proof. exists [0; 1]%Qc. split; [exists 0; vm_compute; auto|]. split; [discriminate|]. split; [exists 1; vm_compute; auto|reflexivity]. Qed.
(** With nodes in the order 0, 1, ... the first list of the answer is red, the second one blue. *)
Theorem C83_maxcut_partial : forall n x v, length x = n -> v < n -> (painted (seq 0 n) (maxcut_colors x) v "r" <-> In v (fst (maxcut_interpret x))) /\ (painted (seq 0 n) (maxcut_colors x) v "b" <-> In v (snd (maxcut_interpret x))).
Proof.
  intros n x v L Hv. pose proof (two_sides_spec x) as [[_ K0] [_ K1]]. unfold maxcut_interpret. rewrite !(maxcut_painted n x v _ L), K0, K1.
  destruct (qeqb_spec (at_ x v) 0) as [Z|Z]; (split; split; [intros [_ A]|intro A|intros [_ A]|intro A]); try discriminate A; auto; try contradiction; try (destruct A; contradiction). split; [lia|exact Z].
Qed.
Example C83_maxcut_case : maxcut_colors [0; 1; 1]%Qc = ["r"; "b"; "b"] /\ maxcut_interpret [0; 1; 1]%Qc = ([0], [1; 2]).
Proof. vm_compute. auto. Qed.
(** Stable set: a value other than 0 and 1 is in the answer but not painted red ... *)
Theorem C83_stable_refuted : exists x cs, length x = 1 /\ In 0 (stable_interpret x) /\ stable_colors [0] x = Ok cs /\ ~ painted [0] cs 0 "r".
Proof.
  exists [1 / qz 2]%Qc, ["darkgrey"]. split; [reflexivity|]. split; [vm_compute; auto|]. split; [vm_compute; reflexivity|]. intros (k & A & B). destruct k as [|[|k]]; try discriminate A. discriminate B.
Qed.
(** ... 0 and 1 are as they should be. *)
Theorem C83_stable_partial : forall n order x, Permutation order (seq 0 n) -> length x = n -> bits n x ->
  exists cs, stable_colors order x = Ok cs /\ length cs = n /\ forall v, v < n -> (painted order cs v "r" <-> In v (stable_interpret x)) /\ (painted order cs v "darkgrey" <-> ~ In v (stable_interpret x)).
Proof.
  intros n order x P L B. assert (n <= length x) as Ln by lia. pose proof (proj2 (picked_listed x)) as K. destruct (colors_spec (fun a => if qeqb a 1 then "r" else "darkgrey") n order x P Ln) as (cs & E & Lc & H). exists cs. split; [exact E|]. split; [exact Lc|]. intros v Hv. rewrite !H.
  unfold stable_interpret. rewrite K. destruct (bits_at n x v B) as [Z|Z]; rewrite Z.
  - change (qeqb 0 1) with false. split; split; [intros [_ A]; discriminate A|intro A; now destruct A|intros _ A; now apply A|intros _; auto].
  - change (qeqb 1 1) with true. split; split; [intros _; discriminate|auto|intros [_ A]; discriminate A|intro A; exfalso; apply A; discriminate].
Qed.
Example C83_stable_case : stable_colors [2; 0; 1] [1; 0; 1]%Qc = Ok ["r"; "r"; "darkgrey"] /\ stable_interpret [1; 0; 1]%Qc = [0; 2].
Proof. vm_compute. auto. Qed.
(** A result of a smaller problem cannot be drawn. *)
Theorem C83_short : forall n order x, Permutation order (seq 0 n) -> length x < n ->
  cover_colors order x = Err IndexError /\ clique_colors order x = Err IndexError /\ stable_colors order x = Err IndexError /\ gpart_colors order x = Err IndexError.
Proof. intros n order x P L. repeat split; eapply colors_short; eauto. Qed.
Example C83_short_case : Permutation [2; 0; 1] (seq 0 3) /\ stable_colors [2; 0; 1] [1; 0]%Qc = Err IndexError /\ cover_colors [0; 1] [1; 0; 1]%Qc = Ok ["r"; "darkgrey"].
Proof. split; [|vm_compute; auto]. apply (Permutation_app_comm [2] [0; 1]). Qed.
(** The edges drawn for a tour are the closed tour: each node is left once and entered once, and their weights sum up to the objective value. *)
Theorem C83_tour : forall g w, complete g w -> 0 < g_n g -> exists p, tsp_program g = Ok p /\ forall x, feasible p x -> exists edges, tsp_edgelist x = map (fun e => (One (fst e), One (snd e))) edges /\
  Permutation (map fst edges) (seq 0 (g_n g)) /\ Permutation (map snd edges) (seq 0 (g_n g)) /\ sumof (fun e => w (fst e) (snd e)) edges = obj_at (p_obj p) x /\ exists l, edges = closed l.
Proof.
  intros g w C Hn. destruct (tsp_spec g w C Hn) as (p & E & _ & F & V). exists p. split; [exact E|]. intros x Fx. apply F in Fx. destruct Fx as (l & P & ->). exists (closed l). destruct (V l P) as [I T].
  assert (length l = g_n g) as L by (apply Permutation_length in P; now rewrite seq_length in P). rewrite (closed_sum _ w l Hn L) in T. destruct (closed_nodes l) as [A B].
  split; [now apply edgelist_tour|]. split; [now rewrite A|]. split; [now rewrite B|]. split; [congruence|eauto].
Qed.
Example C83_tour_case : tsp_edgelist (perm_matrix 3 [0; 2; 1]) = [(One 0, One 2); (One 2, One 1); (One 1, One 0)] /\ closed [0; 2; 1] = [(0, 2); (2, 1); (1, 0)].
Proof. vm_compute. auto. Qed.
(** The edges drawn for routes are those of the routes, each route in a colour of its own in [0, 1). *)
Theorem C83_routes : forall routes, vrp_edgelist routes = concat routes /\ exists cols, length cols = length routes /\ NoDup cols /\ Forall (fun c => 0 <= c /\ c < 1)%Qc cols /\
  vrp_edge_color routes = concat (map (fun rc => repeat (snd rc) (length (fst rc))) (combine routes cols)).
Proof. intro routes. split; [apply vrp_edges|apply vrp_colors]. Qed.
Example C83_routes_case : vrp_edgelist [[(0, 1); (1, 0)]; []; [(0, 2)]; [(3, 4)]] = [(0, 1); (1, 0); (0, 2); (3, 4)] /\ qs_eqb (vrp_edge_color [[(0, 1); (1, 0)]; []; [(0, 2)]; [(3, 4)]]) [0; 0; 1 / qz 2; qz 3 / qz 4]%Qc = true.
Proof. vm_compute. auto. Qed.

(** ** C84 *)
(** A random instance of the travelling salesman problem is a complete graph whose weights are the distances of points of the square, rounded to the nearest whole numbers, to even ones in the middle; so it has a program. *)
Theorem C84_tsp : forall hyp (St : Type) (reseed : Z -> St) uniform n low high seed st g st', hypot_like hyp -> (low <= high)%Qc -> (forall st, low <= fst (uniform low high st) /\ fst (uniform low high st) <= high)%Qc ->
  tsp_random hyp reseed uniform n low high seed st = (g, st') -> g_n g = n /\ (0 < n -> exists p, tsp_program g = Ok p) /\
  exists pos w, length pos = n /\ Forall (fun c => (low <= fst c /\ fst c <= high) /\ (low <= snd c /\ snd c <= high))%Qc pos /\ complete g w /\
    forall i j, rounds_even (hyp (fst (nth i pos (0, 0)) - fst (nth j pos (0, 0))) (snd (nth i pos (0, 0)) - snd (nth j pos (0, 0))))%Qc (w i j).
Proof.
  intros hyp St reseed uniform n low high seed st g st' Hh Hl Hu H. unfold tsp_random in H. set (st0 := match seed with Some s => if Z.eqb s 0 then st else reseed s | None => st end) in H.
  destruct (draw_pairs (uniform low high) n st0) as [pos st1] eqn:E. injection H as <- <-. pose proof (draw_length (uniform low high) n st0) as L. pose proof (draw_all (uniform low high) (fun a => low <= a /\ a <= high)%Qc n Hu st0) as F. rewrite E in L, F. cbn [fst] in L, F.
  assert (complete (geometric hyp n (hyp (high - low) (high - low) + 1)%Qc pos) (fun i j => np_rint (distance hyp pos i j))) as C by (apply geometric_complete; [exact Hh|exact L|]; eapply Forall_impl; [|exact F]; cbn; tauto).
  split; [reflexivity|]. split. { intro Hn. destruct (tsp_spec _ _ C Hn) as (p & Ep & _). eauto. }
  exists pos, (fun i j => np_rint (distance hyp pos i j)). split; [exact L|]. split; [exact F|]. split; [exact C|]. intros i j. exact (rint_rounds (distance hyp pos i j)).
Qed.
(** So is one of the vehicle routing problem; an empty range raises. *)
Theorem C84_vrp : forall hyp (St : Type) (reseed : Z -> St) entropy randint n low high seed vehicles depot, hypot_like hyp -> (low <= high)%Z -> (forall st, low <= fst (randint low high st) <= high)%Z ->
  exists g st', vrp_random hyp reseed entropy randint n low high seed vehicles depot = Ok (g, vehicles, depot, st') /\ g_n g = n /\ (depot < n -> exists p, vrp_program g vehicles depot = Ok p) /\
  exists pos w, length pos = n /\ Forall (fun c => (qz low <= fst c /\ fst c <= qz high) /\ (qz low <= snd c /\ snd c <= qz high))%Qc pos /\ complete g w /\
    forall i j, rounds_even (hyp (fst (nth i pos (0, 0)) - fst (nth j pos (0, 0))) (snd (nth i pos (0, 0)) - snd (nth j pos (0, 0))))%Qc (w i j).
Proof.
  intros hyp St reseed entropy randint n low high seed vehicles depot Hh Hl Hu. unfold vrp_random. set (st0 := match seed with Some s => reseed s | None => entropy end).
  assert ((0 <? n) && (high <? low)%Z = false) as -> by (apply andb_false_iff; right; apply Z.ltb_ge; exact Hl). set (draw := fun st => let (a, st) := randint low high st in (qz a, st)).
  assert (forall st, qz low <= fst (draw st) /\ fst (draw st) <= qz high)%Qc as Hd. { intro st. unfold draw. specialize (Hu st). destruct (randint low high st) as [a st1]. cbn in *. split; apply qz_le; lia. }
  destruct (draw_pairs draw n st0) as [pos st1] eqn:E. pose proof (draw_length draw n st0) as L. pose proof (draw_all draw (fun a => qz low <= a /\ a <= qz high)%Qc n Hd st0) as F. rewrite E in L, F. cbn [fst] in L, F.
  assert (complete (geometric hyp n (hyp (qz (high - low)) (qz (high - low)) + 1)%Qc pos) (fun i j => np_rint (distance hyp pos i j))) as C by (rewrite qz_sub; apply geometric_complete; [exact Hh|exact L|]; eapply Forall_impl; [|exact F]; cbn; tauto).
  eexists. exists st1. split; [reflexivity|]. split; [reflexivity|]. split. { intro Hn. destruct (vrp_spec _ _ vehicles depot C Hn) as (p & Ep & _). eauto. }
  exists pos, (fun i j => np_rint (distance hyp pos i j)). split; [exact L|]. split; [exact F|]. split; [exact C|]. intros i j. exact (rint_rounds (distance hyp pos i j)).
Qed.
Theorem C84_range : forall hyp (St : Type) (reseed : Z -> St) entropy randint n low high seed vehicles depot, 0 < n -> (high < low)%Z -> vrp_random hyp reseed entropy randint n low high seed vehicles depot = Err ValueError.
Proof. intros. unfold vrp_random. assert ((0 <? n) && (high <? low)%Z = true) as -> by (apply andb_true_iff; split; [now apply Nat.ltb_lt|now apply Z.ltb_lt]). reflexivity. Qed.
(** The same seed should give the same instance of the travelling salesman problem: refuted, the seed 0 is ignored ... *)
Definition taxi (a b : Qc) : Qc := (qabs a + qabs b)%Qc.
Definition count_up (low high : Qc) (st : Z) : Qc * Z := ((low + (high - low) * (qz (st mod 7)%Z / qz 7))%Qc, (3 * st + 1)%Z).
Theorem C84_seed_refuted : exists n low high seed st1 st2 g1 g2 w1 w2, (low < high)%Qc /\ hypot_like taxi /\ fst (tsp_random taxi (fun s => s) count_up n low high (Some seed) st1) = g1 /\ fst (tsp_random taxi (fun s => s) count_up n low high (Some seed) st2) = g2 /\
  weight_of g1 0 1 = Ok w1 /\ weight_of g2 0 1 = Ok w2 /\ w1 <> w2.
Proof.
  exists 2, 0%Qc, (qz 100), 0%Z, 1%Z, 2%Z. eexists. eexists. exists (np_rint (distance taxi (fst (draw_pairs (count_up 0 (qz 100)) 2 1%Z)) 0 1)), (np_rint (distance taxi (fst (draw_pairs (count_up 0 (qz 100)) 2 2%Z)) 0 1)).
  split; [reflexivity|]. split. { split; [apply Qc_is_canon; reflexivity|]. intros a b c d A B. unfold taxi. qlra. } split; [reflexivity|]. split; [reflexivity|]. split; [vm_compute; reflexivity|]. split; [vm_compute; reflexivity|]. vm_compute. discriminate.
Qed.
(** ... any other seed is not; nor is 0 for the vehicle routing problem. *)
Theorem C84_seed_partial : forall hyp (St : Type) (reseed : Z -> St) uniform randint n low high seed st1 st2, (seed <> 0%Z -> tsp_random hyp reseed uniform n low high (Some seed) st1 = tsp_random hyp reseed uniform n low high (Some seed) st2) /\
  forall low high vehicles depot, vrp_random hyp reseed st1 randint n low high (Some seed) vehicles depot = vrp_random hyp reseed st2 randint n low high (Some seed) vehicles depot.
Proof.
  intros. split; [intro H; unfold tsp_random; apply Z.eqb_neq in H; now rewrite H|]. intros. unfold vrp_random. destruct (_ && _); reflexivity.
Qed.
Definition count_int (low high : Z) (st : Z) : Z * Z := ((low + st mod (high - low + 1))%Z, (2 * st + 1)%Z).
Example C84_case : (forall st, 0 <= fst (count_up 0 (qz 100) st) /\ fst (count_up 0 (qz 100) st) <= qz 100)%Qc /\
  map (fun e => (fst e, option_map qfloor (snd e))) (g_edges (fst (tsp_random taxi (fun s => s) count_up 3 0 (qz 100) (Some 5%Z) 0%Z))) = [(0, 1, Some 86%Z); (0, 2, Some 71%Z); (1, 2, Some 129%Z)] /\
  match vrp_random taxi (fun s => s) 0%Z count_int 3 0 10 (Some 5%Z) 2 0 with Ok (g, k, d, _) => map (fun e => (fst e, option_map qfloor (snd e))) (g_edges g) = [(0, 1, Some 7%Z); (0, 2, Some 6%Z); (1, 2, Some 7%Z)] /\ k = 2%Z /\ d = 0 | _ => False end /\
  vrp_random taxi (fun s => s) 0%Z count_int 3 10 0 (Some 5%Z) 2 0 = Err ValueError.
Proof.
  split. { intro st. unfold count_up. cbn [fst]. assert (0 <= st mod 7 <= 7)%Z as B by (pose proof (Z.mod_pos_bound st 7 ltac:(lia)); lia). destruct B as [B1 B2]. apply qz_le in B1, B2. rewrite qz_0 in B1.
    assert (qz (st mod 7) / qz 7 * qz 7 = qz (st mod 7))%Qc as E by (unfold Qcdiv; rewrite <- Qcmult_assoc, (Qcmult_comm (/ qz 7)), Qcmult_inv_r, Qcmult_1_r by discriminate; reflexivity).
    set (c := (qz (st mod 7) / qz 7)%Qc) in *. assert (qz 7 = 1 + 1 + 1 + 1 + 1 + 1 + 1)%Qc as E7 by (apply Qc_is_canon; reflexivity). assert (0 < qz 100)%Qc by reflexivity. split; qnra. }
  vm_compute. auto 10.
Qed.

Print Assumptions C83_nodes.
Print Assumptions C83_maxcut_refuted.
Print Assumptions C83_comment_refuted.
Print Assumptions C83_maxcut_partial.
Print Assumptions C83_stable_refuted.
Print Assumptions C83_stable_partial.
Print Assumptions C83_short.
Print Assumptions C83_tour.
Print Assumptions C83_routes.
Print Assumptions C84_tsp.
Print Assumptions C84_vrp.
Print Assumptions C84_range.
Print Assumptions C84_seed_refuted.
Print Assumptions C84_seed_partial.
