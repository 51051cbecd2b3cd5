(** * The applications are solved through the QUBO *)
From Verif Require Export SolveFacts2.
From Verif Require Import NumFacts PyFacts ConvMore.
Local Open Scope string_scope.
Local Open Scope list_scope.
Local Open Scope nat_scope.

(** ** Points of sets *)
Definition indicator (n : nat) (l : list nat) : list Qc := map (fun i => if member i l then 1%Qc else 0%Qc) (seq 0 n).
Lemma indicator_bits n l : bits n (indicator n l).
Proof. split; [unfold indicator; rewrite map_length; apply seq_length|]. apply Forall_map, Forall_forall. intros i _. destruct (member i l); auto. Qed.
Lemma indicator_at n l i : i < n -> at_ (indicator n l) i = if member i l then 1%Qc else 0%Qc.
Proof. intros H. unfold at_, indicator. rewrite (nth_indep _ 0%Qc (if member (nth i (seq 0 n) 0%nat) l then 1%Qc else 0%Qc)) by now rewrite map_length, seq_length. rewrite (map_nth (fun i => if member i l then 1%Qc else 0%Qc)), seq_nth by exact H. reflexivity. Qed.
Lemma indicator_picked n l i : In i (picked 0 (indicator n l)) <-> i < n /\ In i l.
Proof.
  rewrite (pick_in n _ i (indicator_bits n l)). destruct (Nat.lt_ge_cases i n) as [H|H].
  - rewrite (indicator_at n l i H), <- member_iff. destruct (member i l); split; try tauto; [discriminate|]. intros (_ & K). discriminate K.
  - rewrite at_beyond by (rewrite (proj1 (indicator_bits n l)); exact H). split; [discriminate|lia].
Qed.
Lemma lt_sorted_nodup l : StronglySorted lt l -> NoDup l.
Proof. induction 1 as [|a l S IH F]; constructor; [|exact IH]. intros I. rewrite Forall_forall in F. apply F in I. lia. Qed.
Lemma picked_nodup x : NoDup (picked 0 x).
Proof. apply lt_sorted_nodup, (picked_listed x). Qed.
Lemma picked_set g x : bits (g_n g) x -> node_set g (picked 0 x).
Proof.
  intros B. split; [apply picked_nodup|]. intros i I. apply (pick_in _ _ i B) in I. destruct (Nat.lt_ge_cases i (g_n g)) as [H|H]; [exact H|]. rewrite at_beyond in I by (rewrite (proj1 B); exact H). discriminate I.
Qed.
Lemma indicator_length g l : node_set g l -> length (picked 0 (indicator (g_n g) l)) = length l.
Proof.
  intros (N & H). apply Permutation_length, NoDup_Permutation; [apply picked_nodup|exact N|]. intros i. rewrite indicator_picked. split; [tauto|]. intros I. split; [now apply H|exact I].
Qed.
Lemma qn_le a b : (qn a <= qn b)%Qc <-> a <= b.
Proof. unfold qn. rewrite qz_le. lia. Qed.

(** ** Sets of nodes *)
Lemma two_sides_parts g x : bits (g_n g) x -> two_parts g (fst (two_sides 0 x)) (snd (two_sides 0 x)).
Proof.
  intros B i Hi. destruct (two_sides_spec x) as ((_ & H0) & (_ & H1)). rewrite H0, H1, (proj1 B). destruct (AppFacts.bits_at _ x i B) as [E|E]; rewrite E; split; intros K; try tauto; try discriminate.
  exfalso. apply K. discriminate.
Qed.
Lemma cut_indicator g a b : graph_wf g -> two_parts g a b ->
  cut_weight g a b = sumof edge_weight (filter (crossing (fst (two_sides 0 (indicator (g_n g) b))) (snd (two_sides 0 (indicator (g_n g) b)))) (g_edges g)).
Proof.
  intros W T. pose proof (two_sides_parts g _ (indicator_bits (g_n g) b)) as T'. unfold cut_weight. f_equal. apply filter_ext_in. intros e Ie. unfold graph_wf in W. rewrite Forall_forall in W. destruct (W e Ie) as (H1 & H2).
  assert (forall i, i < g_n g -> member i (snd (two_sides 0 (indicator (g_n g) b))) = member i b /\ member i (fst (two_sides 0 (indicator (g_n g) b))) = member i a) as K.
  { intros i Hi. assert (member i (snd (two_sides 0 (indicator (g_n g) b))) = member i b) as K1. { apply eq_true_iff_eq. rewrite !member_iff, two_sides_snd, indicator_picked. tauto. }
    split; [exact K1|]. apply eq_true_iff_eq. rewrite !member_iff, (T i Hi), (T' i Hi), <- !member_iff, K1. tauto. }
  unfold crossing. destruct (K _ H1) as (-> & ->). destruct (K _ H2) as (-> & ->). reflexivity.
Qed.

Lemma maxcut_answer g : graph_wf g -> exists p, maxcut_program g = Ok p /\ answerable p (fun x =>
  let (a, b) := maxcut_interpret x in two_parts g a b /\ forall a' b', two_parts g a' b' -> (cut_weight g a' b' <= cut_weight g a b)%Qc).
Proof.
  intros W. destruct (maxcut_spec g W) as (p & E & (_ & _ & _ & S) & _ & F & O). exists p. split; [exact E|]. apply answer_intro; [now apply (maxcut_ready g)| |].
  - exists (indicator (g_n g) []). apply F, indicator_bits.
  - intros x (Fx & Opt). apply F in Fx. pose proof (two_sides_parts g x Fx) as T. pose proof (O x Fx) as Ox. unfold maxcut_interpret in *. destruct (two_sides 0 x) as [a b] eqn:Ex. cbn [fst snd] in T. split; [exact T|]. intros a' b' T'.
    rewrite (cut_indicator g a' b' W T'). pose proof (indicator_bits (g_n g) b') as B'. pose proof (O _ B') as Oy. specialize (Opt _ (proj2 (F _) B')). rewrite S in Opt. cbn [at_least] in Opt.
    destruct (two_sides 0 (indicator (g_n g) b')) as [c d]. cbn [fst snd]. unfold cut_weight. change edge_weight with edge_w. rewrite <- Ox, <- Oy. exact Opt.
Qed.
Lemma gpart_answer g : graph_wf g -> exists p, gpart_program g = Ok p /\ answerable p (fun x =>
  let (a, b) := gpart_interpret x in two_parts g a b /\ node_set g b /\ length b = g_n g / 2 /\
    forall a' b', two_parts g a' b' -> node_set g b' -> length b' = g_n g / 2 -> (cut_weight g a b <= cut_weight g a' b')%Qc).
Proof.
  intros W. destruct (gpart_spec g W) as (p & E & (_ & _ & _ & S) & F). exists p. split; [exact E|]. apply answer_intro; [now apply (gpart_ready g)| |].
  - exists (indicator (g_n g) (seq 0 (g_n g / 2))). specialize (F (indicator (g_n g) (seq 0 (g_n g / 2)))). unfold gpart_interpret in F. destruct (two_sides 0 _) as [a b] eqn:Ex. apply (proj1 F). split; [apply indicator_bits|].
    change b with (snd (a, b)). rewrite <- Ex, two_sides_snd, indicator_length; [apply seq_length|]. split; [apply seq_NoDup|]. intros i I. apply in_seq in I. pose proof (Nat.div_le_upper_bound (g_n g) 2 (g_n g) ltac:(lia) ltac:(lia)). lia.
  - intros x (Fx & Opt). pose proof (F x) as Hx. unfold gpart_interpret in *. destruct (two_sides 0 x) as [a b] eqn:Ex. destruct Hx as (Hf & Ho). pose proof (proj1 Hf Fx) as (Bx & L). pose proof (two_sides_parts g x Bx) as T. rewrite Ex in T. cbn [fst snd] in T.
    split; [exact T|]. split; [|split; [exact L|]]. { change b with (snd (a, b)). rewrite <- Ex, two_sides_snd. now apply picked_set. }
    intros a' b' T' N' L'. rewrite (cut_indicator g a' b' W T'). pose proof (indicator_bits (g_n g) b') as B'. pose proof (F (indicator (g_n g) b')) as Fy. pose proof (two_sides_snd (indicator (g_n g) b') 0) as Sd.
    destruct (two_sides 0 (indicator (g_n g) b')) as [c d]. cbn [fst snd] in *. destruct Fy as (Fy & Oy). unfold cut_weight. change edge_weight with edge_w. rewrite <- (Oy B'), <- (Ho Bx).
    assert (feasible p (indicator (g_n g) b')) as Fe. { apply Fy. split; [exact B'|]. now rewrite Sd, indicator_length. }
    specialize (Opt _ Fe). rewrite S in Opt. exact Opt.
Qed.
Lemma cover_answer g : graph_wf g -> exists p, cover_program g = Ok p /\ answerable p (fun x =>
  is_cover g (cover_interpret x) /\ forall l, is_cover g l -> length (cover_interpret x) <= length l).
Proof.
  intros W. destruct (cover_spec g W) as (p & E & (_ & _ & _ & S) & F). exists p. split; [exact E|].
  assert (forall l, is_cover g l -> feasible p (indicator (g_n g) l)) as K.
  { intros l (N & C). apply F. split; [apply indicator_bits|]. intros e Ie. unfold cover_interpret. rewrite !indicator_picked. unfold graph_wf in W. rewrite Forall_forall in W. destruct (W e Ie). destruct (C e Ie); tauto. }
  apply answer_intro; [now apply (cover_ready g)| |].
  - exists (indicator (g_n g) (seq 0 (g_n g))). apply K. split; [split; [apply seq_NoDup|intros i I; apply in_seq in I; lia]|]. intros e Ie. left. unfold graph_wf in W. rewrite Forall_forall in W. apply in_seq. destruct (W e Ie). lia.
  - intros x (Fx & Opt). pose proof (proj1 (proj1 (F x)) Fx) as (Bx & Cx). split; [split; [now apply picked_set|exact Cx]|]. intros l Hl. specialize (Opt _ (K l Hl)). rewrite S in Opt. cbn [at_least] in Opt.
    rewrite (proj2 (F x) Bx), (proj2 (F _) (indicator_bits _ l)) in Opt. unfold cover_interpret in *. rewrite (indicator_length g l (proj1 Hl)) in Opt. now apply qn_le.
Qed.
Lemma empty_set g : node_set g [].
Proof. split; [constructor|]. intros i []. Qed.
Lemma stable_answer g : graph_wf g -> exists p, stable_program g = Ok p /\ answerable p (fun x =>
  is_stable g (stable_interpret x) /\ forall l, is_stable g l -> length l <= length (stable_interpret x)).
Proof.
  intros W. destruct (stable_spec g W) as (p & E & (_ & _ & _ & S) & F). exists p. split; [exact E|].
  assert (forall l, is_stable g l -> feasible p (indicator (g_n g) l)) as K.
  { intros l (N & C). apply F. split; [apply indicator_bits|]. intros e Ie. unfold stable_interpret. rewrite !indicator_picked. specialize (C e Ie). tauto. }
  apply answer_intro; [now apply (stable_ready g)| |].
  - exists (indicator (g_n g) []). apply K. split; [apply empty_set|]. intros e _ ([] & _).
  - intros x (Fx & Opt). pose proof (proj1 (proj1 (F x)) Fx) as (Bx & Cx). split; [split; [now apply picked_set|exact Cx]|]. intros l Hl. specialize (Opt _ (K l Hl)). rewrite S in Opt. cbn [at_least] in Opt.
    rewrite (proj2 (F x) Bx), (proj2 (F _) (indicator_bits _ l)) in Opt. unfold stable_interpret in *. rewrite (indicator_length g l (proj1 Hl)) in Opt. now apply qn_le.
Qed.
Lemma clique_feasible g size p : (forall x, feasible p x <-> bits (g_n g) x /\ (forall i j, In i (clique_interpret x) -> In j (clique_interpret x) -> i <> j -> joined g i j) /\
                              forall k, size = Some k -> Z.of_nat (length (clique_interpret x)) = k) ->
  forall l, is_clique g l -> (forall k, size = Some k -> Z.of_nat (length l) = k) -> feasible p (indicator (g_n g) l).
Proof.
  intros F l (N & C) K. apply F. unfold clique_interpret. split; [apply indicator_bits|]. split.
  - intros i j Ii Ij. rewrite indicator_picked in Ii, Ij. apply C; tauto.
  - intros k Hk. rewrite indicator_length; auto.
Qed.
Lemma clique_answer g : exists p, clique_program g None = Ok p /\ answerable p (fun x =>
  is_clique g (clique_interpret x) /\ forall l, is_clique g l -> length l <= length (clique_interpret x)).
Proof.
  destruct (clique_spec g None) as (p & E & (_ & _ & _ & S) & F). exists p. split; [exact E|].
  assert (forall l, is_clique g l -> feasible p (indicator (g_n g) l)) as K by (intros l Hl; apply (clique_feasible g None p); [intros x; apply F|exact Hl|discriminate]).
  apply answer_intro; [now apply (clique_ready g None)| |].
  - exists (indicator (g_n g) []). apply K. split; [apply empty_set|]. intros i j [].
  - intros x (Fx & Opt). pose proof (proj1 (proj1 (F x)) Fx) as (Bx & Cx & _). split; [split; [now apply picked_set|exact Cx]|]. intros l Hl. specialize (Opt _ (K l Hl)). rewrite S in Opt. cbn [at_least] in Opt.
    rewrite (proj2 (F x) Bx), (proj2 (F _) (indicator_bits _ l)) in Opt. unfold clique_interpret in *. rewrite (indicator_length g l (proj1 Hl)) in Opt. now apply qn_le.
Qed.
Lemma clique_of_answer g k : (exists l, is_clique g l /\ length l = k) -> exists p, clique_program g (Some (Z.of_nat k)) = Ok p /\ answerable p (fun x =>
  is_clique g (clique_interpret x) /\ length (clique_interpret x) = k).
Proof.
  intros (l & Hl & Ll). destruct (clique_spec g (Some (Z.of_nat k))) as (p & E & _ & F). exists p. split; [exact E|]. apply answer_intro; [now apply (clique_ready g (Some (Z.of_nat k)))| |].
  - exists (indicator (g_n g) l). apply (clique_feasible g (Some (Z.of_nat k)) p); [intros x; apply F|exact Hl|]. intros k' Hk. injection Hk as <-. lia.
  - intros x (Fx & _). pose proof (proj1 (proj1 (F x)) Fx) as (Bx & Cx & Kx). split; [split; [now apply picked_set|exact Cx]|]. specialize (Kx _ eq_refl). lia.
Qed.

(** ** Sets of elements, items and numbers *)
Lemma packing_answer subs : exists p, packing_program subs = Ok p /\ answerable p (fun x =>
  exists l, pick_subsets subs x = Ok l /\ l = chosen subs x /\ ForallOrdPairs disjoint l /\
    forall y, bits (length subs) y -> ForallOrdPairs disjoint (chosen subs y) -> length (chosen subs y) <= length l).
Proof.
  destruct (packing_spec subs) as (p & E & (N & B & _ & S) & F). exists p. split; [exact E|]. apply answer_intro; [now apply (packing_ready subs)| |].
  - exists (indicator (length subs) []). pose proof (indicator_bits (length subs) []) as Bi. destruct (F _ (proj1 Bi)) as (l & _ & -> & Hf & _). apply Hf. split; [exact Bi|].
    replace (chosen subs (indicator (length subs) [])) with (@nil (list Z)); [constructor|]. symmetry. unfold chosen. apply map_eq_nil with (f := fun x : list Z => x). rewrite map_id.
    assert (length (chosen subs (indicator (length subs) [])) = 0) as L. { rewrite chosen_length by apply (proj1 Bi). destruct (picked 0 (indicator (length subs) [])) as [|i t] eqn:Ep; [reflexivity|]. assert (In i (picked 0 (indicator (length subs) []))) as I by (rewrite Ep; left; reflexivity). apply indicator_picked in I. destruct I as (_ & []). }
    apply length_zero_iff_nil in L. exact L.
  - intros x (Fx & Opt). assert (bits (length subs) x) as Bx by (rewrite <- N; now apply feasible_bits). destruct (F x (proj1 Bx)) as (l & P & El & Hf & Ho). exists l. split; [exact P|]. split; [exact El|]. split; [apply Hf, Fx|].
    intros y By Dy. destruct (F y (proj1 By)) as (m & _ & -> & Hfy & Hoy). specialize (Opt y (proj2 Hfy (conj By Dy))). rewrite S in Opt. cbn [at_least] in Opt. rewrite (Ho Bx), (Hoy By) in Opt. now apply qn_le.
Qed.
Lemma exact_answer subs : (exists y, bits (length subs) y /\ forall s e, In s subs -> In e s -> once e (chosen subs y)) -> exists p, exact_program subs = Ok p /\ answerable p (fun x =>
  exists l, pick_subsets subs x = Ok l /\ l = chosen subs x /\ (forall s e, In s subs -> In e s -> once e l) /\
    forall y, bits (length subs) y -> (forall s e, In s subs -> In e s -> once e (chosen subs y)) -> length l <= length (chosen subs y)).
Proof.
  intros (y0 & B0 & C0). destruct (exact_spec subs) as (p & E & (N & B & _ & S) & F). exists p. split; [exact E|]. apply answer_intro; [now apply (exact_ready subs)| |].
  - exists y0. destruct (F _ (proj1 B0)) as (l & _ & -> & Hf & _). apply Hf. auto.
  - intros x (Fx & Opt). assert (bits (length subs) x) as Bx by (rewrite <- N; now apply feasible_bits). destruct (F x (proj1 Bx)) as (l & P & El & Hf & Ho). exists l. split; [exact P|]. split; [exact El|]. split; [apply Hf, Fx|].
    intros y By Dy. destruct (F y (proj1 By)) as (m & _ & -> & Hfy & Hoy). specialize (Opt y (proj2 Hfy (conj By Dy))). rewrite S in Opt. cbn [at_least] in Opt. rewrite (Ho Bx), (Hoy By) in Opt. now apply qn_le.
Qed.
Lemma knapsack_answer values weights limit : length values <= length weights -> Forall integral weights ->
  (exists y, bits (length values) y /\ (total (chosen weights y) <= limit)%Qc) -> exists p, knapsack_program values weights limit = Ok p /\ answerable p (fun x =>
    bits (length values) x /\ (total (chosen weights x) <= limit)%Qc /\
    forall y, bits (length values) y -> (total (chosen weights y) <= limit)%Qc -> (total (chosen values y) <= total (chosen values x))%Qc).
Proof.
  intros L I (y0 & B0 & C0). destruct (knapsack_spec values weights limit L) as (p & E & (_ & _ & _ & S) & F). exists p. split; [exact E|]. apply answer_intro; [now apply (knapsack_ready values weights limit)| |].
  - exists y0. apply F. auto.
  - intros x (Fx & Opt). pose proof (proj1 (proj1 (F x)) Fx) as (Bx & Cx). split; [exact Bx|]. split; [exact Cx|]. intros y By Cy. specialize (Opt y (proj2 (proj1 (F y)) (conj By Cy))). rewrite S in Opt. cbn [at_least] in Opt. now rewrite (proj2 (F x) Bx), (proj2 (F y) By) in Opt.
Qed.
Lemma partition_answer nums : Forall (fun u => integral (qz 2 * u)) nums -> (exists y, bits (length nums) y /\ total (left_out nums y) = total (chosen nums y)) -> exists p, partition_program nums = Ok p /\ answerable p (fun x =>
  exists a b, partition_interpret nums x = Ok (a, b) /\ Permutation (a ++ b) nums /\ total a = total b).
Proof.
  intros I (y0 & B0 & C0). destruct (partition_spec nums) as (p & E & (N & B & _ & _) & F). exists p. split; [exact E|]. apply answer_intro; [now apply (partition_ready nums)| |].
  - exists y0. destruct (F y0 (proj1 B0)) as (a & b & Ei & _ & Hf & _). rewrite (partition_interpret_spec nums y0 (proj1 B0)) in Ei. injection Ei as <- <-. apply Hf. auto.
  - intros x (Fx & _). assert (bits (length nums) x) as Bx by (rewrite <- N; now apply feasible_bits). destruct (F x (proj1 Bx)) as (a & b & Ei & Pm & Hf & _). exists a, b. split; [exact Ei|]. split; [exact Pm|]. apply Hf, Fx.
Qed.

(** ** Tours and routes *)
Lemma tsp_answer g w : complete g w -> 0 < g_n g -> exists p, tsp_program g = Ok p /\ answerable p (fun x =>
  exists l v, tsp_interpret x = map One l /\ Permutation l (seq 0 (g_n g)) /\ tsp_value l w = Ok v /\
    forall l' v', Permutation l' (seq 0 (g_n g)) -> tsp_value l' w = Ok v' -> (v <= v')%Qc).
Proof.
  intros C Hn. destruct (tsp_spec g w C Hn) as (p & E & (_ & _ & _ & S) & F & V). exists p. split; [exact E|]. apply answer_intro; [now apply (tsp_ready g w)| |].
  - exists (perm_matrix (g_n g) (seq 0 (g_n g))). apply F. exists (seq 0 (g_n g)). split; [apply Permutation_refl|reflexivity].
  - intros x (Fx & Opt). destruct (proj1 (F x) Fx) as (l & P & ->). destruct (V l P) as (Ei & Ev). exists l, (obj_at (p_obj p) (perm_matrix (g_n g) l)). split; [exact Ei|]. split; [exact P|]. split; [exact Ev|]. intros l' v' P' Ev'.
    destruct (V l' P') as (_ & Ev''). rewrite Ev' in Ev''. injection Ev'' as ->. specialize (Opt _ (proj2 (F _) (ex_intro _ l' (conj P' eq_refl)))). rewrite S in Opt. exact Opt.
Qed.
Lemma vrp_names g w vehicles depot p : complete g w -> depot < g_n g -> vrp_program g vehicles depot = Ok p -> var_names p = map (fun a => x_name2 (fst a) (snd a)) (arcs (g_n g)).
Proof.
  intros C Hd. set (n := g_n g) in *. unfold vrp_program. fold n. cbv zeta. rewrite (mapM_all _ (fun a => d_scale (w (fst a) (snd a)) (d_var (arc_idx n (fst a) (snd a))))).
  2:{ intros [i j] I. apply arcs_in in I as (Hi & Hj & N). cbn [fst snd]. rewrite (weight_of_spec g w i j C Hi Hj N). reflexivity. }
  cbn [bind]. rewrite (proj2 (Nat.ltb_lt depot n) Hd). cbn [negb]. set (obj := d_sum _). intros E.
  destruct (binary_model_spec "Vehicle routing" (map (fun a => x_name2 (fst a) (snd a)) (arcs n)) MINIMIZE obj (vrp_cons n vehicles depot) (arc_names_nodup n) (arc_names_full n))
    as (q & E' & _ & V & _); rewrite ?map_length, ?arcs_length in *.
  - apply de_wf_sum, Forall_map, Forall_forall. intros [i j] I. apply arcs_in in I as (Hi & Hj & N). cbn [fst snd]. apply de_wf_scale, arc_var_wf; assumption.
  - apply vrp_cons_wf. exact Hd.
  - unfold vrp_cons in E'. cbv zeta in E'. rewrite E in E'. injection E' as ->. exact V.
Qed.
Definition used_point (n : nat) (l : list (nat * nat)) : list Qc :=
  map (fun a => if existsb (fun b => (fst a =? fst b) && (snd a =? snd b)) l then 1%Qc else 0%Qc) (arcs n).
Lemma used_bits n l : bits (n * (n - 1)) (used_point n l).
Proof. split; [unfold used_point; rewrite map_length; apply arcs_length|]. apply Forall_map, Forall_forall. intros a _. destruct (existsb _ l); auto. Qed.
Lemma used_in (a : nat * nat) l : existsb (fun b => (fst a =? fst b) && (snd a =? snd b)) l = true <-> In a l.
Proof.
  rewrite existsb_exists. split.
  - intros (b & I & E). apply andb_prop in E. destruct E as (E1 & E2). apply Nat.eqb_eq in E1, E2. destruct a, b. cbn in *. now subst.
  - intros I. exists a. split; [exact I|]. now rewrite !Nat.eqb_refl.
Qed.
Lemma used_at n l i j : i < n -> j < n -> i <> j -> (arc_at n (used_point n l) i j = 1%Qc <-> In (i, j) l).
Proof.
  intros Hi Hj N. destruct (arcs_at n i j Hi Hj N) as (_ & E). unfold arc_at, at_, used_point.
  rewrite (nth_error_nth _ _ _ (map_nth_error (fun a => if existsb (fun b => (fst a =? fst b) && (snd a =? snd b)) l then 1%Qc else 0%Qc) _ _ E)).
  rewrite <- (used_in (i, j) l). destruct (existsb _ l); split; try reflexivity; discriminate.
Qed.
Lemma vrp_answer g w vehicles depot : complete g w -> depot < g_n g -> (exists routes, good_routes (g_n g) vehicles depot routes) -> exists p, vrp_program g vehicles depot = Ok p /\ answerable p (fun x =>
  exists routes, vrp_interpret g vehicles depot x = Ok routes /\ good_routes (g_n g) vehicles depot routes /\
    forall others, good_routes (g_n g) vehicles depot others -> (sumof (fun e => w (fst e) (snd e)) (concat routes) <= sumof (fun e => w (fst e) (snd e)) (concat others))%Qc).
Proof.
  intros C Hd (r0 & G0). destruct (vrp_spec g w vehicles depot C Hd) as (p & E & (_ & _ & _ & S) & F & V). exists p. split; [exact E|]. pose proof (vrp_names g w vehicles depot p C Hd E) as Nm.
  set (n := g_n g) in *.
  assert (forall x used, marks p x used <-> forall i j, i < n -> j < n -> i <> j -> (arc_at n x i j = 1%Qc <-> In (i, j) used)) as HM.
  { intros x used. unfold marks. rewrite Nm. split.
    - intros H i j Hi Hj N. apply H. apply (arc_names_at n i j). auto.
    - intros H i j k E'. apply (arc_names_at n i j) in E' as (Hi & Hj & N & ->). apply H; assumption. }
  assert (forall r, good_routes n vehicles depot r -> feasible p (used_point n (concat r))) as K.
  { intros r G. apply F. split; [apply used_bits|]. exists r. split; [exact G|]. apply HM. intros i j. apply used_at. }
  apply answer_intro; [now apply (vrp_ready g w vehicles depot)| |]; [eauto|].
  intros x (Fx & Opt). destruct (V x Fx) as (routes & Ei & G & _ & Ob). exists routes. split; [exact Ei|]. split; [exact G|]. intros r' G'.
  specialize (Opt _ (K r' G')). rewrite S in Opt. cbn [at_least] in Opt. rewrite Ob in Opt. destruct (V _ (K r' G')) as (r2 & _ & G2 & M2 & Ob2). rewrite Ob2 in Opt.
  assert (Permutation (concat r2) (concat r')) as P.
  { eapply Permutation_trans; [apply (routes_rules n vehicles depot (used_point n (concat r')) r2 Hd (used_bits n _) G2); now apply HM|].
    apply Permutation_sym, (routes_rules n vehicles depot (used_point n (concat r')) r' Hd (used_bits n _) G'). intros i j. apply used_at. }
  now rewrite <- (sumof_perm _ _ _ P).
Qed.
