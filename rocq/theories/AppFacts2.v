(** * Graphs, sets and numbers *)
From Verif Require Export AppFacts.
Local Open Scope string_scope.
Local Open Scope list_scope.
Local Open Scope nat_scope.

Lemma simple_model name n s obj cons : de_wf n obj -> Forall (app_con n) cons ->
  exists p, binary_model name (map x_name (seq 0 n)) s obj cons = Ok p /\ binary_program p n s /\ length (p_lcs p) = length cons /\
    (forall x, bits n x -> obj_at (p_obj p) x = dval obj x) /\ forall x, feasible p x <-> bits n x /\ Forall (dcon_holds x) cons.
Proof.
  intros W C. destruct (binary_model_spec name (map x_name (seq 0 n)) s obj cons (x_names_nodup n) (x_names_full n)) as (p & E & _ & V & B & S & L & Q & O & F);
    try (rewrite x_names_length; assumption). rewrite x_names_length in O, F. exists p. split; [exact E|]. split.
  - split; [|auto]. unfold num_vars. rewrite <- (map_length v_name). change (map v_name (p_vars p)) with (var_names p). rewrite V. apply x_names_length.
  - split; [exact L|]. split; [exact O|exact F].
Qed.
Lemma iff_rest (A B C : Prop) : (A -> (B <-> C)) -> (A /\ B <-> A /\ C).
Proof. tauto. Qed.
Lemma pick_in n x i : bits n x -> (In i (picked 0 x) <-> at_ x i = 1%Qc).
Proof. intros B. rewrite (proj2 (picked_listed x) i). apply (bits_not0 n). exact B. Qed.

(** ** Max-cut and graph partition *)
Lemma crossing_differ n x e : bits n x -> fst (fst e) < n -> snd (fst e) < n ->
  crossing (fst (two_sides 0 x)) (snd (two_sides 0 x)) e = negb (qeqb (at_ x (fst (fst e))) (at_ x (snd (fst e)))).
Proof.
  intros B I J. destruct (two_sides_spec x) as ((_ & Z) & (_ & O)). destruct e as [[i j] w]. cbn [fst snd] in *. unfold crossing. cbn [fst snd].
  assert (forall k, k < n -> member k (fst (two_sides 0 x)) = qeqb (at_ x k) 0) as MZ.
  { intros k Hk. apply eq_iff_eq_true. rewrite member_iff, Z. destruct B as (-> & _). destruct (qeqb_spec (at_ x k) 0); intuition (auto || discriminate). }
  assert (forall k, k < n -> member k (snd (two_sides 0 x)) = negb (qeqb (at_ x k) 0)) as MO.
  { intros k Hk. apply eq_iff_eq_true. rewrite member_iff, O. destruct (qeqb_spec (at_ x k) 0); cbn; intuition (auto || discriminate). }
  rewrite !MZ, !MO by assumption. destruct (bits_at n x i B) as [->| ->], (bits_at n x j B) as [->| ->]; reflexivity.
Qed.
Lemma cut_value n x f l : bits n x -> Forall (fun e => fst (fst e) < n /\ snd (fst e) < n) l ->
  (forall e, fst (fst e) < n -> snd (fst e) < n -> f e = if qeqb (at_ x (fst (fst e))) (at_ x (snd (fst e))) then 0%Qc else edge_w e) ->
  sumof f l = sumof edge_w (filter (crossing (fst (two_sides 0 x)) (snd (two_sides 0 x))) l).
Proof.
  intros B W H. rewrite sumof_filter. apply sumof_ext. intros e I. destruct (proj1 (Forall_forall _ _) W e I) as (A & C).
  rewrite (H e A C), (crossing_differ n x e B A C). destruct (qeqb _ _); reflexivity.
Qed.
Lemma cut_term_wf n e : fst (fst e) < n -> snd (fst e) < n -> de_wf n (cut_term e).
Proof.
  intros A B. unfold cut_term. cbv zeta. apply de_wf_add; apply de_wf_mul; try (apply de_wf_scale, de_wf_var; assumption); apply de_wf_sub; try apply de_wf_num; apply de_wf_var; assumption.
Qed.
Lemma cut_term_val n x e : bits n x -> dval (cut_term e) x = if qeqb (at_ x (fst (fst e))) (at_ x (snd (fst e))) then 0%Qc else edge_w e.
Proof.
  intros B. unfold cut_term. cbv zeta. rewrite dval_add, !dval_mul, !dval_scale, !dval_sub, !dval_num, !dval_var by reflexivity.
  destruct (bits_at n x (fst (fst e)) B) as [->| ->], (bits_at n x (snd (fst e)) B) as [->| ->]; cbn; ring.
Qed.
Lemma gpart_term_wf n e : fst (fst e) < n -> snd (fst e) < n -> de_wf n (gpart_term e).
Proof.
  intros A B. unfold gpart_term. cbv zeta. apply de_wf_scale, de_wf_sub; [apply de_wf_add; apply de_wf_var; assumption|].
  apply de_wf_mul; [apply de_wf_scale|]; apply de_wf_var; assumption.
Qed.
Lemma gpart_term_val n x e : bits n x -> dval (gpart_term e) x = if qeqb (at_ x (fst (fst e))) (at_ x (snd (fst e))) then 0%Qc else edge_w e.
Proof.
  intros B. unfold gpart_term. cbv zeta. rewrite dval_scale, dval_sub, dval_add, dval_mul, dval_scale, !dval_var by reflexivity. replace (qz 2) with (1 + 1)%Qc by (apply Qc_is_canon; reflexivity).
  destruct (bits_at n x (fst (fst e)) B) as [->| ->], (bits_at n x (snd (fst e)) B) as [->| ->]; cbn; ring.
Qed.
Lemma edges_wf g f : graph_wf g -> (forall e, fst (fst e) < g_n g -> snd (fst e) < g_n g -> de_wf (g_n g) (f e)) -> de_wf (g_n g) (d_sum (map f (g_edges g))).
Proof. intros W H. apply de_wf_sum, Forall_map. eapply Forall_impl; [|exact W]. cbn. intros e (A & B). auto. Qed.

Lemma maxcut_spec g : graph_wf g -> exists p, maxcut_program g = Ok p /\ binary_program p (g_n g) MAXIMIZE /\ p_lcs p = [] /\
  (forall x, feasible p x <-> bits (g_n g) x) /\
  forall x, bits (g_n g) x -> let (a, b) := maxcut_interpret x in
    obj_at (p_obj p) x = sumof edge_w (filter (crossing a b) (g_edges g)).
Proof.
  intros W. destruct (simple_model "Max-cut" (g_n g) MAXIMIZE (d_sum (map cut_term (g_edges g))) []) as (p & E & B & L & O & F).
  - apply edges_wf; [exact W|]. apply cut_term_wf.
  - constructor.
  - exists p. split; [exact E|]. split; [exact B|]. split; [destruct (p_lcs p); [reflexivity|discriminate L]|]. split.
    + intros x. rewrite F. split; [tauto|]. intros H; split; [exact H|constructor].
    + intros x Bx. unfold maxcut_interpret. rewrite (O x Bx), dval_sum_of, sumof_map. rewrite (surjective_pairing (two_sides 0 x)).
      apply (cut_value (g_n g)); [exact Bx|exact W|]. intros e _ _. apply (cut_term_val (g_n g)). exact Bx.
Qed.
Lemma gpart_spec g : graph_wf g -> exists p, gpart_program g = Ok p /\ binary_program p (g_n g) MINIMIZE /\
  forall x, let (a, b) := gpart_interpret x in
    (feasible p x <-> bits (g_n g) x /\ length b = g_n g / 2) /\
    (bits (g_n g) x -> obj_at (p_obj p) x = sumof edge_w (filter (crossing a b) (g_edges g))).
Proof.
  intros W. destruct (simple_model "Graph partition" (g_n g) MINIMIZE (d_sum (map gpart_term (g_edges g))) [DLinear None EQ (sum_all (g_n g)) (d_num (qn (g_n g / 2)))]) as (p & E & B & L & O & F).
  - apply edges_wf; [exact W|]. apply gpart_term_wf.
  - constructor; [|constructor]. apply num_con; [apply sum_all_wf|apply sum_all_lin].
  - exists p. split; [exact E|]. split; [exact B|]. intros x. unfold gpart_interpret. destruct (two_sides 0 x) as [a b] eqn:Es.
    pose proof (two_sides_snd x 0) as Eb. rewrite Es in Eb. cbn in Eb. subst b. split.
    + rewrite F. apply iff_rest. intros Bx. rewrite Forall_cons_iff. cbn [dcon_holds]. rewrite (sum_all_count _ _ Bx), dval_num. cbn [holds].
      split; [intros (H & _); apply qn_inj; exact H|]. intros ->. split; [reflexivity|constructor].
    + intros Bx. rewrite (O x Bx), dval_sum_of, sumof_map. pose proof (cut_value (g_n g) x (fun e => dval (gpart_term e) x) (g_edges g) Bx W) as H. rewrite Es in H. cbn in H.
      apply H. intros e _ _. apply (gpart_term_val (g_n g)). exact Bx.
Qed.

(** ** Vertex cover, stable set and clique *)
Lemma pairs_con {A} n s (f g : A -> nat) l : Forall (fun e => f e < n /\ g e < n) l ->
  Forall (app_con n) (map (fun e => DLinear None s (d_add (d_var (f e)) (d_var (g e))) (d_num 1)) l).
Proof. intros W. apply Forall_map. eapply Forall_impl; [|exact W]. cbn. intros e (H & K). apply pair_con; assumption. Qed.
Lemma pairs_hold {A} n x s (f g : A -> nat) l (P : A -> Prop) : bits n x -> 
  (forall e, (holds s (at_ x (f e) + at_ x (g e))%Qc 1 <-> P e)) ->
  (Forall (dcon_holds x) (map (fun e => DLinear None s (d_add (d_var (f e)) (d_var (g e))) (d_num 1)) l) <-> forall e, In e l -> P e).
Proof.
  intros B H. rewrite Forall_map_iff, Forall_forall. split; intros K e I.
  - apply H. apply (pair_holds s). exact (K e I).
  - apply pair_holds, H, (K e I).
Qed.
Lemma at_least_one n x i j : bits n x -> (holds GE (at_ x i + at_ x j)%Qc 1 <-> In i (picked 0 x) \/ In j (picked 0 x)).
Proof.
  intros B. rewrite !(pick_in n) by exact B. cbn [holds]. destruct (bits_at n x i B) as [->| ->], (bits_at n x j B) as [->| ->]; (split; [|]); intros H; auto;
    try (exfalso; revert H; vm_compute; congruence); try (destruct H as [H|H]; discriminate H); try (vm_compute; congruence).
Qed.
Lemma at_most_one n x i j : bits n x -> (holds LE (at_ x i + at_ x j)%Qc 1 <-> ~ (In i (picked 0 x) /\ In j (picked 0 x))).
Proof.
  intros B. rewrite !(pick_in n) by exact B. cbn [holds]. destruct (bits_at n x i B) as [->| ->], (bits_at n x j B) as [->| ->]; (split; [intros H (K1 & K2)|intros H]); try discriminate;
    try (revert H; vm_compute; congruence); try (vm_compute; congruence); try (exfalso; apply H; auto).
Qed.
Lemma cover_spec g : graph_wf g -> exists p, cover_program g = Ok p /\ binary_program p (g_n g) MINIMIZE /\
  forall x, (feasible p x <-> bits (g_n g) x /\ forall e, In e (g_edges g) -> In (fst (fst e)) (cover_interpret x) \/ In (snd (fst e)) (cover_interpret x)) /\
    (bits (g_n g) x -> obj_at (p_obj p) x = qn (length (cover_interpret x))).
Proof.
  intros W. edestruct (simple_model "Vertex cover" (g_n g) MINIMIZE (sum_all (g_n g))) as (p & E & B & L & O & F); [apply sum_all_wf| |].
  - apply (pairs_con (g_n g) GE (fun e : (nat * nat) * option Qc => fst (fst e)) (fun e => snd (fst e)) (g_edges g)). exact W.
  - exists p. split; [exact E|]. split; [exact B|]. intros x. split.
    + rewrite F. apply iff_rest. intros Bx. apply (pairs_hold (g_n g)); [exact Bx|]. intros e. apply (at_least_one (g_n g)). exact Bx.
    + intros Bx. rewrite (O x Bx). apply sum_all_count. exact Bx.
Qed.
Lemma stable_spec g : graph_wf g -> exists p, stable_program g = Ok p /\ binary_program p (g_n g) MAXIMIZE /\
  forall x, (feasible p x <-> bits (g_n g) x /\ forall e, In e (g_edges g) -> ~ (In (fst (fst e)) (stable_interpret x) /\ In (snd (fst e)) (stable_interpret x))) /\
    (bits (g_n g) x -> obj_at (p_obj p) x = qn (length (stable_interpret x))).
Proof.
  intros W. edestruct (simple_model "Stable set" (g_n g) MAXIMIZE (sum_all (g_n g))) as (p & E & B & L & O & F); [apply sum_all_wf| |].
  - apply (pairs_con (g_n g) LE (fun e : (nat * nat) * option Qc => fst (fst e)) (fun e => snd (fst e)) (g_edges g)). exact W.
  - exists p. split; [exact E|]. split; [exact B|]. intros x. split.
    + rewrite F. apply iff_rest. intros Bx. apply (pairs_hold (g_n g)); [exact Bx|]. intros e. apply (at_most_one (g_n g)). exact Bx.
    + intros Bx. rewrite (O x Bx). apply sum_all_count. exact Bx.
Qed.

Lemma joined_iff g i j : existsb (same_edge i j) (g_edges g) = true <-> joined g i j.
Proof.
  rewrite existsb_exists. unfold joined, same_edge. split.
  - intros ([[a b] w] & I & H). exists ((a, b), w). split; [exact I|]. cbn in *. apply orb_prop in H as [H|H]; apply andb_prop in H as (H1 & H2);
      apply Nat.eqb_eq in H1, H2; subst; auto.
  - intros ([[a b] w] & I & H). exists ((a, b), w). split; [exact I|]. cbn in *. destruct H as [H|H]; injection H as -> ->; rewrite !Nat.eqb_refl; cbn; rewrite ?orb_true_r; reflexivity.
Qed.
Lemma joined_sym g i j : joined g i j -> joined g j i.
Proof. intros (e & I & H). exists e. tauto. Qed.
Lemma co_edges_in g i j : In (i, j) (co_edges g) <-> i < j < g_n g /\ ~ joined g i j.
Proof.
  unfold co_edges. rewrite in_flat_map. setoid_rewrite in_map_iff. setoid_rewrite filter_In. setoid_rewrite in_seq. split.
  - intros (a & Ha & b & H & Hb & N). injection H as -> ->. split; [lia|]. rewrite <- joined_iff. intros K. rewrite K in N. discriminate N.
  - intros (H & N). exists i. split; [lia|]. exists j. split; [reflexivity|]. split; [lia|]. rewrite <- joined_iff in N. destruct (existsb _ _); [exfalso; apply N; reflexivity|reflexivity].
Qed.
Lemma co_edges_wf g : Forall (fun e => fst e < g_n g /\ snd e < g_n g) (co_edges g).
Proof. apply Forall_forall. intros [i j] I. apply co_edges_in in I. cbn. lia. Qed.
Lemma clique_holds g x : bits (g_n g) x ->
  ((forall e, In e (co_edges g) -> ~ (In (fst e) (picked 0 x) /\ In (snd e) (picked 0 x))) <->
   forall i j, In i (picked 0 x) -> In j (picked 0 x) -> i <> j -> joined g i j).
Proof.
  intros B. assert (forall i, In i (picked 0 x) -> i < g_n g) as R.
  { intros i I. apply (proj2 (picked_listed x)) in I. destruct B as (<- & _). destruct (Nat.lt_ge_cases i (length x)) as [|H]; [assumption|]. exfalso. apply I. apply at_beyond. exact H. }
  split.
  - intros H i j I J N. pose proof (R i I) as Ri. pose proof (R j J) as Rj. destruct (existsb (same_edge i j) (g_edges g)) eqn:Ex; [apply joined_iff; exact Ex|].
    assert (~ joined g i j) as Nj. { rewrite <- joined_iff, Ex. discriminate. }
    exfalso. destruct (Nat.lt_total i j) as [L|[L|L]]; [|contradiction|].
    + apply (H (i, j)); [apply co_edges_in; split; [lia|exact Nj]|cbn; auto].
    + apply (H (j, i)); [apply co_edges_in; split; [lia|]|cbn; auto]. intros K. apply Nj, joined_sym, K.
  - intros H [i j] C (I & J). cbn in *. apply co_edges_in in C as (L & N). apply N, (H i j I J). lia.
Qed.
(** A program that forbids pairs *)
Lemma clique_model_spec n pairs size : Forall (fun e => fst e < n /\ snd e < n) pairs -> exists p, clique_model n pairs size = Ok p /\
  binary_program p n (match size with None => MAXIMIZE | Some _ => MINIMIZE end) /\
  forall x, (feasible p x <-> bits n x /\ (forall e, In e pairs -> ~ (In (fst e) (clique_interpret x) /\ In (snd e) (clique_interpret x))) /\
                              forall k, size = Some k -> Z.of_nat (length (clique_interpret x)) = k) /\
    (bits n x -> obj_at (p_obj p) x = match size with None => qn (length (clique_interpret x)) | Some _ => 0%Qc end).
Proof.
  intro W. pose proof (pairs_con n LE (@fst nat nat) (@snd nat nat) pairs W) as C.
  unfold clique_model. destruct size as [k|].
  - edestruct (simple_model "Clique" n MINIMIZE (d_num 0)) as (p & E & B & L & O & F); [apply de_wf_num| |].
    + apply Forall_app. split; [exact C|]. constructor; [|constructor]. apply (num_con _ EQ (sum_all n) (qz k)); [apply sum_all_wf|apply sum_all_lin].
    + exists p. split; [exact E|]. split; [exact B|]. intros x. split; [|intros Bx; rewrite (O x Bx); apply dval_num].
      rewrite F. apply iff_rest. intros Bx. rewrite Forall_app.
      rewrite (pairs_hold n x LE fst snd pairs (fun e => ~ (In (fst e) (picked 0 x) /\ In (snd e) (picked 0 x))) Bx); [|intros e; apply (at_most_one n); exact Bx].
      apply iff_rest. intros _. rewrite Forall_cons_iff. cbn [dcon_holds]. rewrite (sum_all_count _ _ Bx), dval_num. cbn [holds].
      split.
      * intros (H & _) k' [= <-]. apply qz_inj. rewrite <- H. reflexivity.
      * intros H. split; [|constructor]. rewrite <- (H k eq_refl). reflexivity.
  - edestruct (simple_model "Clique" n MAXIMIZE (sum_all n)) as (p & E & B & L & O & F); [apply sum_all_wf|exact C|].
    exists p. split; [exact E|]. split; [exact B|]. intros x. split; [|intros Bx; rewrite (O x Bx); apply sum_all_count; exact Bx].
    rewrite F. apply iff_rest. intros Bx.
    rewrite (pairs_hold n x LE fst snd pairs (fun e => ~ (In (fst e) (picked 0 x) /\ In (snd e) (picked 0 x))) Bx); [|intros e; apply (at_most_one n); exact Bx].
    split; [intros H; split; [exact H|discriminate]|tauto].
Qed.
Lemma clique_spec g size : exists p, clique_program g size = Ok p /\
  binary_program p (g_n g) (match size with None => MAXIMIZE | Some _ => MINIMIZE end) /\
  forall x, (feasible p x <-> bits (g_n g) x /\ (forall i j, In i (clique_interpret x) -> In j (clique_interpret x) -> i <> j -> joined g i j) /\
                              forall k, size = Some k -> Z.of_nat (length (clique_interpret x)) = k) /\
    (bits (g_n g) x -> obj_at (p_obj p) x = match size with None => qn (length (clique_interpret x)) | Some _ => 0%Qc end).
Proof.
  destruct (clique_model_spec (g_n g) (co_edges g) size (co_edges_wf g)) as (p & E & B & F). exists p. split; [exact E|]. split; [exact B|]. intro x. destruct (F x) as (Fx & O). split; [|exact O].
  rewrite Fx. apply iff_rest. intro Bx. apply and_iff_compat_r. exact (clique_holds g x Bx).
Qed.

(** ** Answers in Gset format *)
Lemma gset_values x : map snd (gset_result x) = map (fun a => (1 - a)%Qc) x.
Proof.
  unfold gset_result. rewrite map_map. cbn [snd]. induction x as [|a x IH]; [reflexivity|]. cbn [length seq map nth]. f_equal. rewrite <- IH, <- seq_shift, map_map. reflexivity.
Qed.
Lemma gset_keys x : map fst (gset_result x) = seq 1 (length x).
Proof. unfold gset_result. rewrite map_map. cbn [fst]. rewrite <- seq_shift. apply map_ext. intro i. lia. Qed.
Lemma mirror_bits n x : bits n x -> bits n (map (fun a => (1 - a)%Qc) x).
Proof. intros [L B]. split; [now rewrite map_length|]. apply Forall_map. eapply Forall_impl; [|exact B]. intros a [-> | ->]; [right|left]; ring. Qed.
Lemma mirror_sides x : Forall (fun a => a = 0%Qc \/ a = 1%Qc) x -> forall k, two_sides k (map (fun a => (1 - a)%Qc) x) = (snd (two_sides k x), fst (two_sides k x)).
Proof.
  induction 1 as [|a x Ha B IH]; intro k; cbn [map two_sides]; [reflexivity|]. rewrite IH. destruct (two_sides (S k) x) as [zs os]. cbn [fst snd].
  destruct Ha as [-> | ->]; [change (qeqb (1 - 0) 0) with false; change (qeqb 0 0) with true|change (qeqb (1 - 1) 0) with true; change (qeqb 1 0) with false]; reflexivity.
Qed.
Lemma crossing_swap a b e : crossing a b e = crossing b a e.
Proof. unfold crossing. apply orb_comm. Qed.
Lemma gset_answer g p x : graph_wf g -> maxcut_program g = Ok p -> bits (g_n g) x -> let y := map snd (gset_result x) in
  map fst (gset_result x) = seq 1 (g_n g) /\ bits (g_n g) y /\ maxcut_interpret y = (snd (maxcut_interpret x), fst (maxcut_interpret x)) /\ obj_at (p_obj p) y = obj_at (p_obj p) x.
Proof.
  intros W M B. cbv zeta. rewrite gset_values, gset_keys. destruct (maxcut_spec g W) as (p' & M' & _ & _ & _ & V). rewrite M in M'. injection M' as <-.
  pose proof (mirror_bits _ _ B) as B'. pose proof (V _ B) as V1. pose proof (V _ B') as V2. unfold maxcut_interpret in *. rewrite (mirror_sides x (proj2 B) 0) in *. destruct (two_sides 0 x) as [zs os]. cbn [fst snd] in *.
  split; [f_equal; apply B|]. split; auto. split; auto. rewrite V1, V2. f_equal. apply filter_ext. intro e. apply crossing_swap.
Qed.
