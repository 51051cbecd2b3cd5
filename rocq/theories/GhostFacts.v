(** * Names that stay in the index of a program after a call raised *)
From Verif Require Export ProgramProps.
Local Open Scope string_scope.
Local Open Scope list_scope.
Local Open Scope nat_scope.

Definition haunted_alike (p q : qp) : Prop := forall k s, ghost k q s <-> ghost k p s.
Definition one_more (p q : qp) : Prop := (forall k s, ghost k p s -> ghost k q s) /\ exists g, forall k s, ghost k q s -> ghost k p s \/ s = g.
Lemma alike_more p q : haunted_alike p q -> one_more p q.
Proof. intro H. split; [intros k s; apply H|]. exists "". intros k s G. left. now apply H. Qed.
Lemma alike_then_more p q r : haunted_alike p q -> one_more q r -> one_more p r.
Proof. intros H (A & g & B). split; [intros k s G; apply A, H, G|]. exists g. intros k s G. destruct (B k s G) as [K|K]; [left; apply H, K|auto]. Qed.
Lemma alike_trans p q r : haunted_alike p q -> haunted_alike q r -> haunted_alike p r.
Proof. intros H G k s. rewrite (G k s). apply H. Qed.
Lemma ghost_ext k p q s : index_of k q = index_of k p -> names_of k q = names_of k p -> ghost k q s <-> ghost k p s.
Proof. unfold ghost. intros -> ->. tauto. Qed.
(** A new entry without an element *)
Lemma haunt_one k p q nm i : index_of k q = dset String.eqb nm i (index_of k p) -> names_of k q = names_of k p ->
  (forall k', k' <> k -> index_of k' q = index_of k' p /\ names_of k' q = names_of k' p) -> one_more p q.
Proof.
  intros E N O. assert (forall k' : kind, {k' = k} + {k' <> k}) as D by decide equality. split.
  - intros k' s G. destruct (D k') as [->|H]; [|now apply (ghost_ext _ _ _ _ (proj1 (O k' H)) (proj2 (O k' H)))].
    destruct G as [G1 G2]. split; [rewrite E; apply (dset_keys _ str_eqb_sp); auto|now rewrite N].
  - exists nm. intros k' s G. destruct (D k') as [->|H]; [|left; now apply (ghost_ext _ _ _ _ (proj1 (O k' H)) (proj2 (O k' H)))].
    destruct G as [G1 G2]. rewrite E in G1. apply (dset_keys _ str_eqb_sp) in G1. rewrite N in G2. destruct G1; [auto|left; split; auto].
Qed.
(** A new entry with its element *)
Lemma haunt_same k p q nm i : index_of k q = dset String.eqb nm i (index_of k p) -> ~ In nm (map fst (index_of k p)) -> names_of k q = names_of k p ++ [nm] ->
  (forall k', k' <> k -> index_of k' q = index_of k' p /\ names_of k' q = names_of k' p) -> haunted_alike p q.
Proof.
  intros E F N O k' s. assert ({k' = k} + {k' <> k}) as [->|H] by decide equality; [|now apply (ghost_ext _ _ _ _ (proj1 (O k' H)) (proj2 (O k' H)))].
  unfold ghost. rewrite E, N, (dset_keys _ str_eqb_sp), in_app_iff. cbn [In]. split; [intros [[->|A] B]; [tauto|tauto]|]. intros [A B]. split; [auto|]. intros [K|[<-|[]]]; contradiction.
Qed.
Lemma add_named_haunt p nm lb ub ty q r : add_named p nm lb ub ty = (q, r) -> (r = Ok tt -> haunted_alike p q) /\ one_more p q.
Proof.
  intro E. destruct (add_named_cases p nm lb ub ty) as [(e & E' & _)|[(e & E' & Hn & _)|(E' & Hn & _)]]; rewrite E' in E; injection E as <- <-.
  - split; [discriminate|]. apply alike_more. intros k s. tauto.
  - split; [discriminate|]. apply (haunt_one KVars _ _ nm (num_vars p)); [reflexivity|reflexivity|]. intros [| |] H; try now destruct H; auto. all: split; reflexivity.
  - assert (haunted_alike p (set_vars (p_vars p ++ [mkVar nm lb ub ty]) (set_vidx (dset String.eqb nm (num_vars p) (p_vidx p)) p))) as A.
    { apply (haunt_same KVars _ _ nm (num_vars p)); [reflexivity|exact Hn|cbn; now rewrite map_app|]. intros [| |] H; try now destruct H; auto. all: split; reflexivity. }
    split; [auto|now apply alike_more].
Qed.
Lemma add_seq_haunt keys lb ub ty name fmt : forall p q r, add_seq p keys lb ub ty name fmt = (q, r) -> (forall l, r = Ok l -> haunted_alike p q) /\ one_more p q.
Proof.
  assert (forall p, haunted_alike p p) as R by (intros p k s; tauto).
  induction keys as [|key keys IH]; intros p q r E; cbn [add_seq] in E; [injection E as <- <-; split; [auto|now apply alike_more]|].
  destruct (py_format fmt key) as [t|e]; [|injection E as <- <-; split; [discriminate|now apply alike_more]].
  destruct (add_named p (name ++ t) lb ub ty) as [p1 [[]|e]] eqn:A; apply add_named_haunt in A as [A1 A2]; [|injection E as <- <-; split; [discriminate|exact A2]].
  destruct (add_seq p1 keys lb ub ty name fmt) as [p2 [l|e]] eqn:B; apply IH in B as [B1 B2]; injection E as <- <-.
  - split; [intros _ _; apply (alike_trans p p1); [auto|now apply (B1 l)]|]. apply (alike_then_more p p1); auto.
  - split; [discriminate|]. apply (alike_then_more p p1); auto.
Qed.
Lemma add_count_haunt n lb ub ty name fmt : forall k p q r, add_count p n k lb ub ty name fmt = (q, r) -> (forall l, r = Ok l -> haunted_alike p q) /\ one_more p q.
Proof.
  assert (forall p, haunted_alike p p) as R by (intros p k s; tauto).
  induction n as [|n IH]; intros k p q r E; cbn [add_count] in E; [injection E as <- <-; split; [auto|now apply alike_more]|].
  destruct (find_name _ _ _ _ _ _) as [[nm k']|e]; [|injection E as <- <-; split; [discriminate|now apply alike_more]].
  destruct (add_named p nm lb ub ty) as [p1 [[]|e]] eqn:A; apply add_named_haunt in A as [A1 A2]; [|injection E as <- <-; split; [discriminate|exact A2]].
  destruct (add_count p1 n k' lb ub ty name fmt) as [p2 [l|e]] eqn:B; apply IH in B as [B1 B2]; injection E as <- <-.
  - split; [intros _ _; apply (alike_trans p p1); [auto|now apply (B1 l)]|]. apply (alike_then_more p p1); auto.
  - split; [discriminate|]. apply (alike_then_more p p1); auto.
Qed.
Lemma add_variables_haunt p keys lb ub ty name fmt q r : add_variables p keys lb ub ty name fmt = (q, r) -> (forall l, r = Ok l -> haunted_alike p q) /\ one_more p q.
Proof.
  assert (forall p, haunted_alike p p) as R by (intros p' k s; tauto).
  unfold add_variables. intro E. destruct keys as [n|l].
  - destruct (n <? 1)%Z; [injection E as <- <-; split; [discriminate|now apply alike_more]|].
    destruct (contains _ _); [injection E as <- <-; split; [discriminate|now apply alike_more]|].
    destruct (1 <? _); [injection E as <- <-; split; [discriminate|now apply alike_more]|]. now apply add_count_haunt in E.
  - destruct (contains _ _); [injection E as <- <-; split; [discriminate|now apply alike_more]|].
    destruct (1 <? _); [injection E as <- <-; split; [discriminate|now apply alike_more]|]. now apply add_seq_haunt in E.
Qed.
Lemma change_haunt p q : change p q -> haunted_alike p q.
Proof.
  intro C. destruct C; intros k' s'; apply ghost_ext; destruct k'; try reflexivity; cbn.
  - now apply (map_update_same v_name _ v).
  - now apply (map_update_same lc_name _ v).
  - now apply (map_update_same qc_name _ v).
Qed.
Lemma exact_no_ghost k p s : index_exact (names_of k p) (index_of k p) -> ~ ghost k p s.
Proof.
  intros X [A B]. apply (dhas_in _ str_eqb_sp) in A. unfold dhas in A. destruct (dget String.eqb s (index_of k p)) as [i|] eqn:D; [|discriminate A].
  apply X in D. apply B. eapply nth_error_In. exact D.
Qed.
Lemma drop_haunt {A} p q r (x : qp * result A) : drop_out x = (q, r) -> (forall q r, x = (q, r) -> (forall l, r = Ok l -> haunted_alike p q) /\ one_more p q) ->
  (r = Ok tt -> haunted_alike p q) /\ one_more p q.
Proof.
  intros E H. destruct x as [q' [a|e]]; cbn in E; injection E as <- <-; destruct (H _ _ eq_refl) as [H1 H2]; (split; [|exact H2]).
  - intros _. now apply (H1 a).
  - discriminate.
Qed.
Lemma step_haunt p o q r : idx_inv p -> step p o = (q, r) ->
  (forall e, r = Err e -> one_more p q) /\
  (r = Ok tt -> forall k s, (renews k o -> ~ ghost k q s) /\ (~ renews k o -> (ghost k q s <-> ghost k p s))).
Proof.
  intros I E. assert (forall p, haunted_alike p p) as R by (intros p' k s; tauto).
  assert ((r = Ok tt -> haunted_alike p q) /\ one_more p q -> (forall k, ~ renews k o) -> (forall e, r = Err e -> one_more p q) /\
    (r = Ok tt -> forall k s, (renews k o -> ~ ghost k q s) /\ (~ renews k o -> (ghost k q s <-> ghost k p s)))) as T.
  { intros [A B] N. split; [auto|]. intros Hr k s. split; [intro C; now destruct (N k)|]. intros _. now apply A. }
  destruct (is_edit o) eqn:Ed.
  { destruct (edit_step p o Ed) as [[e E']|[Hc [q' E']]]; rewrite E' in *; injection E as <- <-.
    - split; [intros e' _; now apply alike_more|discriminate].
    - split; [discriminate|]. intros _ k s. cbn [fst] in Hc. split.
      + destruct k, o; cbn; try tauto; discriminate Ed.
      + intros _. now apply change_haunt. }
  destruct o; try discriminate Ed; cbn [step] in E.
  - apply T; [|intros [| |]; cbn; tauto]. apply (drop_haunt p q r _ E). intros q' r' E'. now apply add_variables_haunt in E'.
  - apply T; [|intros [| |]; cbn; tauto]. apply (drop_haunt p q r _ E). intros q' r' E'. unfold add_variable in E'. destruct name; now apply add_variables_haunt in E'.
  - apply T; [|intros [| |]; cbn; tauto].
    destruct (linear_constraint_cases p lin s rhs name) as [[e E']|(nm & Hn & _ & [[e E']|(c & le & _ & _ & E')])]; rewrite E' in E; injection E as <- <-.
    + split; [discriminate|now apply alike_more].
    + split; [discriminate|]. apply (haunt_one KLins _ _ nm (length (p_lcs p))); [reflexivity|reflexivity|]. intros [| |] H; try now destruct H; auto. all: split; reflexivity.
    + match goal with |- (_ -> ?A) /\ _ => assert A as X end.
      { apply (haunt_same KLins _ _ nm (length (p_lcs p))); [reflexivity|exact Hn|cbn; now rewrite map_app|]. intros [| |] H; try now destruct H; auto. all: split; reflexivity. }
      split; [auto|now apply alike_more].
  - apply T; [|intros [| |]; cbn; tauto].
    destruct (quadratic_constraint_cases p lin quad s rhs name) as [[e E']|(nm & Hn & _ & [[e E']|(c & le & qe & _ & _ & _ & E')])]; rewrite E' in E; injection E as <- <-.
    + split; [discriminate|now apply alike_more].
    + split; [discriminate|]. apply (haunt_one KQuads _ _ nm (length (p_qcs p))); [reflexivity|reflexivity|]. intros [| |] H; try now destruct H; auto. all: split; reflexivity.
    + match goal with |- (_ -> ?A) /\ _ => assert A as X end.
      { apply (haunt_same KQuads _ _ nm (length (p_qcs p))); [reflexivity|exact Hn|cbn; now rewrite map_app|]. intros [| |] H; try now destruct H; auto. all: split; reflexivity. }
      split; [auto|now apply alike_more].
  - destruct (remove_linear_cases p k) as [[e E']|(i & _ & E')]; rewrite E' in E; injection E as <- <-; [split; [intros; now apply alike_more|discriminate]|].
    split; [discriminate|]. intros _ k' s. split.
    + destruct k'; cbn; try tauto. intros _. apply exact_no_ghost. cbn. apply reindex_exact. rewrite delete_at_map. apply delete_at_nodup. eapply index_finds_nodup. apply I.
    + destruct k'; cbn; try tauto; intros _; now apply ghost_ext.
  - destruct (remove_quadratic_cases p k) as [[e E']|(i & _ & E')]; rewrite E' in E; injection E as <- <-; [split; [intros; now apply alike_more|discriminate]|].
    split; [discriminate|]. intros _ k' s. split.
    + destruct k'; cbn; try tauto. intros _. apply exact_no_ghost. cbn. apply reindex_exact. rewrite delete_at_map. apply delete_at_nodup. eapply index_finds_nodup. apply I.
    + destruct k'; cbn; try tauto; intros _; now apply ghost_ext.
  - injection E as <- <-. split; [discriminate|]. intros _ k s. split; [|destruct k; cbn; tauto]. intros _ [A _]. destruct k; exact A.
Qed.
(** What is found under such a name *)
Lemma ghost_lookup {A} (nm : A -> string) (l : list A) (idx : list (string * nat)) s : In s (map fst idx) -> ~ In s (map nm l) ->
  lookup l idx (KS s) = Err IndexError \/ exists a, lookup l idx (KS s) = Ok a /\ In a l /\ nm a <> s.
Proof.
  intros H N. cbn [lookup]. destruct (dget String.eqb s idx) as [i|] eqn:D; [|apply (dget_none _ str_eqb_sp) in D; contradiction].
  unfold py_nth. destruct (py_index (length l) (Z.of_nat i)) as [j|]; [|now left]. destruct (nth_error l j) as [a|] eqn:J; [right|now left].
  exists a. apply nth_error_In in J. split; [reflexivity|]. split; [exact J|]. intros <-. apply N. now apply in_map.
Qed.
Lemma ghost_name_taken idx n pre s : In s (map fst idx) -> s <> "" -> con_name idx n pre (Some s) = Err QiskitOptimizationError.
Proof. intros H N. destruct s as [|c r]; [congruence|]. cbn [con_name]. now rewrite (proj2 (dhas_in _ str_eqb_sp _ _) H). Qed.
Lemma var_name_taken p lb ub ty s : In s (map fst (p_vidx p)) -> add_variable p lb ub ty (Some s) = (p, Err QiskitOptimizationError).
Proof.
  intro H. unfold add_variable, add_variables. change (1 <? 1)%Z with false. change (contains "{{}}" "") with false.
  change (1 <? count_slots "") with false. cbv iota. change (Z.to_nat 1) with 1. cbn [add_count].
  rewrite find_name_noslot by reflexivity. rewrite string_app_nil_r. now rewrite (proj2 (dhas_in _ str_eqb_sp _ _) H).
Qed.
(** When a call leaves such a name *)
Lemma var_haunts p lb ub ty s : ~ In s (names_of KVars p) -> (ghost KVars (fst (add_variable p lb ub ty (Some s))) s <-> ghost KVars p s \/ (ub < lb)%Qc).
Proof.
  intro N. destruct (in_dec string_dec s (map fst (p_vidx p))) as [H|H].
  - rewrite var_name_taken by assumption. cbn [fst]. split; [auto|]. intros _. split; assumption.
  - unfold add_variable, add_variables. change (1 <? 1)%Z with false. change (contains "{{}}" "") with false.
    change (1 <? count_slots "") with false. cbv iota. change (Z.to_nat 1) with 1. cbn [add_count].
    rewrite find_name_noslot by reflexivity. rewrite string_app_nil_r. rewrite (proj2 (dhas_false _ str_eqb_sp _ _) H).
    destruct (add_named_cases p s lb ub ty) as [(e & E & D)|[(e & E & _ & D)|(E & _ & D)]]; [apply (dhas_in _ str_eqb_sp) in D; contradiction| |]; rewrite E; cbn [fst].
    + split; [intros _; right; now apply Qcnot_le_lt|]. intros _. split; [|exact N]. cbn. apply (dset_keys _ str_eqb_sp). now left.
    + split.
      * intros [_ B]. exfalso. apply B. cbn. rewrite map_app. apply in_app_iff. right. now left.
      * intros [[A _]|A]; [contradiction|]. exfalso. exact (Qclt_not_le _ _ A D).
Qed.
Lemma con_name_given idx n pre s : ~ In s (map fst idx) -> s <> "" -> con_name idx n pre (Some s) = Ok s.
Proof. intros H N. destruct s as [|c r]; [congruence|]. cbn [con_name]. now rewrite (proj2 (dhas_false _ str_eqb_sp _ _) H). Qed.
Lemma lin_haunts p lin sn rhs s : ~ In s (names_of KLins p) -> s <> "" ->
  (ghost KLins (fst (linear_constraint p lin sn rhs (Some s))) s <-> exists e, snd (linear_constraint p lin sn rhs (Some s)) = Err e).
Proof.
  intros N Z. destruct (in_dec string_dec s (map fst (p_lidx p))) as [H|H].
  - unfold linear_constraint. rewrite ghost_name_taken by assumption. cbn [fst snd]. split; [eauto|]. intros _. split; assumption.
  - unfold linear_constraint. rewrite con_name_given by assumption. destruct (bind _ _) as [c|e] eqn:E; cbn [fst snd].
    + split; [|intros [e D]; discriminate D]. intros [_ B]. exfalso. apply B. apply bind_ok in E. destruct E as (c1 & _ & E). apply bind_ok in E. destruct E as (c2 & _ & E). injection E as <-.
      cbn. rewrite map_app. apply in_app_iff. right. now left.
    + split; [eauto|]. intros _. split; [|exact N]. cbn. apply (dset_keys _ str_eqb_sp). now left.
Qed.
Lemma quad_haunts p lin quad sn rhs s : ~ In s (names_of KQuads p) -> s <> "" ->
  (ghost KQuads (fst (quadratic_constraint p lin quad sn rhs (Some s))) s <-> exists e, snd (quadratic_constraint p lin quad sn rhs (Some s)) = Err e).
Proof.
  intros N Z. destruct (in_dec string_dec s (map fst (p_qidx p))) as [H|H].
  - unfold quadratic_constraint. rewrite ghost_name_taken by assumption. cbn [fst snd]. split; [eauto|]. intros _. split; assumption.
  - unfold quadratic_constraint. rewrite con_name_given by assumption. destruct (bind _ _) as [c|e] eqn:E; cbn [fst snd].
    + split; [|intros [e D]; discriminate D]. intros [_ B]. exfalso. apply B. apply bind_ok in E. destruct E as (c1 & _ & E). apply bind_ok in E. destruct E as (c2 & _ & E). apply bind_ok in E. destruct E as (c3 & _ & E). injection E as <-.
      cbn. rewrite map_app. apply in_app_iff. right. now left.
    + split; [eauto|]. intros _. split; [|exact N]. cbn. apply (dset_keys _ str_eqb_sp). now left.
Qed.
