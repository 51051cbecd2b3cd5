(** * Lemmas behind C03, C05, C06, C11 *)
From Verif Require Export ProgramFacts.
Local Open Scope string_scope.
Local Open Scope list_scope.
Local Open Scope nat_scope.

(** ** C03: automatic names *)
Lemma format_plain s t a : no_brace s = true ->
  py_format (s ++ t)%string a = (do u <- py_format t a; Ok (s ++ u)%string).
Proof.
  unfold no_brace. revert t. induction s as [|c s IH]; intros t H.
  - simpl. destruct (py_format t a); reflexivity.
  - simpl in H. apply andb_true_iff in H. destruct H as [Hc Hs]. apply negb_true_iff in Hc.
    assert (Ascii.eqb c "{" = false) as Hc'.
    { unfold is_brace in Hc. apply orb_false_iff in Hc. tauto. }
    change (String c s ++ t)%string with (String c (s ++ t)).
    assert (forall r, py_format (String c r) a = (do u <- py_format r a; Ok (String c u))) as E.
    { intros [|b r]; cbn [py_format]; [rewrite Hc; reflexivity|]. rewrite Hc'. simpl andb. rewrite Hc. reflexivity. }
    rewrite E, IH by assumption. destruct (py_format t a); reflexivity.
Qed.
Lemma format_slot pre post a : no_brace pre = true -> no_brace post = true ->
  py_format (pre ++ "{}" ++ post)%string a = Ok (pre ++ a ++ post)%string.
Proof.
  intros H1 H2. rewrite format_plain by assumption. cbn [append py_format].
  rewrite <- (string_app_nil_r post) at 1. rewrite format_plain by assumption. simpl. now rewrite string_app_nil_r.
Qed.
Lemma format_empty a : py_format "" a = Ok "". Proof. reflexivity. Qed.

Lemma slot_name_inj name pre post a b : slot_name name pre post a = slot_name name pre post b -> a = b.
Proof.
  unfold slot_name. intro H. apply string_app_inj_l, string_app_inj_l, string_app_inj_r in H. now apply str_nat_inj.
Qed.

(** A search through the names k, k+1, ... meets a free one within |idx|+1 steps. *)
Lemma search_bound {V} (idx : list (string * V)) (f : nat -> string) k m :
  (forall a b, f a = f b -> a = b) -> (forall j, k <= j < k + m -> In (f j) (map fst idx)) -> m <= length idx.
Proof.
  intros Hi H. rewrite <- (map_length fst idx). rewrite <- (seq_length m k), <- (map_length f).
  apply NoDup_incl_length.
  - apply FinFun.Injective_map_NoDup; [exact Hi|apply seq_NoDup].
  - intros s Hs. apply in_map_iff in Hs. destruct Hs as (j & <- & Hj). apply in_seq in Hj. apply H. lia.
Qed.

Lemma find_name_slot idx name pre post : no_brace pre = true -> no_brace post = true ->
  forall fuel k0 k prev, k0 <= k ->
  (forall j, k0 <= j < k -> In (slot_name name pre post j) (map fst idx)) ->
  (prev = None \/ (exists j, k = S j /\ prev = Some (slot_name name pre post j))) ->
  length idx < fuel + (k - k0) ->
  exists m, k <= m /\ find_name fuel idx name (pre ++ "{}" ++ post)%string k prev = Ok (slot_name name pre post m, S m) /\
    ~ In (slot_name name pre post m) (map fst idx) /\
    forall j, k0 <= j < m -> In (slot_name name pre post j) (map fst idx).
Proof.
  intros H1 H2. induction fuel as [|fuel IH]; intros k0 k prev Hk Hall Hprev Hf.
  - exfalso. assert (k - k0 <= length idx); [|lia]. eapply (search_bound idx (slot_name name pre post) k0).
    + apply slot_name_inj.
    + intros j Hj. apply Hall. lia.
  - cbn [find_name]. rewrite format_slot by assumption. cbn [bind].
    change (name ++ (pre ++ str_nat k ++ post))%string with (slot_name name pre post k).
    assert (match prev with Some s => String.eqb (slot_name name pre post k) s | None => false end = false) as ->.
    { destruct Hprev as [->|(j & -> & ->)]; [reflexivity|]. apply String.eqb_neq. intro E. apply slot_name_inj in E. lia. }
    destruct (dhas String.eqb (slot_name name pre post k) idx) eqn:E.
    + apply (dhas_in _ str_eqb_sp) in E.
      destruct (IH k0 (S k) (Some (slot_name name pre post k))) as (m & M1 & M2 & M3 & M4); try lia.
      * intros j Hj. destruct (Nat.eq_dec j k); [now subst|]. apply Hall. lia.
      * right. eauto.
      * exists m. repeat split; auto. lia.
    + apply (dhas_false _ str_eqb_sp) in E. exists k. repeat split; auto.
Qed.
Lemma find_name_spec idx name pre post k : no_brace pre = true -> no_brace post = true ->
  exists m, k <= m /\ find_name (find_name_fuel idx) idx name (pre ++ "{}" ++ post)%string k None = Ok (slot_name name pre post m, S m) /\
    ~ In (slot_name name pre post m) (map fst idx) /\
    forall j, k <= j < m -> In (slot_name name pre post j) (map fst idx).
Proof.
  intros H1 H2. destruct (find_name_slot idx name pre post H1 H2 (find_name_fuel idx) k k None) as (m & M); auto.
  - intros; lia.
  - unfold find_name_fuel. lia.
  - exists m. exact M.
Qed.
(** Without a slot the search ends after at most two rounds. *)
Lemma find_name_noslot idx name fmt k : no_brace fmt = true ->
  find_name (find_name_fuel idx) idx name fmt k None =
  if dhas String.eqb (name ++ fmt)%string idx then Err QiskitOptimizationError else Ok ((name ++ fmt)%string, S k).
Proof.
  intro H. unfold find_name_fuel.
  assert (forall a, py_format fmt a = Ok fmt) as F.
  { intro a. rewrite <- (string_app_nil_r fmt) at 1. rewrite format_plain by assumption. simpl. now rewrite string_app_nil_r. }
  cbn [find_name]. rewrite !F. cbn [bind]. destruct (dhas String.eqb (name ++ fmt)%string idx) eqn:E; [|reflexivity].
  rewrite String.eqb_refl. reflexivity.
Qed.

Lemma auto_name_spec idx pre k :
  exists m, k <= m /\ auto_name (auto_fuel idx) idx pre k = Ok (pre ++ str_nat m)%string /\
    ~ In (pre ++ str_nat m)%string (map fst idx) /\ forall j, k <= j < m -> In (pre ++ str_nat j)%string (map fst idx).
Proof.
  assert (forall fuel k0 k, k0 <= k -> (forall j, k0 <= j < k -> In (pre ++ str_nat j)%string (map fst idx)) ->
    length idx < fuel + (k - k0) ->
    exists m, k <= m /\ auto_name fuel idx pre k = Ok (pre ++ str_nat m)%string /\
    ~ In (pre ++ str_nat m)%string (map fst idx) /\ forall j, k0 <= j < m -> In (pre ++ str_nat j)%string (map fst idx)) as G.
  { induction fuel as [|fuel IH]; intros k0 k' Hk Hall Hf.
    - exfalso. assert (k' - k0 <= length idx); [|lia]. eapply (search_bound idx (fun j => (pre ++ str_nat j)%string) k0).
      + intros a b E. apply string_app_inj_l in E. now apply str_nat_inj.
      + intros j Hj. apply Hall. lia.
    - cbn [auto_name]. cbv zeta. destruct (dhas String.eqb (pre ++ str_nat k')%string idx) eqn:E.
      + apply (dhas_in _ str_eqb_sp) in E. destruct (IH k0 (S k')) as (m & M1 & M2 & M3 & M4); try lia.
        * intros j Hj. destruct (Nat.eq_dec j k'); [now subst|]. apply Hall. lia.
        * exists m. repeat split; auto. lia.
      + apply (dhas_false _ str_eqb_sp) in E. exists k'. repeat split; auto. }
  destruct (G (auto_fuel idx) k k) as (m & M); auto; [intros; lia|unfold auto_fuel; lia|]. exists m. exact M.
Qed.

Lemma contains_none_slot pre post : no_brace pre = true -> no_brace post = true ->
  contains "{{}}" (pre ++ "{}" ++ post)%string = false.
Proof.
  intros H1 H2. unfold contains.
  destruct (String.index 0 "{{}}" (pre ++ "{}" ++ post)%string) as [n|] eqn:E; [|reflexivity]. exfalso.
  apply index_correct1 in E.
  assert (forall s n, all_chars (fun c => negb (is_brace c)) s = true -> forall t m, substring n (S m) s = String "{" t -> False) as NB.
  { induction s as [|c s IH]; intros n' H t m; simpl; [destruct n'; discriminate|].
    simpl in H. apply andb_true_iff in H. destruct H as [Hc Hs]. destruct n'.
    - intros [=]; subst. discriminate.
    - apply IH. assumption. }
  unfold no_brace in *. revert n E. induction pre as [|c pre IH]; intros n.
  - simpl append. destruct n as [|[|n]]; simpl.
    + discriminate.
    + discriminate.
    + intro E. eapply NB; eauto.
  - simpl in H1. apply andb_true_iff in H1. destruct H1 as [Hc Hs]. simpl append. destruct n; simpl.
    + intros [=]; subst. discriminate.
    + apply IH. assumption.
Qed.
Lemma count_plain s : no_brace s = true -> count_slots s = 0.
Proof.
  unfold no_brace. induction s as [|c s IH]; intro H; [reflexivity|]. simpl in H. apply andb_true_iff in H.
  destruct H as [Hc Hs]. cbn [count_slots]. destruct s as [|b s]; [reflexivity|].
  assert (Ascii.eqb c "{" = false) as ->.
  { unfold is_brace in Hc. apply negb_true_iff, orb_false_iff in Hc. tauto. }
  simpl andb. cbv iota. apply IH. assumption.
Qed.
Lemma count_one pre post : no_brace pre = true -> no_brace post = true -> count_slots (pre ++ "{}" ++ post)%string = 1.
Proof.
  intros H1 H2. unfold no_brace in H1. induction pre as [|c pre IH].
  - simpl append. cbn [count_slots]. simpl andb. cbv iota. now rewrite count_plain.
  - simpl in H1. apply andb_true_iff in H1. destruct H1 as [Hc Hs].
    change (String c pre ++ "{}" ++ post)%string with (String c (pre ++ "{}" ++ post)).
    assert (exists b r, (pre ++ "{}" ++ post)%string = String b r) as (b & r & Eb) by (destruct pre; simpl; eauto).
    specialize (IH Hs). rewrite Eb in *. cbn [count_slots] in *.
    assert (Ascii.eqb c "{" = false) as ->.
    { unfold is_brace in Hc. apply negb_true_iff, orb_false_iff in Hc. tauto. }
    simpl andb. cbv iota. exact IH.
Qed.

(** Adding [n] numbered variables: the first [n] free counters from [k] on are used. *)
Lemma add_count_spec name pre post lb ub ty : no_brace pre = true -> no_brace post = true -> (lb <= ub)%Qc ->
  forall n p k, exists q ms, add_count p n k lb ub ty name (pre ++ "{}" ++ post)%string = (q, Ok (map (slot_name name pre post) ms)) /\
    p_vars q = p_vars p ++ map (fun m => mkVar (slot_name name pre post m) lb ub ty) ms /\ length ms = n /\
    p_lcs q = p_lcs p /\ p_qcs q = p_qcs p /\ p_obj q = p_obj p /\
    first_free (map fst (p_vidx p)) (slot_name name pre post) k ms.
Proof.
  intros H1 H2 Hb. induction n as [|n IH]; intros p k.
  - exists p, []. simpl. rewrite app_nil_r. repeat split; auto; try constructor.
  - cbn [add_count]. destruct (find_name_spec (p_vidx p) name pre post k H1 H2) as (m & M1 & -> & M3 & M4).
    destruct (add_named_cases p (slot_name name pre post m) lb ub ty) as [(e & E & D)|[(e & E & _ & D)|(E & _ & _)]].
    + apply (dhas_in _ str_eqb_sp) in D. contradiction.
    + contradiction.
    + rewrite E.
      match goal with |- context [add_count ?p1 n ?k1 _ _ _ _ _] => destruct (IH p1 k1) as (q & ms & Eq & V & L & C1 & C2 & C3 & So & F & N) end.
      rewrite Eq. exists q, (m :: ms). split; [reflexivity|]. simpl in V, F, N. rewrite V. simpl. rewrite <- app_assoc. simpl.
      rewrite Forall_forall in F. repeat split; auto.
      * constructor; auto. apply Forall_forall. intros m' Hm'. apply F in Hm'. lia.
      * apply Forall_forall. intros m' [<-|Hm']; [auto|]. apply F in Hm'. destruct Hm' as [A B]. split; [lia|].
        intro Hin. apply B. apply (dset_keys _ str_eqb_sp). auto.
      * intros m' j [<-|Hm'] Hj; [right; now apply M4|]. destruct (Nat.lt_ge_cases j (S m)) as [Hjm|Hjm].
        -- destruct (Nat.eq_dec j m); [left; simpl; auto|]. right. apply M4. lia.
        -- destruct (N m' j Hm') as [A|A]; [lia|left; simpl; auto|]. apply (dset_keys _ str_eqb_sp) in A.
           destruct A as [A|A]; auto. apply slot_name_inj in A. subst. left; simpl; auto.
Qed.
Lemma add_variables_numbered p n lb ub ty name pre post :
  no_brace pre = true -> no_brace post = true -> (lb <= ub)%Qc ->
  exists q ms, add_variables p (KCount (Z.of_nat (S n))) lb ub ty (Some name) (pre ++ "{}" ++ post)%string
                 = (q, Ok (map (slot_name name pre post) ms)) /\
    p_vars q = p_vars p ++ map (fun m => mkVar (slot_name name pre post m) lb ub ty) ms /\ length ms = S n /\
    p_lcs q = p_lcs p /\ p_qcs q = p_qcs p /\ p_obj q = p_obj p /\
    first_free (map fst (p_vidx p)) (slot_name name pre post) (num_vars p) ms.
Proof.
  intros H1 H2 Hb. unfold add_variables. destruct (Z.ltb_spec (Z.of_nat (S n)) 1) as [?|_]; [lia|].
  rewrite contains_none_slot by assumption. rewrite count_one by assumption. change (1 <? 1) with false. cbv iota.
  rewrite Nat2Z.id. now apply add_count_spec.
Qed.
Lemma add_variable_named p lb ub ty s : ~ In s (map fst (p_vidx p)) -> (lb <= ub)%Qc ->
  exists q, add_variable p lb ub ty (Some s) = (q, Ok [s]) /\ p_vars q = p_vars p ++ [mkVar s lb ub ty].
Proof.
  intros H Hb. unfold add_variable, add_variables. change (1 <? 1)%Z with false. change (contains "{{}}" "") with false.
  change (1 <? count_slots "") with false. cbv iota. change (Z.to_nat 1) with 1. cbn [add_count].
  rewrite find_name_noslot by reflexivity. rewrite string_app_nil_r.
  apply (dhas_false _ str_eqb_sp) in H. rewrite H. apply (dhas_false _ str_eqb_sp) in H.
  destruct (add_named_cases p s lb ub ty) as [(e & E & D)|[(e & E & _ & D)|(E & _ & _)]].
  - apply (dhas_in _ str_eqb_sp) in D. contradiction.
  - contradiction.
  - rewrite E. eexists. split; [reflexivity|]. reflexivity.
Qed.
Lemma linear_constraint_unnamed p lin s rhs :
  exists m, length (p_lcs p) <= m /\ ~ In ("c" ++ str_nat m)%string (map fst (p_lidx p)) /\
    (forall j, length (p_lcs p) <= j < m -> In ("c" ++ str_nat j)%string (map fst (p_lidx p))) /\
    forall c le, sense_convert s = Ok c -> lin_make (env_of p) (lcoef_or_empty lin) = Ok le ->
    exists q, linear_constraint p lin s rhs None = (q, Ok tt) /\
    p_lcs q = p_lcs p ++ [mkLC ("c" ++ str_nat m)%string le c rhs] /\
    p_vars q = p_vars p /\ p_qcs q = p_qcs p /\ p_obj q = p_obj p.
Proof.
  destruct (auto_name_spec (p_lidx p) "c" (length (p_lcs p))) as (m & M1 & M2 & M3 & M4).
  exists m. repeat split; auto. intros c le Ec El. unfold linear_constraint, con_name. rewrite M2, Ec. simpl. rewrite El. simpl.
  eexists. split; [reflexivity|]. auto.
Qed.
Lemma quadratic_constraint_unnamed p lin quad s rhs :
  exists m, length (p_qcs p) <= m /\ ~ In ("q" ++ str_nat m)%string (map fst (p_qidx p)) /\
    (forall j, length (p_qcs p) <= j < m -> In ("q" ++ str_nat j)%string (map fst (p_qidx p))) /\
    forall c le qe, sense_convert s = Ok c -> lin_make (env_of p) (lcoef_or_empty lin) = Ok le ->
    quad_make (env_of p) (qcoef_or_empty quad) = Ok qe ->
    exists q, quadratic_constraint p lin quad s rhs None = (q, Ok tt) /\
    p_qcs q = p_qcs p ++ [mkQC ("q" ++ str_nat m)%string le qe c rhs] /\
    p_vars q = p_vars p /\ p_lcs q = p_lcs p /\ p_obj q = p_obj p.
Proof.
  destruct (auto_name_spec (p_qidx p) "q" (length (p_qcs p))) as (m & M1 & M2 & M3 & M4).
  exists m. repeat split; auto. intros c le qe Ec El Eq. unfold quadratic_constraint, con_name. rewrite M2, Ec. simpl. rewrite El. simpl. rewrite Eq. simpl.
  eexists. split; [reflexivity|]. auto.
Qed.

(** ** C05 *)
Lemma same_content_refl p : same_content p p. Proof. repeat split. Qed.

Lemma step_err_same p o q e :
  (forall keys lb ub ty name fmt, o <> OAddVars keys lb ub ty name fmt) -> step p o = (q, Err e) -> same_content p q.
Proof.
  intros Ho. destruct (is_edit o) eqn:Ed.
  { destruct (edit_step p o Ed) as [[e' ->]|[_ [q' ->]]]; [intros [=]; subst; apply same_content_refl|intros [=]]. }
  destruct o; try discriminate Ed; simpl.
  - exfalso. eapply Ho. reflexivity.
  - unfold add_variable. 
    assert (forall s fmt, drop_out (add_variables p (KCount 1) lb ub ty (Some s) fmt) = (q, Err e) -> same_content p q) as G.
    { intros s fmt. unfold add_variables. change (1 <? 1)%Z with false. cbv iota.
      destruct (contains "{{}}" fmt); [intros [=]; subst; apply same_content_refl|].
      destruct (1 <? count_slots fmt); [intros [=]; subst; apply same_content_refl|].
      change (Z.to_nat 1) with 1. cbn [add_count].
      destruct (find_name _ _ _ _ _ _) as [[nm k]|]; [|intros [=]; subst; apply same_content_refl].
      destruct (add_named_cases p nm lb ub ty) as [(e' & -> & _)|[(e' & -> & _)|(-> & _)]]; simpl;
      intros [=]; subst; repeat split. }
    destruct name; apply G.
  - destruct (linear_constraint_cases p lin s rhs name) as [[e' ->]|(nm & _ & _ & [[e' ->]|(c & le & _ & _ & ->)])]; intros [=]; subst; repeat split.
  - destruct (quadratic_constraint_cases p lin quad s rhs name) as [[e' ->]|(nm & _ & _ & [[e' ->]|(c & le & qe & _ & _ & _ & ->)])]; intros [=]; subst; repeat split.
  - destruct (remove_linear_cases p k) as [[e' ->]|(i & _ & ->)]; intros [=]; subst; repeat split.
  - destruct (remove_quadratic_cases p k) as [[e' ->]|(i & _ & ->)]; intros [=]; subst; repeat split.
  - intros [=].
Qed.
(** A failing call that adds several variables only appends variables. *)
Lemma add_vars_prefix p keys lb ub ty name fmt :
  exists l, p_vars (fst (add_variables p keys lb ub ty name fmt)) = p_vars p ++ l /\
  p_lcs (fst (add_variables p keys lb ub ty name fmt)) = p_lcs p /\
  p_qcs (fst (add_variables p keys lb ub ty name fmt)) = p_qcs p /\
  p_obj (fst (add_variables p keys lb ub ty name fmt)) = p_obj p.
Proof.
  apply (add_variables_ind (fun q => exists l, p_vars q = p_vars p ++ l /\ p_lcs q = p_lcs p /\ p_qcs q = p_qcs p /\ p_obj q = p_obj p)).
  - intros q nm (l & A & B & C & D).
    destruct (add_named_cases q nm lb ub ty) as [(e & -> & _)|[(e & -> & _)|(-> & _)]]; simpl; [eauto|eauto|].
    exists (l ++ [mkVar nm lb ub ty]). rewrite A, app_assoc. auto.
  - exists []. now rewrite app_nil_r.
Qed.

(** ** C06 *)
Lemma delete_at_split {A} i (l : list A) a : nth_error l i = Some a ->
  exists l1 l2, l = l1 ++ a :: l2 /\ delete_at i l = l1 ++ l2 /\ length l1 = i.
Proof.
  revert i; induction l as [|b l IH]; intros [|i]; simpl; try discriminate.
  - intros [=]; subst. exists [], l. auto.
  - intro H. apply IH in H. destruct H as (l1 & l2 & -> & -> & <-). exists (b :: l1), l2. auto.
Qed.
Lemma remove_linear_spec p k c :
  idx_inv p -> get_linear_constraint p k = Ok c ->
  exists q l1 l2, remove_linear_constraint p k = (q, Ok tt) /\
    p_lcs p = l1 ++ c :: l2 /\ p_lcs q = l1 ++ l2 /\
    p_vars q = p_vars p /\ p_vidx q = p_vidx p /\ p_qcs q = p_qcs p /\ p_qidx q = p_qidx p /\ p_obj q = p_obj p /\
    index_exact (map lc_name (p_lcs q)) (p_lidx q) /\ ~ In (lc_name c) (map lc_name (p_lcs q)).
Proof.
  intros H E. unfold get_linear_constraint in E. apply del_pos_lookup in E; [|exact 0]. destruct E as (i & E & Hi).
  destruct (delete_at_split i (p_lcs p) c Hi) as (l1 & l2 & D1 & D2 & D3).
  unfold remove_linear_constraint. rewrite E. eexists. exists l1, l2. split; [reflexivity|]. simpl. rewrite D2.
  assert (NoDup (map lc_name (p_lcs p))) as Hn by (eapply index_finds_nodup; apply H).
  assert (NoDup (map lc_name (l1 ++ l2))) as Hn'.
  { rewrite <- D2, delete_at_map. now apply delete_at_nodup. }
  repeat split; auto; try now apply reindex_exact.
  rewrite <- D2, delete_at_map. apply delete_at_notin; auto. rewrite nth_error_map, Hi. reflexivity.
Qed.
Lemma remove_quadratic_spec p k c :
  idx_inv p -> get_quadratic_constraint p k = Ok c ->
  exists q l1 l2, remove_quadratic_constraint p k = (q, Ok tt) /\
    p_qcs p = l1 ++ c :: l2 /\ p_qcs q = l1 ++ l2 /\
    p_vars q = p_vars p /\ p_vidx q = p_vidx p /\ p_lcs q = p_lcs p /\ p_lidx q = p_lidx p /\ p_obj q = p_obj p /\
    index_exact (map qc_name (p_qcs q)) (p_qidx q) /\ ~ In (qc_name c) (map qc_name (p_qcs q)).
Proof.
  intros H E. unfold get_quadratic_constraint in E. apply del_pos_lookup in E; [|exact 0]. destruct E as (i & E & Hi).
  destruct (delete_at_split i (p_qcs p) c Hi) as (l1 & l2 & D1 & D2 & D3).
  unfold remove_quadratic_constraint. rewrite E. eexists. exists l1, l2. split; [reflexivity|]. simpl. rewrite D2.
  assert (NoDup (map qc_name (p_qcs p))) as Hn by (eapply index_finds_nodup; apply H).
  assert (NoDup (map qc_name (l1 ++ l2))) as Hn'.
  { rewrite <- D2, delete_at_map. now apply delete_at_nodup. }
  repeat split; auto; try now apply reindex_exact.
  rewrite <- D2, delete_at_map. apply delete_at_notin; auto. rewrite nth_error_map, Hi. reflexivity.
Qed.

(** ** C01: lookups *)
Lemma lookup_found {A} (nm : A -> string) l idx i a :
  index_finds (map nm l) idx -> nth_error l i = Some a ->
  lookup l idx (KS (nm a)) = Ok a /\ lookup l idx (KI (Z.of_nat i)) = Ok a /\ dget String.eqb (nm a) idx = Some i.
Proof.
  intros H E. assert (i < length l) as Hi by (apply nth_error_Some; congruence).
  assert (dget String.eqb (nm a) idx = Some i) as D by (apply H; rewrite nth_error_map, E; reflexivity).
  unfold lookup, py_nth. rewrite D, py_index_nat by assumption. rewrite E. auto.
Qed.

(** ** C11: sizes *)
Lemma lin_make_shape env c e : lincoef_sized (ve_n env) c -> lin_make env c = Ok e -> lin_shape (ve_n env) e.
Proof.
  destruct c; intros Hc H.
  - injection H as <-. split; [apply lin_of_list_wf|exact Hc].
  - apply lin_make_dict in H. split; tauto.
  - injection H as <-. exact Hc.
Qed.
Lemma quad_make_shape env c e : quadcoef_sized (ve_n env) c -> quad_make env c = Ok e -> quad_shape (ve_n env) e.
Proof.
  intros Hc H. apply quad_make_spec in H. destruct H as (W & _ & _ & D & _). split; auto. rewrite D.
  destruct c; simpl in *; auto.
Qed.
Lemma lin_set_shape n env e k v e' : lin_shape n e -> lin_set env e k v = Ok e' -> lin_shape n e'.
Proof.
  intros [[W1 W2] D] H. unfold lin_set, lin_put in H. simpl in H. inv_ok. split; simpl; auto. split; simpl.
  - now apply (dok_put_nodup _ nat_eqb_sp).
  - apply (dok_put_Forall _ nat_eqb_sp); auto. apply dok_index_spec in H0. simpl. tauto.
Qed.
Lemma quad_set_shape n env e k v e' : quad_shape n e -> quad_set env e k v = Ok e' -> quad_shape n e'.
Proof.
  intros [[W1 W2] D] H. unfold quad_set, quad_pos in H. inv_ok. split; simpl; auto. split; simpl.
  - now apply (dok_put_nodup _ nat2_eqb_sp).
  - apply (dok_put_Forall _ nat2_eqb_sp); auto. apply dok_index_spec in H2, H3. simpl. tauto.
Qed.

Lemma obj_make_shape env c lin quad s o :
  lincoef_sized (ve_n env) (lcoef_or_empty lin) -> quadcoef_sized (ve_n env) (qcoef_or_empty quad) ->
  obj_make env c lin quad s = Ok o -> lin_shape (ve_n env) (o_lin o) /\ quad_shape (ve_n env) (o_quad o).
Proof.
  intros H1 H2 H. unfold obj_make in H. inv_ok. simpl. split.
  - eapply lin_make_shape; eauto.
  - eapply quad_make_shape; eauto.
Qed.

Lemma step_shapes p o : op_sized (num_vars p) o -> shapes (num_vars p) p -> 
  num_vars (fst (step p o)) = num_vars p /\ shapes (num_vars p) (fst (step p o)).
Proof.
  intros Ho (S1 & S2 & S3 & S4).
  assert (shapes (num_vars p) p) as S by (repeat split; assumption || apply S1 || apply S2).
  destruct o; simpl in Ho; try contradiction; simpl step.
  - destruct (linear_constraint_cases p lin s rhs name) as [[e ->]|(nm & _ & _ & [[e ->]|(c & le & _ & E & ->)])]; simpl; auto.
    split; auto. repeat split; try apply S1; try apply S2; auto. simpl. apply Forall_app. split; auto.
    constructor; auto. simpl. now apply (lin_make_shape (env_of p)) in E.
  - destruct (quadratic_constraint_cases p lin quad s rhs name) as [[e ->]|(nm & _ & _ & [[e ->]|(c & le & qe & _ & E1 & E2 & ->)])]; simpl; auto.
    split; auto. repeat split; try apply S1; try apply S2; auto. simpl. apply Forall_app. split; auto.
    constructor; auto. simpl. apply (lin_make_shape (env_of p)) in E1; [|tauto]. apply (quad_make_shape (env_of p)) in E2; [|tauto]. auto.
  - destruct (remove_linear_cases p k) as [[e ->]|(i & _ & ->)]; simpl; auto. split; auto.
    repeat split; try apply S1; try apply S2; auto. simpl. rewrite Forall_forall in *. intros c Hc. apply S3. eapply delete_at_in; eauto.
  - destruct (remove_quadratic_cases p k) as [[e ->]|(i & _ & ->)]; simpl; auto. split; auto.
    repeat split; try apply S1; try apply S2; auto. simpl. rewrite Forall_forall in *. intros c Hc. apply S4. eapply delete_at_in; eauto.
  - destruct (set_objective_cases p s c lin quad) as [[e ->]|(o & E & ->)]; simpl; auto. split; auto.
    apply (obj_make_shape (env_of p)) in E; try tauto. repeat split; try apply E; auto.
  - split; auto.
  - destruct (on_variable_cases p k (fun v => var_set_lb v lb)) as [[e ->]|(i & v & v' & _ & Hv & E & ->)]; simpl; auto.
    unfold num_vars; simpl. rewrite update_length. split; auto.
  - destruct (on_variable_cases p k (fun v => var_set_ub v ub)) as [[e ->]|(i & v & v' & _ & Hv & E & ->)]; simpl; auto.
    unfold num_vars; simpl. rewrite update_length. split; auto.
  - match goal with |- context [on_variable p k ?f] => destruct (on_variable_cases p k f) as [[e ->]|(i & v & v' & _ & Hv & E & ->)] end; simpl; auto.
    unfold num_vars; simpl. rewrite update_length. split; auto.
  - match goal with |- context [on_lincon p k ?f] => destruct (on_lincon_cases p k f) as [[e ->]|(i0 & v0 & v' & _ & Hv & E & ->)] end; simpl; auto.
    split; auto. inv_ok. repeat split; try apply S1; try apply S2; auto. simpl. apply Forall_update; auto. simpl.
    rewrite Forall_forall in S3. eapply S3, nth_error_In; eauto.
  - match goal with |- context [on_lincon p k ?f] => destruct (on_lincon_cases p k f) as [[e ->]|(i0 & v0 & v' & _ & Hv & E & ->)] end; simpl; auto.
    split; auto. inv_ok. repeat split; try apply S1; try apply S2; auto. simpl. apply Forall_update; auto. simpl.
    rewrite Forall_forall in S3. eapply S3, nth_error_In; eauto.
  - match goal with |- context [on_lincon p k ?f] => destruct (on_lincon_cases p k f) as [[e ->]|(i0 & v0 & v' & _ & Hv & E & ->)] end; simpl; auto.
    split; auto. inv_ok. repeat split; try apply S1; try apply S2; auto. simpl. apply Forall_update; auto. simpl.
    now apply (lin_make_shape (env_of p)) in H.
  - match goal with |- context [on_lincon p k ?f] => destruct (on_lincon_cases p k f) as [[e ->]|(i0 & v0 & v' & _ & Hv & E & ->)] end; simpl; auto.
    split; auto. inv_ok. repeat split; try apply S1; try apply S2; auto. simpl. apply Forall_update; auto. simpl.
    eapply lin_set_shape; [|eassumption]. rewrite Forall_forall in S3. eapply S3, nth_error_In; eauto.
  - match goal with |- context [on_quadcon p k ?f] => destruct (on_quadcon_cases p k f) as [[e ->]|(i0 & v0 & v' & _ & Hv & E & ->)] end; simpl; auto.
    split; auto. inv_ok. repeat split; try apply S1; try apply S2; auto. simpl. apply Forall_update; auto. simpl.
    rewrite Forall_forall in S4. eapply S4, nth_error_In; eauto.
  - match goal with |- context [on_quadcon p k ?f] => destruct (on_quadcon_cases p k f) as [[e ->]|(i0 & v0 & v' & _ & Hv & E & ->)] end; simpl; auto.
    split; auto. inv_ok. repeat split; try apply S1; try apply S2; auto. simpl. apply Forall_update; auto. simpl.
    rewrite Forall_forall in S4. eapply S4, nth_error_In; eauto.
  - match goal with |- context [on_quadcon p k ?f] => destruct (on_quadcon_cases p k f) as [[e ->]|(i0 & v0 & v' & _ & Hv & E & ->)] end; simpl; auto.
    split; auto. inv_ok. repeat split; try apply S1; try apply S2; auto. simpl. apply Forall_update; auto. simpl.
    split; [now apply (lin_make_shape (env_of p)) in H|]. rewrite Forall_forall in S4. eapply S4, nth_error_In; eauto.
  - match goal with |- context [on_quadcon p k ?f] => destruct (on_quadcon_cases p k f) as [[e ->]|(i0 & v0 & v' & _ & Hv & E & ->)] end; simpl; auto.
    split; auto. inv_ok. repeat split; try apply S1; try apply S2; auto. simpl. apply Forall_update; auto. simpl.
    split; [|now apply (quad_make_shape (env_of p)) in H]. rewrite Forall_forall in S4. eapply S4, nth_error_In; eauto.
  - match goal with |- context [on_objective p ?f] => destruct (on_objective_cases p f) as [[e ->]|(o & E & ->)] end; simpl; auto.
    split; auto. inv_ok. repeat split; try apply S1; try apply S2; auto.
  - match goal with |- context [on_objective p ?f] => destruct (on_objective_cases p f) as [[e ->]|(o & E & ->)] end; simpl; auto.
    split; auto. inv_ok. repeat split; try apply S1; try apply S2; auto.
  - match goal with |- context [on_objective p ?f] => destruct (on_objective_cases p f) as [[e ->]|(o & E & ->)] end; simpl; auto.
    split; auto. inv_ok. apply (lin_make_shape (env_of p)) in H; [|assumption].
    split; [exact H|]. split; [exact S2|]. split; assumption.
  - match goal with |- context [on_objective p ?f] => destruct (on_objective_cases p f) as [[e ->]|(o & E & ->)] end; simpl; auto.
    split; auto. inv_ok. apply (quad_make_shape (env_of p)) in H; [|assumption].
    split; [exact S1|]. split; [exact H|]. split; assumption.
  - match goal with |- context [on_objective p ?f] => destruct (on_objective_cases p f) as [[e ->]|(o & E & ->)] end; simpl; auto.
    split; auto. inv_ok. eapply lin_set_shape in H; [|exact S1].
    split; [exact H|]. split; [exact S2|]. split; assumption.
  - match goal with |- context [on_objective p ?f] => destruct (on_objective_cases p f) as [[e ->]|(o & E & ->)] end; simpl; auto.
    split; auto. inv_ok. eapply quad_set_shape in H; [|exact S2].
    split; [exact S1|]. split; [exact H|]. split; assumption.
Qed.

Lemma run_shapes ops : forall p, Forall (op_sized (num_vars p)) ops -> shapes (num_vars p) p ->
  num_vars (run p ops) = num_vars p /\ shapes (num_vars p) (run p ops).
Proof.
  induction ops as [|o ops IH]; intros p Ho S; simpl; auto. inversion Ho; subst.
  destruct (step_shapes p o H1 S) as [N S']. rewrite <- N in *. apply IH; auto.
Qed.

Lemma shapes_eval p x : shapes (num_vars p) p -> length x = num_vars p ->
  eval_obj p x = Ok (obj_at (p_obj p) x) /\
  Forall (fun c => eval_lincon p c x = Ok (lc_at c x)) (p_lcs p) /\
  Forall (fun c => eval_quadcon p c x = Ok (qc_at c x)) (p_qcs p).
Proof.
  intros ((S1 & S1') & (S2 & S2') & S3 & S4) Hx. repeat split.
  - unfold eval_obj, obj_eval. rewrite lin_eval_list, quad_eval_list by assumption.
    rewrite S1', S2', Hx, Nat.eqb_refl. reflexivity.
  - eapply Forall_impl; [|exact S3]. intros c [W D]. unfold eval_lincon. rewrite lin_eval_list by assumption.
    rewrite D, Hx, Nat.eqb_refl. reflexivity.
  - eapply Forall_impl; [|exact S4]. intros c [[W D] [W' D']]. unfold eval_quadcon.
    rewrite lin_eval_list, quad_eval_list by assumption. rewrite D, D', Hx, Nat.eqb_refl. reflexivity.
Qed.

Lemma var_ops_content ops : forall p, Forall is_var_op ops ->
  p_lcs (run p ops) = p_lcs p /\ p_qcs (run p ops) = p_qcs p /\ p_obj (run p ops) = p_obj p.
Proof.
  induction ops as [|o ops IH]; intros p H; simpl; auto. inversion H; subst.
  destruct (IH (fst (step p o)) H3) as (A & B & C). rewrite A, B, C.
  destruct o; simpl in H2; try contradiction; simpl step; rewrite drop_out_fst.
  - destruct (add_vars_prefix p keys lb ub ty name fmt) as (l & _ & D). exact D.
  - unfold add_variable. destruct name as [s|].
    + destruct (add_vars_prefix p (KCount 1) lb ub ty (Some s) "") as (l & _ & D). exact D.
    + destruct (add_vars_prefix p (KCount 1) lb ub ty (Some "x") "{}") as (l & _ & D). exact D.
Qed.

(** Sizes decide which points are accepted *)
Lemma eval_obj_exact p x : lin_wf (o_lin (p_obj p)) -> quad_wf (o_quad (p_obj p)) ->
  eval_obj p x = if (length x =? le_dim (o_lin (p_obj p))) && (length x =? qe_dim (o_quad (p_obj p))) then Ok (obj_at (p_obj p) x) else Err ValueError.
Proof.
  intros W1 W2. unfold eval_obj, obj_eval. rewrite lin_eval_list, quad_eval_list by assumption.
  destruct (_ =? le_dim _); [|reflexivity]. simpl. destruct (_ =? qe_dim _); reflexivity.
Qed.
Lemma eval_lincon_exact p c x : lin_wf (lc_lin c) -> eval_lincon p c x = if length x =? le_dim (lc_lin c) then Ok (lc_at c x) else Err ValueError.
Proof. intro W. unfold eval_lincon. now rewrite lin_eval_list by assumption. Qed.
Lemma eval_quadcon_exact p c x : lin_wf (qc_lin c) -> quad_wf (qc_quad c) ->
  eval_quadcon p c x = if (length x =? le_dim (qc_lin c)) && (length x =? qe_dim (qc_quad c)) then Ok (qc_at c x) else Err ValueError.
Proof.
  intros W1 W2. unfold eval_quadcon. rewrite lin_eval_list, quad_eval_list by assumption.
  destruct (_ =? le_dim _); [|reflexivity]. simpl. destruct (_ =? qe_dim _); reflexivity.
Qed.
Lemma step_keeps_shape n p o : keeps_objective o -> lin_shape n (o_lin (p_obj p)) -> quad_shape n (o_quad (p_obj p)) ->
  lin_shape n (o_lin (p_obj (fst (step p o)))) /\ quad_shape n (o_quad (p_obj (fst (step p o)))).
Proof.
  intros K S1 S2. destruct o; simpl in K; try contradiction; simpl step.
  - destruct (var_ops_content [OAddVars keys lb ub ty name fmt] p) as (_ & _ & E); [repeat constructor|].
    change (run p [OAddVars keys lb ub ty name fmt]) with (fst (drop_out (add_variables p keys lb ub ty name fmt))) in E. rewrite E. auto.
  - destruct (var_ops_content [OAddVar lb ub ty name] p) as (_ & _ & E); [repeat constructor|].
    change (run p [OAddVar lb ub ty name]) with (fst (drop_out (add_variable p lb ub ty name))) in E. rewrite E. auto.
  - destruct (linear_constraint_cases p lin s rhs name) as [[e ->]|(nm & _ & _ & [[e ->]|(c & le & _ & E & ->)])]; simpl; auto.
  - destruct (quadratic_constraint_cases p lin quad s rhs name) as [[e ->]|(nm & _ & _ & [[e ->]|(c & le & qe & _ & E1 & E2 & ->)])]; simpl; auto.
  - destruct (remove_linear_cases p k) as [[e ->]|(i & _ & ->)]; simpl; auto.
  - destruct (remove_quadratic_cases p k) as [[e ->]|(i & _ & ->)]; simpl; auto.
  - auto.
  - match goal with |- context [on_variable p k ?f] => destruct (on_variable_cases p k f) as [[e ->]|(i & v & v' & _ & Hv & E & ->)] end; simpl; auto.
  - match goal with |- context [on_variable p k ?f] => destruct (on_variable_cases p k f) as [[e ->]|(i & v & v' & _ & Hv & E & ->)] end; simpl; auto.
  - match goal with |- context [on_variable p k ?f] => destruct (on_variable_cases p k f) as [[e ->]|(i & v & v' & _ & Hv & E & ->)] end; simpl; auto.
  - match goal with |- context [on_lincon p k ?f] => destruct (on_lincon_cases p k f) as [[e ->]|(i0 & v0 & v' & _ & Hv & E & ->)] end; simpl; auto.
  - match goal with |- context [on_lincon p k ?f] => destruct (on_lincon_cases p k f) as [[e ->]|(i0 & v0 & v' & _ & Hv & E & ->)] end; simpl; auto.
  - match goal with |- context [on_lincon p k ?f] => destruct (on_lincon_cases p k f) as [[e ->]|(i0 & v0 & v' & _ & Hv & E & ->)] end; simpl; auto.
  - match goal with |- context [on_lincon p k ?f] => destruct (on_lincon_cases p k f) as [[e ->]|(i0 & v0 & v' & _ & Hv & E & ->)] end; simpl; auto.
  - match goal with |- context [on_quadcon p k ?f] => destruct (on_quadcon_cases p k f) as [[e ->]|(i0 & v0 & v' & _ & Hv & E & ->)] end; simpl; auto.
  - match goal with |- context [on_quadcon p k ?f] => destruct (on_quadcon_cases p k f) as [[e ->]|(i0 & v0 & v' & _ & Hv & E & ->)] end; simpl; auto.
  - match goal with |- context [on_quadcon p k ?f] => destruct (on_quadcon_cases p k f) as [[e ->]|(i0 & v0 & v' & _ & Hv & E & ->)] end; simpl; auto.
  - match goal with |- context [on_quadcon p k ?f] => destruct (on_quadcon_cases p k f) as [[e ->]|(i0 & v0 & v' & _ & Hv & E & ->)] end; simpl; auto.
  - match goal with |- context [on_objective p ?f] => destruct (on_objective_cases p f) as [[e ->]|(o & E & ->)] end; simpl; auto. inv_ok. auto.
  - match goal with |- context [on_objective p ?f] => destruct (on_objective_cases p f) as [[e ->]|(o & E & ->)] end; simpl; auto. inv_ok. auto.
  - match goal with |- context [on_objective p ?f] => destruct (on_objective_cases p f) as [[e ->]|(o & E & ->)] end; simpl; auto. inv_ok.
    split; [eapply lin_set_shape; [exact S1|eassumption]|exact S2].
  - match goal with |- context [on_objective p ?f] => destruct (on_objective_cases p f) as [[e ->]|(o & E & ->)] end; simpl; auto. inv_ok.
    split; [exact S1|eapply quad_set_shape; [exact S2|eassumption]].
Qed.
Lemma run_keeps_shape n ops : forall p, Forall keeps_objective ops -> lin_shape n (o_lin (p_obj p)) -> quad_shape n (o_quad (p_obj p)) ->
  lin_shape n (o_lin (p_obj (run p ops))) /\ quad_shape n (o_quad (p_obj (run p ops))).
Proof.
  induction ops as [|o ops IH]; intros p K S1 S2; [auto|]. inversion K; subst. simpl.
  destruct (step_keeps_shape n p o H1 S1 S2) as [T1 T2]. apply IH; auto.
Qed.
Lemma later_variables p1 s c lin quad q ops2 x :
  lincoef_sized (num_vars p1) (lcoef_or_empty lin) -> quadcoef_sized (num_vars p1) (qcoef_or_empty quad) ->
  step p1 (OObjective s c lin quad) = (q, Ok tt) -> Forall keeps_objective ops2 ->
  let p := run q ops2 in
  eval_obj p x = if length x =? num_vars p1 then Ok (obj_at (p_obj p) x) else Err ValueError.
Proof.
  intros S1 S2 E K p. simpl in E. destruct (set_objective_cases p1 s c lin quad) as [[e E']|(o & Eo & E')]; rewrite E' in E; [discriminate|].
  injection E as <-. apply (obj_make_shape (env_of p1)) in Eo; try assumption. destruct Eo as [T1 T2].
  destruct (run_keeps_shape (num_vars p1) ops2 (set_obj o p1) K T1 T2) as [[U1 V1] [U2 V2]]. fold p in U1, V1, U2, V2.
  rewrite eval_obj_exact by assumption. rewrite V1, V2. now rewrite andb_diag.
Qed.

Lemma build_order name ops1 s c lin quad q ops2 x :
  let p1 := run (new_qp name) ops1 in
  Forall is_var_op ops1 ->
  lincoef_sized (num_vars p1) (lcoef_or_empty lin) -> quadcoef_sized (num_vars p1) (qcoef_or_empty quad) ->
  step p1 (OObjective s c lin quad) = (q, Ok tt) -> Forall (op_sized (num_vars p1)) ops2 ->
  let p := run q ops2 in length x = num_vars p ->
  eval_obj p x = Ok (obj_at (p_obj p) x) /\
  Forall (fun c => eval_lincon p c x = Ok (lc_at c x)) (p_lcs p) /\
  Forall (fun c => eval_quadcon p c x = Ok (qc_at c x)) (p_qcs p).
Proof.
  intros p1 H1 S1 S2 E H2 p Hx. destruct (var_ops_content ops1 (new_qp name) H1) as (A & B & C). fold p1 in A, B, C.
  simpl in E. destruct (set_objective_cases p1 s c lin quad) as [[e E']|(o & Eo & E')]; rewrite E' in E; [discriminate|].
  injection E as <-. apply (obj_make_shape (env_of p1)) in Eo; try assumption.
  assert (shapes (num_vars p1) (set_obj o p1)) as S.
  { split; [apply Eo|]. split; [apply Eo|]. simpl. rewrite A, B. split; constructor. }
  destruct (run_shapes ops2 (set_obj o p1) H2 S) as [N S']. fold p in N, S'.
  apply shapes_eval; [|exact Hx]. rewrite N. exact S'.
Qed.

(** ** Closing lemmas for the property file *)
Lemma all_lookups name ops :
  let p := run (new_qp name) ops in
  NoDup (map v_name (p_vars p)) /\
  (forall i v, nth_error (p_vars p) i = Some v ->
     get_variable p (KS (v_name v)) = Ok v /\ get_variable p (KI (Z.of_nat i)) = Ok v /\
     dget String.eqb (v_name v) (p_vidx p) = Some i) /\
  NoDup (map lc_name (p_lcs p)) /\
  (forall i c, nth_error (p_lcs p) i = Some c ->
     get_linear_constraint p (KS (lc_name c)) = Ok c /\ get_linear_constraint p (KI (Z.of_nat i)) = Ok c /\
     dget String.eqb (lc_name c) (p_lidx p) = Some i) /\
  NoDup (map qc_name (p_qcs p)) /\
  (forall i c, nth_error (p_qcs p) i = Some c ->
     get_quadratic_constraint p (KS (qc_name c)) = Ok c /\ get_quadratic_constraint p (KI (Z.of_nat i)) = Ok c /\
     dget String.eqb (qc_name c) (p_qidx p) = Some i).
Proof.
  intro p. destruct (run_inv ops (new_qp name)) as [H1 H2 H3]; [apply idx_exact_inv, idx_exact_new|]. fold p in H1, H2, H3.
  split; [eapply index_finds_nodup; eauto|]. split; [intros; now apply lookup_found|].
  split; [eapply index_finds_nodup; eauto|]. split; [intros; now apply lookup_found|].
  split; [eapply index_finds_nodup; eauto|]. intros; now apply lookup_found.
Qed.

Lemma exact_free names idx s : index_exact names idx -> ~ In s names ->
  dget String.eqb s idx = None /\ ~ In s (map fst idx).
Proof.
  intros H Hs. apply (proj2 (index_exact_notin names idx s H)) in Hs. pose proof Hs as Hs'.
  apply (dhas_false _ str_eqb_sp) in Hs'. split; auto. now apply (dget_none _ str_eqb_sp).
Qed.
Lemma no_ghosts name ops p s :
  run_ok (new_qp name) ops = Ok p ->
  (~ In s (map v_name (p_vars p)) ->
     get_variable p (KS s) = Err KeyError /\
     forall lb ub ty, (lb <= ub)%Qc -> exists q, add_variable p lb ub ty (Some s) = (q, Ok [s]) /\ p_vars q = p_vars p ++ [mkVar s lb ub ty]) /\
  (~ In s (map lc_name (p_lcs p)) -> get_linear_constraint p (KS s) = Err KeyError /\ ~ In s (map fst (p_lidx p))) /\
  (~ In s (map qc_name (p_qcs p)) -> get_quadratic_constraint p (KS s) = Err KeyError /\ ~ In s (map fst (p_qidx p))).
Proof.
  intro H. apply run_ok_exact in H; [|apply idx_exact_new]. destruct H as [H1 H2 H3].
  split; [|split]; intro Hs.
  - destruct (exact_free _ _ _ H1 Hs) as [A B]. unfold get_variable, lookup. rewrite A. split; auto.
    intros. now apply add_variable_named.
  - destruct (exact_free _ _ _ H2 Hs) as [A B]. unfold get_linear_constraint, lookup. rewrite A. auto.
  - destruct (exact_free _ _ _ H3 Hs) as [A B]. unfold get_quadratic_constraint, lookup. rewrite A. auto.
Qed.

Lemma add_variable_unnamed p lb ub ty : (lb <= ub)%Qc ->
  exists q m, add_variable p lb ub ty None = (q, Ok [("x" ++ str_nat m)%string]) /\
    p_vars q = p_vars p ++ [mkVar ("x" ++ str_nat m)%string lb ub ty] /\ num_vars p <= m /\
    ~ In ("x" ++ str_nat m)%string (map fst (p_vidx p)) /\
    forall j, num_vars p <= j < m -> In ("x" ++ str_nat j)%string (map fst (p_vidx p)).
Proof.
  intro Hb. destruct (add_variables_numbered p 0 lb ub ty "x" "" "" eq_refl eq_refl Hb) as (q & ms & E & V & L & _ & _ & _ & (_ & F & M)).
  destruct ms as [|m [|]]; try discriminate L. exists q, m. 
  assert (forall j, slot_name "x" "" "" j = ("x" ++ str_nat j)%string) as Hs.
  { intro j. unfold slot_name. simpl. now rewrite string_app_nil_r. }
  simpl in V, F, E. rewrite Hs in V, E. inversion F as [|? ? [F1 F2] _]; subst. rewrite Hs in F2.
  repeat split; auto. intros j Hj. destruct (M m j) as [A|A]; [now left|lia|destruct A as [A|[]]; lia|now rewrite Hs in A].
Qed.

Lemma bounds_never_cross name ops v :
  In v (p_vars (run (new_qp name) ops)) -> (v_lb v <= v_ub v)%Qc.
Proof.
  assert (bounds_ok (run (new_qp name) ops)) as H by (apply run_bounds; constructor).
  unfold bounds_ok in H. rewrite Forall_forall in H. apply H.
Qed.

Lemma step_add_many p keys lb ub ty name fmt :
  exists l, p_vars (fst (step p (OAddVars keys lb ub ty name fmt))) = p_vars p ++ l /\
  p_lcs (fst (step p (OAddVars keys lb ub ty name fmt))) = p_lcs p /\
  p_qcs (fst (step p (OAddVars keys lb ub ty name fmt))) = p_qcs p /\
  p_obj (fst (step p (OAddVars keys lb ub ty name fmt))) = p_obj p.
Proof. simpl. rewrite drop_out_fst. apply add_vars_prefix. Qed.

Lemma remove_linear_reachable name ops k c :
  let p := run (new_qp name) ops in
  get_linear_constraint p k = Ok c ->
  exists q l1 l2, remove_linear_constraint p k = (q, Ok tt) /\
    p_lcs p = l1 ++ c :: l2 /\ p_lcs q = l1 ++ l2 /\
    p_vars q = p_vars p /\ p_vidx q = p_vidx p /\ p_qcs q = p_qcs p /\ p_qidx q = p_qidx p /\ p_obj q = p_obj p /\
    get_linear_constraint q (KS (lc_name c)) = Err KeyError /\ ~ In (lc_name c) (map fst (p_lidx q)) /\
    forall c', In c' (l1 ++ l2) -> get_linear_constraint q (KS (lc_name c')) = Ok c'.
Proof.
  intros p H. assert (idx_inv p) as I by (apply run_inv, idx_exact_inv, idx_exact_new).
  destruct (remove_linear_spec p k c I H) as (q & l1 & l2 & E & A1 & A2 & A3 & A4 & A5 & A6 & A7 & A8 & A9).
  exists q, l1, l2. destruct (exact_free _ _ _ A8 A9) as [B1 B2]. repeat split; auto.
  - unfold get_linear_constraint, lookup. now rewrite B1.
  - intros c' Hc. rewrite <- A2 in Hc. apply In_nth_error in Hc. destruct Hc as [i Hi].
    apply index_exact_finds in A8. now destruct (lookup_found lc_name _ _ i c' A8 Hi).
Qed.
Lemma remove_quadratic_reachable name ops k c :
  let p := run (new_qp name) ops in
  get_quadratic_constraint p k = Ok c ->
  exists q l1 l2, remove_quadratic_constraint p k = (q, Ok tt) /\
    p_qcs p = l1 ++ c :: l2 /\ p_qcs q = l1 ++ l2 /\
    p_vars q = p_vars p /\ p_vidx q = p_vidx p /\ p_lcs q = p_lcs p /\ p_lidx q = p_lidx p /\ p_obj q = p_obj p /\
    get_quadratic_constraint q (KS (qc_name c)) = Err KeyError /\ ~ In (qc_name c) (map fst (p_qidx q)) /\
    forall c', In c' (l1 ++ l2) -> get_quadratic_constraint q (KS (qc_name c')) = Ok c'.
Proof.
  intros p H. assert (idx_inv p) as I by (apply run_inv, idx_exact_inv, idx_exact_new).
  destruct (remove_quadratic_spec p k c I H) as (q & l1 & l2 & E & A1 & A2 & A3 & A4 & A5 & A6 & A7 & A8 & A9).
  exists q, l1, l2. destruct (exact_free _ _ _ A8 A9) as [B1 B2]. repeat split; auto.
  - unfold get_quadratic_constraint, lookup. now rewrite B1.
  - intros c' Hc. rewrite <- A2 in Hc. apply In_nth_error in Hc. destruct Hc as [i Hi].
    apply index_exact_finds in A8. now destruct (lookup_found qc_name _ _ i c' A8 Hi).
Qed.
Lemma remove_unknown p k e :
  (get_linear_constraint p k = Err e -> exists e', remove_linear_constraint p k = (p, Err e')) /\
  (get_quadratic_constraint p k = Err e -> exists e', remove_quadratic_constraint p k = (p, Err e')).
Proof.
  split; intro H.
  - destruct (remove_linear_cases p k) as [E|(i & D & _)]; [assumption|]. exfalso. pose proof (del_pos_lt _ _ _ _ D) as L.
    destruct (nth_error (p_lcs p) i) as [a|] eqn:N; [|apply nth_error_None in N; lia].
    pose proof (proj1 (del_pos_lookup (p_lcs p) (p_lidx p) k i a) D N) as Q. unfold get_linear_constraint in H. congruence.
  - destruct (remove_quadratic_cases p k) as [E|(i & D & _)]; [assumption|]. exfalso. pose proof (del_pos_lt _ _ _ _ D) as L.
    destruct (nth_error (p_qcs p) i) as [a|] eqn:N; [|apply nth_error_None in N; lia].
    pose proof (proj1 (del_pos_lookup (p_qcs p) (p_qidx p) k i a) D N) as Q. unfold get_quadratic_constraint in H. congruence.
Qed.
