(** * Facts about programs and histories of API calls (C01 - C06, C11) *)
From Verif Require Export ExprProps.
Local Open Scope nat_scope.

(** ** Indexes *)
Lemma index_finds_nodup names idx : index_finds names idx -> NoDup names.
Proof.
  intro H. apply NoDup_nth_error. intros i j Hi E.
  destruct (nth_error names i) as [s|] eqn:Ei; [|apply nth_error_None in Ei; lia].
  symmetry in E. apply H in Ei, E. congruence.
Qed.
Lemma index_exact_finds names idx : index_exact names idx -> index_finds names idx.
Proof. intros H s i Hs. now apply H. Qed.
Lemma index_finds_keys names idx s : index_finds names idx -> In s names -> In s (map fst idx).
Proof.
  intros H Hin. apply In_nth_error in Hin. destruct Hin as [i Hi]. apply H in Hi.
  apply (dget_in _ str_eqb_sp) in Hi. apply in_map_iff. now exists (s, i).
Qed.
Lemma index_exact_notin names idx s : index_exact names idx -> (dhas String.eqb s idx = false <-> ~ In s names).
Proof.
  intro H. unfold dhas. destruct (dget String.eqb s idx) eqn:E.
  - apply H in E. split; [discriminate|]. intro Hn. exfalso. apply Hn. eapply nth_error_In; eauto.
  - split; auto. intros _ Hin. apply In_nth_error in Hin. destruct Hin as [i Hi]. apply H in Hi. congruence.
Qed.

Lemma index_finds_ghost names idx s i :
  index_finds names idx -> ~ In s (map fst idx) -> index_finds names (dset String.eqb s i idx).
Proof.
  intros H Hs t j Ht. rewrite (dget_dset _ str_eqb_sp). destruct (str_eqb_sp t s); [|now apply H].
  subst. exfalso. apply Hs. eapply index_finds_keys; eauto. eapply nth_error_In; eauto.
Qed.
Lemma index_finds_snoc names idx s :
  index_finds names idx -> ~ In s (map fst idx) -> index_finds (names ++ [s]) (dset String.eqb s (length names) idx).
Proof.
  intros H Hs t j Ht. rewrite (dget_dset _ str_eqb_sp).
  destruct (Nat.lt_ge_cases j (length names)) as [Hj|Hj].
  - rewrite nth_error_app1 in Ht by assumption. destruct (str_eqb_sp t s); [|now apply H].
    subst. exfalso. apply Hs. eapply index_finds_keys; eauto. eapply nth_error_In; eauto.
  - rewrite nth_error_app2 in Ht by assumption. destruct (j - length names) as [|k] eqn:Ek; simpl in Ht.
    + injection Ht as <-. destruct (str_eqb_sp s s); [|congruence]. f_equal. lia.
    + destruct k; discriminate.
Qed.
Lemma index_exact_snoc names idx s :
  index_exact names idx -> ~ In s (map fst idx) -> index_exact (names ++ [s]) (dset String.eqb s (length names) idx).
Proof.
  intros H Hs t j. split; [|now apply index_finds_snoc, Hs; apply index_exact_finds].
  rewrite (dget_dset _ str_eqb_sp). destruct (str_eqb_sp t s).
  - intros [=]; subst. rewrite nth_error_app2, Nat.sub_diag by lia. reflexivity.
  - intro E. apply H in E. rewrite nth_error_app1; auto. apply nth_error_Some. congruence.
Qed.

Lemma reindex_exact {A} (nm : A -> string) l : NoDup (map nm l) -> index_exact (map nm l) (reindex nm l).
Proof.
  intro Hn. unfold reindex.
  assert (forall l k d, NoDup (map nm l) ->
     (forall s i, dget String.eqb s d = Some i -> i < k) -> (forall s, In s (map nm l) -> dget String.eqb s d = None) ->
     forall s i, dget String.eqb s (fold_left (fun d ja => dset String.eqb (nm (snd ja)) (fst ja) d) (combine (seq k (length l)) l) d) = Some i
       <-> dget String.eqb s d = Some i \/ (k <= i /\ nth_error (map nm l) (i - k) = Some s)) as G.
  { clear. induction l as [|a l IH]; intros k d Hn Hb Hd s i; simpl.
    - split; [auto|]. intros [H|[_ H]]; auto. destruct (i - k); discriminate.
    - inversion Hn; subst. rewrite IH; auto.
      + rewrite (dget_dset _ str_eqb_sp). destruct (str_eqb_sp s (nm a)) as [->|Hs].
        * split.
          -- intros [[=]|[H3 H4]]; [subst|].
             ++ right. rewrite Nat.sub_diag. auto.
             ++ exfalso. apply H1. eapply nth_error_In; eauto.
          -- intros [H|[H3 H4]].
             ++ rewrite Hd in H by (simpl; auto). discriminate.
             ++ left. destruct (i - k) as [|m] eqn:E; [f_equal; lia|]. exfalso. apply H1. simpl in H4. eapply nth_error_In; eauto.
        * split.
          -- intros [H|[H3 H4]]; auto. right. split; [lia|]. replace (i - k) with (S (i - S k)) by lia. exact H4.
          -- intros [H|[H3 H4]]; auto. right. destruct (i - k) as [|m] eqn:E; simpl in H4; [congruence|].
             split; [lia|]. replace (i - S k) with m by lia. exact H4.
      + intros t j. rewrite (dget_dset _ str_eqb_sp). destruct (String.eqb t (nm a)); [intros [=]; lia|].
        intro H. apply Hb in H. lia.
      + intros t Ht. rewrite (dget_dset _ str_eqb_sp). destruct (str_eqb_sp t (nm a)); [subst; contradiction|].
        apply Hd. simpl; auto. }
  intros s i. rewrite (G l 0 []); auto; simpl; try discriminate.
  rewrite Nat.sub_0_r. split; [intros [H|[_ H]]; [discriminate|auto] | intro H; right; split; [lia|auto]].
Qed.

(** ** Invariants of histories *)
Record idx_inv (p : qp) : Prop := {
  ii_v : index_finds (var_names p) (p_vidx p);
  ii_l : index_finds (map lc_name (p_lcs p)) (p_lidx p);
  ii_q : index_finds (map qc_name (p_qcs p)) (p_qidx p) }.
Record idx_exact (p : qp) : Prop := {
  ie_v : index_exact (var_names p) (p_vidx p);
  ie_l : index_exact (map lc_name (p_lcs p)) (p_lidx p);
  ie_q : index_exact (map qc_name (p_qcs p)) (p_qidx p) }.

Lemma idx_exact_inv p : idx_exact p -> idx_inv p.
Proof. intros [H1 H2 H3]. constructor; now apply index_exact_finds. Qed.

Lemma idx_exact_new n : idx_exact (new_qp n).
Proof. constructor; intros s i; simpl; (split; [discriminate|destruct i; discriminate]). Qed.

Lemma drop_out_fst {A} (x : qp * result A) : fst (drop_out x) = fst x.
Proof. destruct x as [p [a|e]]; reflexivity. Qed.
Lemma drop_out_ok {A} (x : qp * result A) q : drop_out x = (q, Ok tt) -> exists a, x = (q, Ok a).
Proof. destruct x as [p [a|e]]; simpl; intros [=]; subst; eauto. Qed.

Lemma step_ok_fst p o q u : step p o = (q, Ok u) -> fst (step p o) = q.
Proof. intros ->. reflexivity. Qed.

(** Adding one variable. *)
Lemma add_named_cases p nm lb ub ty :
  (exists e, add_named p nm lb ub ty = (p, Err e) /\ dhas String.eqb nm (p_vidx p) = true) \/
  (exists e, add_named p nm lb ub ty = (set_vidx (dset String.eqb nm (num_vars p) (p_vidx p)) p, Err e)
             /\ ~ In nm (map fst (p_vidx p)) /\ ~ (lb <= ub)%Qc) \/
  (add_named p nm lb ub ty = (set_vars (p_vars p ++ [mkVar nm lb ub ty]) (set_vidx (dset String.eqb nm (num_vars p) (p_vidx p)) p), Ok tt)
             /\ ~ In nm (map fst (p_vidx p)) /\ (lb <= ub)%Qc).
Proof.
  unfold add_named. destruct (dhas String.eqb nm (p_vidx p)) eqn:E; [left; eauto|right].
  apply (dhas_false _ str_eqb_sp) in E. unfold var_make. destruct (qltb_spec ub lb) as [H|H]; [left|right].
  - eexists. repeat split; eauto. intro. apply (Qclt_not_le _ _ H). assumption.
  - repeat split; auto. now apply Qcnot_lt_le.
Qed.

Section AddInduct.
(** Anything kept by adding one variable is kept by adding several. *)
Context (P : qp -> Prop) (lb ub : Qc) (ty : vartype).
Hypothesis HP : forall p nm, P p -> P (fst (add_named p nm lb ub ty)).
Lemma add_seq_ind keys name fmt : forall p, P p -> P (fst (add_seq p keys lb ub ty name fmt)).
Proof.
  induction keys as [|k keys IH]; intros p H; simpl; auto.
  destruct (py_format fmt k) as [t|]; simpl; auto.
  specialize (HP p (name ++ t)%string H). destruct (add_named p (name ++ t)%string lb ub ty) as [p1 [u|e]]; simpl in *; auto.
  specialize (IH p1 HP). destruct (add_seq p1 keys lb ub ty name fmt) as [p2 [l|e]]; simpl in *; auto.
Qed.
Lemma add_count_ind n name fmt : forall p k, P p -> P (fst (add_count p n k lb ub ty name fmt)).
Proof.
  induction n as [|n IH]; intros p k H; cbn [add_count]; auto.
  destruct (find_name (find_name_fuel (p_vidx p)) (p_vidx p) name fmt k None) as [[nm k']|]; simpl; auto.
  specialize (HP p nm H). destruct (add_named p nm lb ub ty) as [p1 [u|e]]; simpl in *; auto.
  specialize (IH p1 k' HP). destruct (add_count p1 n k' lb ub ty name fmt) as [p2 [l|e]]; simpl in *; auto.
Qed.
Lemma add_variables_ind keys name fmt p : P p -> P (fst (add_variables p keys lb ub ty name fmt)).
Proof.
  intro H. unfold add_variables. destruct keys.
  - destruct (n <? 1)%Z; auto. destruct (contains _ fmt); auto. destruct (1 <? count_slots fmt); auto. now apply add_count_ind.
  - destruct (contains _ fmt); auto. destruct (1 <? count_slots fmt); auto. now apply add_seq_ind.
Qed.
Lemma add_variable_ind name p : P p -> P (fst (add_variable p lb ub ty name)).
Proof. intro H. unfold add_variable. destruct name; now apply add_variables_ind. Qed.
End AddInduct.

Section AddInductOk.
Context (P : qp -> Prop) (lb ub : Qc) (ty : vartype).
Hypothesis HP : forall p nm q u, P p -> add_named p nm lb ub ty = (q, Ok u) -> P q.
Lemma add_seq_ind_ok keys name fmt : forall p q l, P p -> add_seq p keys lb ub ty name fmt = (q, Ok l) -> P q.
Proof.
  induction keys as [|k keys IH]; intros p q l H; simpl; [intros [=]; now subst|].
  destruct (py_format fmt k) as [t|]; [|intros [=]].
  destruct (add_named p (name ++ t)%string lb ub ty) as [p1 [u|e]] eqn:E; [|intros [=]].
  apply HP in E; auto. destruct (add_seq p1 keys lb ub ty name fmt) as [p2 [l2|e]] eqn:E2; [|intros [=]].
  intros [=]; subst. eapply IH; eauto.
Qed.
Lemma add_count_ind_ok n name fmt : forall p k q l, P p -> add_count p n k lb ub ty name fmt = (q, Ok l) -> P q.
Proof.
  induction n as [|n IH]; intros p k q l H; cbn [add_count]; [intros [=]; now subst|].
  destruct (find_name (find_name_fuel (p_vidx p)) (p_vidx p) name fmt k None) as [[nm k']|]; [|intros [=]].
  destruct (add_named p nm lb ub ty) as [p1 [u|e]] eqn:E; [|intros [=]].
  apply HP in E; auto. destruct (add_count p1 n k' lb ub ty name fmt) as [p2 [l2|e]] eqn:E2; [|intros [=]].
  intros [=]; subst. eapply IH; eauto.
Qed.
Lemma add_variables_ind_ok keys name fmt p q l : P p -> add_variables p keys lb ub ty name fmt = (q, Ok l) -> P q.
Proof.
  intro H. unfold add_variables. destruct keys.
  - destruct (n <? 1)%Z; [intros [=]|]. destruct (contains _ fmt); [intros [=]|]. destruct (1 <? count_slots fmt); [intros [=]|].
    now apply add_count_ind_ok.
  - destruct (contains _ fmt); [intros [=]|]. destruct (1 <? count_slots fmt); [intros [=]|]. now apply add_seq_ind_ok.
Qed.
Lemma add_variable_ind_ok name p q l : P p -> add_variable p lb ub ty name = (q, Ok l) -> P q.
Proof. intro H. unfold add_variable. destruct name; now apply add_variables_ind_ok. Qed.
End AddInductOk.

Lemma var_names_snoc p v i : var_names (set_vars (p_vars p ++ [v]) (set_vidx i p)) = var_names p ++ [v_name v].
Proof. unfold var_names. simpl. now rewrite map_app. Qed.

Lemma add_named_inv lb ub ty p nm : idx_inv p -> idx_inv (fst (add_named p nm lb ub ty)).
Proof.
  intros [H1 H2 H3]. destruct (add_named_cases p nm lb ub ty) as [(e & -> & _)|[(e & -> & Hn & _)|(-> & Hn & _)]]; simpl.
  - now constructor.
  - constructor; simpl; auto. unfold var_names; simpl. now apply index_finds_ghost.
  - constructor; simpl; auto. rewrite var_names_snoc. simpl.
    replace (num_vars p) with (length (var_names p)) by apply map_length. now apply index_finds_snoc.
Qed.
Lemma add_named_exact lb ub ty p nm q u : idx_exact p -> add_named p nm lb ub ty = (q, Ok u) -> idx_exact q.
Proof.
  intros [H1 H2 H3] E. destruct (add_named_cases p nm lb ub ty) as [(e & E' & _)|[(e & E' & Hn & _)|(E' & Hn & _)]]; rewrite E' in E; try discriminate.
  injection E as <- _. constructor; simpl; auto. rewrite var_names_snoc. simpl.
  replace (num_vars p) with (length (var_names p)) by apply map_length. now apply index_exact_snoc.
Qed.

(** Names of constraints. *)
Lemma con_name_fresh idx n pre name nm : con_name idx n pre name = Ok nm -> ~ In nm (map fst idx).
Proof.
  assert (forall f k nm, auto_name f idx pre k = Ok nm -> ~ In nm (map fst idx)) as A.
  { induction f as [|f IH]; simpl; intros k nm'; [discriminate|].
    destruct (dhas String.eqb (pre ++ str_nat k)%string idx) eqn:E; [apply IH|]. intros [=]; subst.
    now apply (dhas_false _ str_eqb_sp) in E. }
  unfold con_name. destruct name as [[|c r]|]; try apply A.
  destruct (dhas String.eqb (String c r) idx) eqn:E; [discriminate|]. intros [=]; subst.
  now apply (dhas_false _ str_eqb_sp) in E.
Qed.

Lemma linear_constraint_cases p lin s rhs name :
  (exists e, linear_constraint p lin s rhs name = (p, Err e)) \/
  (exists nm, ~ In nm (map fst (p_lidx p)) /\ con_name (p_lidx p) (length (p_lcs p)) "c"%string name = Ok nm /\
   let p1 := set_lidx (dset String.eqb nm (length (p_lcs p)) (p_lidx p)) p in
   ((exists e, linear_constraint p lin s rhs name = (p1, Err e)) \/
    (exists c le, sense_convert s = Ok c /\ lin_make (env_of p) (lcoef_or_empty lin) = Ok le /\
       linear_constraint p lin s rhs name = (set_lcs (p_lcs p ++ [mkLC nm le c rhs]) p1, Ok tt)))).
Proof.
  unfold linear_constraint. destruct (con_name _ _ _ name) as [nm|e] eqn:E; [right|left; eauto].
  exists nm. split; [eapply con_name_fresh; eauto|]. split; [reflexivity|]. cbv zeta.
  destruct (sense_convert s) as [c|]; simpl; [|left; eauto].
  destruct (lin_make (env_of p) (lcoef_or_empty lin)) as [le|]; simpl; [right; eauto|left; eauto].
Qed.
Lemma quadratic_constraint_cases p lin quad s rhs name :
  (exists e, quadratic_constraint p lin quad s rhs name = (p, Err e)) \/
  (exists nm, ~ In nm (map fst (p_qidx p)) /\ con_name (p_qidx p) (length (p_qcs p)) "q"%string name = Ok nm /\
   let p1 := set_qidx (dset String.eqb nm (length (p_qcs p)) (p_qidx p)) p in
   ((exists e, quadratic_constraint p lin quad s rhs name = (p1, Err e)) \/
    (exists c le qe, sense_convert s = Ok c /\ lin_make (env_of p) (lcoef_or_empty lin) = Ok le /\
       quad_make (env_of p) (qcoef_or_empty quad) = Ok qe /\
       quadratic_constraint p lin quad s rhs name = (set_qcs (p_qcs p ++ [mkQC nm le qe c rhs]) p1, Ok tt)))).
Proof.
  unfold quadratic_constraint. destruct (con_name _ _ _ name) as [nm|e] eqn:E; [right|left; eauto].
  exists nm. split; [eapply con_name_fresh; eauto|]. split; [reflexivity|]. cbv zeta.
  destruct (sense_convert s) as [c|]; simpl; [|left; eauto].
  destruct (lin_make (env_of p) (lcoef_or_empty lin)) as [le|]; simpl; [|left; eauto].
  destruct (quad_make (env_of p) (qcoef_or_empty quad)) as [qe|]; simpl; [right; exists c, le, qe; auto|left; eauto].
Qed.

(** Changes of one element. *)
Lemma on_variable_cases p k f :
  (exists e, on_variable p k f = (p, Err e)) \/
  (exists i v v', key_pos (p_vars p) (p_vidx p) k = Ok i /\ nth_error (p_vars p) i = Some v /\ f v = Ok v' /\
     on_variable p k f = (set_vars (update i v' (p_vars p)) p, Ok tt)).
Proof.
  unfold on_variable. destruct (key_pos _ _ k) as [i|]; [|left; eauto].
  destruct (nth_error (p_vars p) i) as [v|] eqn:E; [|left; eauto].
  destruct (f v) as [v'|] eqn:E'; [right; eauto 9|left; eauto].
Qed.
Lemma on_lincon_cases p k f :
  (exists e, on_lincon p k f = (p, Err e)) \/
  (exists i v v', key_pos (p_lcs p) (p_lidx p) k = Ok i /\ nth_error (p_lcs p) i = Some v /\ f v = Ok v' /\
     on_lincon p k f = (set_lcs (update i v' (p_lcs p)) p, Ok tt)).
Proof.
  unfold on_lincon. destruct (key_pos _ _ k) as [i|]; [|left; eauto].
  destruct (nth_error (p_lcs p) i) as [v|] eqn:E; [|left; eauto].
  destruct (f v) as [v'|] eqn:E'; [right; eauto 9|left; eauto].
Qed.
Lemma on_quadcon_cases p k f :
  (exists e, on_quadcon p k f = (p, Err e)) \/
  (exists i v v', key_pos (p_qcs p) (p_qidx p) k = Ok i /\ nth_error (p_qcs p) i = Some v /\ f v = Ok v' /\
     on_quadcon p k f = (set_qcs (update i v' (p_qcs p)) p, Ok tt)).
Proof.
  unfold on_quadcon. destruct (key_pos _ _ k) as [i|]; [|left; eauto].
  destruct (nth_error (p_qcs p) i) as [v|] eqn:E; [|left; eauto].
  destruct (f v) as [v'|] eqn:E'; [right; eauto 9|left; eauto].
Qed.
Lemma on_objective_cases p f :
  (exists e, on_objective p f = (p, Err e)) \/
  (exists o, f (p_obj p) = Ok o /\ on_objective p f = (set_obj o p, Ok tt)).
Proof. unfold on_objective. destruct (f (p_obj p)) eqn:E; eauto. Qed.

Lemma map_update_same {A B} (f : A -> B) i a a' l : nth_error l i = Some a -> f a' = f a -> map f (update i a' l) = map f l.
Proof.
  intros H E. rewrite update_map, E. apply update_same. rewrite nth_error_map, H. reflexivity.
Qed.

Lemma del_pos_lt {A} (l : list A) idx k i : del_pos l idx k = Ok i -> i < length l.
Proof.
  unfold del_pos. destruct k as [z|s].
  - destruct (py_index (length l) z) eqn:E; [|discriminate]. intros [=]; subst. apply py_index_some in E. tauto.
  - destruct (dget String.eqb s idx); [|discriminate]. destruct (Nat.ltb_spec n (length l)); [|discriminate]. intros [=]; now subst.
Qed.
Lemma del_pos_lookup {A} (l : list A) idx k i a :
  (del_pos l idx k = Ok i -> nth_error l i = Some a -> lookup l idx k = Ok a) /\
  (lookup l idx k = Ok a -> exists i, del_pos l idx k = Ok i /\ nth_error l i = Some a).
Proof.
  unfold del_pos, lookup, py_nth. destruct k as [z|s].
  - destruct (py_index (length l) z) as [j|]; [|split; discriminate]. split.
    + intros [=]; subst. intros ->. reflexivity.
    + destruct (nth_error l j) eqn:E; [|discriminate]. intros [=]; subst. eauto.
  - destruct (dget String.eqb s idx) as [j|]; [|split; discriminate].
    destruct (Nat.ltb_spec j (length l)).
    + rewrite py_index_nat by assumption. split.
      * intros [=]; subst. intros ->. reflexivity.
      * destruct (nth_error l j) eqn:E; [|discriminate]. intros [=]; subst. eauto.
    + rewrite py_index_none by assumption. split; discriminate.
Qed.

Lemma remove_linear_cases p k :
  (exists e, remove_linear_constraint p k = (p, Err e)) \/
  (exists i, del_pos (p_lcs p) (p_lidx p) k = Ok i /\
     remove_linear_constraint p k = (set_lidx (reindex lc_name (delete_at i (p_lcs p))) (set_lcs (delete_at i (p_lcs p)) p), Ok tt)).
Proof. unfold remove_linear_constraint. destruct (del_pos _ _ k); [right|left]; eauto. Qed.
Lemma remove_quadratic_cases p k :
  (exists e, remove_quadratic_constraint p k = (p, Err e)) \/
  (exists i, del_pos (p_qcs p) (p_qidx p) k = Ok i /\
     remove_quadratic_constraint p k = (set_qidx (reindex qc_name (delete_at i (p_qcs p))) (set_qcs (delete_at i (p_qcs p)) p), Ok tt)).
Proof. unfold remove_quadratic_constraint. destruct (del_pos _ _ k); [right|left]; eauto. Qed.
Lemma set_objective_cases p s c lin quad :
  (exists e, set_objective p s c lin quad = (p, Err e)) \/
  (exists o, obj_make (env_of p) c lin quad s = Ok o /\ set_objective p s c lin quad = (set_obj o p, Ok tt)).
Proof. unfold set_objective. destruct (obj_make _ c lin quad s) eqn:E; eauto. Qed.

Ltac names_kept :=
  match goal with
  | H : nth_error ?l ?i = Some ?v, E : Ok _ = Ok ?w |- _ => injection E as <-
  | _ => idtac
  end.

Lemma upd_v p i v v' : nth_error (p_vars p) i = Some v -> v_name v' = v_name v ->
  idx_inv p -> idx_inv (set_vars (update i v' (p_vars p)) p).
Proof.
  intros H E [H1 H2 H3]. constructor; simpl; auto. unfold var_names in *; simpl.
  now rewrite (map_update_same v_name _ v) by assumption.
Qed.
Lemma upd_l p i v v' : nth_error (p_lcs p) i = Some v -> lc_name v' = lc_name v ->
  idx_inv p -> idx_inv (set_lcs (update i v' (p_lcs p)) p).
Proof.
  intros H E [H1 H2 H3]. constructor; simpl; auto. now rewrite (map_update_same lc_name _ v) by assumption.
Qed.
Lemma upd_q p i v v' : nth_error (p_qcs p) i = Some v -> qc_name v' = qc_name v ->
  idx_inv p -> idx_inv (set_qcs (update i v' (p_qcs p)) p).
Proof.
  intros H E [H1 H2 H3]. constructor; simpl; auto. now rewrite (map_update_same qc_name _ v) by assumption.
Qed.
Lemma upd_v_exact p i v v' : nth_error (p_vars p) i = Some v -> v_name v' = v_name v ->
  idx_exact p -> idx_exact (set_vars (update i v' (p_vars p)) p).
Proof.
  intros H E [H1 H2 H3]. constructor; simpl; auto. unfold var_names in *; simpl.
  now rewrite (map_update_same v_name _ v) by assumption.
Qed.
Lemma upd_l_exact p i v v' : nth_error (p_lcs p) i = Some v -> lc_name v' = lc_name v ->
  idx_exact p -> idx_exact (set_lcs (update i v' (p_lcs p)) p).
Proof.
  intros H E [H1 H2 H3]. constructor; simpl; auto. now rewrite (map_update_same lc_name _ v) by assumption.
Qed.
Lemma upd_q_exact p i v v' : nth_error (p_qcs p) i = Some v -> qc_name v' = qc_name v ->
  idx_exact p -> idx_exact (set_qcs (update i v' (p_qcs p)) p).
Proof.
  intros H E [H1 H2 H3]. constructor; simpl; auto. now rewrite (map_update_same qc_name _ v) by assumption.
Qed.

(** An operation that adds neither variables nor constraints and does not remove or clear:
    what it can change. *)
Inductive change : qp -> qp -> Prop :=
| ch_name p s : change p (set_name s p)
| ch_var p i v v' : nth_error (p_vars p) i = Some v -> v_name v' = v_name v -> change p (set_vars (update i v' (p_vars p)) p)
| ch_lc p i v v' : nth_error (p_lcs p) i = Some v -> lc_name v' = lc_name v -> change p (set_lcs (update i v' (p_lcs p)) p)
| ch_qc p i v v' : nth_error (p_qcs p) i = Some v -> qc_name v' = qc_name v -> change p (set_qcs (update i v' (p_qcs p)) p)
| ch_obj p o : change p (set_obj o p).

Definition is_edit (o : op) : bool :=
  match o with
  | OAddVars _ _ _ _ _ _ | OAddVar _ _ _ _ | OLinCon _ _ _ _ | OQuadCon _ _ _ _ _ | ORemLin _ | ORemQuad _ | OClear => false
  | _ => true
  end.

Lemma edit_step p o : is_edit o = true ->
  (exists e, step p o = (p, Err e)) \/ (change p (fst (step p o)) /\ exists q, step p o = (q, Ok tt)).
Proof.
  assert (forall v l w, var_set_lb v l = Ok w -> v_name w = v_name v) as Nlb.
  { intros v l w. unfold var_set_lb. destruct (qltb _ _); [discriminate|]. intros [=]; now subst. }
  assert (forall v l w, var_set_ub v l = Ok w -> v_name w = v_name v) as Nub.
  { intros v l w. unfold var_set_ub. destruct (qltb _ _); [discriminate|]. intros [=]; now subst. }
  destruct o; simpl; intro Hop; try discriminate.
  - destruct (set_objective_cases p s c lin quad) as [[e ->]|(o & _ & ->)]; [left|right]; eauto using change.
  - right; eauto using change.
  - destruct (on_variable_cases p k (fun v => var_set_lb v lb)) as [[e ->]|(i & v & v' & _ & H & E & ->)]; [left; eauto|right].
    simpl; split; eauto. eapply ch_var; eauto.
  - destruct (on_variable_cases p k (fun v => var_set_ub v ub)) as [[e ->]|(i & v & v' & _ & H & E & ->)]; [left; eauto|right].
    simpl; split; eauto. eapply ch_var; eauto.
  - match goal with |- context [on_variable p k ?f] => destruct (on_variable_cases p k f) as [[e ->]|(i & v & v' & _ & H & E & ->)] end; [left; eauto|right].
    simpl; split; eauto. eapply ch_var; eauto. inv_ok. reflexivity.
  - match goal with |- context [on_lincon p k ?f] => destruct (on_lincon_cases p k f) as [[e ->]|(i0 & v0 & v' & _ & H & E & ->)] end; [left; eauto|right].
    simpl; split; eauto. eapply ch_lc; eauto. inv_ok. reflexivity.
  - match goal with |- context [on_lincon p k ?f] => destruct (on_lincon_cases p k f) as [[e ->]|(i0 & v0 & v' & _ & H & E & ->)] end; [left; eauto|right].
    simpl; split; eauto. eapply ch_lc; eauto. inv_ok. reflexivity.
  - match goal with |- context [on_lincon p k ?f] => destruct (on_lincon_cases p k f) as [[e ->]|(i0 & v0 & v' & _ & H & E & ->)] end; [left; eauto|right].
    simpl; split; eauto. eapply ch_lc; eauto. inv_ok. reflexivity.
  - match goal with |- context [on_lincon p k ?f] => destruct (on_lincon_cases p k f) as [[e ->]|(i0 & v0 & v' & _ & H & E & ->)] end; [left; eauto|right].
    simpl; split; eauto. eapply ch_lc; eauto. inv_ok. reflexivity.
  - match goal with |- context [on_quadcon p k ?f] => destruct (on_quadcon_cases p k f) as [[e ->]|(i0 & v0 & v' & _ & H & E & ->)] end; [left; eauto|right].
    simpl; split; eauto. eapply ch_qc; eauto. inv_ok. reflexivity.
  - match goal with |- context [on_quadcon p k ?f] => destruct (on_quadcon_cases p k f) as [[e ->]|(i0 & v0 & v' & _ & H & E & ->)] end; [left; eauto|right].
    simpl; split; eauto. eapply ch_qc; eauto. inv_ok. reflexivity.
  - match goal with |- context [on_quadcon p k ?f] => destruct (on_quadcon_cases p k f) as [[e ->]|(i0 & v0 & v' & _ & H & E & ->)] end; [left; eauto|right].
    simpl; split; eauto. eapply ch_qc; eauto. inv_ok. reflexivity.
  - match goal with |- context [on_quadcon p k ?f] => destruct (on_quadcon_cases p k f) as [[e ->]|(i0 & v0 & v' & _ & H & E & ->)] end; [left; eauto|right].
    simpl; split; eauto. eapply ch_qc; eauto. inv_ok. reflexivity.
  - match goal with |- context [on_objective p ?f] => destruct (on_objective_cases p f) as [[e ->]|(o & _ & ->)] end; [left|right]; eauto using change.
  - match goal with |- context [on_objective p ?f] => destruct (on_objective_cases p f) as [[e ->]|(o & _ & ->)] end; [left|right]; eauto using change.
  - match goal with |- context [on_objective p ?f] => destruct (on_objective_cases p f) as [[e ->]|(o & _ & ->)] end; [left|right]; eauto using change.
  - match goal with |- context [on_objective p ?f] => destruct (on_objective_cases p f) as [[e ->]|(o & _ & ->)] end; [left|right]; eauto using change.
  - match goal with |- context [on_objective p ?f] => destruct (on_objective_cases p f) as [[e ->]|(o & _ & ->)] end; [left|right]; eauto using change.
  - match goal with |- context [on_objective p ?f] => destruct (on_objective_cases p f) as [[e ->]|(o & _ & ->)] end; [left|right]; eauto using change.
Qed.

Lemma change_inv p q : change p q -> idx_inv p -> idx_inv q.
Proof.
  intros C H. destruct C; [destruct H; now constructor|..|destruct H; now constructor];
  eauto using upd_v, upd_l, upd_q.
Qed.
Lemma change_exact p q : change p q -> idx_exact p -> idx_exact q.
Proof.
  intros C H. destruct C; [destruct H; now constructor|..|destruct H; now constructor];
  eauto using upd_v_exact, upd_l_exact, upd_q_exact.
Qed.

Lemma map_len_lc p : length (map lc_name (p_lcs p)) = length (p_lcs p). Proof. apply map_length. Qed.

Lemma step_inv p o : idx_inv p -> idx_inv (fst (step p o)).
Proof.
  intro H. destruct (is_edit o) eqn:Ed.
  { destruct (edit_step p o Ed) as [[e ->]|[Hc _]]; [assumption|]. eapply change_inv; eauto. }
  destruct o; try discriminate Ed; simpl.
  - rewrite drop_out_fst. apply (add_variables_ind idx_inv); auto. intros; now apply add_named_inv.
  - rewrite drop_out_fst. apply (add_variable_ind idx_inv); auto. intros; now apply add_named_inv.
  - destruct (linear_constraint_cases p lin s rhs name) as [[e ->]|(nm & Hn & _ & [[e ->]|(c & le & _ & _ & ->)])]; auto;
    destruct H as [H1 H2 H3]; constructor; simpl; auto.
    + now apply index_finds_ghost.
    + rewrite map_app. simpl. rewrite <- map_len_lc. now apply index_finds_snoc.
  - destruct (quadratic_constraint_cases p lin quad s rhs name) as [[e ->]|(nm & Hn & _ & [[e ->]|(c & le & qe & _ & _ & _ & ->)])]; auto;
    destruct H as [H1 H2 H3]; constructor; simpl; auto.
    + now apply index_finds_ghost.
    + rewrite map_app. simpl. rewrite <- (map_length qc_name). now apply index_finds_snoc.
  - destruct (remove_linear_cases p k) as [[e ->]|(i & _ & ->)]; auto. destruct H as [H1 H2 H3]; constructor; simpl; auto.
    apply index_exact_finds, reindex_exact. rewrite delete_at_map. apply delete_at_nodup. eapply index_finds_nodup; eauto.
  - destruct (remove_quadratic_cases p k) as [[e ->]|(i & _ & ->)]; auto. destruct H as [H1 H2 H3]; constructor; simpl; auto.
    apply index_exact_finds, reindex_exact. rewrite delete_at_map. apply delete_at_nodup. eapply index_finds_nodup; eauto.
  - apply idx_exact_inv, idx_exact_new.
Qed.
Lemma step_exact p o q : idx_exact p -> step p o = (q, Ok tt) -> idx_exact q.
Proof.
  intro H. destruct (is_edit o) eqn:Ed.
  { destruct (edit_step p o Ed) as [[e ->]|[Hc [q' E]]]; [intros [=]|]. intro E2. apply step_ok_fst in E2. rewrite <- E2.
    eapply change_exact; eauto. }
  destruct o; try discriminate Ed; simpl; intro E.
  - apply drop_out_ok in E. destruct E as [l E]. eapply (add_variables_ind_ok idx_exact); [|eassumption|eassumption].
    intros; eapply add_named_exact; eauto.
  - apply drop_out_ok in E. destruct E as [l E]. eapply (add_variable_ind_ok idx_exact); [|eassumption|eassumption].
    intros; eapply add_named_exact; eauto.
  - destruct (linear_constraint_cases p lin s rhs name) as [[e E']|(nm & Hn & _ & [[e E']|(c & le & _ & _ & E')])]; rewrite E' in E; try discriminate.
    injection E as <-. destruct H as [H1 H2 H3]; constructor; simpl; auto.
    rewrite map_app. simpl. rewrite <- map_len_lc. now apply index_exact_snoc.
  - destruct (quadratic_constraint_cases p lin quad s rhs name) as [[e E']|(nm & Hn & _ & [[e E']|(c & le & qe & _ & _ & _ & E')])]; rewrite E' in E; try discriminate.
    injection E as <-. destruct H as [H1 H2 H3]; constructor; simpl; auto.
    rewrite map_app. simpl. rewrite <- (map_length qc_name). now apply index_exact_snoc.
  - destruct (remove_linear_cases p k) as [[e E']|(i & _ & E')]; rewrite E' in E; try discriminate. injection E as <-.
    destruct H as [H1 H2 H3]; constructor; simpl; auto.
    apply reindex_exact. rewrite delete_at_map. apply delete_at_nodup. eapply index_finds_nodup; eapply index_exact_finds; eauto.
  - destruct (remove_quadratic_cases p k) as [[e E']|(i & _ & E')]; rewrite E' in E; try discriminate. injection E as <-.
    destruct H as [H1 H2 H3]; constructor; simpl; auto.
    apply reindex_exact. rewrite delete_at_map. apply delete_at_nodup. eapply index_finds_nodup; eapply index_exact_finds; eauto.
  - injection E as <-. apply idx_exact_new.
Qed.

Lemma run_inv ops : forall p, idx_inv p -> idx_inv (run p ops).
Proof. induction ops as [|o ops IH]; intros p H; simpl; auto. apply IH. now apply step_inv. Qed.
Lemma run_ok_exact ops : forall p q, idx_exact p -> run_ok p ops = Ok q -> idx_exact q.
Proof.
  induction ops as [|o ops IH]; intros p q H; simpl; [intros [=]; now subst|].
  destruct (step p o) as [p' [[]|e]] eqn:E; [|discriminate]. apply IH. eapply step_exact; eauto.
Qed.
Lemma run_ok_run ops : forall p q, run_ok p ops = Ok q -> run p ops = q.
Proof.
  induction ops as [|o ops IH]; intros p q; simpl; [congruence|].
  destruct (step p o) as [p' [[]|e]] eqn:E; [|discriminate]. simpl. apply IH.
Qed.

(** ** C04: bounds *)
Lemma step_bounds p o : bounds_ok p -> bounds_ok (fst (step p o)).
Proof.
  unfold bounds_ok. intro H.
  assert (forall lb ub ty p nm, bounds_ok p -> bounds_ok (fst (add_named p nm lb ub ty))) as A.
  { clear. unfold bounds_ok. intros lb ub ty p nm H.
    destruct (add_named_cases p nm lb ub ty) as [(e & -> & _)|[(e & -> & Hn & _)|(-> & Hn & Hb)]]; simpl; auto.
    apply Forall_app. split; auto. }
  destruct o; simpl; auto.
  - rewrite drop_out_fst. apply (add_variables_ind bounds_ok); auto.
  - rewrite drop_out_fst. apply (add_variable_ind bounds_ok); auto.
  - destruct (linear_constraint_cases p lin s rhs name) as [[e ->]|(nm & Hn & _ & [[e ->]|(c & le & _ & _ & ->)])]; auto.
  - destruct (quadratic_constraint_cases p lin quad s rhs name) as [[e ->]|(nm & Hn & _ & [[e ->]|(c & le & qe & _ & _ & _ & ->)])]; auto.
  - destruct (remove_linear_cases p k) as [[e ->]|(i & _ & ->)]; auto.
  - destruct (remove_quadratic_cases p k) as [[e ->]|(i & _ & ->)]; auto.
  - destruct (set_objective_cases p s c lin quad) as [[e ->]|(o & _ & ->)]; auto.
  - destruct (on_variable_cases p k (fun v => var_set_lb v lb)) as [[e ->]|(i & v & v' & _ & Hv & E & ->)]; auto. simpl.
    apply Forall_update; auto. unfold var_set_lb in E. destruct (qltb_spec (v_ub v) lb); [discriminate|]. inv_ok. simpl.
    now apply Qcnot_lt_le.
  - destruct (on_variable_cases p k (fun v => var_set_ub v ub)) as [[e ->]|(i & v & v' & _ & Hv & E & ->)]; auto. simpl.
    apply Forall_update; auto. unfold var_set_ub in E. destruct (qltb_spec ub (v_lb v)); [discriminate|]. inv_ok. simpl.
    now apply Qcnot_lt_le.
  - match goal with |- context [on_variable p k ?f] => destruct (on_variable_cases p k f) as [[e ->]|(i & v & v' & _ & Hv & E & ->)] end; auto. simpl.
    apply Forall_update; auto. inv_ok. simpl. rewrite Forall_forall in H. apply H. eapply nth_error_In; eauto.
  - match goal with |- context [on_lincon p k ?f] => destruct (on_lincon_cases p k f) as [[e ->]|(? & ? & ? & _ & _ & _ & ->)] end; auto.
  - match goal with |- context [on_lincon p k ?f] => destruct (on_lincon_cases p k f) as [[e ->]|(? & ? & ? & _ & _ & _ & ->)] end; auto.
  - match goal with |- context [on_lincon p k ?f] => destruct (on_lincon_cases p k f) as [[e ->]|(? & ? & ? & _ & _ & _ & ->)] end; auto.
  - match goal with |- context [on_lincon p k ?f] => destruct (on_lincon_cases p k f) as [[e ->]|(? & ? & ? & _ & _ & _ & ->)] end; auto.
  - match goal with |- context [on_quadcon p k ?f] => destruct (on_quadcon_cases p k f) as [[e ->]|(? & ? & ? & _ & _ & _ & ->)] end; auto.
  - match goal with |- context [on_quadcon p k ?f] => destruct (on_quadcon_cases p k f) as [[e ->]|(? & ? & ? & _ & _ & _ & ->)] end; auto.
  - match goal with |- context [on_quadcon p k ?f] => destruct (on_quadcon_cases p k f) as [[e ->]|(? & ? & ? & _ & _ & _ & ->)] end; auto.
  - match goal with |- context [on_quadcon p k ?f] => destruct (on_quadcon_cases p k f) as [[e ->]|(? & ? & ? & _ & _ & _ & ->)] end; auto.
  - match goal with |- context [on_objective p ?f] => destruct (on_objective_cases p f) as [[e ->]|(o & _ & ->)] end; auto.
  - match goal with |- context [on_objective p ?f] => destruct (on_objective_cases p f) as [[e ->]|(o & _ & ->)] end; auto.
  - match goal with |- context [on_objective p ?f] => destruct (on_objective_cases p f) as [[e ->]|(o & _ & ->)] end; auto.
  - match goal with |- context [on_objective p ?f] => destruct (on_objective_cases p f) as [[e ->]|(o & _ & ->)] end; auto.
Qed.
Lemma run_bounds ops : forall p, bounds_ok p -> bounds_ok (run p ops).
Proof. induction ops as [|o ops IH]; intros p H; simpl; auto. apply IH. now apply step_bounds. Qed.
