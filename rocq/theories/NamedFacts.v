(** * Expressions given by names *)
From Verif Require Export WfFacts ExprClose Conv.
Local Open Scope nat_scope.

(** ** Dictionaries built from fresh keys *)
Lemma foldM_put_fresh {K I} (eqb : I -> I -> bool) (sp : forall a b, reflect (a = b) (eqb a b)) (pos : K -> result I)
    (h : K -> I) (d : list (K * Qc)) : forall co,
  (forall k v, In (k, v) d -> pos k = Ok (h k)) -> NoDup (map h (map fst d)) ->
  (forall k, In k (map fst d) -> ~ In (h k) (map fst co)) ->
  foldM (put eqb pos) d co = Ok (co ++ nonzero (map (fun kv => (h (fst kv), snd kv)) d)).
Proof.
  induction d as [|[k v] d IH]; intros co Hp Hn Hf; simpl; [now rewrite app_nil_r|].
  inversion Hn as [|? ? Hn1 Hn2]; subst. simpl in *.
  unfold put at 1. simpl. rewrite (Hp k v) by auto. simpl.
  assert (forall (c : list (I * Qc)) w, ~ In (h k) (map fst c) -> dok_put eqb (h k) w c = c ++ (if negb (qeqb w 0) then [(h k, w)] else [])) as D.
  { intros c w Hc. unfold dok_put. destruct (qeqb w 0); simpl.
    - rewrite app_nil_r. clear -sp Hc. induction c as [|[a b] c IH]; simpl in *; [reflexivity|].
      destruct (sp (h k) a); [subst; tauto|]. rewrite IH; tauto.
    - now apply (dset_fresh eqb sp). }
  rewrite D by (apply Hf; auto). rewrite IH; [| intros; apply (Hp k0 v0); auto|assumption|].
  - rewrite <- app_assoc. f_equal. destruct (negb (qeqb v 0)); reflexivity.
  - intros k' Hk'. simpl. rewrite map_app, in_app_iff. intros [A|A]; [revert A; apply Hf; auto|].
    destruct (negb (qeqb v 0)); simpl in A; [destruct A as [A|[]]|tauto]. apply Hn1. rewrite A. now apply in_map.
Qed.

Lemma dsum_map {K I} (h : K -> I) f (d : list (K * Qc)) : dsum f (map (fun kv => (h (fst kv), snd kv)) d) = dsum (fun k => f (h k)) d.
Proof. unfold dsum. rewrite sumof_map. reflexivity. Qed.
Lemma dsum_nonzero {K} f (d : list (K * Qc)) : dsum f (nonzero d) = dsum f d.
Proof. apply dsum_filter_nz. Qed.

(** ** The value of a name at a point *)
Definition valof (names : list string) (x : list Qc) (s : string) : Qc := dgetq String.eqb s (combine names x).
Definition valof2 (names : list string) (x : list Qc) (st : string * string) : Qc :=
  (valof names x (fst st) * valof names x (snd st))%Qc.

Lemma valof_nth names : forall x i s, NoDup names -> nth_error names i = Some s -> valof names x s = at_ x i.
Proof.
  unfold valof, dgetq. induction names as [|a names IH]; intros x i s Hn H; [destruct i; discriminate|].
  inversion Hn; subst. destruct x as [|b x]; simpl.
  - unfold at_. now destruct i.
  - destruct i as [|i]; simpl in H.
    + injection H as ->. now rewrite String.eqb_refl.
    + destruct (String.eqb_spec s a) as [->|]; [exfalso; apply H2; eapply nth_error_In; eauto|].
      rewrite (IH x i s); auto.
Qed.
Lemma combine_app {A B} (l1 l1' : list A) (l2 l2' : list B) : length l1 = length l2 ->
  combine (l1 ++ l1') (l2 ++ l2') = combine l1 l2 ++ combine l1' l2'.
Proof. revert l2; induction l1 as [|a l1 IH]; intros [|b l2] H; simpl in *; try lia; auto. now rewrite IH by lia. Qed.
Lemma combine_fst {A B} (l1 : list A) (l2 : list B) : length l1 = length l2 -> map fst (combine l1 l2) = l1.
Proof. revert l2; induction l1 as [|a l1 IH]; intros [|b l2] H; simpl in *; try lia; auto. now rewrite IH by lia. Qed.
Lemma dget_app {K V} (eqb : K -> K -> bool) k (d1 d2 : list (K * V)) :
  dget eqb k (d1 ++ d2) = match dget eqb k d1 with Some v => Some v | None => dget eqb k d2 end.
Proof. induction d1 as [|[a b] d1 IH]; simpl; auto. destruct (eqb k a); auto. Qed.
Lemma valof_app_l names x more y s : length names = length x -> In s names ->
  valof (names ++ more) (x ++ y) s = valof names x s.
Proof.
  intros Hl Hs. unfold valof, dgetq. rewrite combine_app by assumption. rewrite dget_app.
  destruct (dget String.eqb s (combine names x)) eqn:E; [reflexivity|].
  apply (dget_none _ str_eqb_sp) in E. rewrite combine_fst in E by assumption. contradiction.
Qed.
Lemma valof_app_r names x more y s : length names = length x -> ~ In s names ->
  valof (names ++ more) (x ++ y) s = valof more y s.
Proof.
  intros Hl Hs. unfold valof, dgetq. rewrite combine_app by assumption. rewrite dget_app.
  destruct (dget String.eqb s (combine names x)) eqn:E; [|reflexivity].
  apply (dget_in _ str_eqb_sp) in E. apply in_combine_l in E. contradiction.
Qed.
Lemma valof_one nm a : valof [nm] [a] nm = a.
Proof. unfold valof, dgetq. simpl. now rewrite String.eqb_refl. Qed.

(** ** Values at longer points *)
Lemma at_app_l x y i : i < length x -> at_ (x ++ y) i = at_ x i.
Proof. intro H. unfold at_. now rewrite app_nth1. Qed.
Lemma lin_at_app e x y : lin_wf e -> le_dim e <= length x -> lin_at e (x ++ y) = lin_at e x.
Proof.
  intros W H. rewrite <- (lin_entries_at e (x ++ y)) by (auto; rewrite app_length; lia). rewrite <- (lin_entries_at e x) by auto.
  apply dsum_ext. intros k v Hin. apply at_app_l. destruct W as [_ W]. rewrite Forall_forall in W. apply W in Hin. simpl in Hin. lia.
Qed.
Lemma quad_at_entries e x : quad_wf e -> qe_dim e <= length x ->
  quad_at e x = dsum (fun ij => (at_ x (fst ij) * at_ x (snd ij))%Qc) (qe_co e).
Proof.
  intros W H. pose proof W as [W1 W2]. rewrite (quad_entries_at _ x (qe_dim e)) by assumption.
  apply (quad_at_n e x (qe_dim e)); auto.
Qed.
Lemma quad_at_app e x y : quad_wf e -> qe_dim e <= length x -> quad_at e (x ++ y) = quad_at e x.
Proof.
  intros W H. rewrite !quad_at_entries by (auto; rewrite ?app_length; lia).
  apply dsum_ext. intros [i j] v Hin. simpl. destruct W as [_ W]. rewrite Forall_forall in W. apply W in Hin. simpl in Hin.
  now rewrite !at_app_l by lia.
Qed.
(** Only entries inside the point matter. *)
Lemma lin_entries_in e x : NoDup (map fst (le_co e)) -> Forall (fun kv => fst kv < length x) (le_co e) ->
  lin_at e x = dsum (at_ x) (le_co e).
Proof.
  intros H1 H2. symmetry. apply (lin_entries_at (mkLin (length x) (le_int e) (le_co e)) x); [split; assumption|simpl; lia].
Qed.
Lemma quad_entries_in e x : NoDup (map fst (qe_co e)) ->
  Forall (fun kv => fst (fst kv) < length x /\ snd (fst kv) < length x) (qe_co e) ->
  quad_at e x = dsum (fun ij => (at_ x (fst ij) * at_ x (snd ij))%Qc) (qe_co e).
Proof. intros H1 H2. rewrite (quad_entries_at _ x (length x)) by assumption. reflexivity. Qed.

(** ** From expressions to named dictionaries *)
Lemma lin_names_inv names e d :
  NoDup names -> lin_wf e -> lin_to_dict_names names e = Ok d ->
  Forall2 (fun kv sv => nth_error names (fst kv) = Some (fst sv) /\ snd sv = snd kv) (le_co e) d.
Proof.
  intros Hn [W _] H. unfold lin_to_dict_names in H.
  assert (Forall (fun kv => fst kv < length names) (le_co e)) as R.
  { revert H. generalize (@nil (string * Qc)). induction (le_co e) as [|[k v] co IH]; intros d0 H; constructor.
    - simpl in *. unfold name_at in H at 1. destruct (nth_error names k) eqn:E; [|discriminate]. apply nth_error_Some. congruence.
    - simpl in H. inv_ok. inversion W; subst. eapply IH; eauto. }
  destruct (lin_names_fold names (le_co e) []) as (d' & E & F); auto.
  rewrite E in H. simpl in H. now injection H as <-.
Qed.
Definition dict_of (names : list string) (f : list Qc -> Qc) (d : list (string * Qc)) : Prop :=
  NoDup (map fst d) /\ (forall s v, In (s, v) d -> In s names) /\
  forall x, length x = length names -> f x = dsum (valof names x) d.
Definition dict_of2 (names : list string) (f : list Qc -> Qc) (d : list ((string * string) * Qc)) : Prop :=
  NoDup (map fst d) /\ (forall s t v, In ((s, t), v) d -> In s names /\ In t names) /\
  forall x, length x = length names -> f x = dsum (valof2 names x) d.

Lemma Forall2_nodup_keys {I K} (R : I -> K -> Prop) (co : list (I * Qc)) (d : list (K * Qc)) :
  (forall i i' s, R i s -> R i' s -> i = i') ->
  Forall2 (fun kv sv => R (fst kv) (fst sv) /\ snd sv = snd kv) co d -> NoDup (map fst co) -> NoDup (map fst d).
Proof.
  intros U F. induction F as [|[k v] [s w] co d [H1 H2] F IH]; simpl; intro N; [constructor|].
  inversion N; subst. constructor; auto. intro Hin. apply H3. simpl in *.
  clear -U H1 Hin F. induction F as [|[k' v'] [s' w'] co d [A B] F IH]; simpl in *; [tauto|].
  destruct Hin as [->|Hin]; [left; eapply U; eauto|right; auto].
Qed.
Lemma Forall2_in_r {A B} (R : A -> B -> Prop) l m b : Forall2 R l m -> In b m -> exists a, In a l /\ R a b.
Proof. induction 1 as [|x y l m H F IH]; simpl; [tauto|]. intros [->|Hb]; [eauto|]. destruct IH as (a & ? & ?); eauto. Qed.
Lemma Forall2_in_l {A B} (R : A -> B -> Prop) l m a : Forall2 R l m -> In a l -> exists b, In b m /\ R a b.
Proof. induction 1 as [|x y l m H F IH]; simpl; [tauto|]. intros [->|Hb]; [eauto|]. destruct IH as (b & ? & ?); eauto. Qed.
Lemma Forall2_dsum {I K} (R : I -> K -> Prop) f g (co : list (I * Qc)) (d : list (K * Qc)) :
  (forall i s, R i s -> f i = g s) ->
  Forall2 (fun kv sv => R (fst kv) (fst sv) /\ snd sv = snd kv) co d -> dsum f co = dsum g d.
Proof.
  intros E F. induction F as [|[k v] [s w] co d [H1 H2] F IH]; [reflexivity|]. simpl in *. subst.
  rewrite !dsum_cons, IH. simpl. now rewrite (E k s H1).
Qed.
Lemma name_inj (names : list string) i i' s : NoDup names -> nth_error names i = Some s -> nth_error names i' = Some s -> i = i'.
Proof.
  intros N H H'. eapply (proj1 (NoDup_nth_error names)); eauto; [apply nth_error_Some; congruence|congruence].
Qed.

Lemma lin_names_dict names e d :
  NoDup names -> lin_wf e -> lin_to_dict_names names e = Ok d ->
  dict_of names (lin_at e) d /\ map snd d = map snd (le_co e).
Proof.
  intros Hn W H. apply lin_names_inv in H; auto. split; [split; [|split]|].
  - eapply (Forall2_nodup_keys (fun i s => nth_error names i = Some s)); eauto; [|apply W]. intros; eapply name_inj; eauto.
  - intros s v Hin. destruct (Forall2_in_r _ _ _ _ H Hin) as (a & _ & A & _). simpl in A. eapply nth_error_In; eauto.
  - intros x Hx. rewrite lin_entries_in; [|apply W|].
    + eapply (Forall2_dsum (fun i s => nth_error names i = Some s)); eauto. simpl. intros i s Hi. symmetry. now apply valof_nth.
    + apply Forall_forall. intros kv Hin. destruct (Forall2_in_l _ _ _ _ H Hin) as (b & _ & A & _). rewrite Hx. apply nth_error_Some. congruence.
  - clear -H. induction H as [|a b l m [A B] F IH]; simpl; congruence.
Qed.

Lemma quad_names_inv names e d :
  NoDup names -> quad_wf e -> quad_to_dict_names names false e = Ok d ->
  Forall2 (fun kv sv => (nth_error names (fst (fst kv)) = Some (fst (fst sv)) /\ nth_error names (snd (fst kv)) = Some (snd (fst sv))) /\ snd sv = snd kv) (qe_co e) d.
Proof.
  intros Hn [W _] H. unfold quad_to_dict_names in H. simpl in H.
  assert (forall co (d0 d' : list ((string * string) * Qc)), NoDup (map fst co) ->
    (forall s t i j, In (i, j) (map fst co) -> nth_error names i = Some s -> nth_error names j = Some t -> ~ In (s, t) (map fst d0)) ->
    foldM (fun d kv => do s <- name_at names (fst (fst kv)); do t <- name_at names (snd (fst kv));
                     Ok (dset str2_eqb (s, t) (snd kv) d)) co d0 = Ok d' ->
    exists d1, d' = d0 ++ d1 /\
    Forall2 (fun kv sv => (nth_error names (fst (fst kv)) = Some (fst (fst sv)) /\ nth_error names (snd (fst kv)) = Some (snd (fst sv))) /\ snd sv = snd kv) co d1) as G.
  { clear -Hn. induction co as [|[[i j] v] co IH]; intros d0 d' N Hf E; simpl in E.
    - injection E as <-. exists []. rewrite app_nil_r. auto.
    - inversion N; subst. simpl in *. unfold name_at in E at 1 2.
      destruct (nth_error names i) as [s|] eqn:Ei; [|discriminate]. destruct (nth_error names j) as [t|] eqn:Ej; [|discriminate].
      cbn [bind] in E. rewrite (dset_fresh _ str2_eqb_sp) in E by (eapply Hf; eauto). apply IH in E; auto.
      + destruct E as (d1 & -> & F). eexists. rewrite <- app_assoc. split; [reflexivity|]. constructor; auto.
      + intros s' t' i' j' Hin Hs Ht Hc. rewrite map_app, in_app_iff in Hc. destruct Hc as [Hc|[Hc|[]]]; [eapply Hf; eauto|].
        simpl in Hc. injection Hc as <- <-. rewrite (name_inj names i i' _ Hn Ei Hs), (name_inj names j j' _ Hn Ej Ht) in H1. contradiction. }
  destruct (G (qe_co e) [] d W) as (d1 & -> & F); auto.
Qed.
Lemma quad_names_dict names e d :
  NoDup names -> quad_wf e -> quad_to_dict_names names false e = Ok d ->
  dict_of2 names (quad_at e) d /\ map snd d = map snd (qe_co e).
Proof.
  intros Hn W H. apply quad_names_inv in H; auto.
  set (R := fun (ij : nat * nat) (st : string * string) => nth_error names (fst ij) = Some (fst st) /\ nth_error names (snd ij) = Some (snd st)).
  change (Forall2 (fun kv sv => R (fst kv) (fst sv) /\ snd sv = snd kv) (qe_co e) d) in H. split; [split; [|split]|].
  - eapply (Forall2_nodup_keys R); eauto; [|apply W]. intros [i j] [i' j'] [s t] [A B] [A' B']. simpl in *.
    f_equal; eapply name_inj; eauto.
  - intros s t v Hin. destruct (Forall2_in_r _ _ _ _ H Hin) as (a & _ & [A B] & _). simpl in *. split; eapply nth_error_In; eauto.
  - intros x Hx. rewrite quad_entries_in; [|apply W|].
    + eapply (Forall2_dsum R); eauto. intros [i j] [s t] [A B]. unfold valof2. simpl in *.
      now rewrite (valof_nth names x i s), (valof_nth names x j t).
    + apply Forall_forall. intros kv Hin. destruct (Forall2_in_l _ _ _ _ H Hin) as (b & _ & [A B] & _). rewrite Hx.
      split; apply nth_error_Some; congruence.
  - clear -H. induction H as [|a b l m [A B] F IH]; simpl; congruence.
Qed.

(** ** From named dictionaries to expressions *)
Definition npos (env : venv) (k : key) : nat :=
  match k with KI z => Z.to_nat z | KS s => match dget String.eqb s (ve_idx env) with Some i => i | None => 0 end end.
Arguments npos : simpl never.
Section Make.
Variables (env : venv) (names : list string).
Hypothesis Hx : index_exact names (ve_idx env).
Hypothesis Hl : length names = ve_n env.

Lemma exact_nodup : NoDup names.
Proof using Hx. eapply index_finds_nodup, index_exact_finds, Hx. Qed.
Lemma named_pos s i : key_pos1 env (ve_n env) (KS s) = Ok i -> npos env (KS s) = i /\ nth_error names i = Some s.
Proof using Hx Hl.
  intro H. pose proof H as H'. apply (key_pos1_spec names) in H; auto. destruct H as [H1 H2]. split; auto.
  unfold npos. apply Hx in H2. now rewrite H2.
Qed.
Lemma lin_make_entries d e : NoDup (map fst d) -> lin_make env (lcoef_or_empty (by_name d)) = Ok e ->
  e = mkLin (ve_n env) false (nonzero (map (fun kv => (npos env (KS (fst kv)), snd kv)) d)) /\
  forall s v, In (s, v) d -> nth_error names (npos env (KS s)) = Some s.
Proof using Hx Hl.
  intros N. unfold by_name. simpl. rewrite lin_put_fold. intro H. inv_ok.
  assert (forall s v, In (s, v) d -> key_pos1 env (ve_n env) (KS s) = Ok (npos env (KS s)) /\ nth_error names (npos env (KS s)) = Some s) as P.
  { intros s v Hin. destruct (foldM_put_legal _ _ _ _ _ H (KS s) v) as [i Hi].
    { apply in_map_iff. exists (s, v). auto. }
    destruct (named_pos s i Hi) as [-> ?]. auto. }
  split; [|intros s v Hin; eapply P; eauto].
  rewrite (foldM_put_fresh _ nat_eqb_sp _ (npos env)) in H.
  - injection H as <-. simpl. rewrite map_map. reflexivity.
  - intros k v Hin. apply in_map_iff in Hin. destruct Hin as ([s w] & E & Hin). injection E as <- <-. eapply P; eauto.
  - rewrite !map_map. cbn [fst]. rewrite <- (map_map fst (fun s => npos env (KS s))).
    apply NoDup_nth_error. rewrite map_length. intros i j Hi E. rewrite !(nth_error_map (fun s => npos env (KS s))) in E.
    destruct (nth_error (map fst d) i) as [s|] eqn:Es; [|apply nth_error_None in Es; lia]. simpl in E.
    destruct (nth_error (map fst d) j) as [t|] eqn:Et; [|discriminate]. simpl in E. injection E as E.
    assert (forall s i, nth_error (map fst d) i = Some s -> nth_error names (npos env (KS s)) = Some s) as Q.
    { intros s' i' H'. apply nth_error_In, in_map_iff in H'. destruct H' as ([a b] & <- & Hin). eapply P; eauto. }
    pose proof (Q _ _ Es) as Q1. pose proof (Q _ _ Et) as Q2. rewrite E, Q2 in Q1. injection Q1 as ->.
    eapply (proj1 (NoDup_nth_error (map fst d))); eauto. congruence.
  - auto.
Qed.
Lemma lin_make_named d e : NoDup (map fst d) -> lin_make env (lcoef_or_empty (by_name d)) = Ok e ->
  lin_wf e /\ le_dim e = ve_n env /\ dict_of names (lin_at e) d /\
  forall P : Qc -> Prop, Forall (fun kv => P (snd kv)) d -> Forall (fun kv => P (snd kv)) (le_co e).
Proof using Hx Hl.
  intros N H. pose proof H as H'. apply lin_make_entries in H'; auto. destruct H' as [E P].
  assert (lin_wf e) as W by (eapply lin_make_wf; eauto; exact I). split; auto.
  split; [now subst e|]. split; [split; [|split]|]; auto.
  - intros s v Hin. eapply nth_error_In. eapply P. eauto.
  - intros x Lx. rewrite <- (lin_entries_at e x) by (auto; subst e; simpl; lia). subst e. simpl.
    rewrite dsum_nonzero, (dsum_map (fun s => npos env (KS s))). apply dsum_ext. intros s v Hin. symmetry.
    apply valof_nth; [apply exact_nodup|eapply P; eauto].
  - intros Q F. subst e. simpl. apply nonzero_Forall. rewrite Forall_forall in *. intros kv Hin.
    apply in_map_iff in Hin. destruct Hin as (a & <- & Hin). simpl. auto.
Qed.
Lemma quad_make_named d e : NoDup (map fst d) -> quad_make env (qcoef_or_empty (by_name2 d)) = Ok e ->
  quad_wf e /\ qe_dim e = ve_n env /\ dict_of2 names (quad_at e) d.
Proof using Hx Hl.
  intros N H. pose proof H as W. apply quad_make_spec in W. destruct W as (W & _ & _ & D & _ & F). simpl in D.
  split; auto. split; auto.
  unfold by_name2 in H. simpl in H. rewrite quad_put_fold in H. inv_ok.
  set (h := fun k : key * key => (npos env (fst k), npos env (snd k))).
  assert (forall s t v, In ((s, t), v) d -> key_pos2 env (ve_n env) (KS s, KS t) = Ok (h (KS s, KS t)) /\
     nth_error names (npos env (KS s)) = Some s /\ nth_error names (npos env (KS t)) = Some t) as P.
  { intros s t v Hin. destruct (foldM_put_legal _ _ _ _ _ H (KS s, KS t) v) as [[i j] Hi].
    { apply in_map_iff. exists ((s, t), v). auto. }
    assert (key_pos1 env (ve_n env) (KS s) = Ok i /\ key_pos1 env (ve_n env) (KS t) = Ok j) as [A B].
    { apply (key_pos2_spec names) in Hi; auto. destruct Hi as [A B]. split; apply (key_pos1_spec names); auto. }
    destruct (named_pos _ _ A) as [A1 A2], (named_pos _ _ B) as [B1 B2]. unfold h. simpl fst; simpl snd. rewrite A1, B1. auto. }
  rewrite (foldM_put_fresh _ nat2_eqb_sp _ h) in H.
  - injection H as <-. simpl in *. split; [assumption|]. split.
    { intros s t v Hin. destruct (P s t v Hin) as (_ & A & B). split; eapply nth_error_In; eauto. }
    intros y Ly. rewrite (quad_at_n _ y (ve_n env)) by (auto; simpl; lia).
    unfold coef2. simpl. pose proof (triangle_form (ve_n env) (nonzero (map (fun kv => (h (fst kv), snd kv))
        (map (fun kv => (KS (fst (fst kv)), KS (snd (fst kv)), snd kv)) d))) y) as T. unfold form_at in T. rewrite T. clear T.
    rewrite <- quad_entries_at.
    + rewrite dsum_nonzero, (dsum_map h), (dsum_map (fun st : string * string => (KS (fst st), KS (snd st)))).
      apply dsum_ext. intros [s t] v Hin. destruct (P s t v Hin) as (_ & A & B). unfold valof2, h. simpl fst; simpl snd.
      rewrite (valof_nth names y _ s exact_nodup A), (valof_nth names y _ t exact_nodup B). reflexivity.
    + apply nonzero_nodup. rewrite !map_map. simpl.
      apply NoDup_nth_error. rewrite map_length. intros i j Hi E. rewrite !nth_error_map in E.
      destruct (nth_error d i) as [[[s t] v]|] eqn:Es; [|apply nth_error_None in Es; lia].
      destruct (nth_error d j) as [[[s' t'] v']|] eqn:Et; [|discriminate]. simpl in E. unfold h in E. cbn [fst snd] in E. injection E as E1 E2.
      destruct (P s t v) as (_ & A & B); [eapply nth_error_In; eauto|]. destruct (P s' t' v') as (_ & A' & B'); [eapply nth_error_In; eauto|].
      rewrite E1, A' in A. rewrite E2, B' in B. injection A as ->. injection B as ->.
      eapply (proj1 (NoDup_nth_error (map fst d))); eauto; [rewrite map_length; lia|]. rewrite !nth_error_map, Es, Et. reflexivity.
    + apply nonzero_Forall. apply Forall_forall. intros kv Hin. rewrite map_map in Hin. apply in_map_iff in Hin.
      destruct Hin as ([[s t] v] & <- & Hin). unfold h; cbn [fst snd]. destruct (P s t v Hin) as (_ & A & B).
      split; rewrite <- Hl; apply nth_error_Some; congruence.
  - intros k v Hin. apply in_map_iff in Hin. destruct Hin as ([[s t] w] & E & Hin). injection E as <- <-. eapply P; eauto.
  - rewrite !map_map. simpl.
    apply NoDup_nth_error. rewrite map_length. intros i j Hi E. rewrite !nth_error_map in E.
    destruct (nth_error d i) as [[[s t] v]|] eqn:Es; [|apply nth_error_None in Es; lia].
    destruct (nth_error d j) as [[[s' t'] v']|] eqn:Et; [|discriminate]. simpl in E. unfold h in E. cbn [fst snd] in E. injection E as E1 E2.
    destruct (P s t v) as (_ & A & B); [eapply nth_error_In; eauto|]. destruct (P s' t' v') as (_ & A' & B'); [eapply nth_error_In; eauto|].
    rewrite E1, A' in A. rewrite E2, B' in B. injection A as ->. injection B as ->.
    eapply (proj1 (NoDup_nth_error (map fst d))); eauto; [rewrite map_length; lia|]. rewrite !nth_error_map, Es, Et. reflexivity.
  - auto.
Qed.
(** Every stored entry stems from an entry of the dictionary, in one of the two orders. *)
Lemma quad_make_sources d e : quad_make env (qcoef_or_empty (by_name2 d)) = Ok e ->
  forall i j w, In ((i, j), w) (qe_co e) -> exists s t v, In ((s, t), v) d /\
    (nth_error names i = Some s /\ nth_error names j = Some t \/ nth_error names j = Some s /\ nth_error names i = Some t).
Proof using Hx Hl.
  intros H i j w Hin. unfold by_name2 in H. simpl in H. rewrite quad_put_fold in H. inv_ok.
  apply dense_in in Hin. destruct Hin as (Hi & Hj & -> & Nz).
  assert (Forall (fun kv : nat * nat * Qc => exists s t v, In ((s, t), v) d /\ nth_error names (fst (fst kv)) = Some s /\ nth_error names (snd (fst kv)) = Some t) x) as F.
  { refine (foldM_put_Forall _ nat2_eqb_sp (key_pos2 env (ve_n env)) _ _ _ _ _ (Forall_nil _) H).
    intros k v [i' j'] Hk P. apply in_map_iff in Hk. destruct Hk as ([[s t] v'] & [= <- <-] & Hk).
    apply (key_pos2_spec names) in P; auto. destruct P as [[_ A] [_ B]]. exists s, t, v'. cbn [fst snd] in *. auto. }
  rewrite Forall_forall in F.
  assert (forall a b, mget x a b <> 0%Qc -> In (a, b) (map fst x)) as G.
  { intros a b N. unfold mget, dgetq in N. destruct (dget nat2_eqb (a, b) x) eqn:E; [|congruence]. apply (dget_in _ nat2_eqb_sp) in E.
    change (a, b) with (fst ((a, b), q)). now apply in_map. }
  assert (mget x i j <> 0%Qc \/ mget x j i <> 0%Qc) as [N|N].
  { destruct (qeqb_spec (mget x i j) 0) as [E1|]; auto. destruct (qeqb_spec (mget x j i) 0) as [E2|]; auto. exfalso. apply Nz.
    cbv beta zeta. rewrite E1. destruct (Nat.ltb_spec j i), (Nat.ltb_spec i j); rewrite ?E2; try ring; lia. }
  - apply G in N. apply in_map_iff in N. destruct N as (kv & E & K). destruct (F kv K) as (s & t & v & A & B & C). rewrite E in B, C. exists s, t, v. auto.
  - apply G in N. apply in_map_iff in N. destruct N as (kv & E & K). destruct (F kv K) as (s & t & v & A & B & C). rewrite E in B, C. exists s, t, v. auto.
Qed.
End Make.

(** ** API calls with named arguments *)
Definition add_var (p : qp) (v : variable) : qp :=
  set_vars (p_vars p ++ [v]) (set_vidx (dset String.eqb (v_name v) (num_vars p) (p_vidx p)) p).
Lemma add_variable_inv p lb ub ty s q : ok_state (add_variable p lb ub ty (Some s)) = Ok q ->
  q = add_var p (mkVar s lb ub ty) /\ ~ In s (map fst (p_vidx p)) /\ (lb <= ub)%Qc.
Proof.
  unfold add_variable, add_variables. change (1 <? 1)%Z with false. change (contains "{{}}" "") with false.
  change (1 <? count_slots "") with false. cbv iota. change (Z.to_nat 1) with 1. cbn [add_count].
  rewrite find_name_noslot by reflexivity. rewrite string_app_nil_r.
  destruct (dhas String.eqb s (p_vidx p)) eqn:Eh; [discriminate|].
  destruct (add_named_cases p s lb ub ty) as [(e & E & D)|[(e & E & _ & D)|(E & A & B)]]; rewrite E; [discriminate|discriminate|].
  simpl. intros [=]; subst. split; auto.
Qed.
Definition copyv (v : variable) : variable :=
  match v_type v with BINARY => mkVar (v_name v) 0 1 BINARY | _ => v end.
Lemma copy_var_inv p v q : copy_var p v = Ok q ->
  q = add_var p (copyv v) /\ ~ In (v_name v) (map fst (p_vidx p)) /\ (v_lb (copyv v) <= v_ub (copyv v))%Qc.
Proof.
  unfold copy_var, copyv, binary_var, integer_var, continuous_var. destruct v as [nm lb ub []]; simpl; intro H;
  apply add_variable_inv in H; tauto.
Qed.
Lemma copyv_name v : v_name (copyv v) = v_name v.
Proof. destruct v as [nm lb ub []]; reflexivity. Qed.
Lemma copyv_type v : v_type (copyv v) = v_type v.
Proof. destruct v as [nm lb ub []]; reflexivity. Qed.
Lemma add_var_exact p v : idx_exact p -> ~ In (v_name v) (map fst (p_vidx p)) -> idx_exact (add_var p v).
Proof.
  intros [H1 H2 H3] Hn. constructor; simpl; auto. unfold add_var. rewrite var_names_snoc. simpl.
  unfold num_vars. rewrite <- (map_length v_name). now apply index_exact_snoc.
Qed.
Lemma add_var_names p v : var_names (add_var p v) = var_names p ++ [v_name v].
Proof. apply var_names_snoc. Qed.
Lemma names_length p : length (var_names p) = num_vars p.
Proof. apply map_length. Qed.

Lemma con_name_given idx n pre s nm : s <> EmptyString -> con_name idx n pre (Some s) = Ok nm -> nm = s /\ ~ In s (map fst idx).
Proof.
  intros Hs H. pose proof (con_name_fresh _ _ _ _ _ H). destruct s; [congruence|]. simpl in H.
  destruct (dhas _ _ _); [discriminate|]. injection H as <-. auto.
Qed.
Definition add_lc (p : qp) (c : lincon) : qp :=
  set_lcs (p_lcs p ++ [c]) (set_lidx (dset String.eqb (lc_name c) (length (p_lcs p)) (p_lidx p)) p).
Definition add_qc (p : qp) (c : quadcon) : qp :=
  set_qcs (p_qcs p ++ [c]) (set_qidx (dset String.eqb (qc_name c) (length (p_qcs p)) (p_qidx p)) p).
Lemma linear_constraint_inv p lin s rhs name q : name <> EmptyString ->
  ok_state (linear_constraint p lin s rhs (Some name)) = Ok q ->
  exists c e, sense_convert s = Ok c /\ lin_make (env_of p) (lcoef_or_empty lin) = Ok e /\
    q = add_lc p (mkLC name e c rhs) /\ ~ In name (map fst (p_lidx p)).
Proof.
  intros Hs H. destruct (linear_constraint_cases p lin s rhs (Some name)) as [[e E]|(nm & A & B & [[e E]|(c & le & E1 & E2 & E)])];
  rewrite E in H; try discriminate. injection H as <-. apply con_name_given in B; auto. destruct B as [-> B].
  exists c, le. auto.
Qed.
Lemma quadratic_constraint_inv p lin quad s rhs name q : name <> EmptyString ->
  ok_state (quadratic_constraint p lin quad s rhs (Some name)) = Ok q ->
  exists c e e2, sense_convert s = Ok c /\ lin_make (env_of p) (lcoef_or_empty lin) = Ok e /\
    quad_make (env_of p) (qcoef_or_empty quad) = Ok e2 /\
    q = add_qc p (mkQC name e e2 c rhs) /\ ~ In name (map fst (p_qidx p)).
Proof.
  intros Hs H. destruct (quadratic_constraint_cases p lin quad s rhs (Some name)) as [[e E]|(nm & A & B & [[e E]|(c & le & qe & E1 & E2 & E3 & E)])];
  rewrite E in H; try discriminate. injection H as <-. apply con_name_given in B; auto. destruct B as [-> B].
  exists c, le, qe. auto.
Qed.
Lemma set_objective_inv p s c lin quad q : ok_state (set_objective p s c lin quad) = Ok q ->
  exists e e2, lin_make (env_of p) (lcoef_or_empty lin) = Ok e /\ quad_make (env_of p) (qcoef_or_empty quad) = Ok e2 /\
    q = set_obj (mkObj c e e2 s) p.
Proof.
  intro H. destruct (set_objective_cases p s c lin quad) as [[e E]|(o & Eo & E)]; rewrite E in H; try discriminate.
  injection H as <-. unfold obj_make in Eo. inv_ok. exists x, x0. auto.
Qed.
Lemma add_lc_exact p c : idx_exact p -> ~ In (lc_name c) (map fst (p_lidx p)) -> idx_exact (add_lc p c).
Proof.
  intros [H1 H2 H3] Hn. constructor; simpl; auto. rewrite map_app. simpl.
  rewrite <- (map_length lc_name). now apply index_exact_snoc.
Qed.
Lemma add_qc_exact p c : idx_exact p -> ~ In (qc_name c) (map fst (p_qidx p)) -> idx_exact (add_qc p c).
Proof.
  intros [H1 H2 H3] Hn. constructor; simpl; auto. rewrite map_app. simpl.
  rewrite <- (map_length qc_name). now apply index_exact_snoc.
Qed.
Lemma set_obj_exact p o : idx_exact p -> idx_exact (set_obj o p).
Proof. intros [H1 H2 H3]. now constructor. Qed.

(** ** Copying all variables *)
Lemma copy_vars_inv l : forall p q, idx_exact p -> foldM copy_var l p = Ok q ->
  idx_exact q /\ p_vars q = p_vars p ++ map copyv l /\ p_lcs q = p_lcs p /\ p_lidx q = p_lidx p /\ p_qcs q = p_qcs p /\
  p_qidx q = p_qidx p /\ p_obj q = p_obj p /\ p_name q = p_name p /\ p_status q = p_status p /\
  Forall (fun v => (v_lb (copyv v) <= v_ub (copyv v))%Qc) l.
Proof.
  induction l as [|v l IH]; intros p q X H; simpl in H.
  - injection H as <-. simpl. rewrite app_nil_r. repeat split; auto; apply X.
  - inv_ok. apply copy_var_inv in H. destruct H as (-> & Hn & Hb).
    apply IH in H0; [|apply add_var_exact; auto; now rewrite copyv_name].
    destruct H0 as (A & B & C & D & E & F & G & H & I & J). simpl in *. rewrite <- app_assoc in B. simpl in B.
    split; [assumption|]. split; [assumption|]. repeat (split; [assumption|]). constructor; auto.
Qed.

(** ** Reading back solutions *)
Lemma solution_dict_ok names x : NoDup names -> length x = length names -> solution_dict names x = Ok (combine names x).
Proof.
  intros N L. unfold solution_dict.
  assert (forall ns xs pre, length xs = length ns -> x = pre ++ xs -> NoDup ns -> forall d, (forall s, In s ns -> ~ In s (map fst d)) ->
     foldM (fun d si => do a <- py_nth x (Z.of_nat (snd si)); Ok (dset String.eqb (fst si) a d))
        (combine ns (seq (length pre) (length ns))) d = Ok (d ++ combine ns xs)) as G.
  { induction ns as [|s ns IH]; intros [|a xs] pre Lx Ex Nn d Hd; simpl in Lx; try lia; simpl; [now rewrite app_nil_r|].
    inversion Nn; subst. unfold py_nth at 1. rewrite py_index_nat by (rewrite app_length; simpl; lia).
    rewrite nth_error_app2 by lia. rewrite Nat.sub_diag. simpl.
    rewrite (dset_fresh _ str_eqb_sp) by (apply Hd; now left).
    specialize (IH xs (pre ++ [a])). rewrite app_length in IH. simpl in IH. rewrite Nat.add_1_r in IH. rewrite IH; auto.
    - now rewrite <- app_assoc.
    - now rewrite <- app_assoc.
    - intros s' Hs. rewrite map_app, in_app_iff. simpl. intros [A|[A|[]]]; [eapply Hd; eauto; now right|]. subst. contradiction. }
  apply (G names x [] L eq_refl N []). auto.
Qed.
Lemma sol_get_ok names x s : In s names -> length x = length names -> sol_get (combine names x) s = Ok (valof names x s).
Proof.
  intros H L. unfold sol_get, valof, dgetq. destruct (dget String.eqb s (combine names x)) eqn:E; [reflexivity|].
  apply (dget_none _ str_eqb_sp) in E. rewrite combine_fst in E by auto. contradiction.
Qed.
Lemma mapM_ext_ok {A B} (f : A -> result B) (g : A -> B) l : (forall a, In a l -> f a = Ok (g a)) -> mapM f l = Ok (map g l).
Proof.
  induction l as [|a l IH]; simpl; intro H; [reflexivity|]. rewrite H by auto. simpl. rewrite IH by auto. reflexivity.
Qed.
Lemma map_valof names x : NoDup names -> length x = length names -> map (valof names x) names = x.
Proof.
  intros N L. apply nth_ext with 0%Qc 0%Qc; [now rewrite map_length|]. intros i Hi. rewrite map_length in Hi.
  destruct (nth_error names i) as [s|] eqn:E; [|apply nth_error_None in E; lia].
  assert (nth_error (map (valof names x) names) i = Some (valof names x s)) as F by (now rewrite nth_error_map, E).
  rewrite (nth_error_nth _ _ 0%Qc F). now apply (valof_nth names x i s).
Qed.
