(** * Substitution of variables *)
From Verif Require Export IneqFacts SpecMore.
Local Open Scope string_scope.
Local Open Scope list_scope.
Local Open Scope nat_scope.

(** ** Keys *)
Lemma denotes_get p k i v : prog_wf p -> denotes p k i -> get_variable p k = Ok v -> nth_error (p_vars p) i = Some v.
Proof.
  intros W [Hi D] H. unfold get_variable in H. apply (proj2 (del_pos_lookup _ _ _ 0 v)) in H.
  destruct H as (j & Hj & Hv). assert (j = i) as ->; [|exact Hv]. unfold del_pos in Hj. destruct k as [z|s].
  - destruct (py_index (length (p_vars p)) z) eqn:E; [|discriminate]. injection Hj as <-. apply py_index_some in E.
    change (length (p_vars p)) with (num_vars p) in E. lia.
  - destruct W as (W & _). apply W in D. rewrite D in Hj. destruct (i <? length (p_vars p)); [|discriminate]. now injection Hj as <-.
Qed.
Lemma denotes_fun p k i j : prog_wf p -> denotes p k i -> denotes p k j -> i = j.
Proof.
  intros W [Hi D] [Hj D']. destruct k as [z|s]; [lia|]. apply prog_wf_nodup in W. eapply name_inj; eauto.
Qed.
Lemma nth_var p i v : nth_error (p_vars p) i = Some v -> nth_error (var_names p) i = Some (v_name v).
Proof. intro H. unfold var_names. now rewrite nth_error_map, H. Qed.
Lemma name_var p i s : nth_error (var_names p) i = Some s -> exists v, nth_error (p_vars p) i = Some v /\ v_name v = s.
Proof. unfold var_names. rewrite nth_error_map. destruct (nth_error (p_vars p) i) eqn:E; [|discriminate]. intros [= <-]. eauto. Qed.

(** ** The dictionary of replacements *)
Section Dict.
Variables (p : qp) (cs : list (key * Qc)) (vs : list (key * (key * Qc))).
Hypothesis W : prog_wf p.
Hypothesis K : keys_denote p cs vs.

Definition from_const (l : list (key * Qc)) (e : string * (string * Qc)) : Prop :=
  exists k i, In (k, snd (snd e)) l /\ denotes p k i /\ nth_error (var_names p) i = Some (fst e) /\ fst (snd e) = CONST.
Definition from_var (l : list (key * (key * Qc))) (e : string * (string * Qc)) : Prop :=
  exists k j i i', In (k, (j, snd (snd e))) l /\ denotes p k i /\ denotes p j i' /\
    nth_error (var_names p) i = Some (fst e) /\ nth_error (var_names p) i' = Some (fst (snd e)) /\ snd (snd e) <> 0%Qc /\ i <> i'.

Lemma subs_const_all l : forall s s', incl l cs -> foldM (subs_const p) l s = Ok s' -> NoDup (map fst s) ->
  exists t, s' = s ++ t /\ NoDup (map fst s') /\ Forall2 (fun kv e => from_const [kv] e) l t.
Proof using W K.
  induction l as [|[k v] l IH]; intros s s' I H N; cbn [foldM] in H.
  - injection H as <-. exists []. rewrite app_nil_r. auto.
  - apply bind_ok in H. destruct H as (s1 & H1 & H). unfold subs_const in H1. apply bind_ok in H1. destruct H1 as (x & Hx & H1).
    cbn [fst snd] in *. destruct (dhas String.eqb (v_name x) s) eqn:D; [discriminate|]. injection H1 as <-.
    apply (dhas_false _ str_eqb_sp) in D. rewrite (dset_fresh _ str_eqb_sp) in H by exact D.
    assert (NoDup (map fst (s ++ [(v_name x, (CONST, v))]))) as N1 by (rewrite map_app; now apply NoDup_snoc).
    destruct (IH _ _ (fun a Ha => I a (or_intror Ha)) H N1) as (t & -> & N2 & F). exists ((v_name x, (CONST, v)) :: t).
    rewrite <- app_assoc. split; [reflexivity|]. split; [now rewrite <- app_assoc in N2|]. constructor; auto.
    destruct K as [K1 _]. destruct (K1 k v) as [i Hi]; [apply I; now left|]. exists k, i. split; [now left|]. split; auto. split; auto.
    apply nth_var. eapply denotes_get; eauto.
Qed.
Lemma subs_var_all l : forall s s', incl l vs -> foldM (subs_var p) l s = Ok s' -> NoDup (map fst s) ->
  exists t, s' = s ++ t /\ NoDup (map fst s') /\ Forall2 (fun kv e => from_var [kv] e) l t.
Proof using W K.
  induction l as [|[k [j v]] l IH]; intros s s' I H N; cbn [foldM] in H.
  - injection H as <-. exists []. rewrite app_nil_r. auto.
  - apply bind_ok in H. destruct H as (s1 & H1 & H). unfold subs_var in H1. destruct (qeqb_spec v 0); [discriminate|].
    apply bind_ok in H1. destruct H1 as (x & Hx & H1). apply bind_ok in H1. destruct H1 as (y & Hy & H1).
    cbn [fst snd] in *. destruct (str_eqb_sp (v_name x) (v_name y)) as [|Ne]; [discriminate|].
    destruct (dhas String.eqb (v_name x) s) eqn:D; [discriminate|].
    destruct (dhas String.eqb (v_name y) s) eqn:D'; [discriminate|]. injection H1 as <-.
    apply (dhas_false _ str_eqb_sp) in D. rewrite (dset_fresh _ str_eqb_sp) in H by exact D.
    assert (NoDup (map fst (s ++ [(v_name x, (v_name y, v))]))) as N1 by (rewrite map_app; now apply NoDup_snoc).
    destruct (IH _ _ (fun a Ha => I a (or_intror Ha)) H N1) as (t & -> & N2 & F). exists ((v_name x, (v_name y, v)) :: t).
    rewrite <- app_assoc. split; [reflexivity|]. split; [now rewrite <- app_assoc in N2|]. constructor; auto.
    destruct K as [_ K1]. destruct (K1 k j v) as [[i Hi] [i' Hi']]; [apply I; now left|].
    pose proof (denotes_get _ _ _ _ W Hi Hx) as E1. pose proof (denotes_get _ _ _ _ W Hi' Hy) as E2.
    exists k, j, i, i'. split; [now left|]. split; auto. split; auto. split; [now apply nth_var|]. split; [now apply nth_var|].
    split; auto. intros ->. congruence.
Qed.

Variable subs : subs_t.
Hypothesis H : subs_dict p cs vs = Ok subs.
Lemma subs_dict_inv : NoDup (map fst subs) /\
  (forall k v i s, In (k, v) cs -> denotes p k i -> nth_error (var_names p) i = Some s -> In (s, (CONST, v)) subs) /\
  (forall k j v i i' s s', In (k, (j, v)) vs -> denotes p k i -> denotes p j i' ->
     nth_error (var_names p) i = Some s -> nth_error (var_names p) i' = Some s' -> In (s, (s', v)) subs) /\
  (forall e, In e subs -> from_const cs e \/ from_var vs e).
Proof using W K H.
  pose proof H as E. unfold subs_dict in E. apply bind_ok in E. destruct E as (s0 & E0 & E).
  apply subs_const_all in E0; [|apply incl_refl|constructor]. destruct E0 as (t0 & E0 & N0 & F0). cbn [app] in E0. subst t0.
  apply subs_var_all in E; [|apply incl_refl|assumption]. destruct E as (t1 & -> & N1 & F1).
  split; auto. split; [|split].
  - intros k v i s Hin D Hs. destruct (Forall2_in_l _ _ _ _ F0 Hin) as ([s2 [c2 v2]] & Hb & k2 & i2 & Hk & D2 & Hn & Hc).
    cbn [fst snd] in *. destruct Hk as [[= -> ->]|[]]. pose proof (denotes_fun _ _ _ _ W D D2) as <-.
    apply in_or_app. left. rewrite Hs in Hn. injection Hn as ->. rewrite <- Hc. exact Hb.
  - intros k j v i i' s s' Hin D D' Hs Hs'. destruct (Forall2_in_l _ _ _ _ F1 Hin) as ([s2 [c2 v2]] & Hb & k2 & j2 & i2 & i2' & Hk & D2 & D2' & Hn & Hn' & _).
    cbn [fst snd] in *. destruct Hk as [[= -> -> ->]|[]]. pose proof (denotes_fun _ _ _ _ W D D2) as <-. pose proof (denotes_fun _ _ _ _ W D' D2') as <-.
    apply in_or_app. right. rewrite Hs in Hn. injection Hn as ->. rewrite Hs' in Hn'. injection Hn' as ->. exact Hb.
  - intros e He. apply in_app_or in He. destruct He as [He|He].
    + left. destruct (Forall2_in_r _ _ _ _ F0 He) as (kv & Hin & k & i & Hk & R). exists k, i. split; auto. destruct Hk as [<-|[]]; auto.
    + right. destruct (Forall2_in_r _ _ _ _ F1 He) as (kv & Hin & k & j & i & i' & Hk & R). exists k, j, i, i'. split; auto. destruct Hk as [<-|[]]; auto.
Qed.
End Dict.

(** ** Small facts *)
Lemma fsum_sum l : fsum l = sumof (fun a => a) l.
Proof.
  unfold fsum. assert (forall l s, fold_left Qcplus l s = (s + sumof (fun a => a) l)%Qc) as G.
  { intro k. induction k as [|a k IH]; intro s; simpl; [ring|]. rewrite IH. ring. }
  rewrite G. ring.
Qed.
Lemma filter_none {A} (f : A -> bool) l : (forall a, In a l -> f a = false) -> filter f l = [].
Proof. intro H. induction l as [|a l IH]; simpl; auto. rewrite (H a) by now left. apply IH. intros b Hb. apply H. now right. Qed.
Lemma lin_at_nil e x : le_co e = [] -> lin_at e x = 0%Qc.
Proof. intro E. unfold lin_at. apply sumof_zero. intros i _. unfold coef1, dgetq. rewrite E. simpl. ring. Qed.
Lemma quad_at_nil e x : qe_co e = [] -> quad_at e x = 0%Qc.
Proof.
  intro E. unfold quad_at. apply sumof_zero. intros i _. apply sumof_zero. intros j _. unfold coef2, mget, dgetq. rewrite E. simpl. ring.
Qed.

(** The sum of two sparse rows. *)
Lemma dok_add_spec kz a b e : lin_wf a -> lin_wf b -> dok_add kz a b = Ok e ->
  lin_wf e /\ le_dim e = le_dim a /\ le_dim b = le_dim a /\ forall x, length x = le_dim a -> lin_at e x = (lin_at a x + lin_at b x)%Qc.
Proof.
  intros [A1 A2] [B1 B2] H. unfold dok_add in H. destruct (nat_eqb_sp (le_dim a) (le_dim b)) as [D|]; [|discriminate].
  injection H as <-. cbn [le_dim le_co]. set (f := fun co kv => _).
  assert (forall k v co, NoDup (map fst co) -> NoDup (map fst (f co (k, v))) /\
    (forall g, dsum g (f co (k, v)) = dsum g co + v * g k)%Qc /\
    (k < le_dim a -> Forall (fun kv => fst kv < le_dim a) co -> Forall (fun kv => fst kv < le_dim a) (f co (k, v)))) as F.
  { intros k v co N. unfold f. cbn [fst snd]. destruct kz.
    - split; [apply (dset_nodup _ nat_eqb_sp); auto|]. split; [intro g; rewrite (dsum_dset _ nat_eqb_sp); ring|].
      intros Hk F. apply (dset_Forall _ nat_eqb_sp); auto.
    - split; [apply (dok_put_nodup _ nat_eqb_sp); auto|]. split.
      + intro g. unfold dok_put. destruct (qeqb_spec (dgetq Nat.eqb k co + v) 0) as [E|E].
        * rewrite (dsum_drem _ nat_eqb_sp). replace v with (- dgetq Nat.eqb k co)%Qc by (rewrite <- (Qcplus_0_l (- _)), <- E; ring). ring.
        * rewrite (dsum_dset _ nat_eqb_sp). ring.
      + intros Hk F. apply (dok_put_Forall _ nat_eqb_sp); auto. }
  assert (forall l co, Forall (fun kv => fst kv < le_dim a) l -> NoDup (map fst co) -> Forall (fun kv => fst kv < le_dim a) co ->
    NoDup (map fst (fold_left f l co)) /\ Forall (fun kv => fst kv < le_dim a) (fold_left f l co) /\
    forall g, dsum g (fold_left f l co) = (dsum g co + dsum g l)%Qc) as G.
  { induction l as [|[k v] l IH]; intros co Fl N Fc; simpl.
    - split; auto. split; auto. intro g. unfold dsum at 3. simpl. ring.
    - inversion Fl as [|? ? Hk Fl']. subst. destruct (F k v co N) as (N1 & S1 & F1). cbn [fst] in Hk.
      destruct (IH _ Fl' N1 (F1 Hk Fc)) as (N2 & F2 & S2). split; auto. split; auto. intro g. rewrite S2, S1. unfold dsum at 4. simpl.
      fold (dsum g l). ring. }
  rewrite <- D in B2. destruct (G (le_co b) (le_co a) B2 A1 A2) as (N & Fo & Su). split; [split; auto|]. split; auto. split; auto.
  intros x Hx. rewrite !lin_entries_in; cbn [le_co]; auto; rewrite ?Hx; auto.
Qed.
