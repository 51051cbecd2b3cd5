(** * Substitution of variables: well-formed substitutions are carried out *)
From Verif Require Export SubstProps.
Local Open Scope string_scope.
Local Open Scope list_scope.
Local Open Scope nat_scope.

Lemma foldM_stuck {A S} (f : S -> A -> result S) l : forall s e, foldM f l s = Err e ->
  exists l1 a l2 s1, l = l1 ++ a :: l2 /\ foldM f l1 s = Ok s1 /\ f s1 a = Err e.
Proof.
  induction l as [|a l IH]; intros s e H; cbn [foldM] in H; [discriminate H|]. destruct (f s a) as [s1|e1] eqn:E; cbn [bind] in H.
  - destruct (IH s1 e H) as (l1 & b & l2 & s2 & -> & H1 & H2). exists (a :: l1), b, l2, s2. split; auto. split; auto. cbn [foldM]. now rewrite E.
  - injection H as ->. exists [], a, l, s. auto.
Qed.

Lemma ok_ex {A} (r : result A) : is_ok r = true -> exists a, r = Ok a.
Proof. destruct r; [eauto|discriminate]. Qed.

(** ** The dictionary *)
Section Dict.
Variables (p : qp) (cs : list (key * Qc)) (vs : list (key * (key * Qc))).
Hypothesis W : prog_wf p.
Hypothesis K : keys_denote p cs vs.
Hypothesis N1 : ~ given_twice p cs vs.
Hypothesis N2 : ~ by_zero vs.
Hypothesis N3 : ~ by_itself p vs.
Hypothesis N4 : ~ by_replaced_before p cs vs.

Lemma not_twice l1 k l2 k' l3 i : map fst cs ++ map fst vs = l1 ++ k :: l2 ++ k' :: l3 -> denotes p k i -> denotes p k' i -> False.
Proof using N1.
  intros E D D'. apply N1. exists (length l1), (length l1 + S (length l2)), k, k', i. rewrite E. split; [lia|]. split; [|split; auto].
  - rewrite nth_error_app2 by lia. now rewrite Nat.sub_diag.
  - rewrite nth_error_app2 by lia. replace (_ - _) with (S (length l2)) by lia. cbn. rewrite nth_error_app2 by lia. now rewrite Nat.sub_diag.
Qed.
Lemma const_names l t s : Forall2 (fun kv e => from_const p [kv] e) l t -> In s (map fst t) ->
  exists k i, In k (map fst l) /\ denotes p k i /\ nth_error (var_names p) i = Some s.
Proof using.
  clear. intros F Hin. apply in_map_iff in Hin. destruct Hin as (e & <- & He). destruct (Forall2_in_r _ _ _ _ F He) as ([k v] & Hk & k' & i & [E|[]] & D & Hn & _).
  injection E as <- _. exists k, i. split; auto. apply (in_map fst _ _ Hk).
Qed.
Lemma var_names_of l t s : Forall2 (fun kv e => from_var p [kv] e) l t -> In s (map fst t) ->
  exists k i, In k (map fst l) /\ denotes p k i /\ nth_error (var_names p) i = Some s.
Proof using.
  clear. intros F Hin. apply in_map_iff in Hin. destruct Hin as (e & <- & He). destruct (Forall2_in_r _ _ _ _ F He) as ([k [j v]] & Hk & k' & j' & i & i' & [E|[]] & D & _ & Hn & _).
  injection E as <- _ _. exists k, i. split; auto. apply (in_map fst _ _ Hk).
Qed.
Lemma subs_dict_total : exists subs, subs_dict p cs vs = Ok subs.
Proof using W K N1 N2 N3 N4.
  pose proof (prog_wf_nodup _ W) as ND. unfold subs_dict.
  destruct (foldM (subs_const p) cs []) as [s0|e] eqn:E0; cbn [bind].
  2: { exfalso. apply foldM_stuck in E0. destruct E0 as (l1 & [k v] & l2 & s1 & E & E1 & E2). pose proof K as [K1 _].
    destruct (K1 k v) as [i Di]; [rewrite E; apply in_elt|]. destruct (denotes_has _ _ _ W Di) as (w & Ew & Hw).
    unfold subs_const in E2. cbn [fst snd] in E2. rewrite Ew in E2. cbn [bind] in E2. destruct (dhas String.eqb (v_name w) s1) eqn:Eh; [|discriminate E2].
    apply (subs_const_all p cs vs W K) in E1; [|rewrite E; apply incl_appl, incl_refl|constructor]. destruct E1 as (t & Et & _ & F). cbn [app] in Et. subst t.
    apply (dhas_in _ str_eqb_sp) in Eh. destruct (const_names _ _ _ F Eh) as (k' & i' & Hk & Di' & Hn).
    pose proof (name_inj _ _ _ _ ND Hn (nth_var _ _ _ Hw)) as ->. apply in_split in Hk. destruct Hk as (a & b & Hk).
    apply (not_twice a k' b k (map fst l2 ++ map fst vs) i); auto. rewrite E, map_app, Hk. cbn [map fst]. rewrite <- !app_assoc. cbn [app]. rewrite <- ?app_assoc; reflexivity. }
  destruct (foldM (subs_var p) vs s0) as [s|e] eqn:E1; [eauto|]. exfalso.
  apply foldM_stuck in E1. destruct E1 as (l1 & [k [j v]] & l2 & s1 & E & E1 & E2). pose proof K as [_ K2].
  assert (In (k, (j, v)) vs) as Hin by (rewrite E; apply in_elt).
  destruct (K2 k j v Hin) as [[i Di] [i' Di']]. destruct (denotes_has _ _ _ W Di) as (w & Ew & Hw). destruct (denotes_has _ _ _ W Di') as (w' & Ew' & Hw').
  unfold subs_var in E2. rewrite Ew, Ew' in E2. cbn [bind] in E2. destruct (qeqb_spec v 0) as [->|Nz]; [apply N2; exists k, j; exact Hin|].
  apply (subs_const_all p cs vs W K) in E0; [|apply incl_refl|constructor]. destruct E0 as (t & Et & NDt & F). cbn [app] in Et. subst t.
  apply (subs_var_all p cs vs W K) in E1; [|rewrite E; apply incl_appl, incl_refl|exact NDt]. destruct E1 as (t & -> & _ & F').
  destruct (str_eqb_sp (v_name w) (v_name w')) as [En|_].
  { apply N3. exists k, j, v, i. split; auto. split; auto. apply nth_var in Hw, Hw'. rewrite <- En in Hw'. now rewrite (name_inj _ _ _ _ ND Hw Hw'). }
  assert (forall a, In (v_name a) (map fst (s0 ++ t)) -> exists k1 i1, In k1 (map fst cs ++ map fst l1) /\ denotes p k1 i1 /\ nth_error (var_names p) i1 = Some (v_name a)) as Kn.
  { intros a Ha. rewrite map_app in Ha. apply in_app_or in Ha. destruct Ha as [Ha|Ha]; [apply (const_names _ _ _ F) in Ha|apply (var_names_of _ _ _ F') in Ha];
    destruct Ha as (k1 & i1 & A & B & C); exists k1, i1; split; auto; apply in_or_app; auto. }
  destruct (dhas String.eqb (v_name w) (s0 ++ t)) eqn:Eh.
  { apply (dhas_in _ str_eqb_sp) in Eh. destruct (Kn _ Eh) as (k1 & i1 & Hk & D1 & Hn). pose proof (name_inj _ _ _ _ ND Hn (nth_var _ _ _ Hw)) as ->.
    apply in_split in Hk. destruct Hk as (a & b & Hk). apply (not_twice a k1 b k (map fst l2) i); auto. rewrite E, map_app. cbn [map fst].
    rewrite app_assoc, Hk, <- app_assoc. reflexivity. }
  destruct (dhas String.eqb (v_name w') (s0 ++ t)) eqn:Eh'; [|discriminate E2].
  apply (dhas_in _ str_eqb_sp) in Eh'. destruct (Kn _ Eh') as (k1 & i1 & Hk & D1 & Hn). pose proof (name_inj _ _ _ _ ND Hn (nth_var _ _ _ Hw')) as ->.
  apply N4. exists (length l1), k, j, v, i'. split; [rewrite E, nth_error_app2, Nat.sub_diag; auto|]. split; auto.
  rewrite E, firstn_app, Nat.sub_diag, firstn_all, app_nil_r.
  apply in_app_or in Hk. destruct Hk as [Hk|Hk]; [left|right]; apply in_map_iff in Hk.
  - destruct Hk as ([k2 v2] & <- & Hk). exists k2, v2. auto.
  - destruct Hk as ([k2 [j2 v2]] & <- & Hk). exists k2, j2, v2. auto.
Qed.
End Dict.

(** ** Variables *)
Lemma exact_fresh p s : idx_exact p -> ~ In s (var_names p) -> ~ In s (map fst (p_vidx p)).
Proof.
  intros X N Hin. apply N. destruct (dget String.eqb s (p_vidx p)) as [i|] eqn:E; [|apply (dget_none _ str_eqb_sp) in E; contradiction].
  apply (ie_v _ X) in E. eapply nth_error_In; eauto.
Qed.
Lemma sub_copy_total subs l : forall p, idx_exact p -> NoDup (var_names p ++ map v_name l) -> Forall (fun v => (v_lb v <= v_ub v)%Qc) l ->
  exists q, foldM (sub_copy subs) l p = Ok q.
Proof.
  induction l as [|v l IH]; intros p X N B; cbn [foldM]; [eauto|]. inversion B as [|? ? Bv Bl]; subst. unfold sub_copy at 1.
  cbn [map] in N. pose proof (NoDup_remove _ _ _ N) as [N1 N2].
  destruct (dhas String.eqb (v_name v) subs); cbn [bind]; [now apply IH|].
  destruct (add_variable_named p (v_lb v) (v_ub v) (v_type v) (v_name v)) as (q & E & _); auto.
  { apply exact_fresh; auto. intro Hin. apply N2, in_or_app. now left. }
  assert (ok_state (add_variable p (v_lb v) (v_ub v) (v_type v) (Some (v_name v))) = Ok q) as Eq by (rewrite E; reflexivity).
  rewrite Eq. cbn [bind]. apply add_variable_inv in Eq. destruct Eq as (-> & F & _). apply IH; auto.
  - apply add_var_exact; auto.
  - rewrite add_var_names. cbn [v_name]. rewrite <- app_assoc. exact N.
Qed.
Lemma fits_range v a : finite a -> fits v a -> in_range v a.
Proof. intros F [A B]. apply finite_iff in F. split; [destruct A|destruct B]; qlra. Qed.
Lemma tighten_total vi v vj a : in_range vj a -> in_range vi (v * a)%Qc -> finite a -> finite (v * a)%Qc -> v <> 0%Qc ->
  exists w, tighten vi v vj = Ok w /\ in_range w a.
Proof.
  intros [J1 J2] [I1 I2] Fa Fv Nz. apply finite_iff in Fa, Fv.
  assert (if qltb 0 v then (scale_bound (v_lb vi) v <= a)%Qc /\ (a <= scale_bound (v_ub vi) v)%Qc
          else (scale_bound (v_ub vi) v <= a)%Qc /\ (a <= scale_bound (v_lb vi) v)%Qc) as S.
  { unfold scale_bound. destruct (qltb_spec 0 v) as [P|P].
    - split.
      + destruct (qltb_spec (qabs (v_lb vi)) INFINITY) as [F|F]; [now apply div_le_pos|]. destruct (not_finite _ F); qlra.
      + destruct (qltb_spec (qabs (v_ub vi)) INFINITY) as [F|F]; [now apply div_ge_pos|]. destruct (not_finite _ F); qlra.
    - assert (v < 0)%Qc as P' by (apply Qcnot_lt_le in P; destruct (Qcle_lt_or_eq _ _ P); [auto|congruence]). split.
      + destruct (qltb_spec (qabs (v_ub vi)) INFINITY) as [F|F]; [now apply div_le_neg|]. destruct (not_finite _ F); qlra.
      + destruct (qltb_spec (qabs (v_lb vi)) INFINITY) as [F|F]; [now apply div_ge_neg|]. destruct (not_finite _ F); qlra. }
  assert (forall l u, (l <= a)%Qc -> (a <= u)%Qc ->
    exists w, (do w <- var_set_lb vj (qmax (v_lb vj) l); var_set_ub w (qmin (v_ub vj) u)) = Ok w /\ in_range w a) as G.
  { intros l u Hl Hu. assert (qmax (v_lb vj) l <= a)%Qc as M by (apply qmax_lub; auto). assert (a <= qmin (v_ub vj) u)%Qc as M' by (apply qmin_glb; auto).
    unfold var_set_lb. destruct (qltb_spec (v_ub vj) (qmax (v_lb vj) l)) as [L|_]; [exfalso; qlra|]. cbn [bind]. unfold var_set_ub. cbn [v_lb v_name v_ub v_type].
    destruct (qltb_spec (qmin (v_ub vj) u) (qmax (v_lb vj) l)) as [L|_]; [exfalso; qlra|]. eexists. split; [reflexivity|]. split; auto. }
  unfold tighten. cbv zeta. destruct (qltb 0 v); destruct S; apply G; auto.
Qed.
Lemma key_pos_named dst s i : idx_exact dst -> nth_error (var_names dst) i = Some s -> key_pos (p_vars dst) (p_vidx dst) (KS s) = Ok i.
Proof.
  intros X H. unfold key_pos, del_pos. pose proof (proj2 (ie_v _ X s i) H) as ->.
  assert (i < length (p_vars dst)) as L by (pose proof (names_length dst) as E; unfold num_vars in E; rewrite <- E; apply nth_error_Some; congruence).
  apply Nat.ltb_lt in L. now rewrite L.
Qed.

Section Whole.
Variables (kz : bool) (p : qp) (subs : subs_t).
Hypothesis W : prog_wf p.
Hypothesis NC : ~ In CONST (var_names p).
Hypothesis SN : NoDup (map fst subs).
Hypothesis SS : forall e, In e subs -> In (fst e) (var_names p).
Hypothesis SZ : forall s s' v, In (s, (s', v)) subs -> s' <> CONST -> v <> 0%Qc.
Hypothesis SV : forall s s' v, In (s, (s', v)) subs -> s' <> CONST -> In s' (kept_names p subs).
Notation red := (reduced p subs).

Lemma named_get s : In s (var_names p) -> exists i v, get_variable p (KS s) = Ok v /\ nth_error (p_vars p) i = Some v /\ nth_error (var_names p) i = Some s.
Proof using W.
  intro Hs. apply In_nth_error in Hs. destruct Hs as [i Hi].
  assert (denotes p (KS s) i) as D. { split; [rewrite <- names_length; apply nth_error_Some; congruence|exact Hi]. }
  destruct (denotes_has _ _ _ W D) as (v & E & Hv). exists i, v. auto.
Qed.
Lemma sub_bound_total dst0 x st e : binv dst0 (fst st) -> var_names dst0 = kept_names p subs -> consistent p subs x ->
  Forall2 in_range (p_vars p) x -> Forall finite x -> In e subs -> Forall2 in_range (p_vars (fst st)) (red x) ->
  exists st', sub_bound p st e = Ok st' /\ binv dst0 (fst st') /\ Forall2 in_range (p_vars (fst st')) (red x).
Proof using W SS SZ SV.
  intros B V G R F He Rd. pose proof (prog_wf_nodup _ W) as ND.
  assert (exists st', sub_bound p st e = Ok st' /\ Forall2 in_range (p_vars (fst st')) (red x)) as (st' & E & R').
  { destruct e as [s [s' v]]. unfold sub_bound. destruct (named_get s (SS _ He)) as (i & vi & Ev & Hvi & Hs). cbn [fst] in Ev. rewrite Ev. cbn [bind].
    destruct (str_eqb_sp s' CONST) as [->|Nc]; [eexists; split; [reflexivity|exact Rd]|].
    destruct (qeqb_spec v 0) as [->|Nz]; [exfalso; exact (SZ _ _ _ He Nc eq_refl)|].
    pose proof (SV _ _ _ He Nc) as Hk. pose proof Hk as Hk'. apply In_nth_error in Hk'. destruct Hk' as [j Hj].
    assert (nth_error (var_names (fst st)) j = Some s') as Hj' by (rewrite (bi_names _ _ B), V; exact Hj).
    destruct (name_var _ _ _ Hj') as (vj & Hvj & _).
    destruct G as (GL & _ & G). specialize (G s s' v He). destruct (str_eqb_sp s' CONST) as [|_]; [contradiction|].
    assert (at_ (red x) j = valof (var_names p) x s') as Ej.
    { rewrite <- (reduced_val p subs W x s' Hk). symmetry. apply valof_nth; auto. now apply kept_nodup. }
    assert (forall t, In t (var_names p) -> finite (valof (var_names p) x t)) as Ft.
    { intros t Ht. apply In_nth_error in Ht. destruct Ht as [n Hn]. rewrite (valof_nth _ x n t ND Hn). eapply Forall_forall in F; [exact F|].
      apply nth_In. rewrite GL, <- names_length. apply nth_error_Some. congruence. }
    destruct (tighten_total vi v vj (at_ (red x) j)) as (w & Ew & Rw); auto.
    - apply Forall2_at in Rd. now apply Rd.
    - rewrite Ej, <- G, (valof_nth _ x i s ND Hs). apply Forall2_at in R. now apply R.
    - rewrite Ej. apply Ft. apply kept_iff in Hk. tauto.
    - rewrite Ej, <- G. apply Ft. now apply (SS _ He).
    - unfold on_variable. rewrite (key_pos_named _ _ _ (bi_exact _ _ B) Hj'), Hvj, Ew. cbn. eexists. split; [reflexivity|]. cbn [fst].
      rewrite Forall2_at in *. destruct Rd as [Rl Rd]. cbn. rewrite update_length. split; auto. intros n a. rewrite nth_error_update.
      destruct (Nat.eqb_spec j n) as [<-|]; [|apply Rd]. destruct (_ <? _); [now intros [= <-]|discriminate]. }
  exists st'. split; auto. split; auto. eapply binv_step; eauto.
Qed.
Lemma sub_bounds_total dst0 x l : forall st, binv dst0 (fst st) -> var_names dst0 = kept_names p subs -> consistent p subs x ->
  Forall2 in_range (p_vars p) x -> Forall finite x -> incl l subs -> Forall2 in_range (p_vars (fst st)) (red x) ->
  exists st', foldM (sub_bound p) l st = Ok st'.
Proof using W SS SZ SV.
  induction l as [|e l IH]; intros st B V G R F I Rd; cbn [foldM]; [eauto|].
  destruct (sub_bound_total dst0 x st e) as (st1 & E & B1 & R1); auto. { apply I. now left. }
  rewrite E. cbn [bind]. apply IH; auto. intros a Ha. apply I. now right.
Qed.

(** ** Expressions *)
Lemma lin_names_total e : lin_wf e -> le_dim e <= num_vars p -> exists d, lin_to_dict_names (var_names p) e = Ok d.
Proof using W. intros We L. destruct (lin_names_spec (var_names p) e) as (d & E & _); eauto using prog_wf_nodup. now rewrite names_length. Qed.
Lemma foldM_total {A S} (f : S -> A -> result S) l : (forall s a, In a l -> exists s', f s a = Ok s') -> forall s, exists s', foldM f l s = Ok s'.
Proof using.
  clear. induction l as [|a l IH]; intros H s; cbn [foldM]; [eauto|]. destruct (H s a) as [s1 E]; [now left|]. rewrite E. cbn [bind].
  apply IH. intros. apply H. now right.
Qed.
Lemma quad_names_total e : quad_wf e -> qe_dim e <= num_vars p -> exists d, quad_to_dict_names (var_names p) false e = Ok d.
Proof using.
  clear. intros [_ We] L. unfold quad_to_dict_names. apply foldM_total. intros s [[i j] v] Hin. cbn [quad_entries] in Hin. eapply Forall_forall in We; [|exact Hin].
  cbn [fst snd] in *. rewrite <- names_length in L. destruct (name_at_ok (var_names p) i) as (si & -> & _); [lia|]. destruct (name_at_ok (var_names p) j) as (sj & -> & _); [lia|].
  cbn. eauto.
Qed.
Lemma repl_kept s : In s (var_names p) -> fst (repl subs s) <> CONST -> In (fst (repl subs s)) (kept_names p subs).
Proof using SV.
  intros Hs Nc. unfold repl in *. destruct (dget String.eqb s subs) as [[s' v]|] eqn:E; cbn [fst] in *.
  - apply (dget_in _ str_eqb_sp) in E. eapply SV; eauto.
  - apply (dget_none _ str_eqb_sp) in E. apply kept_iff. auto.
Qed.
Lemma dadd_keys {K} (eqb : K -> K -> bool) (sp : forall a b, reflect (a = b) (eqb a b)) k v d a : In a (map fst (dadd eqb k v d)) -> a = k \/ In a (map fst d).
Proof using. clear -sp. unfold dadd. intro H. now apply (dset_keys _ sp) in H. Qed.
Lemma sub_lin_keys d : (forall s v, In (s, v) d -> In s (var_names p)) -> forall c l, incl (map fst l) (kept_names p subs) ->
  incl (map fst (snd (fold_left (sub_lin_step subs) d (c, l)))) (kept_names p subs).
Proof using SV.
  induction d as [|[s v] d IH]; intros Hd c l I; cbn [fold_left]; auto. unfold sub_lin_step at 2. cbn [fst snd].
  destruct (str_eqb_sp (fst (repl subs s)) CONST) as [|Nc]; apply IH; auto; try (intros; eapply Hd; right; eauto).
  intros a Ha. apply (dadd_keys _ str_eqb_sp) in Ha. destruct Ha as [->|Ha]; auto. apply repl_kept; auto. eapply Hd. now left.
Qed.
Definition keys2 (d : list ((string * string) * Qc)) : Prop := forall s t, In (s, t) (map fst d) -> In s (kept_names p subs) /\ In t (kept_names p subs).
Lemma sub_quad_keys d : (forall s t v, In ((s, t), v) d -> In s (var_names p) /\ In t (var_names p)) -> forall c l q,
  incl (map fst l) (kept_names p subs) -> keys2 q ->
  let st := fold_left (sub_quad_step subs) d (c, l, q) in incl (map fst (snd (fst st))) (kept_names p subs) /\ keys2 (snd st).
Proof using SV.
  cbv zeta. induction d as [|[[s t] v] d IH]; intros Hd c l q I Q; cbn [fold_left]; auto. unfold sub_quad_step at 2 4. cbn [fst snd].
  destruct (Hd s t v) as [Hs Ht]; [now left|]. pose proof (repl_kept s Hs) as Rs. pose proof (repl_kept t Ht) as Rt.
  assert (forall s t v, In ((s, t), v) d -> In s (var_names p) /\ In t (var_names p)) as Hd' by (intros; eapply Hd; right; eauto).
  destruct (str_eqb_sp (fst (repl subs s)) CONST) as [|Ns], (str_eqb_sp (fst (repl subs t)) CONST) as [|Nt]; apply IH; auto.
  - intros a Ha. apply (dadd_keys _ str_eqb_sp) in Ha. destruct Ha as [->|Ha]; auto.
  - intros a Ha. apply (dadd_keys _ str_eqb_sp) in Ha. destruct Ha as [->|Ha]; auto.
  - intros a b Ha. apply (dadd_keys _ str2_eqb_sp) in Ha. destruct Ha as [Ha|Ha]; [injection Ha as -> ->|]; auto.
Qed.
Lemma lin_make_keys dst d : idx_exact dst -> incl (map fst d) (var_names dst) -> exists e, lin_make (env_of dst) (lcoef_or_empty (by_name d)) = Ok e.
Proof using.
  clear. intros X I. destruct (names_exact dst X) as [Hx Hn]. apply ok_ex. unfold by_name. cbn [lcoef_or_empty]. apply (lin_make_dict_ok (var_names dst)); auto.
  intros k v Hin. apply in_map_iff in Hin. destruct Hin as ([s w] & [= <- <-] & Hin). assert (In s (var_names dst)) as Hs by (apply I, (in_map fst _ _ Hin)).
  apply In_nth_error in Hs. destruct Hs as [i Hi]. exists i. split; [|exact Hi]. rewrite <- Hn. apply nth_error_Some. cbn. congruence.
Qed.
Lemma quad_make_keys dst d : idx_exact dst -> (forall s t, In (s, t) (map fst d) -> In s (var_names dst) /\ In t (var_names dst)) ->
  exists e, quad_make (env_of dst) (qcoef_or_empty (by_name2 d)) = Ok e.
Proof using.
  clear. intros X I. destruct (names_exact dst X) as [Hx Hn]. unfold by_name2. cbn [qcoef_or_empty quad_make]. rewrite quad_put_fold.
  match goal with |- exists e, bind (foldM ?f ?l ?s) _ = _ => destruct (foldM_put_ok nat2_eqb (key_pos2 (env_of dst) (ve_n (env_of dst))) l s) as [co E] end.
  - intros [k k'] v Hin. apply in_map_iff in Hin. destruct Hin as ([[s t] w] & [= <- <- <-] & Hin). destruct (I s t) as [Hs Ht]; [apply (in_map fst _ _ Hin)|].
    apply In_nth_error in Hs, Ht. destruct Hs as [i Hi], Ht as [j Hj]. exists (i, j). apply (key_pos2_spec (var_names dst)); auto.
    split; cbn [fst snd]; (split; [rewrite <- Hn; apply nth_error_Some; congruence|assumption]).
  - rewrite E. cbn [bind]. eauto.
Qed.
Lemma sub_lin_total dst e : idx_exact dst -> var_names dst = kept_names p subs -> lin_wf e -> le_dim e <= num_vars p ->
  exists c l, sub_lin p subs dst e = Ok (c, l).
Proof using W SV.
  intros X V We L. destruct (lin_names_total e We L) as [d Ed]. unfold sub_lin. rewrite Ed. cbn [bind]. cbv zeta.
  destruct (lin_names_dict _ _ _ (prog_wf_nodup _ W) We Ed) as [(D1 & D2 & D3) _].
  pose proof (sub_lin_keys d D2 [] [] (fun a (H : In a []) => match H with end)) as I. rewrite <- V in I.
  destruct (lin_make_keys dst _ X I) as [e' ->]. cbn [bind]. eauto.
Qed.
Lemma sub_quad_total dst e : idx_exact dst -> var_names dst = kept_names p subs -> quad_wf e -> qe_dim e <= num_vars p ->
  exists c l q, sub_quad p subs dst e = Ok (c, l, q).
Proof using W SV.
  intros X V We L. destruct (quad_names_total e We L) as [d Ed]. unfold sub_quad. rewrite Ed. cbn [bind].
  destruct (quad_names_dict _ _ _ (prog_wf_nodup _ W) We Ed) as [(D1 & D2 & D3) _].
  destruct (fold_left (sub_quad_step subs) d ([], [], [])) as [[c l] q] eqn:Ef.
  destruct (sub_quad_keys d D2 [] [] [] (fun a (H : In a []) => match H with end) (fun a b (H : In (a, b) []) => match H with end)) as [I1 I2].
  rewrite Ef in I1, I2. cbn [fst snd] in I1, I2. unfold keys2 in I2. rewrite <- V in I1, I2.
  destruct (lin_make_keys dst _ X I1) as [le ->]. cbn [bind]. destruct (quad_make_keys dst _ X I2) as [qe ->]. cbn [bind]. eauto.
Qed.
Lemma dok_add_total a b : le_dim a = le_dim b -> exists e, dok_add kz a b = Ok e.
Proof using. clear. intro E. unfold dok_add. rewrite E, Nat.eqb_refl. eauto. Qed.
Lemma sub_objective_total dst : idx_exact dst -> var_names dst = kept_names p subs ->
  le_dim (o_lin (p_obj p)) <= num_vars p -> qe_dim (o_quad (p_obj p)) <= num_vars p -> exists dst', sub_objective kz p subs dst = Ok dst'.
Proof using W NC SN SV.
  intros X V L Lq. assert (exprs_wf p) as (Wl & Wq & _) by (destruct W as (_ & _ & _ & _ & E & _); exact E).
  unfold sub_objective. cbv zeta. destruct (sub_lin_total dst _ X V Wl L) as (c1 & l1 & E1). rewrite E1. cbn [bind].
  destruct (sub_quad_total dst _ X V Wq Lq) as (c2 & l2 & q2 & E2). rewrite E2. cbn [bind fst snd].
  destruct (sub_lin_spec _ _ W SN SV _ _ _ _ X V Wl E1) as (_ & A2 & _). destruct (sub_quad_spec _ _ W SN SV _ _ _ _ _ X V Wq E2) as (_ & B2 & _).
  destruct (dok_add_total l1 l2) as [l E3]; [congruence|]. rewrite E3. cbn [bind]. unfold set_objective. cbn. eauto.
Qed.

(** ** Constraints *)
Lemma exact_missing names idx s : index_exact names idx -> ~ In s names -> dhas String.eqb s idx = false.
Proof using.
  clear. intros X N. apply (dhas_false _ str_eqb_sp). intro Hin. apply N. destruct (dget String.eqb s idx) as [i|] eqn:E; [|apply (dget_none _ str_eqb_sp) in E; contradiction].
  apply X in E. eapply nth_error_In; eauto.
Qed.
Lemma linear_constraint_total dst e s rhs nm : idx_exact dst -> nm <> EmptyString -> ~ In nm (map lc_name (p_lcs dst)) ->
  ok_state (linear_constraint dst (Some (LSparse e)) (SVal s) rhs (Some nm)) = Ok (add_lc dst (mkLC nm e s rhs)).
Proof using.
  clear. intros X N F. destruct nm as [|ch r]; [congruence|]. unfold linear_constraint, con_name. rewrite (exact_missing _ _ _ (ie_l _ X) F). reflexivity.
Qed.
Lemma quadratic_constraint_total dst e e2 s rhs nm : idx_exact dst -> nm <> EmptyString -> ~ In nm (map qc_name (p_qcs dst)) ->
  exists e2', ok_state (quadratic_constraint dst (Some (LSparse e)) (Some (QSparse e2)) (SVal s) rhs (Some nm)) = Ok (add_qc dst (mkQC nm e e2' s rhs)).
Proof using.
  clear. intros X N F. destruct nm as [|ch r]; [congruence|]. unfold quadratic_constraint, con_name. rewrite (exact_missing _ _ _ (ie_q _ X) F). eexists. reflexivity.
Qed.
Lemma missing_fresh names idx s : index_exact names idx -> ~ In s names -> ~ In s (map fst idx).
Proof using. clear. intros X N. apply (dhas_false _ str_eqb_sp). eapply exact_missing; eauto. Qed.

Lemma sub_lincons_total l : forall st, idx_exact (fst st) -> var_names (fst st) = kept_names p subs ->
  Forall (fun c => lin_wf (lc_lin c) /\ le_dim (lc_lin c) <= num_vars p) l -> Forall (fun c => lc_name c <> EmptyString) l ->
  NoDup (map lc_name (p_lcs (fst st)) ++ map lc_name l) ->
  exists st', foldM (sub_lincon p subs) l st = Ok st' /\ idx_exact (fst st') /\ var_names (fst st') = kept_names p subs /\ p_qcs (fst st') = p_qcs (fst st).
Proof using W SV.
  induction l as [|c l IH]; intros st X V F Nm ND; cbn [foldM]; [eauto 6|]. inversion F as [|? ? [F1 F2] F3]; inversion Nm as [|? ? Nc Nl]; subst.
  unfold sub_lincon at 1. destruct (sub_lin_total (fst st) _ X V F1 F2) as (c1 & l1 & E1). rewrite E1. cbn [bind fst snd].
  cbn [map] in ND. pose proof (NoDup_remove _ _ _ ND) as [ND1 ND2].
  destruct (le_co l1) as [|kv r]; cbn [bind].
  - apply (IH (fst st, _)); auto.
  - rewrite linear_constraint_total; auto. 2: { intro Hin. apply ND2, in_or_app. now left. } cbn [bind].
    match goal with |- exists st', foldM _ _ ?s = _ /\ _ => destruct (IH s) as (st' & E & A & B & C); cbn [fst] in * end; auto.
    + apply add_lc_exact; auto. eapply missing_fresh; [apply X|]. intro Hin. apply ND2, in_or_app. now left.
    + cbn. rewrite map_app. cbn. rewrite <- app_assoc. exact ND.
    + exists st'. auto.
Qed.

Lemma free_name_stuck taken : forall f s e, free_name f taken s = Err e ->
  exists l, length l = f /\ NoDup l /\ incl l taken /\ Forall (fun t => String.length s <= String.length t) l.
Proof using.
  clear. induction f as [|f IH]; intros s e H; cbn [free_name] in H.
  - exists []. split; auto. split; [constructor|]. split; [intros a []|constructor].
  - destruct (str_mem s taken) eqn:E; [|discriminate]. apply IH in H. destruct H as (l & L & N & I & F). exists (s :: l). split; [cbn; congruence|]. split; [|split].
    + constructor; auto. intro Hin. eapply Forall_forall in F; [|exact Hin]. cbn in F. lia.
    + intros a [<-|Ha]; auto. unfold str_mem in E. apply existsb_exists in E. destruct E as (b & Hb & E). destruct (str_eqb_sp s b); [subst; auto|discriminate].
    + constructor; auto. eapply Forall_impl; [|exact F]. cbn. intros; lia.
Qed.
Lemma free_name_total taken s : exists nm, free_name (S (length taken)) taken s = Ok nm.
Proof using.
  clear. destruct (free_name (S (length taken)) taken s) as [nm|e] eqn:E; [eauto|]. apply free_name_stuck in E. destruct E as (l & L & N & I & _).
  pose proof (NoDup_incl_length N I). lia.
Qed.
Lemma free_name_free taken : forall f s nm, free_name f taken s = Ok nm -> ~ In nm taken.
Proof using.
  clear. induction f as [|f IH]; intros s nm H; cbn [free_name] in H; [discriminate|]. destruct (str_mem s taken) eqn:E; [eauto|]. injection H as <-.
  intro Hin. unfold str_mem in E. assert (existsb (String.eqb s) taken = true) as E'; [|congruence]. apply existsb_exists. exists s. split; auto. apply String.eqb_refl.
Qed.

Lemma sub_quadcons_total l : forall st, idx_exact (fst st) -> var_names (fst st) = kept_names p subs ->
  Forall (fun c => (lin_wf (qc_lin c) /\ quad_wf (qc_quad c)) /\ le_dim (qc_lin c) <= num_vars p /\ qe_dim (qc_quad c) <= num_vars p) l ->
  Forall (fun c => qc_name c <> EmptyString) l -> NoDup (map qc_name (p_qcs (fst st)) ++ map qc_name l) ->
  exists st', foldM (sub_quadcon kz p subs) l st = Ok st'.
Proof using W NC SN SV.
  induction l as [|c l IH]; intros st X V F Nm ND; cbn [foldM]; [eauto|]. inversion F as [|? ? [[F1 F2] [F3 F4]] F5]; inversion Nm as [|? ? Nc Nl]; subst.
  unfold sub_quadcon at 1. destruct (sub_lin_total (fst st) _ X V F1 F3) as (c1 & l1 & E1). rewrite E1. cbn [bind fst snd].
  destruct (sub_quad_total (fst st) _ X V F2 F4) as (c2 & l2 & q2 & E2). rewrite E2. cbn [bind fst snd].
  destruct (sub_lin_spec _ _ W SN SV _ _ _ _ X V F1 E1) as (_ & A2 & _). destruct (sub_quad_spec _ _ W SN SV _ _ _ _ _ X V F2 E2) as (_ & B2 & _).
  destruct (dok_add_total l1 l2) as [lin E3]; [congruence|]. rewrite E3. cbn [bind].
  cbn [map] in ND. pose proof (NoDup_remove _ _ _ ND) as [ND1 ND2].
  destruct (qe_co q2) as [|kv r]; [destruct (le_co lin) as [|kv r]|]; cbn [bind].
  - apply (IH (fst st, _)); auto.
  - destruct (free_name_total (map lc_name (p_lcs (fst st))) (qc_name c)) as [nm En]. rewrite En. cbn [bind].
    pose proof (free_name_ok _ _ _ _ Nc En) as Nn. pose proof (free_name_free _ _ _ _ En) as Fn. rewrite linear_constraint_total; auto. cbn [bind].
    apply IH; auto. cbn [fst]. apply add_lc_exact; auto. eapply missing_fresh; [apply X|exact Fn].
  - match goal with |- context [quadratic_constraint ?a (Some (LSparse ?b)) (Some (QSparse ?d)) (SVal ?e) ?g (Some ?h)] =>
      destruct (quadratic_constraint_total a b d e g h X Nc) as [e2' E4] end.
    { intro Hin. apply ND2, in_or_app. now left. }
    rewrite E4. cbn [bind]. apply IH; auto; cbn [fst].
    + apply add_qc_exact; auto. eapply missing_fresh; [apply X|]. intro Hin. apply ND2, in_or_app. now left.
    + cbn. rewrite map_app. cbn. rewrite <- app_assoc. exact ND.
Qed.
End Whole.

Lemma before_replaced p cs vs : by_replaced_before p cs vs -> by_replaced p cs vs.
Proof.
  intros (n & k & j & v & i & E & D & R). exists k, j, v, i. split; [eapply nth_error_In; eauto|]. split; auto.
  destruct R as [R|(k' & j' & v' & Hin & D')]; [now left|right]. exists k', j', v'. split; auto.
  rewrite <- (firstn_skipn n vs). apply in_or_app. now left.
Qed.
(** Once the bounds are settled nothing can go wrong any more. *)
Lemma substitute_rest kz p cs vs subs d0 d1 b1 : prog_wf p -> exprs_small p -> ~ In CONST (var_names p) ->
  subs_dict p cs vs = Ok subs -> NoDup (map fst subs) -> (forall e, In e subs -> In (fst e) (var_names p)) ->
  (forall s s' v, In (s, (s', v)) subs -> s' <> CONST -> In s' (kept_names p subs)) ->
  foldM (sub_copy subs) (p_vars p) (new_qp (p_name p)) = Ok d0 -> foldM (sub_bound p) subs (d0, true) = Ok (d1, b1) ->
  exists q, substitute kz p cs vs = Ok q.
Proof.
  intros W (S1 & S2 & S3 & S4) NC Es SN SS SV E0 E1. pose proof (prog_wf_nodup _ W) as ND.
  unfold substitute. rewrite Es. cbn [bind].
  pose proof W as (Wi1 & Wi2 & Wi3 & Wb & (Wo1 & Wo2 & Wl & Wq) & [Nl Nq]).
  unfold sub_variables. rewrite E0. cbn [bind]. pose proof E0 as C0. apply sub_copy_inv in C0; [|apply idx_exact_new]. destruct C0 as (X0 & V0 & L0 & _ & Q0 & _ & O0 & St0 & B0).
  cbn in V0. fold (kept p subs) in V0, B0. assert (var_names d0 = kept_names p subs) as M0 by (unfold var_names; now rewrite V0).
  assert (binv d0 d0) as I0 by (constructor; auto; unfold bounds_ok; now rewrite V0).
  rewrite E1. cbn [bind fst snd]. destruct (binv_fold p subs W SS d0 subs (d0, true) (d1, b1) I0 (incl_refl _) E1) as [I1 _]. cbn [fst] in I1.
  assert (var_names d1 = kept_names p subs) as M1 by (rewrite (bi_names _ _ I1); exact M0).
  destruct (sub_objective_total kz p subs W NC SN SV d1 (bi_exact _ _ I1) M1 S1 S2) as [d2 E2]. rewrite E2. cbn [bind].
  assert (content_wf d1) as C1.
  { destruct (content_new (p_name p)) as [(C1 & C2 & C3 & C4) [C5 C6]]. destruct I1 as [_ _ _ _ J1 J2 J3 _].
    unfold content_wf, exprs_wf, names_ok. rewrite J1, J2, J3, L0, Q0, O0. exact (conj (conj C1 (conj C2 (conj C3 C4))) (conj C5 C6)). }
  destruct (sub_objective_spec kz p subs W SN SV d1 d2 (bi_exact _ _ I1) M1 C1 E2) as (o & -> & _).
  assert (p_lcs d1 = [] /\ p_qcs d1 = []) as [PL PQ] by (rewrite (bi_lcs _ _ I1), (bi_qcs _ _ I1), L0, Q0; auto).
  match goal with |- context [foldM (sub_lincon p subs) (p_lcs p) ?s] => destruct (sub_lincons_total p subs W SV (p_lcs p) s) as (st1 & E3 & X3 & V3 & Q3) end; cbn [fst]; auto.
  { apply set_obj_exact, I1. }
  { apply Forall_forall. intros c Hc. rewrite Forall_forall in Wl, S3. auto. }
  { change (p_lcs (set_obj o d1)) with (p_lcs d1). rewrite PL. cbn [map app]. eapply index_finds_nodup; eauto. }
  rewrite E3. cbn [bind].
  destruct (sub_quadcons_total kz p subs W NC SN SV (p_qcs p) st1) as [st2 E4]; auto.
  { apply Forall_forall. intros c Hc. rewrite Forall_forall in Wq, S4. auto. }
  { rewrite Q3. cbn [fst]. change (p_qcs (set_obj o d1)) with (p_qcs d1). rewrite PQ. cbn [map app]. eapply index_finds_nodup; eauto. }
  rewrite E4. cbn [bind]. eauto.
Qed.
Lemma substitute_total kz p cs vs x : prog_wf p -> exprs_small p -> ~ In CONST (var_names p) -> keys_denote p cs vs ->
  ~ given_twice p cs vs -> ~ by_zero vs -> ~ by_itself p vs -> ~ by_replaced p cs vs ->
  agrees p cs vs x -> Forall2 fits (p_vars p) x -> Forall finite x -> exists q, substitute kz p cs vs = Ok q.
Proof.
  intros W S NC K N1 N2 N3 N4 A Fi Fn. pose proof (prog_wf_nodup _ W) as ND.
  destruct (subs_dict_total p cs vs W K N1 N2 N3 (fun B => N4 (before_replaced p cs vs B))) as [subs Es]. destruct (subs_dict_inv p cs vs W K subs Es) as (SN & SC & SVr & SF).
  assert (forall e, In e subs -> In (fst e) (var_names p)) as SS by (intros e He; eapply from_name; apply SF; exact He).
  assert (forall s s' v, In (s, (s', v)) subs -> s' <> CONST -> v <> 0%Qc /\ In s' (kept_names p subs)) as SZV.
  { intros s s' v He Nc. destruct (SF _ He) as [(k & i & _ & _ & _ & Hc)|(k & j & i & i' & Hin & Di & Dj & Hn & Hn' & Nz & Ni)]; cbn [fst snd] in *; [contradiction|].
    split; auto. apply kept_iff. split; [eapply nth_error_In; eauto|]. intro Hs. apply N4. exists k, j, v, i'. split; auto. split; auto.
    apply in_map_iff in Hs. destruct Hs as ([s0 [s2 v2]] & Es0 & He2). cbn in Es0. subst s0.
    destruct (SF _ He2) as [(k2 & i2 & Hin2 & Di2 & Hn2 & _)|(k2 & j2 & i2 & i3 & Hin2 & Di2 & _ & Hn2 & _)]; cbn [fst snd] in *;
      pose proof (name_inj _ _ _ _ ND Hn2 Hn') as ->; [left; eauto|right; eauto]. }
  assert (consistent p subs x) as G.
  { destruct A as (AL & A1 & A2). split; auto. split. { intro Hk. elim NC. apply kept_iff in Hk. tauto. }
    intros s s' v He.
    destruct (SF _ He) as [(k & i & Hin & Di & Hn & Hc)|(k & j & i & i' & Hin & Di & Dj & Hn & Hn' & _)]; cbn [fst snd] in *.
    - subst s'. rewrite String.eqb_refl, (valof_nth _ x i s ND Hn). eauto.
    - destruct (str_eqb_sp s' CONST) as [->|_]. { exfalso. apply NC. eapply nth_error_In; eauto. }
      rewrite (valof_nth _ x i s ND Hn), (valof_nth _ x i' s' ND Hn'). eauto. }
  assert (Forall2 in_range (p_vars p) x) as R.
  { rewrite Forall2_at in *. destruct Fi as [L Fi]. split; auto. intros i a Hi. apply fits_range; auto. eapply Forall_forall in Fn; [exact Fn|].
    apply nth_In. rewrite L. apply nth_error_Some. congruence. }
  pose proof W as (Wi1 & Wi2 & Wi3 & Wb & (Wo1 & Wo2 & Wl & Wq) & [Nl Nq]).
  destruct (sub_copy_total subs (p_vars p) (new_qp (p_name p))) as [d0 E0]; auto. { apply idx_exact_new. }
  pose proof E0 as C0. apply sub_copy_inv in C0; [|apply idx_exact_new]. destruct C0 as (X0 & V0 & L0 & _ & Q0 & _ & O0 & St0 & B0).
  cbn in V0. fold (kept p subs) in V0, B0. assert (var_names d0 = kept_names p subs) as M0 by (unfold var_names; now rewrite V0).
  assert (binv d0 d0) as I0 by (constructor; auto; unfold bounds_ok; now rewrite V0).
  destruct (sub_bounds_total p subs W SS (fun s s' v He Nc => proj1 (SZV s s' v He Nc)) (fun s s' v He Nc => proj2 (SZV s s' v He Nc)) d0 x subs (d0, true) I0 M0 G R Fn (incl_refl _))
    as [[d1 b1] E1].
  { cbn [fst]. rewrite V0. rewrite Forall2_at in R |- *. destruct R as [RL R]. split; [apply reduced_length|]. intros i v Hi.
    assert (In v (kept p subs)) as Hin by (eapply nth_error_In; eauto). unfold kept in Hin. apply filter_In in Hin. destruct Hin as [Hin _].
    apply In_nth_error in Hin. destruct Hin as [k Hk].
    assert (at_ (reduced p subs x) i = at_ x k) as ->; [|now apply R]. pose proof (nth_var _ _ _ Hk) as Hk'. rewrite <- (valof_nth _ x k _ ND Hk').
    unfold at_, reduced. apply nth_error_nth. unfold kept_names. now rewrite !nth_error_map, Hi. }
  apply (substitute_rest kz p cs vs subs d0 d1 b1); auto. intros s s' v He Nc. exact (proj2 (SZV s s' v He Nc)).
Qed.
