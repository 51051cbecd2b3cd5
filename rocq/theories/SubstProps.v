(** * Substitution of variables: properties *)
From Verif Require Export SubstFacts4.
Local Open Scope string_scope.
Local Open Scope list_scope.
Local Open Scope nat_scope.

Lemma content_new n : content_wf (new_qp n).
Proof. pose proof (proj1 (prog_wf_split _) (prog_wf_new n)). tauto. Qed.

Section Whole.
Variables (kz : bool) (p : qp) (cs : list (key * Qc)) (vs : list (key * (key * Qc))) (q : qp).
Hypothesis W : prog_wf p.
Hypothesis NC : ~ In CONST (var_names p).
Hypothesis K : keys_denote p cs vs.
Hypothesis H : substitute kz p cs vs = Ok q.

Record subst_data (subs : subs_t) : Prop := {
  sd_nodup : NoDup (map fst subs);
  sd_const : forall k v i s, In (k, v) cs -> denotes p k i -> nth_error (var_names p) i = Some s -> In (s, (CONST, v)) subs;
  sd_var : forall k j v i i' s s', In (k, (j, v)) vs -> denotes p k i -> denotes p j i' ->
     nth_error (var_names p) i = Some s -> nth_error (var_names p) i' = Some s' -> In (s, (s', v)) subs;
  sd_from : forall e, In e subs -> from_const p cs e \/ from_var p vs e;
  sd_kept : forall s s' v, In (s, (s', v)) subs -> s' <> CONST -> In s' (kept_names p subs);
  sd_wf : prog_wf q;
  sd_exact : idx_exact q;
  sd_names : var_names q = kept_names p subs;
  sd_types : map v_type (p_vars q) = map v_type (kept p subs);
  sd_sense : o_sense (p_obj q) = o_sense (p_obj p);
  sd_obj : forall x y, consistent p subs x -> matches p subs x y -> obj_at (p_obj q) y = obj_at (p_obj p) x;
  sd_sat : moderate p cs vs -> (forall s v, In (s, (CONST, v)) subs -> finite v) -> forall x, consistent p subs x -> (p_status q = VALID /\ satisfies q (reduced p subs x)) <-> satisfies p x }.

Lemma from_name e : from_const p cs e \/ from_var p vs e -> In (fst e) (var_names p).
Proof using. clear. intros [(k & i & _ & _ & N & _)|(k & j & i & i' & _ & _ & _ & N & _)]; eapply nth_error_In; eauto. Qed.

Lemma substitute_inv : exists subs, subst_data subs.
Proof using W K H.
  pose proof H as E. unfold substitute in E. apply bind_ok in E. destruct E as (subs & Es & E). apply bind_ok in E. destruct E as ([d1 b1] & Ev & E).
  apply bind_ok in E. destruct E as (d2 & Eo & E). apply bind_ok in E. destruct E as (st1 & El & E). apply bind_ok in E. destruct E as (st2 & Eq & E).
  injection E as E. cbn [fst snd] in *.
  destruct (subs_dict_inv p cs vs W K subs Es) as (SN & SC & SVr & SF).
  assert (forall e, In e subs -> In (fst e) (var_names p)) as SS.
  { intros e He. apply from_name. now apply SF. }
  unfold sub_variables in Ev. apply bind_ok in Ev. destruct Ev as (d0 & Ec & Ev). apply bind_ok in Ev. destruct Ev as ([d1' b1'] & Eb & Ev).
  cbn [fst snd] in Ev. injection Ev as -> Eb1.
  apply sub_copy_inv in Ec; [|apply idx_exact_new]. destruct Ec as (X0 & V0 & L0 & _ & Q0 & _ & O0 & S0 & B0).
  cbn in V0. fold (kept p subs) in V0, B0.
  assert (var_names d0 = kept_names p subs) as N0 by (unfold var_names; now rewrite V0).
  assert (binv d0 d0) as I0 by (constructor; auto; unfold bounds_ok; now rewrite V0).
  destruct (binv_fold p subs W SS d0 subs (d0, true) (d1, b1') I0 (incl_refl _) Eb) as [I1 Kn]. cbn [fst snd] in *.
  assert (forall s s' v, In (s, (s', v)) subs -> s' <> CONST -> In s' (kept_names p subs)) as SV.
  { intros s s' v He N. rewrite <- N0. exact (Kn _ He N). }
  assert (b1 = b1') as ->.
  { rewrite <- Eb1. replace (forallb _ _) with true; [apply andb_true_r|]. symmetry. apply forallb_forall. intros v Hv.
    apply negb_true_iff, qltb_false. pose proof (bi_bounds _ _ I1) as B. unfold bounds_ok in B. eapply Forall_forall in B; eauto. }
  assert (var_names d1 = kept_names p subs) as N1 by (rewrite (bi_names _ _ I1); exact N0).
  assert (content_wf d1) as C1.
  { destruct (content_new (p_name p)) as [(C1 & C2 & C3 & C4) [C5 C6]]. destruct I1 as [_ _ _ _ J1 J2 J3 _].
    unfold content_wf, exprs_wf, names_ok. rewrite J1, J2, J3, L0, Q0, O0. exact (conj (conj C1 (conj C2 (conj C3 C4))) (conj C5 C6)). }
  destruct (sub_objective_spec kz p subs W SN SV d1 d2 (bi_exact _ _ I1) N1 C1 Eo) as (o & -> & Os & C2 & Oa).
  assert (sinv p subs (set_obj o d1) (set_obj o d1, b1') (fun x => b1' = true)) as J0.
  { constructor; auto; cbn [fst snd]. apply set_obj_exact, I1. intros x y _. split; [tauto|]. intro. split; auto.
    unfold cons_hold, lcs_hold, qcs_hold. destruct I1 as [_ _ _ _ J1 J2 J3 _]. cbn. rewrite J1, J2, L0, Q0. cbn. auto. }
  pose proof W as (_ & _ & _ & _ & (_ & _ & Wl & Wq) & [Nl Nq]).
  pose proof (sub_lincons_spec p subs W SN SV (set_obj o d1) (p_lcs p) _ _ _ J0 N1 Wl Nl El) as J1.
  pose proof (sub_quadcons_spec kz p subs W SN SV (set_obj o d1) (p_qcs p) _ _ _ J1 N1 Wq Nq Eq) as J2.
  destruct J2 as [J2x J2v J2o J2s J2w J2h]. cbn in J2v, J2o, J2s.
  assert (p_vars q = p_vars d1 /\ p_lcs q = p_lcs (fst st2) /\ p_qcs q = p_qcs (fst st2) /\ p_obj q = o /\
          p_vidx q = p_vidx (fst st2) /\ p_lidx q = p_lidx (fst st2) /\ p_qidx q = p_qidx (fst st2) /\
          (p_status q = VALID <-> snd st2 = true)) as (QV & QL & QQ & QO & QI & QJ & QK & QS).
  { rewrite <- E. rewrite (bi_status _ _ I1), S0 in J2s. cbn in J2s. destruct (snd st2); cbn; repeat split; auto; intro; discriminate. }
  assert (idx_exact q) as Xq.
  { destruct J2x as [X1 X2 X3]. constructor; rewrite ?QI, ?QJ, ?QK, ?QL, ?QQ; auto. unfold var_names in *. rewrite QV, <- J2v. exact X1. }
  assert (content_wf q) as Cq.
  { destruct J2w as [(D1 & D2 & D3 & D4) [D5 D6]]. unfold content_wf, exprs_wf, names_ok. rewrite QO, QL, QQ. rewrite J2o in D1, D2. exact (conj (conj D1 (conj D2 (conj D3 D4))) (conj D5 D6)). }
  exists subs. constructor; auto.
  - apply prog_wf_split. split; [now apply idx_exact_inv|]. split; auto. unfold bounds_ok. rewrite QV. apply I1.
  - unfold var_names. rewrite QV. exact N1.
  - rewrite QV, (bi_types _ _ I1). now rewrite V0.
  - now rewrite QO.
  - intros x y G M. rewrite QO. now apply (Oa x y).
  - intros (M1 & M2 & M3) MCv x G. rewrite QS. unfold satisfies, lcs_hold, qcs_hold. rewrite QV, QL, QQ.
    assert (forall e, In e subs -> fst (snd e) = CONST -> finite (snd (snd e))) as MC.
    { intros [s [s' v]] He Hc. cbn [fst snd] in *. subst s'. eapply MCv; eauto. }
    assert (forall e i w, In e subs -> fst (snd e) <> CONST -> nth_error (p_vars p) i = Some w -> v_name w = fst e ->
      (finite (v_lb w) -> finite (v_lb w / snd (snd e))) /\ (finite (v_ub w) -> finite (v_ub w / snd (snd e)))) as MD.
    { intros e i w He Hc Hw Hn. destruct (SF e He) as [(k & i' & _ & _ & _ & Hx)|(k & j & i2 & i' & Hin & D1 & D2 & N2 & Hn' & _)]; [contradiction|].
      assert (i2 = i) as ->. { apply nth_var in Hw. rewrite Hn in Hw. eapply name_inj; [exact (prog_wf_nodup _ W)|exact N2|exact Hw]. }
      eapply M3; eauto. }
    pose proof (sub_bounds_fits p subs W SS M1 MC MD SV d0 subs (d0, true) (d1, b1') x I0 N0 (incl_refl _) G Eb) as SB. cbn [fst snd] in SB.
    rewrite V0 in SB. destruct G as [GL G]. pose proof (all_fit p subs W x GL) as AF. specialize (J2h x (reduced p subs x) (conj (conj GL G) (matches_reduced p subs W x))). unfold cons_hold, lcs_hold, qcs_hold in J2h.
    tauto.
Qed.

Lemma consistent_agrees subs : subst_data subs -> forall x, consistent p subs x <-> agrees p cs vs x.
Proof using W NC K.
  intros D x. pose proof (prog_wf_nodup _ W) as ND.
  assert (forall k i, denotes p k i -> exists s, nth_error (var_names p) i = Some s) as Nm.
  { intros k i [Hi _]. rewrite <- names_length in Hi. destruct (nth_error (var_names p) i) eqn:E; eauto. apply nth_error_None in E. lia. }
  split.
  - intros (L & _ & G). split; auto. split.
    + intros k v i Hin Di. destruct (Nm _ _ Di) as [s Hs]. rewrite <- (valof_nth _ x i s ND Hs).
      rewrite (G _ _ _ (sd_const _ D _ _ _ _ Hin Di Hs)). reflexivity.
    + intros k j v i i' Hin Di Di'. destruct (Nm _ _ Di) as [s Hs]. destruct (Nm _ _ Di') as [s' Hs'].
      rewrite <- (valof_nth _ x i s ND Hs), <- (valof_nth _ x i' s' ND Hs').
      rewrite (G _ _ _ (sd_var _ D _ _ _ _ _ _ _ Hin Di Di' Hs Hs')). destruct (str_eqb_sp s' CONST) as [->|]; auto.
      exfalso. apply NC. eapply nth_error_In; eauto.
  - intros (L & A & B). split; auto. split. { intro Hk. elim NC. apply kept_iff in Hk. tauto. }
    intros s s' v He. destruct (sd_from _ D _ He) as [(k & i & Hin & Di & Hn & Hc)|(k & j & i & i' & Hin & Di & Di' & Hn & Hn' & _)];
    cbn [fst snd] in *.
    + subst s'. rewrite String.eqb_refl, (valof_nth _ x i s ND Hn). eauto.
    + destruct (str_eqb_sp s' CONST) as [->|]. { exfalso. apply NC. eapply nth_error_In; eauto. }
      rewrite (valof_nth _ x i s ND Hn), (valof_nth _ x i' s' ND Hn'). eauto.
Qed.
Lemma replaced_iff subs i s : subst_data subs -> nth_error (var_names p) i = Some s -> replaced p cs vs i <-> In s (map fst subs).
Proof using W K.
  intros D Hs. pose proof (prog_wf_nodup _ W) as ND. split.
  - intros [(k & v & Hin & Di)|(k & j & v & Hin & Di)].
    + apply (in_map fst _ _ (sd_const _ D _ _ _ _ Hin Di Hs)).
    + destruct K as [_ K2]. destruct (K2 _ _ _ Hin) as [_ [i' Di']].
      assert (exists s', nth_error (var_names p) i' = Some s') as [s' Hs'].
      { destruct Di' as [Hi _]. rewrite <- names_length in Hi. destruct (nth_error (var_names p) i') eqn:E; eauto. apply nth_error_None in E. lia. }
      apply (in_map fst _ _ (sd_var _ D _ _ _ _ _ _ _ Hin Di Di' Hs Hs')).
  - intro Hin. apply in_map_iff in Hin. destruct Hin as ([s0 [s' v]] & <- & He). cbn [fst] in *.
    destruct (sd_from _ D _ He) as [(k & i0 & Hin & Di & Hn & Hc)|(k & j & i0 & i' & Hin & Di & Di' & Hn & Hn' & _)]; cbn [fst snd] in *.
    + left. exists k, v. pose proof (name_inj _ _ _ _ ND Hn Hs) as <-. auto.
    + right. exists k, j, v. pose proof (name_inj _ _ _ _ ND Hn Hs) as <-. auto.
Qed.
End Whole.

(** Positions of the kept variables, in order. *)
Fixpoint positions (f : string -> bool) (l : list string) (k : nat) : list nat :=
  match l with [] => [] | s :: l' => if f s then k :: positions f l' (S k) else positions f l' (S k) end.
Lemma positions_in f l : forall k i, In i (positions f l k) <-> exists s, nth_error l (i - k) = Some s /\ k <= i /\ f s = true.
Proof.
  induction l as [|s l IH]; intros k i; cbn [positions].
  - split; [intros []|]. intros (s & E & _). destruct (i - k); discriminate.
  - assert (In i (positions f l (S k)) <-> exists s, nth_error l (i - S k) = Some s /\ S k <= i /\ f s = true) as I by apply IH.
    assert (forall t, i <> k -> nth_error (s :: l) (i - k) = Some t /\ k <= i <-> nth_error l (i - S k) = Some t /\ S k <= i) as C.
    { intros t N. split; intros [E L].
      - replace (i - k) with (S (i - S k)) in E by lia. split; auto. lia.
      - replace (i - k) with (S (i - S k)) by lia. split; auto. lia. }
    destruct (Nat.eq_dec i k) as [->|N].
    + rewrite Nat.sub_diag. cbn [nth_error]. split.
      * intro Hin. destruct (f s) eqn:E; [eauto|]. apply I in Hin. destruct Hin as (t & _ & L & _). lia.
      * intros (t & [= <-] & _ & E). rewrite E. now left.
    + assert (In i (if f s then k :: positions f l (S k) else positions f l (S k)) <-> In i (positions f l (S k))) as ->.
      { destruct (f s); simpl; intuition congruence. }
      rewrite I. split; intros (t & A & B & D); exists t; destruct (C t N) as [C1 C2]; intuition.
Qed.
Lemma positions_sorted f l : forall k, StronglySorted lt (positions f l k).
Proof.
  induction l as [|s l IH]; intro k; cbn [positions]; [constructor|]. destruct (f s); auto. constructor; auto.
  apply Forall_forall. intros i Hi. apply positions_in in Hi. destruct Hi as (t & _ & L & _). lia.
Qed.
Lemma sorted_unique l : forall m, StronglySorted lt l -> StronglySorted lt m -> (forall i, In i l <-> In i m) -> l = m.
Proof.
  induction l as [|a l IH]; intros [|b m] Hl Hm E; auto.
  - exfalso. apply (proj2 (E b)). now left.
  - exfalso. apply (proj1 (E a)). now left.
  - inversion Hl as [|? ? Hl' Fl]. inversion Hm as [|? ? Hm' Fm]. subst. rewrite Forall_forall in Fl, Fm.
    assert (a = b) as ->.
    { destruct (proj1 (E a) (or_introl eq_refl)) as [->|Ha]; auto. destruct (proj2 (E b) (or_introl eq_refl)) as [->|Hb]; auto.
      specialize (Fl _ Hb). specialize (Fm _ Ha). lia. }
    f_equal. apply IH; auto. intro i. specialize (E i). split; intro Hi.
    + destruct (proj1 E (or_intror Hi)) as [->|]; auto. specialize (Fl _ Hi). lia.
    + destruct (proj2 E (or_intror Hi)) as [->|]; auto. specialize (Fm _ Hi). lia.
Qed.

Section Whole2.
Variables (kz : bool) (p : qp) (cs : list (key * Qc)) (vs : list (key * (key * Qc))) (q : qp).
Hypothesis W : prog_wf p.
Hypothesis NC : ~ In CONST (var_names p).
Hypothesis K : keys_denote p cs vs.
Variable subs : subs_t.
Hypothesis D : subst_data p cs vs q subs.

Let stays (s : string) : bool := negb (dhas String.eqb s subs).
Lemma positions_values x : length x = num_vars p -> map (at_ x) (positions stays (var_names p) 0) = reduced p subs x.
Proof using W.
  intro L. pose proof (prog_wf_nodup _ W) as ND. unfold reduced.
  assert (kept_names p subs = filter stays (var_names p)) as ->.
  { unfold kept_names, kept, var_names, stays. induction (p_vars p) as [|v l IH]; simpl; auto. destruct (dhas String.eqb (v_name v) subs); simpl; now rewrite IH. }
  assert (forall l k, (forall i s, nth_error l i = Some s -> nth_error (var_names p) (k + i) = Some s) ->
    map (at_ x) (positions stays l k) = map (valof (var_names p) x) (filter stays l)) as G.
  { induction l as [|s l IH]; intros k Hl; cbn [positions filter]; auto.
    assert (map (at_ x) (positions stays l (S k)) = map (valof (var_names p) x) (filter stays l)) as E.
    { apply IH. intros i t Hi. replace (S k + i) with (k + S i) by lia. apply Hl. exact Hi. }
    destruct (stays s); cbn [map]; rewrite E; auto. f_equal. symmetry. apply valof_nth; auto. specialize (Hl 0 s eq_refl). now rewrite Nat.add_0_r in Hl. }
  apply G. auto.
Qed.
Lemma positions_keep i : In i (positions stays (var_names p) 0) <-> i < num_vars p /\ ~ replaced p cs vs i.
Proof using W K D.
  rewrite positions_in. rewrite Nat.sub_0_r, <- names_length. split.
  - intros (s & Hs & _ & E). split; [apply nth_error_Some; congruence|]. rewrite (replaced_iff p cs vs q W K subs i s D Hs).
    unfold stays in E. apply negb_true_iff in E. now apply (dhas_false _ str_eqb_sp) in E.
  - intros [Hi R]. destruct (nth_error (var_names p) i) as [s|] eqn:Hs; [|apply nth_error_None in Hs; lia]. exists s. split; auto. split; [lia|].
    rewrite (replaced_iff p cs vs q W K subs i s D Hs) in R. unfold stays. apply negb_true_iff. now apply (dhas_false _ str_eqb_sp).
Qed.
Lemma restricts_iff x y : length x = num_vars p -> restricts p cs vs x y <-> y = reduced p subs x.
Proof using W K D.
  intro L. split.
  - intros (l & S & I & ->). rewrite <- positions_values by auto. f_equal. apply sorted_unique; auto using positions_sorted.
    intro i. rewrite I. symmetry. apply positions_keep.
  - intros ->. exists (positions stays (var_names p) 0). split; [apply positions_sorted|]. split; [apply positions_keep|]. symmetry. now apply positions_values.
Qed.
(** Every point of the new program comes from a point of the old one. *)
Lemma extends y : length y = num_vars q -> exists x, agrees p cs vs x /\ restricts p cs vs x y.
Proof using W NC K D.
  intro L. pose proof (prog_wf_nodup _ W) as ND. set (kn := kept_names p subs). assert (NoDup kn) as NK by (apply kept_nodup; auto).
  assert (length y = length kn) as Lk by (rewrite L, <- names_length, (sd_names _ _ _ _ _ D); reflexivity).
  set (val := fun s => let r := repl subs s in if String.eqb (fst r) CONST then snd r else (snd r * valof kn y (fst r))%Qc).
  set (x := map val (var_names p)). assert (length x = num_vars p) as Lx by (unfold x; now rewrite map_length, names_length).
  assert (forall s, In s (var_names p) -> valof (var_names p) x s = val s) as Vx.
  { intros s Hs. apply In_nth_error in Hs. destruct Hs as [i Hi]. rewrite (valof_nth _ x i s ND Hi). unfold at_, x. apply nth_error_nth. now rewrite nth_error_map, Hi. }
  assert (forall s, In s kn -> valof (var_names p) x s = valof kn y s) as Vk.
  { intros s Hs. apply kept_iff in Hs. destruct Hs as [H1 H2]. rewrite Vx by auto. unfold val, repl. cbv zeta.
    apply (dget_none _ str_eqb_sp) in H2. rewrite H2. cbn [fst snd]. destruct (str_eqb_sp s CONST) as [->|]; [contradiction|]. ring. }
  assert (consistent p subs x) as G.
  { split; auto. split. { intro Hk. elim NC. apply kept_iff in Hk. tauto. }
    intros s s' v He. assert (In s (var_names p)) as Hs by (apply (from_name p cs vs (s, (s', v))); now apply (sd_from _ _ _ _ _ D)).
    rewrite Vx by auto. unfold val, repl. cbv zeta. rewrite (in_dget _ str_eqb_sp s (s', v)) by (auto; apply D). cbn [fst snd].
    destruct (str_eqb_sp s' CONST); auto. rewrite Vk; auto. eapply (sd_kept _ _ _ _ _ D); eauto. }
  exists x. split; [now apply (consistent_agrees p cs vs q W NC K subs D)|]. apply restricts_iff; auto. unfold reduced. fold kn.
  rewrite (map_ext_in _ (valof kn y)) by (intros s Hs; now apply Vk). symmetry. apply map_valof; auto.
Qed.
End Whole2.

Section Whole3.
Variables (p : qp) (cs : list (key * Qc)) (vs : list (key * (key * Qc))) (q : qp).
Hypothesis W : prog_wf p.
Hypothesis K : keys_denote p cs vs.
Variable subs : subs_t.
Hypothesis D : subst_data p cs vs q subs.
Lemma keeps_rest_holds : keeps_rest p cs vs q.
Proof using W K D.
  set (stays := fun s => negb (dhas String.eqb s subs)).
  exists (positions stays (var_names p) 0). split; [apply positions_sorted|]. split; [apply (positions_keep p cs vs q W K subs D)|].
  assert (forall l k, (forall i v, nth_error l i = Some v -> nth_error (p_vars p) (k + i) = Some v) -> forall m,
    map v_name m = map v_name (filter (fun v => stays (v_name v)) l) -> map v_type m = map v_type (filter (fun v => stays (v_name v)) l) ->
    Forall2 (fun i w => exists v, nth_error (p_vars p) i = Some v /\ v_name w = v_name v /\ v_type w = v_type v) (positions stays (map v_name l) k) m) as G.
  { induction l as [|v l IH]; intros k Hl m Hn Ht; cbn [map positions filter] in *.
    - destruct m; [constructor|discriminate].
    - assert (forall i w, nth_error l i = Some w -> nth_error (p_vars p) (S k + i) = Some w) as Hl'.
      { intros i w Hi. replace (S k + i) with (k + S i) by lia. now apply Hl. }
      destruct (stays (v_name v)); [|now apply IH]. destruct m as [|w m]; [discriminate|]. cbn [map] in *. injection Hn as Hn0 Hn. injection Ht as Ht0 Ht.
      constructor; [|now apply IH]. exists v. split; auto. specialize (Hl 0 v eq_refl). now rewrite Nat.add_0_r in Hl. }
  apply G; auto.
  - exact (sd_names _ _ _ _ _ D).
  - exact (sd_types _ _ _ _ _ D).
Qed.
End Whole3.

(** ** Rejected substitutions *)
Lemma denotes_has p k i : prog_wf p -> denotes p k i -> exists v, get_variable p k = Ok v /\ nth_error (p_vars p) i = Some v.
Proof.
  intros W [Hi D]. assert (exists v, nth_error (p_vars p) i = Some v) as [v Hv].
  { destruct (nth_error (p_vars p) i) eqn:E; eauto. apply nth_error_None in E. unfold num_vars in Hi. lia. }
  exists v. split; auto. unfold get_variable, lookup, py_nth. destruct k as [z|s].
  - assert (py_index (length (p_vars p)) z = Some i) as ->; [|now rewrite Hv]. unfold py_index, num_vars in *.
    destruct D as [->| ->]; destruct (Z.leb_spec 0 (Z.of_nat i)) as [L|L]; try lia.
    + destruct (Z.ltb_spec (Z.of_nat i) (Z.of_nat (length (p_vars p)))); [|lia]. now rewrite Nat2Z.id.
    + destruct (Z.leb_spec 0 (Z.of_nat i - Z.of_nat (length (p_vars p)))); [lia|].
      destruct (Z.leb_spec (- Z.of_nat (length (p_vars p))) (Z.of_nat i - Z.of_nat (length (p_vars p)))); [|lia].
      f_equal. rewrite Zplus_minus. apply Nat2Z.id.
  - destruct W as (W & _). apply W in D. rewrite D. rewrite py_index_nat by exact Hi. now rewrite Hv.
Qed.
Lemma foldM_err {A S} (f : S -> A -> result S) (er : exn) l : (forall s a e, In a l -> f s a = Err e -> e = er) ->
  forall s e, foldM f l s = Err e -> e = er.
Proof.
  induction l as [|a l IH]; intros F s e H; cbn [foldM] in H; [discriminate|]. apply bind_err in H. destruct H as [H|(s' & _ & H)].
  - eapply F; eauto. now left.
  - eapply IH; eauto. intros. eapply F; eauto. now right.
Qed.
Lemma subs_dict_err p cs vs e : prog_wf p -> keys_denote p cs vs -> subs_dict p cs vs = Err e -> e = QiskitOptimizationError.
Proof.
  intros W [K1 K2] H. unfold subs_dict in H. apply bind_err in H. destruct H as [H|(s & _ & H)]; revert H; apply foldM_err.
  - intros s [k v] e' Hin H. destruct (K1 _ _ Hin) as [i Hi]. destruct (denotes_has _ _ _ W Hi) as (w & E & _). unfold subs_const in H. cbn [fst snd] in H.
    rewrite E in H. cbn [bind] in H. destruct (dhas _ _ _); [now injection H|discriminate].
  - intros s0 [k [j v]] e' Hin H. destruct (K2 _ _ _ Hin) as [[i Hi] [i' Hi']]. destruct (denotes_has _ _ _ W Hi) as (w & E & _).
    destruct (denotes_has _ _ _ W Hi') as (w' & E' & _). unfold subs_var in H. rewrite E, E' in H. cbn [bind] in H.
    destruct (qeqb v 0); [now injection H|]. destruct (String.eqb _ _); [now injection H|]. destruct (dhas _ _ _); [now injection H|].
    destruct (dhas _ _ _); [now injection H|discriminate].
Qed.
Lemma subs_dict_rejects kz p cs vs e : subs_dict p cs vs = Err e -> substitute kz p cs vs = Err e.
Proof. intro H. unfold substitute. now rewrite H. Qed.
Lemma rejected kz p cs vs : prog_wf p -> keys_denote p cs vs -> (forall s, subs_dict p cs vs <> Ok s) ->
  substitute kz p cs vs = Err QiskitOptimizationError.
Proof.
  intros W K H. destruct (subs_dict p cs vs) as [s|e] eqn:E; [now elim (H s)|]. pose proof (subs_dict_err _ _ _ _ W K E) as ->. now apply subs_dict_rejects.
Qed.

Lemma subs_dict_keys p cs vs subs : prog_wf p -> keys_denote p cs vs -> subs_dict p cs vs = Ok subs ->
  NoDup (map fst subs) /\
  Forall2 (fun k s => exists i, denotes p k i /\ nth_error (var_names p) i = Some s) (map fst cs ++ map fst vs) (map fst subs).
Proof.
  intros W K E. unfold subs_dict in E. apply bind_ok in E. destruct E as (s0 & E0 & E).
  apply (subs_const_all p cs vs W K) in E0; [|apply incl_refl|constructor]. destruct E0 as (t0 & E0 & N0 & F0). cbn [app] in E0. subst t0.
  apply (subs_var_all p cs vs W K) in E; [|apply incl_refl|assumption]. destruct E as (t1 & -> & N1 & F1).
  split; auto. rewrite map_app. apply Forall2_app.
  - clear -F0. induction F0 as [|[k v] e l m H F IH]; cbn [map]; constructor; auto. destruct H as (k' & i & [E0|[]] & Di & Hn & _). injection E0 as -> _. eauto.
  - clear -F1. induction F1 as [|[k [j v]] e l m H F IH]; cbn [map]; constructor; auto. destruct H as (k' & j' & i & i' & [E0|[]] & Di & _ & Hn & _). injection E0 as -> _ _. eauto.
Qed.
Lemma Forall2_nth_l {A B} (R : A -> B -> Prop) l m i a : Forall2 R l m -> nth_error l i = Some a -> exists b, nth_error m i = Some b /\ R a b.
Proof. intro F. revert i. induction F as [|x y l m H F IH]; intros [|i] E; try discriminate; [injection E as <-; exists y; auto|]. exact (IH i E). Qed.

Lemma twice_rejected kz p cs vs : prog_wf p -> keys_denote p cs vs -> given_twice p cs vs -> substitute kz p cs vs = Err QiskitOptimizationError.
Proof.
  intros W K (a & b & k & k' & i & L & Ha & Hb & Da & Db). apply rejected; auto. intros s E. destruct (subs_dict_keys _ _ _ _ W K E) as [N F].
  destruct (Forall2_nth_l _ _ _ _ _ F Ha) as (s1 & H1 & i1 & D1 & E1). destruct (Forall2_nth_l _ _ _ _ _ F Hb) as (s2 & H2 & i2 & D2 & E2).
  pose proof (denotes_fun _ _ _ _ W Da D1) as <-. pose proof (denotes_fun _ _ _ _ W Db D2) as <-. rewrite E1 in E2. injection E2 as <-.
  pose proof (name_inj _ _ _ _ N H1 H2). lia.
Qed.
Lemma subs_dict_vars p cs vs subs : prog_wf p -> keys_denote p cs vs -> subs_dict p cs vs = Ok subs ->
  exists t, incl t subs /\ Forall2 (fun kv e => from_var p [kv] e) vs t.
Proof.
  intros W K E. unfold subs_dict in E. apply bind_ok in E. destruct E as (s0 & E0 & E).
  apply (subs_const_all p cs vs W K) in E0; [|apply incl_refl|constructor]. destruct E0 as (t0 & E0 & N0 & F0). cbn [app] in E0. subst t0.
  apply (subs_var_all p cs vs W K) in E; [|apply incl_refl|assumption]. destruct E as (t1 & -> & N1 & F1). exists t1. split; auto. apply incl_appr, incl_refl.
Qed.
Lemma zero_rejected kz p cs vs : prog_wf p -> keys_denote p cs vs -> by_zero vs -> substitute kz p cs vs = Err QiskitOptimizationError.
Proof.
  intros W K (k & j & Hin). apply rejected; auto. intros s E. destruct (subs_dict_vars _ _ _ _ W K E) as (t & _ & F).
  destruct (Forall2_in_l _ _ _ _ F Hin) as (e & _ & k' & j' & i & i' & [E0|[]] & _ & _ & _ & _ & Nz & _). congruence.
Qed.
Lemma itself_rejected kz p cs vs : prog_wf p -> keys_denote p cs vs -> by_itself p vs -> substitute kz p cs vs = Err QiskitOptimizationError.
Proof.
  intros W K (k & j & v & i0 & Hin & D1 & D2). apply rejected; auto. intros s E. destruct (subs_dict_vars _ _ _ _ W K E) as (t & _ & F).
  destruct (Forall2_in_l _ _ _ _ F Hin) as (e & _ & k' & j' & i & i' & [E0|[]] & D1' & D2' & _ & _ & _ & N). injection E0 as <- <- _.
  apply N. transitivity i0; [eapply denotes_fun; eauto|]. eapply denotes_fun; eauto.
Qed.
Lemma keys_denote_sub p cs vs n : keys_denote p cs vs -> keys_denote p cs (firstn n vs).
Proof. intros [K1 K2]. split; auto. intros k j v Hin. apply (K2 k j v). rewrite <- (firstn_skipn n vs). apply in_or_app. now left. Qed.
Lemma denotes_name p k i : denotes p k i -> exists s, nth_error (var_names p) i = Some s.
Proof. intros [Hi _]. rewrite <- names_length in Hi. destruct (nth_error (var_names p) i) eqn:E; eauto. apply nth_error_None in E. lia. Qed.
Lemma replaced_in p cs vs subs i s : prog_wf p -> keys_denote p cs vs -> subs_dict p cs vs = Ok subs -> replaced p cs vs i ->
  nth_error (var_names p) i = Some s -> In s (map fst subs).
Proof.
  intros W K E R Hs. destruct (subs_dict_inv p cs vs W K subs E) as (_ & SC & SV & _). destruct R as [(k & v & Hin & Di)|(k & j & v & Hin & Di)].
  - apply (in_map fst _ _ (SC _ _ _ _ Hin Di Hs)).
  - destruct K as [_ K2]. destruct (K2 _ _ _ Hin) as [_ [i' Di']]. destruct (denotes_name _ _ _ Di') as [s' Hs'].
    apply (in_map fst _ _ (SV _ _ _ _ _ _ _ Hin Di Di' Hs Hs')).
Qed.
Lemma replaced_before_rejected kz p cs vs : prog_wf p -> keys_denote p cs vs -> by_replaced_before p cs vs ->
  substitute kz p cs vs = Err QiskitOptimizationError.
Proof.
  intros W K (n & k & j & v & i & Hn & Di & R). apply rejected; auto. intros s E.
  destruct (nth_error_split _ _ Hn) as (l1 & l2 & -> & Ln).
  assert (firstn n (l1 ++ (k, (j, v)) :: l2) = l1) as El by (rewrite <- Ln, firstn_app, Nat.sub_diag, firstn_all; apply app_nil_r).
  pose proof (keys_denote_sub _ _ _ n K) as K1. rewrite El in K1, R. unfold subs_dict in E. apply bind_ok in E. destruct E as (s0 & E0 & E).
  rewrite foldM_app in E. apply bind_ok in E. destruct E as (s1 & E1 & E). cbn [foldM] in E. apply bind_ok in E. destruct E as (s2 & E2 & _).
  assert (subs_dict p cs l1 = Ok s1) as Es by (unfold subs_dict; rewrite E0; exact E1).
  destruct (denotes_has _ _ _ W Di) as (w & Ew & Hw). pose proof (replaced_in _ _ _ _ _ _ W K1 Es R (nth_var _ _ _ Hw)) as Hin.
  apply (dhas_in _ str_eqb_sp) in Hin. unfold subs_var in E2. destruct (qeqb v 0); [discriminate|]. apply bind_ok in E2. destruct E2 as (x & _ & E2).
  rewrite Ew in E2. cbn [bind] in E2. rewrite Hin in E2. destruct (String.eqb _ _); [discriminate|]. destruct (dhas String.eqb (v_name x) s1); discriminate.
Qed.
Lemma replaced_rejected kz p cs vs q : prog_wf p -> ~ In CONST (var_names p) -> keys_denote p cs vs -> by_replaced p cs vs -> substitute kz p cs vs <> Ok q.
Proof.
  intros W NC K (k & j & v & i & Hin & Di & R) H. destruct (substitute_inv kz p cs vs q W K H) as [subs D].
  destruct (denotes_name _ _ _ Di) as [s Hs]. destruct K as [K1 K2]. destruct (K2 _ _ _ Hin) as [[i0 D0] _]. destruct (denotes_name _ _ _ D0) as [s0 Hs0].
  pose proof (sd_var _ _ _ _ _ D _ _ _ _ _ _ _ Hin D0 Di Hs0 Hs) as He.
  assert (s <> CONST) as N by (intros ->; apply NC; eapply nth_error_In; eauto).
  pose proof (sd_kept _ _ _ _ _ D _ _ _ He N) as Hk. apply kept_iff in Hk. apply (replaced_iff p cs vs q W (conj K1 K2) subs i s D Hs) in R. tauto.
Qed.

(** ** A variable with the name of the constants *)
Section Marked.
Variables (p : qp) (cs : list (key * Qc)) (vs : list (key * (key * Qc))) (q : qp).
Hypothesis W : prog_wf p.
Hypothesis K : keys_denote p cs vs.
Variable subs : subs_t.
Hypothesis D : subst_data p cs vs q subs.
Let stays (s : string) : bool := negb (dhas String.eqb s subs).

Lemma const_finite : ~ In CONST (var_names p) -> moderate p cs vs -> forall s v, In (s, (CONST, v)) subs -> finite v.
Proof using D.
  intros NC (_ & M & _) s v He. destruct (sd_from _ _ _ _ _ D _ He) as [(k & i & Hin & _)|(k & j & i & i' & _ & _ & _ & _ & Hn & _)]; [eauto|].
  exfalso. apply NC. eapply nth_error_In; eauto.
Qed.
Lemma consistent_marked x : consistent p subs x <-> agrees_marked p cs vs x.
Proof using W K D.
  pose proof (prog_wf_nodup _ W) as ND. split.
  - intros (L & G1 & G). split; auto. split; [|split].
    + intros k v i Hin Di. destruct (denotes_name _ _ _ Di) as [s Hs]. rewrite <- (valof_nth _ x i s ND Hs).
      rewrite (G _ _ _ (sd_const _ _ _ _ _ D _ _ _ _ Hin Di Hs)). reflexivity.
    + intros k j v i i' Hin Di Di'. destruct (denotes_name _ _ _ Di) as [s Hs]. destruct (denotes_name _ _ _ Di') as [s' Hs'].
      rewrite <- (valof_nth _ x i s ND Hs), <- (valof_nth _ x i' s' ND Hs').
      rewrite (G _ _ _ (sd_var _ _ _ _ _ D _ _ _ _ _ _ _ Hin Di Di' Hs Hs')). unfold named_one. rewrite Hs'.
      destruct (str_eqb_sp s' CONST) as [->|N]; split; auto; intro E; [now elim E|injection E; contradiction].
    + intros i Mi R. rewrite <- (valof_nth _ x i _ ND Mi). apply G1. apply kept_iff. split; [eapply nth_error_In; exact Mi|].
      rewrite <- (replaced_iff p cs vs q W K subs i _ D Mi). exact R.
  - intros (L & A & B & C). split; auto. split.
    + intro Hk. apply kept_iff in Hk. destruct Hk as [H1 H2]. apply In_nth_error in H1. destruct H1 as [i Hi]. rewrite (valof_nth _ x i _ ND Hi).
      apply C; auto. now rewrite (replaced_iff p cs vs q W K subs i _ D Hi).
    + intros s s' v He. destruct (sd_from _ _ _ _ _ D _ He) as [(k & i & Hin & Di & Hn & Hc)|(k & j & i & i' & Hin & Di & Di' & Hn & Hn' & _)]; cbn [fst snd] in *.
      * subst s'. rewrite String.eqb_refl, (valof_nth _ x i s ND Hn). eauto.
      * rewrite (valof_nth _ x i s ND Hn), (valof_nth _ x i' s' ND Hn'). destruct (B _ _ _ _ _ Hin Di Di') as [B1 B2]. unfold named_one in B1, B2. rewrite Hn' in B1, B2.
        destruct (str_eqb_sp s' CONST) as [->|N]; [now apply B1|]. apply B2. intro E. injection E. exact N.
Qed.
Lemma kept_filter : kept_names p subs = filter stays (var_names p).
Proof using.
  unfold kept_names, kept, var_names, stays. induction (p_vars p) as [|v l IH]; simpl; auto. destruct (dhas String.eqb (v_name v) subs); simpl; now rewrite IH.
Qed.
Lemma positions_named l : forall k, (forall i s, nth_error l i = Some s -> nth_error (var_names p) (k + i) = Some s) ->
  Forall2 (fun i s => nth_error (var_names p) i = Some s) (positions stays l k) (filter stays l).
Proof using.
  induction l as [|s l IH]; intros k Hl; cbn [positions filter]; [constructor|].
  assert (Forall2 (fun i s => nth_error (var_names p) i = Some s) (positions stays l (S k)) (filter stays l)) as E.
  { apply IH. intros i t Hi. replace (S k + i) with (k + S i) by lia. apply Hl. exact Hi. }
  destruct (stays s); auto. constructor; auto. specialize (Hl 0 s eq_refl). now rewrite Nat.add_0_r in Hl.
Qed.
Lemma restricts_matches x y : length x = num_vars p -> restricts_marked p cs vs x y <-> matches p subs x y.
Proof using W K D.
  intro L. pose proof (prog_wf_nodup _ W) as ND. pose proof (kept_nodup p subs W) as NK.
  assert (Forall2 (fun i s => nth_error (var_names p) i = Some s) (positions stays (var_names p) 0) (kept_names p subs)) as PN.
  { rewrite kept_filter. apply positions_named. auto. }
  assert (restricts_marked p cs vs x y <-> Forall2 (fun i a => ~ named_one p i -> a = at_ x i) (positions stays (var_names p) 0) y) as ->.
  { split.
    - intros (l & S & I & F). replace (positions stays (var_names p) 0) with l; auto. apply sorted_unique; auto using positions_sorted.
      intro i. rewrite I. symmetry. apply (positions_keep p cs vs q W K subs D).
    - intro F. exists (positions stays (var_names p) 0). split; [apply positions_sorted|]. split; [apply (positions_keep p cs vs q W K subs D)|auto]. }
  unfold matches. generalize (positions stays (var_names p) 0), PN. intros l P. pose proof (Forall2_length _ _ _ P) as E2. rewrite Forall2_at.
  assert (forall m s, nth_error (kept_names p subs) m = Some s -> exists i, nth_error l m = Some i /\ nth_error (var_names p) i = Some s) as PB.
  { intros m s Hm. assert (m < length (kept_names p subs)) by (apply nth_error_Some; congruence).
    destruct (nth_error l m) as [i|] eqn:Hi; [|apply nth_error_None in Hi; lia]. exists i. split; auto.
    destruct (Forall2_nth_l _ _ _ _ _ P Hi) as (t & Ht & Hn). congruence. }
  split.
  - intros [E1 F]. split; [congruence|]. intros s Hs Nc. apply In_nth_error in Hs. destruct Hs as [m Hm].
    rewrite (valof_nth _ y m s NK Hm). destruct (PB _ _ Hm) as (i & Hi & Hn).
    rewrite (valof_nth _ x i s ND Hn). apply (F m i Hi). unfold named_one. rewrite Hn. intro E. injection E. exact Nc.
  - intros [Ly V]. split; [congruence|]. intros m i Hi Nm. destruct (Forall2_nth_l _ _ _ _ _ P Hi) as (s & Hs & Hn).
    specialize (V s (nth_error_In _ _ Hs)). rewrite (valof_nth _ y m s NK Hs), (valof_nth _ x i s ND Hn) in V.
    apply V. intros ->. now apply Nm.
Qed.
Lemma extends_marked y : length y = num_vars q -> exists x, agrees_marked p cs vs x /\ restricts_marked p cs vs x y.
Proof using W K D.
  intro L. pose proof (prog_wf_nodup _ W) as ND. set (kn := kept_names p subs). assert (NoDup kn) as NK by (apply kept_nodup; auto).
  assert (length y = length kn) as Lk by (rewrite L, <- names_length, (sd_names _ _ _ _ _ D); reflexivity).
  set (val := fun s => let r := repl subs s in if String.eqb (fst r) CONST then snd r else (snd r * valof kn y (fst r))%Qc).
  set (x := map val (var_names p)). assert (length x = num_vars p) as Lx by (unfold x; now rewrite map_length, names_length).
  assert (forall s, In s (var_names p) -> valof (var_names p) x s = val s) as Vx.
  { intros s Hs. apply In_nth_error in Hs. destruct Hs as [i Hi]. rewrite (valof_nth _ x i s ND Hi). unfold at_, x. apply nth_error_nth. now rewrite nth_error_map, Hi. }
  assert (forall s, In s kn -> s <> CONST -> valof (var_names p) x s = valof kn y s) as Vk.
  { intros s Hs Nc. apply kept_iff in Hs. destruct Hs as [H1 H2]. rewrite Vx by auto. unfold val, repl. cbv zeta.
    apply (dget_none _ str_eqb_sp) in H2. rewrite H2. cbn [fst snd]. destruct (str_eqb_sp s CONST) as [->|]; [contradiction|]. ring. }
  assert (consistent p subs x) as G.
  { split; auto. split.
    - intro Hk. apply kept_iff in Hk. destruct Hk as [H1 H2]. rewrite Vx by auto. unfold val, repl. cbv zeta.
      apply (dget_none _ str_eqb_sp) in H2. rewrite H2. cbn [fst snd]. now rewrite String.eqb_refl.
    - intros s s' v He. assert (In s (var_names p)) as Hs by (apply (from_name p cs vs (s, (s', v))); now apply (sd_from _ _ _ _ _ D)).
      rewrite Vx by auto. unfold val, repl. cbv zeta. rewrite (in_dget _ str_eqb_sp s (s', v)) by (auto; apply D). cbn [fst snd].
      destruct (str_eqb_sp s' CONST); auto. rewrite Vk; auto. eapply (sd_kept _ _ _ _ _ D); eauto. }
  exists x. split; [now apply consistent_marked|]. apply restricts_matches; auto. split; auto. intros s Hs Nc. symmetry. now apply Vk.
Qed.
End Marked.
