(** * Substitution of variables: objective, constraints, bounds *)
From Verif Require Export SubstFacts2.
Local Open Scope string_scope.
Local Open Scope list_scope.
Local Open Scope nat_scope.

Lemma quad_make_sparse env e e2 : quad_make env (QSparse e) = Ok e2 ->
  quad_wf e2 /\ qe_dim e2 = qe_dim e /\ forall x, length x = qe_dim e -> quad_at e2 x = quad_at e x.
Proof.
  intro H. injection H as <-. split; [apply triangle_wf|]. split; auto. intros x Hx.
  change (form_at (length x) (mget (triangle (qe_dim e) (qe_co e))) x = form_at (length x) (mget (qe_co e)) x).
  rewrite Hx. apply triangle_form.
Qed.
Lemma free_name_ok taken : forall f s nm, s <> EmptyString -> free_name f taken s = Ok nm -> nm <> EmptyString.
Proof.
  induction f as [|f IH]; intros s nm Hs H; cbn [free_name] in H; [discriminate|]. destruct (str_mem s taken).
  - eapply IH; [|exact H]. discriminate.
  - now injection H as <-.
Qed.
Lemma zero_feasible_spec s rhs : zero_feasible s rhs = true <-> holds s 0%Qc rhs.
Proof. destruct s; cbn; [apply qleb_iff|apply qleb_iff|apply qeqb_iff]. Qed.
Lemma holds_shift s a b c : holds s (a + b)%Qc c <-> holds s b (c - a)%Qc.
Proof.
  destruct s; cbn; split; intro; qlra.
Qed.
Lemma content_add_lc p c : content_wf p -> lin_wf (lc_lin c) -> lc_name c <> EmptyString -> content_wf (add_lc p c).
Proof.
  intros [(A & B & C & D) [E F]] H N. split; [|split].
  - split; [|split; [|split]]; auto. cbn. apply Forall_app. auto.
  - cbn. apply Forall_app. auto.
  - exact F.
Qed.
Lemma content_add_qc p c : content_wf p -> lin_wf (qc_lin c) -> quad_wf (qc_quad c) -> qc_name c <> EmptyString -> content_wf (add_qc p c).
Proof.
  intros [(A & B & C & D) [E F]] H H' N. split; [|split].
  - split; [|split; [|split]]; auto. cbn. apply Forall_app. auto.
  - exact E.
  - cbn. apply Forall_app. auto.
Qed.
Lemma cons_add_lc p c y : cons_hold (add_lc p c) y <-> cons_hold p y /\ holds (lc_sense c) (lc_at c y) (lc_rhs c).
Proof. exact (cons_hold_add_lc p [] c y). Qed.
Lemma cons_add_qc p c y : cons_hold (add_qc p c) y <-> cons_hold p y /\ holds (qc_sense c) (qc_at c y) (qc_rhs c).
Proof. exact (cons_hold_add_qc p [] c y). Qed.

Section Sub.
Variables (kz : bool) (p : qp) (subs : subs_t).
Hypothesis W : prog_wf p.
Hypothesis SN : NoDup (map fst subs).
Hypothesis SV : forall s s' v, In (s, (s', v)) subs -> s' <> CONST -> In s' (kept_names p subs).
Notation good := (fun x y => consistent p subs x /\ matches p subs x y).

Lemma red_len dst x y : var_names dst = kept_names p subs -> good x y -> length y = num_vars dst.
Proof using. clear. intros V [_ [M _]]. now rewrite M, <- names_length, V. Qed.

Lemma sub_objective_spec dst dst' : idx_exact dst -> var_names dst = kept_names p subs -> content_wf dst ->
  sub_objective kz p subs dst = Ok dst' ->
  exists o, dst' = set_obj o dst /\ o_sense o = o_sense (p_obj p) /\ content_wf dst' /\
    forall x y, good x y -> obj_at o y = obj_at (p_obj p) x.
Proof using W SN SV.
  intros X V Cw H. unfold sub_objective in H. cbv beta zeta in H. inv_ok. destruct x as [c1 l1]. destruct x0 as [[c2 l2] q2].
  cbn [fst snd] in *.
  assert (exprs_wf p) as (Wl & Wq & _) by (destruct W as (_ & _ & _ & _ & E & _); exact E).
  inv_ok.
  destruct (sub_lin_spec _ _ W SN SV _ _ _ _ X V Wl H) as (A1 & A2 & A3).
  destruct (sub_quad_spec _ _ W SN SV _ _ _ _ _ X V Wq H0) as (B1 & B2 & B3 & B4 & B5).
  destruct (dok_add_spec _ _ _ _ A1 B1 H1) as (D1 & D2 & _ & D3).
  apply set_objective_inv in H2. destruct H2 as (e & e2 & He & He2 & ->). injection He as <-. apply quad_make_sparse in He2. destruct He2 as (Q1 & Q2 & Q3).
  eexists. split; [reflexivity|]. split; [reflexivity|]. split.
  - destruct Cw as [(C1 & C2 & C3 & C4) Cn]. split; [|exact Cn]. split; [|split; [|split]]; auto.
  - intros y0 y G. unfold obj_at. cbn [o_const o_lin o_quad]. pose proof (red_len dst y0 y V G) as L. destruct G as [G M].
    rewrite D3, Q3 by congruence. rewrite (A3 y0 y G M), (B5 y0 y G M). rewrite fsum_sum. cbn [app]. cbn [sumof]. rewrite sumof_app. ring.
Qed.

(** The state after some of the constraints. *)
Record sinv (dst0 : qp) (st : qp * bool) (D : list Qc -> Prop) : Prop := {
  si_exact : idx_exact (fst st);
  si_vars : p_vars (fst st) = p_vars dst0;
  si_obj : p_obj (fst st) = p_obj dst0;
  si_status : p_status (fst st) = p_status dst0;
  si_wf : content_wf (fst st);
  si_hold : forall x y, good x y -> (snd st = true /\ cons_hold (fst st) y) <-> D x }.

Lemma sinv_add dst0 st st' D s f g rhs rhs' c :
  sinv dst0 st D -> idx_exact (fst st') -> p_vars (fst st') = p_vars (fst st) -> p_obj (fst st') = p_obj (fst st) ->
  p_status (fst st') = p_status (fst st) -> content_wf (fst st') ->
  (forall x y, good x y -> f x = c + g y)%Qc -> rhs' = (rhs - c)%Qc ->
  (forall x y, good x y -> (snd st' = true /\ cons_hold (fst st') y) <->
     (snd st = true /\ cons_hold (fst st) y) /\ holds s (g y) rhs') ->
  sinv dst0 st' (fun x => D x /\ holds s (f x) rhs).
Proof using.
  intros [A1 A2 A3 A4 A5 A6] X V O T Cw F -> H. constructor; try congruence; auto. intros x y G. rewrite (H x y G), (A6 x y G), (F x y G), holds_shift. tauto.
Qed.

Lemma sub_lincon_spec dst0 st st' D c : sinv dst0 st D -> var_names (fst st) = kept_names p subs ->
  lin_wf (lc_lin c) -> lc_name c <> EmptyString -> sub_lincon p subs st c = Ok st' ->
  sinv dst0 st' (fun x => D x /\ holds (lc_sense c) (lc_at c x) (lc_rhs c)).
Proof using W SN SV.
  intros I V Wc Nc H. unfold sub_lincon in H. apply bind_ok in H. destruct H as ([c1 l1] & H1 & H). cbn [fst snd] in H.
  destruct (sub_lin_spec _ _ W SN SV _ _ _ _ (si_exact _ _ _ I) V Wc H1) as (A1 & A2 & A3).
  assert (forall x y, good x y -> lc_at c x = sumof (fun a => a) c1 + lin_at l1 y)%Qc as A3' by (intros x y [G M]; exact (A3 x y G M)).
  assert (- fsum (- lc_rhs c :: c1) = lc_rhs c - sumof (fun a => a) c1)%Qc as R by (rewrite fsum_sum; cbn [sumof]; ring).
  cbn [app] in H. rewrite R in H. destruct (le_co l1) as [|kv r] eqn:El.
  - injection H as <-. eapply sinv_add; cbn [fst snd]; try exact A3'; try reflexivity; try apply I.
    intros x y G. rewrite andb_true_iff, zero_feasible_spec, (lin_at_nil _ _ El). tauto.
  - apply bind_ok in H. destruct H as (dst & H2 & H). injection H as <-. apply linear_constraint_inv in H2; auto.
    destruct H2 as (s & e & Hs & He & -> & Hn). injection Hs as <-. injection He as <-.
    eapply sinv_add; cbn [fst snd]; try exact A3'; try reflexivity; try exact I.
    + apply add_lc_exact; auto. apply I.
    + apply content_add_lc; auto. apply I.
    + intros x y G. rewrite cons_add_lc. cbn. tauto.
Qed.
Lemma sub_quadcon_spec dst0 st st' D c : sinv dst0 st D -> var_names (fst st) = kept_names p subs ->
  lin_wf (qc_lin c) -> quad_wf (qc_quad c) -> qc_name c <> EmptyString -> sub_quadcon kz p subs st c = Ok st' ->
  sinv dst0 st' (fun x => D x /\ holds (qc_sense c) (qc_at c x) (qc_rhs c)).
Proof using W SN SV.
  intros I V Wc Wq Nc H. unfold sub_quadcon in H. apply bind_ok in H. destruct H as ([c1 l1] & H1 & H).
  apply bind_ok in H. destruct H as ([[c2 l2] q2] & H2 & H). cbn [fst snd] in H. cbv zeta in H.
  apply bind_ok in H. destruct H as (lin & H3 & H).
  pose proof (si_exact _ _ _ I) as X.
  destruct (sub_lin_spec _ _ W SN SV _ _ _ _ X V Wc H1) as (A1 & A2 & A3).
  destruct (sub_quad_spec _ _ W SN SV _ _ _ _ _ X V Wq H2) as (B1 & B2 & B3 & B4 & B5).
  destruct (dok_add_spec _ _ _ _ A1 B1 H3) as (D1 & D2 & _ & D3).
  assert (- fsum (- qc_rhs c :: c1 ++ c2) = qc_rhs c - (sumof (fun a => a) c1 + sumof (fun a => a) c2))%Qc as R
    by (rewrite fsum_sum; cbn [sumof]; rewrite sumof_app; ring).
  cbn [app] in H. rewrite R in H.
  assert (forall x y, good x y -> qc_at c x = ((sumof (fun a => a) c1 + sumof (fun a => a) c2) + (lin_at lin y + quad_at q2 y))%Qc) as F.
  { intros x y G. unfold qc_at. pose proof (red_len (fst st) x y V G) as L. destruct G as [G M]. rewrite (A3 x y G M), (B5 x y G M), D3 by congruence. ring. }
  destruct (qe_co q2) as [|kv r] eqn:Eq; [destruct (le_co lin) as [|kv r] eqn:El|].
  - injection H as <-. eapply (sinv_add _ _ _ _ _ _ (fun y => lin_at lin y + quad_at q2 y)%Qc); cbn [fst snd]; try exact F; try reflexivity; try apply I.
    intros x y G. rewrite andb_true_iff, zero_feasible_spec, (lin_at_nil _ _ El), (quad_at_nil _ _ Eq). rewrite Qcplus_0_l. tauto.
  - apply bind_ok in H. destruct H as (nm & Hm & H). apply bind_ok in H. destruct H as (dst & H4 & H). injection H as <-.
    apply free_name_ok in Hm; auto. apply linear_constraint_inv in H4; auto.
    destruct H4 as (s & e & Hs & He & -> & Hn). injection Hs as <-. injection He as <-.
    eapply (sinv_add _ _ _ _ _ _ (fun y => lin_at lin y + quad_at q2 y)%Qc); cbn [fst snd]; try exact F; try reflexivity; try exact I.
    + apply add_lc_exact; auto.
    + apply content_add_lc; auto. apply I.
    + intros x y G. rewrite cons_add_lc, (quad_at_nil _ _ Eq), Qcplus_0_r. cbn. tauto.
  - apply bind_ok in H. destruct H as (dst & H4 & H). injection H as <-. apply quadratic_constraint_inv in H4; auto.
    destruct H4 as (s & e & e2 & Hs & He & He2 & -> & Hn). injection Hs as <-. injection He as <-.
    apply quad_make_sparse in He2. destruct He2 as (Q1 & Q2 & Q3).
    eapply (sinv_add _ _ _ _ _ _ (fun y => lin_at lin y + quad_at q2 y)%Qc); cbn [fst snd]; try exact F; try reflexivity; try exact I.
    + apply add_qc_exact; auto.
    + apply content_add_qc; auto. apply I.
    + intros x y G. rewrite cons_add_qc. unfold qc_at. cbn [qc_lin qc_quad qc_sense qc_rhs]. rewrite Q3 by (rewrite (red_len (fst st) x y V G); congruence). tauto.
Qed.

Lemma sinv_ext dst0 st D D' : (forall x, D x <-> D' x) -> sinv dst0 st D -> sinv dst0 st D'.
Proof using. intros E [A1 A2 A3 A4 A5 A6]. constructor; auto. intros x y G. rewrite (A6 x y G). apply E. Qed.

Lemma sub_lincons_spec dst0 l : forall st st' D, sinv dst0 st D -> var_names dst0 = kept_names p subs ->
  Forall (fun c => lin_wf (lc_lin c)) l -> Forall (fun c => lc_name c <> EmptyString) l -> foldM (sub_lincon p subs) l st = Ok st' ->
  sinv dst0 st' (fun x => D x /\ Forall (fun c => holds (lc_sense c) (lc_at c x) (lc_rhs c)) l).
Proof using W SN SV.
  induction l as [|c l IH]; intros st st' D I V F N H; cbn [foldM] in H.
  - injection H as <-. eapply sinv_ext; [|exact I]. intro x. split; [|tauto]. intro. split; auto.
  - apply bind_ok in H. destruct H as (st1 & H1 & H). inversion F. inversion N. subst.
    assert (var_names (fst st) = kept_names p subs) as V' by (unfold var_names; rewrite (si_vars _ _ _ I); exact V).
    pose proof (sub_lincon_spec _ _ _ _ _ I V' H3 H7 H1) as I1.
    eapply sinv_ext; [|exact (IH _ _ _ I1 V H4 H8 H)]. intro x. cbn. rewrite Forall_cons_iff. tauto.
Qed.
Lemma sub_quadcons_spec dst0 l : forall st st' D, sinv dst0 st D -> var_names dst0 = kept_names p subs ->
  Forall (fun c => lin_wf (qc_lin c) /\ quad_wf (qc_quad c)) l -> Forall (fun c => qc_name c <> EmptyString) l ->
  foldM (sub_quadcon kz p subs) l st = Ok st' ->
  sinv dst0 st' (fun x => D x /\ Forall (fun c => holds (qc_sense c) (qc_at c x) (qc_rhs c)) l).
Proof using W SN SV.
  induction l as [|c l IH]; intros st st' D I V F N H; cbn [foldM] in H.
  - injection H as <-. eapply sinv_ext; [|exact I]. intro x. split; [|tauto]. intro. split; auto.
  - apply bind_ok in H. destruct H as (st1 & H1 & H). inversion F as [|? ? [F1 F2] F3]. inversion N as [|? ? N1 N2]. subst.
    assert (var_names (fst st) = kept_names p subs) as V' by (unfold var_names; rewrite (si_vars _ _ _ I); exact V).
    pose proof (sub_quadcon_spec _ _ _ _ _ I V' F1 F2 N1 H1) as I1.
    eapply sinv_ext; [|exact (IH _ _ _ I1 V F3 N2 H)]. intro x. cbn. rewrite Forall_cons_iff. tauto.
Qed.
End Sub.
