(** * Substitution of variables: expressions and constraints *)
From Verif Require Export SubstFacts.
Local Open Scope string_scope.
Local Open Scope list_scope.
Local Open Scope nat_scope.

Definition kept (p : qp) (subs : subs_t) : list variable := filter (fun v => negb (dhas String.eqb (v_name v) subs)) (p_vars p).
Definition kept_names (p : qp) (subs : subs_t) : list string := map v_name (kept p subs).
Definition reduced (p : qp) (subs : subs_t) (x : list Qc) : list Qc := map (valof (var_names p) x) (kept_names p subs).

(** Copying the variables that stay. *)
Lemma sub_copy_inv subs l : forall p q, idx_exact p -> foldM (sub_copy subs) l p = Ok q ->
  idx_exact q /\ p_vars q = p_vars p ++ filter (fun v => negb (dhas String.eqb (v_name v) subs)) l /\ p_lcs q = p_lcs p /\ p_lidx q = p_lidx p /\
  p_qcs q = p_qcs p /\ p_qidx q = p_qidx p /\ p_obj q = p_obj p /\ p_status q = p_status p /\
  Forall (fun v => (v_lb v <= v_ub v)%Qc) (filter (fun v => negb (dhas String.eqb (v_name v) subs)) l).
Proof.
  induction l as [|v l IH]; intros p q X H; cbn [foldM] in H.
  - injection H as <-. simpl. rewrite app_nil_r. repeat (split; auto).
  - apply bind_ok in H. destruct H as (p1 & H1 & H). unfold sub_copy in H1. cbn [filter]. destruct (dhas String.eqb (v_name v) subs); cbn [negb].
    + injection H1 as <-. auto.
    + apply add_variable_inv in H1. destruct H1 as (-> & Hn & Hb). destruct v as [s lb ub ty]. cbn [v_name v_lb v_ub v_type] in *.
      apply IH in H; [|now apply add_var_exact]. destruct H as (X' & V & A & B & C & D & E & F & G).
      split; auto. split; [rewrite V; cbn; rewrite <- app_assoc; reflexivity|]. repeat (split; auto).
Qed.

Lemma dsum_nil {K} (f : K -> Qc) : dsum f [] = 0%Qc.
Proof. reflexivity. Qed.

(** Points and replacements. *)
Section Points.
Variables (p : qp) (subs : subs_t).
Hypothesis W : prog_wf p.
Hypothesis SN : NoDup (map fst subs).
Hypothesis SV : forall s s' v, In (s, (s', v)) subs -> s' <> CONST -> In s' (kept_names p subs).
Let names := var_names p.
Let knames := kept_names p subs.

(** A variable with the name of the constants stands for 1. *)
Definition consistent (x : list Qc) : Prop := length x = num_vars p /\ (In CONST knames -> valof names x CONST = 1%Qc) /\
  forall s s' v, In (s, (s', v)) subs -> valof names x s = (if String.eqb s' CONST then v else v * valof names x s')%Qc.

Lemma kept_incl : incl knames names.
Proof using. clear. intros s Hs. unfold knames, kept_names, kept in Hs. apply in_map_iff in Hs. destruct Hs as (v & <- & Hv).
  apply filter_In in Hv. apply in_map. tauto. Qed.
Lemma kept_nodup : NoDup knames.
Proof using W.
  apply prog_wf_nodup in W. clear -W. unfold knames, kept_names, kept, var_names in *. induction (p_vars p) as [|v l IH]; simpl in *; auto.
  inversion W. subst. destruct (negb _); simpl; auto. constructor; auto. intro Hin. apply H1. apply in_map_iff in Hin.
  destruct Hin as (w & <- & Hw). apply filter_In in Hw. apply in_map. tauto.
Qed.
Lemma kept_iff s : In s knames <-> In s names /\ ~ In s (map fst subs).
Proof using.
  clear. unfold knames, kept_names, kept, names, var_names. rewrite !in_map_iff. split.
  - intros (v & <- & Hv). apply filter_In in Hv. destruct Hv as [Hv Hb]. apply negb_true_iff in Hb. apply (dhas_false _ str_eqb_sp) in Hb.
    split; eauto. now rewrite <- in_map_iff.
  - intros [(v & <- & Hv) Hn]. exists v. split; auto. apply filter_In. split; auto. apply negb_true_iff, (dhas_false _ str_eqb_sp).
    now rewrite in_map_iff.
Qed.
Lemma reduced_length x : length (reduced p subs x) = length (kept p subs).
Proof using. clear. unfold reduced, kept_names. now rewrite !map_length. Qed.
Lemma reduced_val x s : In s knames -> valof knames (reduced p subs x) s = valof names x s.
Proof using W.
  intro Hs. apply In_nth_error in Hs. destruct Hs as [i Hi]. rewrite (valof_nth _ _ i) by (auto using kept_nodup).
  unfold reduced, at_. fold knames. apply nth_error_nth. rewrite nth_error_map. now rewrite Hi.
Qed.
(** The value of such a variable among the others does not matter. *)
Definition matches (x y : list Qc) : Prop := length y = length knames /\ forall s, In s knames -> s <> CONST -> valof knames y s = valof names x s.
Lemma matches_reduced x : matches x (reduced p subs x).
Proof using W. split; [|intros; now apply reduced_val]. rewrite reduced_length. unfold knames, kept_names. now rewrite map_length. Qed.
Lemma repl_val x y s : consistent x -> matches x y -> In s names ->
  valof names x s = (if String.eqb (fst (repl subs s)) CONST then snd (repl subs s)
                     else snd (repl subs s) * valof knames y (fst (repl subs s)))%Qc.
Proof using W SN SV.
  intros (_ & C1 & C) [_ M] Hs. unfold repl. destruct (dget String.eqb s subs) as [[s' v]|] eqn:E.
  - apply (dget_in _ str_eqb_sp) in E. rewrite (C _ _ _ E). cbn [fst snd]. destruct (str_eqb_sp s' CONST) as [|N]; auto.
    rewrite M by eauto. reflexivity.
  - cbn [fst snd]. apply (dget_none _ str_eqb_sp) in E. destruct (str_eqb_sp s CONST) as [->|N]; [apply C1; now apply kept_iff|].
    rewrite M by (auto; now apply kept_iff). ring.
Qed.

(** Linear expressions. *)
Lemma sub_lin_fold x y d : consistent x -> matches x y -> (forall s v, In (s, v) d -> In s names) -> forall c l,
  NoDup (map fst l) ->
  let st := fold_left (sub_lin_step subs) d (c, l) in
  NoDup (map fst (snd st)) /\
  (sumof (fun a => a) (fst st) + dsum (valof knames y) (snd st) =
   sumof (fun a => a) c + dsum (valof knames y) l + dsum (valof names x) d)%Qc.
Proof using W SN SV.
  intros C M. induction d as [|[s v] d IH]; intros Hd c l N; cbn [fold_left].
  - split; auto. unfold dsum at 3. simpl. ring.
  - assert (forall s v, In (s, v) d -> In s names) as Hd' by (intros; eapply Hd; right; eauto).
    assert (In s names) as Hs by (eapply Hd; left; eauto). pose proof (repl_val x y s C M Hs) as R. unfold sub_lin_step at 2 4 6. cbn [fst snd].
    assert (forall d', dsum (valof names x) ((s, v) :: d') = v * valof names x s + dsum (valof names x) d')%Qc as Dc by reflexivity.
    destruct (str_eqb_sp (fst (repl subs s)) CONST) as [E|E].
    + destruct (IH Hd' (c ++ [(v * snd (repl subs s))%Qc]) l N) as [N' S']. split; auto. rewrite S', Dc, R, sumof_app. simpl. ring.
    + destruct (IH Hd' c (dadd String.eqb (fst (repl subs s)) (v * snd (repl subs s))%Qc l)) as [N' S'].
      { apply (dset_nodup _ str_eqb_sp). auto. }
      split; auto. rewrite S', Dc, R, (dsum_dadd _ str_eqb_sp). ring.
Qed.
(** Nothing refers to the point. *)
Lemma sub_lin_fold_nodup d : forall c l, NoDup (map fst l) -> NoDup (map fst (snd (fold_left (sub_lin_step subs) d (c, l)))).
Proof using.
  clear. induction d as [|[s v] d IH]; intros c l N; cbn [fold_left]; auto. unfold sub_lin_step at 2. cbn [fst snd].
  destruct (String.eqb (fst (repl subs s)) CONST); apply IH; auto. apply (dset_nodup _ str_eqb_sp). auto.
Qed.
Lemma sub_lin_spec dst e c l : idx_exact dst -> var_names dst = knames -> lin_wf e -> sub_lin p subs dst e = Ok (c, l) ->
  lin_wf l /\ le_dim l = num_vars dst /\
  forall x y, consistent x -> matches x y -> lin_at e x = (sumof (fun a => a) c + lin_at l y)%Qc.
Proof using W SN SV.
  intros X V We H. unfold sub_lin in H. apply bind_ok in H. destruct H as (d & Hd & H). cbv beta zeta in H.
  apply bind_ok in H. destruct H as (l' & Hl & H). injection H as Hc <-.
  pose proof (prog_wf_nodup _ W) as N. destruct (lin_names_dict _ _ _ N We Hd) as [[D1 [D2 D3]] _].
  destruct (names_exact dst X) as [Hx Hn]. pose proof (sub_lin_fold_nodup d [] [] (NoDup_nil _)) as N1.
  destruct (lin_make_named _ _ Hx Hn _ _ N1 Hl) as (Wl & Dl & (E1 & E2 & E3) & _). split; auto. split; auto.
  intros x y C M. rewrite E3 by (rewrite V; apply M).
  rewrite D3 by (destruct C as [C _]; now rewrite C, names_length).
  destruct (sub_lin_fold x y d C M D2 [] [] (NoDup_nil _)) as [_ S]. rewrite dsum_nil in S. change (sumof (fun a => a) []) with 0%Qc in S. rewrite <- Hc, V, S. unfold names. ring.
Qed.

(** Quadratic expressions. *)
Lemma sub_quad_fold x y d : consistent x -> matches x y -> (forall s t v, In ((s, t), v) d -> In s names /\ In t names) -> forall c l q,
  let st := fold_left (sub_quad_step subs) d (c, l, q) in
  (sumof (fun a => a) (fst (fst st)) + dsum (valof knames y) (snd (fst st)) + dsum (valof2 knames y) (snd st) =
   sumof (fun a => a) c + dsum (valof knames y) l + dsum (valof2 knames y) q + dsum (valof2 names x) d)%Qc.
Proof using W SN SV.
  intros C M. induction d as [|[[s t] v] d IH]; intros Hd c l q; cbn [fold_left]; cbv zeta.
  - cbn [fst snd]. rewrite (dsum_nil (valof2 names x)). ring.
  - assert (forall s t v, In ((s, t), v) d -> In s names /\ In t names) as Hd' by (intros; eapply Hd; right; eauto).
    destruct (Hd s t v) as [Hs Ht]; [now left|]. pose proof (repl_val x y s C M Hs) as R. pose proof (repl_val x y t C M Ht) as R'.
    unfold sub_quad_step at 2 4 6. cbn [fst snd].
    assert (forall d', dsum (valof2 names x) ((s, t, v) :: d') = v * (valof names x s * valof names x t) + dsum (valof2 names x) d')%Qc as Dc by reflexivity.
    cbv zeta in IH.
    destruct (str_eqb_sp (fst (repl subs s)) CONST) as [E|E]; destruct (str_eqb_sp (fst (repl subs t)) CONST) as [E'|E'];
      rewrite (IH Hd'), Dc, R, R'.
    + rewrite sumof_app. simpl. ring.
    + rewrite (dsum_dadd _ str_eqb_sp). ring.
    + rewrite (dsum_dadd _ str_eqb_sp). ring.
    + rewrite (dsum_dadd _ str2_eqb_sp). unfold valof2 at 2. cbn [fst snd]. ring.
Qed.
Lemma sub_quad_fold_nodup d : forall c l q, NoDup (map fst l) -> NoDup (map fst q) ->
  let st := fold_left (sub_quad_step subs) d (c, l, q) in NoDup (map fst (snd (fst st))) /\ NoDup (map fst (snd st)).
Proof using.
  clear. cbv zeta. induction d as [|[[s t] v] d IH]; intros c l q N N'; cbn [fold_left]; auto. unfold sub_quad_step at 2 4. cbn [fst snd].
  destruct (String.eqb (fst (repl subs s)) CONST), (String.eqb (fst (repl subs t)) CONST); apply IH; auto;
    first [apply (dset_nodup _ str_eqb_sp) | apply (dset_nodup _ str2_eqb_sp)]; auto.
Qed.
Lemma sub_quad_spec dst e c l q : idx_exact dst -> var_names dst = knames -> quad_wf e -> sub_quad p subs dst e = Ok (c, l, q) ->
  lin_wf l /\ le_dim l = num_vars dst /\ quad_wf q /\ qe_dim q = num_vars dst /\
  forall x y, consistent x -> matches x y -> quad_at e x = (sumof (fun a => a) c + lin_at l y + quad_at q y)%Qc.
Proof using W SN SV.
  intros X V We H. unfold sub_quad in H. apply bind_ok in H. destruct H as (d & Hd & H).
  destruct (fold_left (sub_quad_step subs) d ([], [], [])) as [[c0 l0] q0] eqn:Ef.
  apply bind_ok in H. destruct H as (l' & Hl & H). apply bind_ok in H. destruct H as (q' & Hq & H). injection H as <- <- <-.
  pose proof (prog_wf_nodup _ W) as N. destruct (quad_names_dict _ _ _ N We Hd) as [[D1 [D2 D3]] _].
  destruct (names_exact dst X) as [Hx Hn]. destruct (sub_quad_fold_nodup d [] [] [] (NoDup_nil _) (NoDup_nil _)) as [N1 N2].
  rewrite Ef in N1, N2. cbn [fst snd] in N1, N2.
  destruct (lin_make_named _ _ Hx Hn _ _ N1 Hl) as (Wl & Dl & (E1 & E2 & E3) & _).
  destruct (quad_make_named _ _ Hx Hn _ _ N2 Hq) as (Wq & Dq & (F1 & F2 & F3)).
  split; auto. split; auto. split; auto. split; auto. intros x y C M.
  assert (length y = length (var_names dst)) as L by (rewrite V; apply M).
  rewrite E3, F3 by exact L. rewrite D3 by (destruct C as [C _]; now rewrite C, names_length).
  pose proof (sub_quad_fold x y d C M D2 [] [] []) as S. cbv zeta in S. rewrite Ef in S. cbn [fst snd] in S. rewrite !dsum_nil in S. change (sumof (fun a => a) []) with 0%Qc in S. rewrite V, S. unfold names. ring.
Qed.
End Points.
