(** * Lemmas behind C13, C14 *)
From Verif Require Export Feas ProgramProps.
Local Open Scope nat_scope.

Lemma picks_filter {A} (P : A -> Prop) f l : (forall a, f a = true <-> P a) -> picks P l (filter f l).
Proof.
  intro H. induction l as [|a l IH]; simpl; [constructor|]. destruct (f a) eqn:E.
  - constructor; auto. now apply H.
  - constructor; auto. rewrite <- H. congruence.
Qed.
Lemma filter_nil {A} (f : A -> bool) l : filter f l = [] <-> Forall (fun a => f a = false) l.
Proof.
  induction l as [|a l IH]; simpl; [split; auto|]. destruct (f a) eqn:E.
  - split; [discriminate|]. intro H. inversion H; congruence.
  - rewrite IH. split; [intro; constructor; auto|]. intro H; now inversion H.
Qed.

Lemma qmax_cases a b : qmax a b = a /\ (b <= a)%Qc \/ qmax a b = b /\ (a <= b)%Qc.
Proof. unfold qmax. destruct (qleb_spec a b); [right|left]; split; auto. qlra. Qed.

Lemma rel_tol_pos : (0 < rel_tol)%Qc.
Proof. apply qltb_iff. vm_compute. reflexivity. Qed.
Lemma isclose_spec a b : isclose a b = true <-> close a b.
Proof.
  unfold isclose, close. rewrite qleb_iff. change (1 / qz 1000000000)%Qc with rel_tol.
  pose proof rel_tol_pos as Ht. generalize dependent rel_tol. intros t Ht.
  destruct (qmax_cases (qabs a) (qabs b)) as [[-> H]|[-> H]]; split; auto; intros [G|G]; auto; qnra.
Qed.
Lemma close_refl a : close a a.
Proof.
  left. replace (a - a)%Qc with 0%Qc by ring. replace (qabs 0) with 0%Qc by reflexivity.
  change (1 / qz 1000000000)%Qc with rel_tol. pose proof rel_tol_pos. pose proof (qabs_nonneg a). qnra.
Qed.
Lemma close_zero a : close a 0 -> a = 0%Qc.
Proof.
  unfold close. change (1 / qz 1000000000)%Qc with rel_tol. pose proof (qabs_nonneg a) as Ha.
  replace (a - 0)%Qc with a by ring. replace (qabs 0) with 0%Qc by reflexivity.
  assert (rel_tol < 1)%Qc as Ht by (apply qltb_iff; reflexivity). generalize dependent rel_tol. intros t Ht H.
  assert (qabs a = 0%Qc) as E by (destruct H; qnra). now apply qabs_0.
Qed.
Lemma con_violated_spec s a b : con_violated s a b = true <-> ~ holds_close s a b.
Proof.
  unfold con_violated, holds_close. destruct s.
  - destruct (qltb_spec b a); split; auto; try discriminate; [intros _ H; qlra|intro H; exfalso; apply H; qlra].
  - destruct (qltb_spec a b); split; auto; try discriminate; [intros _ H; qlra|intro H; exfalso; apply H; qlra].
  - rewrite negb_true_iff. destruct (isclose a b) eqn:E.
    + apply isclose_spec in E. split; [discriminate|contradiction].
    + split; auto. intros _ H. apply isclose_spec in H. congruence.
Qed.
Lemma var_violated_spec v a : var_violated v a = true <-> ~ in_range v a.
Proof.
  unfold var_violated, in_range. rewrite orb_true_iff, !qltb_iff. split.
  - intros [H|H] [H1 H2]; qlra.
  - intro H. destruct (qltb_spec a (v_lb v)); auto. destruct (qltb_spec (v_ub v) a); auto. exfalso. apply H. split; qlra.
Qed.

Lemma any_eval_at p c x : shapes (num_vars p) p -> length x = num_vars p -> In c (all_cons p) ->
  any_eval p c x = Ok (any_at c x).
Proof.
  intros S Hx Hc. destruct (shapes_eval p x S Hx) as (_ & H1 & H2). rewrite Forall_forall in H1, H2.
  unfold all_cons in Hc. apply in_app_iff in Hc. rewrite !in_map_iff in Hc.
  destruct Hc as [(c' & <- & Hc)|(c' & <- & Hc)]; simpl; auto.
Qed.

Lemma feas_fold p x l acc : (forall c, In c l -> any_eval p c x = Ok (any_at c x)) ->
  foldM (fun acc c => do lhs <- any_eval p c x;
     Ok (if con_violated (any_sense c) lhs (any_rhs c) then acc ++ [c] else acc)) l acc =
  Ok (acc ++ filter (fun c => con_violated (any_sense c) (any_at c x) (any_rhs c)) l).
Proof.
  revert acc; induction l as [|c l IH]; intros acc H; simpl; [now rewrite app_nil_r|].
  rewrite (H c) by now left. simpl. rewrite IH by (intros; apply H; now right).
  destruct (con_violated _ _ _); [|reflexivity]. rewrite <- app_assoc. reflexivity.
Qed.

Lemma picks_fst {A B} (P : A -> B -> Prop) f : (forall a b, f (a, b) = true <-> P a b) ->
  forall (l : list A) (x : list B), length l = length x ->
  picks (fun va => P (fst va) (snd va)) (combine l x) (filter f (combine l x)).
Proof. intros H l x _. apply picks_filter. intros [a b]. apply H. Qed.

Lemma info_spec p x : shapes (num_vars p) p -> length x = num_vars p ->
  exists b vx cs, get_feasibility_info p x = Ok (b, map fst vx, cs) /\
    picks (fun va => ~ in_range (fst va) (snd va)) (combine (p_vars p) x) vx /\
    picks (fun c => ~ holds_close (any_sense c) (any_at c x) (any_rhs c)) (all_cons p) cs /\
    (b = true <-> vx = [] /\ cs = []) /\
    (b = true <-> Forall2 in_range (p_vars p) x /\
                  Forall (fun c => holds_close (any_sense c) (any_at c x) (any_rhs c)) (all_cons p)).
Proof.
  intros S Hx. unfold get_feasibility_info. rewrite Hx, Nat.eqb_refl. simpl negb. cbv iota zeta.
  rewrite feas_fold by (intros; now apply any_eval_at). simpl.
  set (fv := fun va => var_violated (fst va) (snd va)).
  set (fc := fun c => con_violated (any_sense c) (any_at c x) (any_rhs c)).
  do 3 eexists. split; [reflexivity|]. split; [|split; [|split]].
  - apply picks_filter. intros [v a]. apply var_violated_spec.
  - apply picks_filter. intro c. apply con_violated_spec.
  - destruct (filter fv _), (filter fc _); simpl; split; try tauto; try discriminate; intros []; discriminate.
  - transitivity (filter fv (combine (p_vars p) x) = [] /\ filter fc (all_cons p) = []).
    { destruct (filter fv _), (filter fc _); simpl; split; try tauto; try discriminate; intros []; discriminate. }
    rewrite !filter_nil. split; intros [H1 H2]; split.
    + unfold num_vars in Hx. clear - H1 Hx. revert x Hx H1. generalize (p_vars p). induction l as [|v l IH]; intros [|a x] Hx H; try discriminate; constructor.
      * inversion H; subst. unfold fv in H2; simpl in H2.
        destruct (var_violated v a) eqn:E; [discriminate|]. unfold var_violated in E. apply orb_false_iff in E.
        rewrite !qltb_false in E. exact E.
      * apply IH; [now injection Hx|now inversion H].
    + eapply Forall_impl; [|exact H2]. intros c E. unfold fc in E. simpl in E. unfold con_violated in E.
      unfold holds_close. destruct (any_sense c); [now apply qltb_false in E|now apply qltb_false in E|].
      apply negb_false_iff in E. now apply isclose_spec.
    + unfold num_vars in Hx. clear - H1. induction H1; simpl; constructor; auto. unfold fv; simpl.
      destruct (var_violated x y) eqn:E; auto. apply var_violated_spec in E. contradiction.
    + eapply Forall_impl; [|exact H2]. intros c E. unfold fc. simpl.
      destruct (con_violated _ _ _) eqn:E2; auto. apply con_violated_spec in E2. contradiction.
Qed.

Lemma info_length p x : length x <> num_vars p -> get_feasibility_info p x = Err QiskitOptimizationError.
Proof. intro H. unfold get_feasibility_info. destruct (Nat.eqb_spec (length x) (num_vars p)); [contradiction|reflexivity]. Qed.

(** is_feasible as a proposition. *)
Lemma is_feasible_spec p x : shapes (num_vars p) p -> length x = num_vars p ->
  is_feasible p x = Ok true <-> in_bounds p x /\
    Forall (fun c => holds_close (lc_sense c) (lc_at c x) (lc_rhs c)) (p_lcs p) /\
    Forall (fun c => holds_close (qc_sense c) (qc_at c x) (qc_rhs c)) (p_qcs p).
Proof.
  intros S Hx. destruct (info_spec p x S Hx) as (b & vx & cs & E & _ & _ & _ & H).
  unfold is_feasible. rewrite E. simpl. unfold in_bounds, all_cons in *. rewrite Forall_app, !Forall_map in H. simpl in H.
  split; [intros [=]; now apply H|]. intro G. f_equal. now apply H.
Qed.
Lemma is_feasible_total p x : shapes (num_vars p) p -> length x = num_vars p -> exists b, is_feasible p x = Ok b.
Proof.
  intros S Hx. destruct (info_spec p x S Hx) as (b & vx & cs & E & _). unfold is_feasible. rewrite E. simpl. eauto.
Qed.
Lemma holds_holds_close s a b : holds s a b -> holds_close s a b.
Proof. destruct s; simpl; auto. intros ->. apply close_refl. Qed.
Lemma Forall2_len {A B} (R : A -> B -> Prop) l m : Forall2 R l m -> length l = length m.
Proof. induction 1; simpl; congruence. Qed.
Lemma feasible_is_feasible p x : shapes (num_vars p) p -> feasible p x -> is_feasible p x = Ok true.
Proof.
  intros S (H1 & H2 & H3 & H4). assert (length x = num_vars p) as Hx by (symmetry; eapply Forall2_len; exact H1).
  apply is_feasible_spec; auto. repeat split; auto; (eapply Forall_impl; [|eassumption]); intros c; apply holds_holds_close.
Qed.

Lemma info_full p x : shapes (num_vars p) p -> length x = num_vars p ->
  exists b vx cs, get_feasibility_info p x = Ok (b, map fst vx, cs) /\
    picks (fun va => ~ in_range (fst va) (snd va)) (combine (p_vars p) x) vx /\
    picks (fun c => ~ holds_close (any_sense c) (any_at c x) (any_rhs c)) (map CLin (p_lcs p) ++ map CQuad (p_qcs p)) cs /\
    (b = true <-> vx = [] /\ cs = []) /\
    (b = true <-> Forall2 in_range (p_vars p) x /\
                  Forall (fun c => holds_close (any_sense c) (any_at c x) (any_rhs c)) (map CLin (p_lcs p) ++ map CQuad (p_qcs p))) /\
    is_feasible p x = Ok b.
Proof.
  intros S Hx. destruct (info_spec p x S Hx) as (b & vx & cs & E & A & B & C & D). exists b, vx, cs.
  split; auto. split; auto. split; auto. split; auto. split; auto. unfold is_feasible. now rewrite E.
Qed.
Lemma info_wrong_length p x : length x <> num_vars p ->
  get_feasibility_info p x = Err QiskitOptimizationError /\ is_feasible p x = Err QiskitOptimizationError.
Proof. intro H. unfold is_feasible. rewrite info_length by assumption. auto. Qed.
Lemma exact_points p x : shapes (num_vars p) p ->
  (feasible p x -> is_feasible p x = Ok true) /\
  (length x = num_vars p -> is_feasible p x = Ok true ->
   (forall c, In c (p_lcs p) -> lc_sense c = EQ -> lc_rhs c = 0%Qc) ->
   (forall c, In c (p_qcs p) -> qc_sense c = EQ -> qc_rhs c = 0%Qc) ->
   in_bounds p x /\ lcs_hold p x /\ qcs_hold p x).
Proof.
  intro S. split; [now apply feasible_is_feasible|]. intros Hx H R1 R2. apply is_feasible_spec in H; auto.
  destruct H as (H1 & H2 & H3). split; auto. rewrite Forall_forall in H2, H3. split; apply Forall_forall; intros c Hc.
  - specialize (H2 c Hc). specialize (R1 c Hc). destruct (lc_sense c); auto. simpl in *. rewrite R1 in * by reflexivity. now apply close_zero.
  - specialize (H3 c Hc). specialize (R2 c Hc). destruct (qc_sense c); auto. simpl in *. rewrite R2 in * by reflexivity. now apply close_zero.
Qed.
Lemma feasible_bounds p x : shapes (num_vars p) p -> length x = num_vars p ->
  is_feasible p x = Ok true -> Forall2 (fun v a => (v_lb v <= a)%Qc /\ (a <= v_ub v)%Qc) (p_vars p) x.
Proof. intros S Hx H. apply is_feasible_spec in H; auto. apply H. Qed.

(** ** The objective and the types play no part *)
Lemma info_no_obj p o x : get_feasibility_info (set_obj o p) x = get_feasibility_info p x.
Proof. destruct p. reflexivity. Qed.
Definition blank (n : nat) : objective := mkObj 0 (mkLin n false []) (mkQuad n false []) MINIMIZE.
Lemma blank_shapes p : cons_shapes (num_vars p) p -> shapes (num_vars (set_obj (blank (num_vars p)) p)) (set_obj (blank (num_vars p)) p).
Proof.
  intros [S1 S2]. change (num_vars (set_obj (blank (num_vars p)) p)) with (num_vars p).
  split; [|split; [|split; assumption]]; (split; [split; constructor|reflexivity]).
Qed.
Lemma info_cons p x : cons_shapes (num_vars p) p -> length x = num_vars p ->
  exists b vx cs, get_feasibility_info p x = Ok (b, map fst vx, cs) /\
    picks (fun va => ~ in_range (fst va) (snd va)) (combine (p_vars p) x) vx /\
    picks (fun c => ~ holds_close (any_sense c) (any_at c x) (any_rhs c)) (map CLin (p_lcs p) ++ map CQuad (p_qcs p)) cs /\
    (b = true <-> vx = [] /\ cs = []) /\
    (b = true <-> Forall2 in_range (p_vars p) x /\
                  Forall (fun c => holds_close (any_sense c) (any_at c x) (any_rhs c)) (map CLin (p_lcs p) ++ map CQuad (p_qcs p))) /\
    is_feasible p x = Ok b.
Proof.
  intros S Hx. pose proof (info_full (set_obj (blank (num_vars p)) p) x (blank_shapes p S) Hx) as F. unfold is_feasible in *.
  rewrite info_no_obj in F. exact F.
Qed.
Lemma feasible_points_cons p x : cons_shapes (num_vars p) p ->
  (feasible p x -> is_feasible p x = Ok true) /\
  (length x = num_vars p -> is_feasible p x = Ok true ->
   (forall c, In c (p_lcs p) -> lc_sense c = EQ -> lc_rhs c = 0%Qc) ->
   (forall c, In c (p_qcs p) -> qc_sense c = EQ -> qc_rhs c = 0%Qc) ->
   in_bounds p x /\ lcs_hold p x /\ qcs_hold p x).
Proof.
  intros S. pose proof (exact_points (set_obj (blank (num_vars p)) p) x (blank_shapes p S)) as F. unfold is_feasible in *.
  rewrite info_no_obj in F. exact F.
Qed.
Lemma any_eval_err p c x e : exprs_wf p -> In c (all_cons p) -> any_eval p c x = Err e -> e = ValueError.
Proof.
  intros (_ & _ & W3 & W4) Hc. rewrite Forall_forall in W3, W4. unfold all_cons in Hc. apply in_app_iff in Hc. rewrite !in_map_iff in Hc.
  destruct Hc as [(c' & <- & Hc)|(c' & <- & Hc)]; cbn [any_eval].
  - rewrite eval_lincon_exact by auto. destruct (_ =? _); intros [=]; congruence.
  - destruct (W4 c' Hc). rewrite eval_quadcon_exact by assumption. destruct (_ && _); intros [=]; congruence.
Qed.
Lemma feas_fold_ok p x l : forall acc r, foldM (fun acc c => do lhs <- any_eval p c x;
     Ok (if con_violated (any_sense c) lhs (any_rhs c) then acc ++ [c] else acc)) l acc = Ok r -> forall c, In c l -> exists v, any_eval p c x = Ok v.
Proof.
  induction l as [|c l IH]; intros acc r H d []; cbn [foldM] in H; apply bind_ok in H; destruct H as (a1 & H1 & H2).
  - subst d. apply bind_ok in H1. destruct H1 as (v & H1 & _). eauto.
  - eauto.
Qed.
Lemma feas_fold_err p x l : forall acc e, foldM (fun acc c => do lhs <- any_eval p c x;
     Ok (if con_violated (any_sense c) lhs (any_rhs c) then acc ++ [c] else acc)) l acc = Err e -> exists c, In c l /\ any_eval p c x = Err e.
Proof.
  induction l as [|c l IH]; intros acc e H; [discriminate H|]. cbn [foldM] in H. apply bind_err in H. destruct H as [H|(a1 & _ & H)].
  - apply bind_err in H. destruct H as [H|(v & _ & H)]; [|discriminate H]. exists c. split; [now left|exact H].
  - destruct (IH _ _ H) as (d & Hd & E). exists d. split; [now right|exact E].
Qed.
Lemma info_sizes p x : exprs_wf p -> length x = num_vars p ->
  ((exists b, is_feasible p x = Ok b) <-> cons_shapes (num_vars p) p) /\ (forall e, is_feasible p x = Err e -> e = ValueError).
Proof.
  intros W Hx. pose proof W as (_ & _ & W3 & W4). rewrite Forall_forall in W3, W4. split; [split|].
  - intros (b & H). unfold is_feasible, get_feasibility_info in H. rewrite Hx, Nat.eqb_refl in H. simpl negb in H. cbv iota zeta in H.
    apply bind_ok in H. destruct H as (r & H & _). apply bind_ok in H. destruct H as (vc & H & _). pose proof (feas_fold_ok p x _ _ _ H) as F.
    unfold all_cons in F. split; apply Forall_forall; intros c Hc.
    + destruct (F (CLin c)) as (v & E); [apply in_app_iff; left; now apply in_map|]. cbn [any_eval] in E. rewrite eval_lincon_exact in E by auto.
      destruct (Nat.eqb_spec (length x) (le_dim (lc_lin c))); [split; [auto|congruence]|discriminate E].
    + destruct (F (CQuad c)) as (v & E); [apply in_app_iff; right; now apply in_map|]. cbn [any_eval] in E. destruct (W4 c Hc). rewrite eval_quadcon_exact in E by assumption.
      destruct (Nat.eqb_spec (length x) (le_dim (qc_lin c))); [|discriminate E]. destruct (Nat.eqb_spec (length x) (qe_dim (qc_quad c))); [|discriminate E].
      split; (split; [assumption|congruence]).
  - intro S. destruct (info_cons p x S Hx) as (b & _ & _ & _ & _ & _ & _ & _ & E). eauto.
  - intros e H. unfold is_feasible in H. apply bind_err in H. destruct H as [H|(r & _ & H)]; [|discriminate H].
    unfold get_feasibility_info in H. rewrite Hx, Nat.eqb_refl in H. simpl negb in H. cbv iota zeta in H.
    apply bind_err in H. destruct H as [H|(r & _ & H)]; [|discriminate H]. apply feas_fold_err in H. destruct H as (c & Hc & E).
    exact (any_eval_err p c x e W Hc E).
Qed.
Lemma retyped_report p q x : Forall2 (fun v w => v_name w = v_name v /\ v_lb w = v_lb v /\ v_ub w = v_ub v) (p_vars p) (p_vars q) ->
  p_lcs q = p_lcs p -> p_qcs q = p_qcs p -> p_vidx q = p_vidx p -> is_feasible q x = is_feasible p x.
Proof.
  intros F L Q I. assert (num_vars q = num_vars p) as N by (unfold num_vars; symmetry; eapply Forall2_len; exact F).
  unfold is_feasible, get_feasibility_info. rewrite N. destruct (negb _); [reflexivity|]. cbv zeta.
  assert (forall c, any_eval q c x = any_eval p c x) as E.
  { intros [c|c]; cbn [any_eval]; unfold eval_lincon, eval_quadcon, env_of; rewrite N, I; reflexivity. }
  assert (forall l acc, foldM (fun acc c => do lhs <- any_eval q c x; Ok (if con_violated (any_sense c) lhs (any_rhs c) then acc ++ [c] else acc)) l acc =
    foldM (fun acc c => do lhs <- any_eval p c x; Ok (if con_violated (any_sense c) lhs (any_rhs c) then acc ++ [c] else acc)) l acc) as G.
  { induction l as [|c l IH]; intro acc; [reflexivity|]. cbn [foldM]. rewrite E. destruct (any_eval p c x); cbn [bind]; auto. }
  assert (all_cons q = all_cons p) as A by (unfold all_cons; now rewrite L, Q). rewrite G, A.
  destruct (foldM _ (all_cons p) []) as [vc|]; [|reflexivity]. cbn [bind fst].
  assert (forall y, (filter (fun va => var_violated (fst va) (snd va)) (combine (p_vars q) y) = []) <-> (filter (fun va => var_violated (fst va) (snd va)) (combine (p_vars p) y) = [])) as V.
  { clear - F. induction F as [|v w l m (_ & A & B) F IH]; intro y; [reflexivity|]. destruct y as [|a y]; [reflexivity|]. cbn [combine filter fst snd].
    assert (var_violated w a = var_violated v a) as -> by (unfold var_violated; now rewrite A, B). destruct (var_violated v a); [split; discriminate|apply IH]. }
  specialize (V x). destruct (filter _ (combine (p_vars q) x)) as [|a l], (filter _ (combine (p_vars p) x)) as [|b m]; simpl.
  - destruct vc; reflexivity.
  - destruct V as [V _]. discriminate (V eq_refl).
  - destruct V as [_ V]. discriminate (V eq_refl).
  - reflexivity.
Qed.
