(** * Every program made by API calls is well-formed *)
From Verif Require Export ProgramFacts ProgramProps ExprProps.
Local Open Scope nat_scope.

Lemma lin_put_wf env e kv e' : lin_wf e -> lin_put env e kv = Ok e' -> lin_wf e'.
Proof.
  intros [H1 H2] H. unfold lin_put in H. inv_ok. apply dok_index_spec in H0. split; simpl.
  - now apply (dok_put_nodup _ nat_eqb_sp).
  - apply (dok_put_Forall _ nat_eqb_sp); simpl; tauto.
Qed.
Lemma quad_pos_lt env n k ij : quad_pos env n k = Ok ij -> fst ij < n /\ snd ij < n.
Proof. unfold quad_pos. intro H. inv_ok. apply dok_index_spec in H1, H2. simpl. tauto. Qed.
Lemma quad_set_wf env e k v e' : quad_wf e -> quad_set env e k v = Ok e' -> quad_wf e'.
Proof.
  intros W H. unfold quad_set in H. inv_ok. apply quad_pos_lt in H.
  destruct W as [H1 H2]. split; simpl.
  - now apply (dok_put_nodup _ nat2_eqb_sp).
  - apply (dok_put_Forall _ nat2_eqb_sp); simpl; tauto.
Qed.
Lemma quad_make_wf env c e : quad_make env c = Ok e -> quad_wf e.
Proof. intro H. apply quad_make_spec in H. tauto. Qed.

(** Expressions and names of constraints. *)
Definition content_wf (p : qp) : Prop := exprs_wf p /\ names_ok p.
Lemma content_vars p v : content_wf p -> content_wf (set_vars v p).
Proof. exact (fun H => H). Qed.

Lemma con_name_nonempty idx n c r name nm : con_name idx n (String c r) name = Ok nm -> nm <> EmptyString.
Proof.
  assert (forall f k nm, auto_name f idx (String c r) k = Ok nm -> nm <> EmptyString) as A.
  { induction f as [|f IH]; simpl; intros k nm'; [discriminate|].
    destruct (dhas _ _ idx); [apply IH|]. intros [=]; subst. discriminate. }
  unfold con_name. destruct name as [[|a s]|]; eauto. destruct (dhas _ _ idx); [discriminate|]. intros [=]; subst. discriminate.
Qed.

Lemma linear_constraint_wf p lin s rhs name :
  lincoef_wf (lcoef_or_empty lin) -> content_wf p -> content_wf (fst (linear_constraint p lin s rhs name)).
Proof.
  intros Hl Hc. pose proof Hc as [(H1 & H2 & H3 & H4) [H5 H6]]. unfold linear_constraint.
  destruct (con_name (p_lidx p) (length (p_lcs p)) "c" name) as [nm|] eqn:En; [|exact Hc].
  apply con_name_nonempty in En.
  destruct (sense_convert s); simpl; [|exact Hc].
  destruct (lin_make (env_of p) (lcoef_or_empty lin)) as [e|] eqn:Ee; simpl; [|exact Hc].
  apply lin_make_wf in Ee; auto. split; [split; [|split; [|split]]|split]; simpl; auto; apply Forall_app; split; auto.
Qed.
Lemma quadratic_constraint_wf p lin quad s rhs name :
  lincoef_wf (lcoef_or_empty lin) -> content_wf p -> content_wf (fst (quadratic_constraint p lin quad s rhs name)).
Proof.
  intros Hl Hc. pose proof Hc as [(H1 & H2 & H3 & H4) [H5 H6]]. unfold quadratic_constraint.
  destruct (con_name (p_qidx p) (length (p_qcs p)) "q" name) as [nm|] eqn:En; [|exact Hc].
  apply con_name_nonempty in En.
  destruct (sense_convert s); simpl; [|exact Hc].
  destruct (lin_make (env_of p) (lcoef_or_empty lin)) as [e|] eqn:Ee; simpl; [|exact Hc].
  destruct (quad_make (env_of p) (qcoef_or_empty quad)) as [e2|] eqn:Ee2; simpl; [|exact Hc].
  apply lin_make_wf in Ee; auto. apply quad_make_wf in Ee2.
  split; [split; [|split; [|split]]|split]; simpl; auto; apply Forall_app; split; auto.
Qed.
Lemma set_objective_wf p s c lin quad :
  lincoef_wf (lcoef_or_empty lin) -> content_wf p -> content_wf (fst (set_objective p s c lin quad)).
Proof.
  intros Hl Hc. pose proof Hc as [(H1 & H2 & H3 & H4) [H5 H6]]. destruct (set_objective_cases p s c lin quad) as [[e ->]|(o & Eo & ->)]; [exact Hc|].
  unfold obj_make in Eo. inv_ok. simpl. apply quad_make_wf in H0. apply lin_make_wf in H; [|destruct lin; exact Hl].
  split; [split; [|split; [|split]]|split]; simpl; auto.
Qed.
Lemma Forall_delete_at {A} (P : A -> Prop) i l : Forall P l -> Forall P (delete_at i l).
Proof. rewrite !Forall_forall. intros H a Ha. apply H. eapply delete_at_in; eauto. Qed.
Lemma on_lincon_wf p k f :
  (forall c c', In c (p_lcs p) -> lin_wf (lc_lin c) -> lc_name c <> EmptyString -> f c = Ok c' -> lin_wf (lc_lin c') /\ lc_name c' <> EmptyString) ->
  content_wf p -> content_wf (fst (on_lincon p k f)).
Proof.
  intros Hf Hc. pose proof Hc as [(H1 & H2 & H3 & H4) [H5 H6]]. destruct (on_lincon_cases p k f) as [[e ->]|(i & c & c' & _ & N & E & ->)]; [exact Hc|].
  apply nth_error_In in N. rewrite Forall_forall in H3, H5. destruct (Hf c c' N (H3 c N) (H5 c N) E).
  split; [split; [|split; [|split]]|split]; simpl; auto; apply Forall_update; auto; now apply Forall_forall.
Qed.
Lemma on_quadcon_wf p k f :
  (forall c c', In c (p_qcs p) -> lin_wf (qc_lin c) -> quad_wf (qc_quad c) -> qc_name c <> EmptyString -> f c = Ok c' ->
     lin_wf (qc_lin c') /\ quad_wf (qc_quad c') /\ qc_name c' <> EmptyString) ->
  content_wf p -> content_wf (fst (on_quadcon p k f)).
Proof.
  intros Hf Hc. pose proof Hc as [(H1 & H2 & H3 & H4) [H5 H6]]. destruct (on_quadcon_cases p k f) as [[e ->]|(i & c & c' & _ & N & E & ->)]; [exact Hc|].
  apply nth_error_In in N. rewrite Forall_forall in H4, H6. destruct (H4 c N). destruct (Hf c c' N) as (A & B & C); auto.
  split; [split; [|split; [|split]]|split]; simpl; auto; apply Forall_update; auto; now apply Forall_forall.
Qed.
Lemma on_objective_wf p f :
  (forall o, lin_wf (o_lin (p_obj p)) -> quad_wf (o_quad (p_obj p)) -> f (p_obj p) = Ok o -> lin_wf (o_lin o) /\ quad_wf (o_quad o)) ->
  content_wf p -> content_wf (fst (on_objective p f)).
Proof.
  intros Hf Hc. pose proof Hc as [(H1 & H2 & H3 & H4) [H5 H6]]. destruct (on_objective_cases p f) as [[e ->]|(o & E & ->)]; [exact Hc|].
  destruct (Hf o H1 H2 E). split; [split; [|split; [|split]]|split]; simpl; auto.
Qed.
Lemma step_content p o : op_wf o -> content_wf p -> content_wf (fst (step p o)).
Proof.
  intros Ho H.
  assert (forall lb ub ty p nm, content_wf p -> content_wf (fst (add_named p nm lb ub ty))) as A.
  { intros lb ub ty p0 nm H0. unfold add_named. destruct (dhas _ _ _); [assumption|].
    destruct (var_make nm lb ub ty); exact H0. }
  destruct o; cbn [step op_wf] in *.
  - rewrite drop_out_fst. apply (add_variables_ind content_wf lb ub ty); auto.
  - rewrite drop_out_fst. apply (add_variable_ind content_wf lb ub ty); auto.
  - now apply linear_constraint_wf.
  - now apply quadratic_constraint_wf.
  - destruct (remove_linear_cases p k) as [[e ->]|(i & _ & ->)]; [assumption|].
    destruct H as [(H1 & H2 & H3 & H4) [H5 H6]]. split; [split; [|split; [|split]]|split]; simpl; auto; now apply Forall_delete_at.
  - destruct (remove_quadratic_cases p k) as [[e ->]|(i & _ & ->)]; [assumption|].
    destruct H as [(H1 & H2 & H3 & H4) [H5 H6]]. split; [split; [|split; [|split]]|split]; simpl; auto; now apply Forall_delete_at.
  - now apply set_objective_wf.
  - repeat split; simpl; constructor.
  - exact H.
  - destruct (on_variable_cases p k (fun v => var_set_lb v lb)) as [[e ->]|(i & v & v' & _ & _ & _ & ->)]; exact H.
  - destruct (on_variable_cases p k (fun v => var_set_ub v ub)) as [[e ->]|(i & v & v' & _ & _ & _ & ->)]; exact H.
  - destruct (on_variable_cases p k (fun v => Ok (mkVar (v_name v) (v_lb v) (v_ub v) ty))) as [[e ->]|(i & v & v' & _ & _ & _ & ->)]; exact H.
  - apply on_lincon_wf; auto. intros ? ? _ ? ? [=]; subst; auto.
  - apply on_lincon_wf; auto. intros ? ? _ ? ? [=]; subst; auto.
  - apply on_lincon_wf; auto. intros ? ? _ ? ? E; inv_ok; simpl. split; auto. eapply lin_make_wf; eauto.
  - apply on_lincon_wf; auto. intros ? ? _ ? ? E; inv_ok; simpl. split; auto. eapply lin_put_wf; eauto.
  - apply on_quadcon_wf; auto. intros ? ? _ ? ? ? [=]; subst; auto.
  - apply on_quadcon_wf; auto. intros ? ? _ ? ? ? [=]; subst; auto.
  - apply on_quadcon_wf; auto. intros ? ? _ ? ? ? E; inv_ok; simpl. split; [eapply lin_make_wf; eauto|split; auto].
  - apply on_quadcon_wf; auto. intros ? ? _ ? ? ? E; inv_ok; simpl. apply quad_make_wf in H3. tauto.
  - apply on_objective_wf; auto. intros ? ? ? [=]; subst; auto.
  - apply on_objective_wf; auto. intros ? ? ? [=]; subst; auto.
  - apply on_objective_wf; auto. intros ? ? ? E; inv_ok; simpl. split; auto; eapply lin_make_wf; eauto.
  - apply on_objective_wf; auto. intros ? ? ? E; inv_ok; simpl. split; auto; eapply quad_make_wf; eauto.
  - apply on_objective_wf; auto. intros ? ? ? E; inv_ok; simpl. split; auto; eapply lin_put_wf; eauto.
  - apply on_objective_wf; auto. intros ? ? ? E; inv_ok; simpl. split; auto; eapply quad_set_wf; eauto.
Qed.

Lemma prog_wf_split p : prog_wf p <-> idx_inv p /\ bounds_ok p /\ content_wf p.
Proof.
  split.
  - intros (A & B & C & D & E & F). split; [now constructor|]. split; auto. now split.
  - intros ([A B C] & D & E & F). exact (conj A (conj B (conj C (conj D (conj E F))))).
Qed.
Lemma prog_wf_new n : prog_wf (new_qp n).
Proof.
  apply prog_wf_split. split; [apply idx_exact_inv, idx_exact_new|]. split; [constructor|].
  repeat split; simpl; constructor.
Qed.
Lemma step_prog_wf p o : op_wf o -> prog_wf p -> prog_wf (fst (step p o)).
Proof.
  intros Ho H. apply prog_wf_split in H. destruct H as (A & B & C). apply prog_wf_split.
  split; [now apply step_inv|]. split; [now apply step_bounds|]. now apply step_content.
Qed.
Lemma run_prog_wf ops : forall p, Forall op_wf ops -> prog_wf p -> prog_wf (run p ops).
Proof.
  induction ops as [|o ops IH]; intros p Ho H; simpl; auto. inversion Ho; subst. apply IH; auto. now apply step_prog_wf.
Qed.
Lemma reachable_wf n ops : Forall op_wf ops -> prog_wf (run (new_qp n) ops).
Proof. intro H. apply run_prog_wf; auto. apply prog_wf_new. Qed.
Lemma prog_wf_nodup p : prog_wf p -> NoDup (var_names p).
Proof. intros (A & _). eapply index_finds_nodup; eauto. Qed.
