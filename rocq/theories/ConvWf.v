(** * The programs made by converters are well formed *)
From Verif Require Export NamedFacts.
Local Open Scope nat_scope.

Lemma ok_state_fst {A} (x : qp * result A) q : ok_state x = Ok q -> fst x = q.
Proof. destruct x as [p []]; simpl; intros [=]; auto. Qed.
Lemma add_variable_prog_wf p lb ub ty nm q : prog_wf p -> ok_state (add_variable p lb ub ty nm) = Ok q -> prog_wf q.
Proof.
  intros W H. apply ok_state_fst in H. subst. pose proof (step_prog_wf p (OAddVar lb ub ty nm) I W) as G. simpl in G.
  now rewrite drop_out_fst in G.
Qed.
Lemma linear_constraint_prog_wf p lin s r nm q : lincoef_wf (lcoef_or_empty lin) -> prog_wf p -> ok_state (linear_constraint p lin s r nm) = Ok q -> prog_wf q.
Proof. intros C W H. apply ok_state_fst in H. subst. exact (step_prog_wf p (OLinCon lin s r nm) C W). Qed.
Lemma quadratic_constraint_prog_wf p lin quad s r nm q : lincoef_wf (lcoef_or_empty lin) -> prog_wf p ->
  ok_state (quadratic_constraint p lin quad s r nm) = Ok q -> prog_wf q.
Proof. intros C W H. apply ok_state_fst in H. subst. exact (step_prog_wf p (OQuadCon lin quad s r nm) C W). Qed.
Lemma set_objective_prog_wf p s c lin quad q : lincoef_wf (lcoef_or_empty lin) -> prog_wf p ->
  ok_state (set_objective p s c lin quad) = Ok q -> prog_wf q.
Proof. intros C W H. apply ok_state_fst in H. subst. exact (step_prog_wf p (OObjective s c lin quad) C W). Qed.
Lemma copy_var_prog_wf p v q : prog_wf p -> copy_var p v = Ok q -> prog_wf q.
Proof.
  intros W. unfold copy_var, binary_var, integer_var, continuous_var. destruct (v_type v); intro H; eapply add_variable_prog_wf; eauto.
Qed.
Lemma foldM_prog_wf {A} (f : qp -> A -> result qp) l : (forall p a q, prog_wf p -> f p a = Ok q -> prog_wf q) ->
  forall p q, prog_wf p -> foldM f l p = Ok q -> prog_wf q.
Proof.
  intro H. induction l as [|a l IH]; intros p q W E; cbn [foldM] in E; [now injection E as <-|].
  apply bind_ok in E. destruct E as (r & E1 & E2). eauto.
Qed.
Lemma slack_linear_wf i src dst lin s r nm q : prog_wf dst -> slack_linear i src dst lin s r nm = Ok q -> prog_wf q.
Proof.
  intros W H. unfold slack_linear in H. destruct (i && any_float lin); [discriminate|]. apply bind_ok in H. destruct H as (b & _ & H).
  cbv zeta in H. destruct (qltb _ _).
  - apply bind_ok in H. destruct H as (d1 & H1 & H2). eapply linear_constraint_prog_wf; [|  |exact H2]; [exact I|].
    unfold add_slack, integer_var, continuous_var in H1. destruct i; eapply add_variable_prog_wf; eauto.
  - eapply linear_constraint_prog_wf; [| |exact H]; [exact I|assumption].
Qed.
Lemma slack_quadratic_wf i src dst lin quad s r nm q : prog_wf dst -> slack_quadratic i src dst lin quad s r nm = Ok q -> prog_wf q.
Proof.
  intros W H. unfold slack_quadratic in H. destruct (i && _); [discriminate|]. apply bind_ok in H. destruct H as (b & _ & H).
  cbv zeta in H. destruct (qltb _ _).
  - apply bind_ok in H. destruct H as (d1 & H1 & H2). eapply quadratic_constraint_prog_wf; [| |exact H2]; [exact I|].
    unfold add_slack, integer_var, continuous_var in H1. destruct i; eapply add_variable_prog_wf; eauto.
  - eapply quadratic_constraint_prog_wf; [| |exact H]; [exact I|assumption].
Qed.
Lemma ineq_linear_wf mode src p c q : prog_wf p -> ineq_linear mode src p c = Ok q -> prog_wf q.
Proof.
  intros W H. unfold ineq_linear in H. apply bind_ok in H. destruct H as (l & _ & H).
  destruct (lc_sense c), mode; try discriminate; try (eapply slack_linear_wf; eauto; fail);
  (eapply linear_constraint_prog_wf; [| |exact H]; [exact I|assumption]).
Qed.
Lemma ineq_quadratic_wf mode src p c q : prog_wf p -> ineq_quadratic mode src p c = Ok q -> prog_wf q.
Proof.
  intros W H. unfold ineq_quadratic in H. apply bind_ok in H. destruct H as (l & _ & H). apply bind_ok in H. destruct H as (l2 & _ & H).
  destruct (qc_sense c), mode; try discriminate; try (eapply slack_quadratic_wf; eauto; fail);
  (eapply quadratic_constraint_prog_wf; [| |exact H]; [exact I|assumption]).
Qed.
Lemma ineq_to_eq_wf mode src q : ineq_to_eq mode src = Ok q -> prog_wf q.
Proof.
  intro H. unfold ineq_to_eq in H.
  apply bind_ok in H. destruct H as (d0 & Hc & H). apply bind_ok in H. destruct H as (lin & Hl & H).
  apply bind_ok in H. destruct H as (quad & Hq & H). apply bind_ok in H. destruct H as (d1 & Ho & H).
  apply bind_ok in H. destruct H as (d2 & H2 & H3).
  eapply (foldM_prog_wf _ _ (ineq_quadratic_wf mode src)); [|exact H3].
  eapply (foldM_prog_wf _ _ (ineq_linear_wf mode src)); [|exact H2].
  eapply set_objective_prog_wf; [| |exact Ho]; [exact I|].
  eapply (foldM_prog_wf _ _ copy_var_prog_wf); [|exact Hc]. apply prog_wf_new.
Qed.
Lemma declare_bits_wf bits : forall p q, prog_wf p -> declare_bits p bits = Ok q -> prog_wf q.
Proof. apply foldM_prog_wf. intros p a q W H. unfold binary_var in H. eapply add_variable_prog_wf; [exact W|exact H]. Qed.
Lemma i2b_declare_wf l : forall st st', prog_wf (fst st) -> foldM i2b_declare l st = Ok st' -> prog_wf (fst st').
Proof.
  induction l as [|[i v] l IH]; intros st st' W E; cbn [foldM] in E; [now injection E as <-|].
  apply bind_ok in E. destruct E as (r & E1 & E2). eapply IH; [|exact E2]. unfold i2b_declare in E1.
  destruct (v_type _).
  - apply bind_ok in E1. destruct E1 as (d & E1 & E3). injection E3 as <-. eapply copy_var_prog_wf; eauto.
  - apply bind_ok in E1. destruct E1 as (d & E1 & E3). injection E3 as <-. eapply copy_var_prog_wf; eauto.
  - apply bind_ok in E1. destruct E1 as (b & E1 & E3). apply bind_ok in E3. destruct E3 as (d & E3 & E4). injection E4 as <-.
    eapply declare_bits_wf; eauto.
Qed.
Lemma i2b_lincon_wf src conv p c q : prog_wf p -> i2b_lincon src conv p c = Ok q -> prog_wf q.
Proof.
  intros W H. unfold i2b_lincon in H. apply bind_ok in H. destruct H as (l & _ & H). apply bind_ok in H. destruct H as (l2 & _ & H).
  eapply linear_constraint_prog_wf; [| |exact H]; [exact I|assumption].
Qed.
Lemma i2b_quadcon_wf src conv p c q : prog_wf p -> i2b_quadcon src conv p c = Ok q -> prog_wf q.
Proof.
  intros W H. unfold i2b_quadcon in H. apply bind_ok in H. destruct H as (l & _ & H). apply bind_ok in H. destruct H as (l2 & _ & H).
  apply bind_ok in H. destruct H as (l3 & _ & H). apply bind_ok in H. destruct H as ([[a b] c0] & _ & H).
  eapply quadratic_constraint_prog_wf; [| |exact H]; [exact I|assumption].
Qed.
Lemma int_to_bin_wf src q tbl : prog_wf src -> int_to_bin src = Ok (q, tbl) -> prog_wf q.
Proof.
  intros W H. unfold int_to_bin in H. destruct (0 <? count_type INTEGER src); [|injection H as <- <-; exact W].
  apply bind_ok in H. destruct H as (st & Hd & H). apply bind_ok in H. destruct H as (d & Hs & H). injection H as <- <-.
  unfold i2b_substitute in Hs. apply bind_ok in Hs. destruct Hs as (l & _ & H). apply bind_ok in H. destruct H as (l2 & _ & H).
  apply bind_ok in H. destruct H as (l3 & _ & H). apply bind_ok in H. destruct H as ([[a b] c0] & _ & H).
  apply bind_ok in H. destruct H as (d1 & Ho & H). apply bind_ok in H. destruct H as (d2 & H2 & H3).
  eapply (foldM_prog_wf _ _ (i2b_quadcon_wf src _)); [|exact H3].
  eapply (foldM_prog_wf _ _ (i2b_lincon_wf src _)); [|exact H2].
  eapply set_objective_prog_wf; [| |exact Ho]; [exact I|].
  eapply i2b_declare_wf; [|exact Hd]. apply prog_wf_new.
Qed.
Lemma penalize_wf c src q : penalize c src = Ok q -> prog_wf q.
Proof.
  intro H. unfold penalize in H. apply bind_ok in H. destruct H as (d0 & Hc & H). apply bind_ok in H. destruct H as ([[o l] k] & _ & H).
  eapply set_objective_prog_wf; [| |exact H]; [exact I|].
  eapply (foldM_prog_wf _ _ copy_var_prog_wf); [|exact Hc]. apply prog_wf_new.
Qed.
