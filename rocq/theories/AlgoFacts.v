(** * Facts about results, samples and outcomes *)
From Verif Require Export SpecAlgo IsingProps ReuseFacts.
Local Open Scope nat_scope.

(** ** Interpretation through the converters *)
Lemma decodes_iff fs : forall x y, interpret_all fs x = Ok y <-> decodes fs x y.
Proof.
  unfold interpret_all. induction fs as [|f fs IH]; intros x y; simpl; [split; [intros [=]; auto|intros ->; auto]|].
  rewrite foldM_app. split.
  - intro H. apply bind_ok in H. destruct H as (z & H1 & H2). exists z. split; [now apply IH|]. simpl in H2. apply bind_ok in H2. destruct H2 as (w & H2 & [=]). congruence.
  - intros (z & H1 & H2). apply IH in H1. rewrite H1. simpl. now rewrite H2.
Qed.
Lemma decodes_fun fs x y z : decodes fs x y -> decodes fs x z -> y = z.
Proof. rewrite <- !decodes_iff. congruence. Qed.

(** ** Evaluation succeeds only on expressions of the right shape *)
Lemma eval_shapes p x : prog_wf p -> length x = num_vars p ->
  is_ok (obj_eval (env_of p) (p_obj p) (XList x)) = true -> is_ok (is_feasible p x) = true -> shapes (num_vars p) p.
Proof.
  intros W L H1 H2. destruct W as (_ & _ & _ & _ & (W1 & W2 & W3 & W4) & _).
  assert (forall e, lin_wf e -> forall b, lin_eval (env_of p) e (XList x) = Ok b -> lin_shape (num_vars p) e) as EL.
  { intros e We b H. rewrite lin_eval_list in H by auto. destruct (Nat.eqb_spec (length x) (le_dim e)); [|discriminate]. split; auto. congruence. }
  assert (forall e, quad_wf e -> forall b, quad_eval (env_of p) e (XList x) = Ok b -> quad_shape (num_vars p) e) as EQ_.
  { intros e We b H. rewrite quad_eval_list in H by auto. destruct (Nat.eqb_spec (length x) (qe_dim e)); [|discriminate]. split; auto. congruence. }
  assert (lin_shape (num_vars p) (o_lin (p_obj p)) /\ quad_shape (num_vars p) (o_quad (p_obj p))) as [S1 S2].
  { destruct (obj_eval (env_of p) (p_obj p) (XList x)) eqn:E; [|discriminate]. unfold obj_eval in E. apply bind_ok in E. destruct E as (u & E1 & E). apply bind_ok in E. destruct E as (v & E2 & E).
    split; [eapply EL; eauto|eapply EQ_; eauto]. }
  split; auto. split; auto.
  unfold is_feasible, get_feasibility_info in H2. rewrite L, Nat.eqb_refl in H2. simpl negb in H2. cbv beta iota zeta in H2.
  assert (Forall (fun c => is_ok (any_eval p c x) = true) (all_cons p)) as F.
  { destruct (foldM _ (all_cons p) []) as [vc|] eqn:E; [|discriminate]. clear H2. revert E. generalize (@nil anycon) at 2. induction (all_cons p) as [|c l IH]; intros acc E; constructor.
    - simpl in E. destruct (any_eval p c x); [reflexivity|discriminate].
    - simpl in E. apply bind_ok in E. destruct E as (s' & _ & E). apply (IH _ E). }
  unfold all_cons in F. rewrite Forall_app, !Forall_map in F. destruct F as [F1 F2]. simpl in F1, F2. split.
  - rewrite Forall_forall in *. intros c Hc. specialize (F1 c Hc). unfold eval_lincon in F1. destruct (lin_eval (env_of p) (lc_lin c) (XList x)) eqn:E; [|discriminate]. eapply EL; eauto.
  - rewrite Forall_forall in *. intros c Hc. specialize (F2 c Hc). destruct (W4 c Hc). unfold eval_quadcon in F2.
    destruct (lin_eval (env_of p) (qc_lin c) (XList x)) eqn:E; [|discriminate]. simpl in F2. destruct (quad_eval (env_of p) (qc_quad c) (XList x)) eqn:E2; [|discriminate].
    split; [eapply EL; eauto|eapply EQ_; eauto].
Qed.
Lemma shapes_obj p x : shapes (num_vars p) p -> length x = num_vars p -> obj_eval (env_of p) (p_obj p) (XList x) = Ok (obj_at (p_obj p) x).
Proof.
  intros ((W1 & D1) & (W2 & D2) & _) L. unfold obj_eval. rewrite lin_eval_list by auto. rewrite D1, L, Nat.eqb_refl. simpl bind.
  rewrite quad_eval_list by auto. rewrite D2, L, Nat.eqb_refl. reflexivity.
Qed.
Lemma feas_status_spec p x : shapes (num_vars p) p -> length x = num_vars p -> exists s, feas_status p x = Ok s /\ status_at p x s.
Proof.
  intros S L. destruct (is_feasible_total p x S L) as [b E]. unfold feas_status. rewrite E. simpl. eexists. split; [reflexivity|].
  pose proof (is_feasible_spec p x S L) as I. destruct b; [left|right]; split; auto.
  - now apply I.
  - intro A. apply I in A. congruence.
Qed.
Lemma status_fun p x s t : status_at p x s -> status_at p x t -> s = t.
Proof. intros [[-> A]|[-> A]] [[-> B]|[-> B]]; auto; contradiction. Qed.
Lemma obj_ok_len p x f : prog_wf p -> obj_eval (env_of p) (p_obj p) (XList x) = Ok f -> f = obj_at (p_obj p) x.
Proof.
  intros W E. destruct W as (_ & _ & _ & _ & (W1 & W2 & _) & _). unfold obj_eval in E. rewrite lin_eval_list in E by auto.
  destruct (Nat.eqb _ _); [|discriminate E]. cbn [bind] in E. rewrite quad_eval_list in E by auto. destruct (Nat.eqb _ _); [|discriminate E]. injection E as <-. reflexivity.
Qed.
(** Both evaluations at a point *)
Lemma evals_ok p x f s : prog_wf p -> obj_eval (env_of p) (p_obj p) (XList x) = Ok f -> feas_status p x = Ok s ->
  length x = num_vars p /\ shapes (num_vars p) p /\ f = obj_at (p_obj p) x /\ status_at p x s.
Proof.
  intros W E1 E2. unfold feas_status in E2. apply bind_ok in E2. destruct E2 as (b & E2 & E3).
  assert (length x = num_vars p) as L.
  { destruct (Nat.eq_dec (length x) (num_vars p)) as [|N]; auto. destruct (info_wrong_length p x N) as [_ I]. congruence. }
  assert (shapes (num_vars p) p) as S by (apply (eval_shapes p x); auto; [rewrite E1|rewrite E2]; reflexivity).
  split; auto. split; auto. split; [eapply obj_ok_len; eauto|]. destruct (feas_status_spec p x S L) as (t & E & T). unfold feas_status in E. rewrite E2 in E. simpl in E. congruence.
Qed.

(** ** The dictionary of a result *)
Lemma zip_dict_combine names x : NoDup names -> length x = length names -> zip_dict names x = combine names x.
Proof.
  intros N L. unfold zip_dict. assert (forall l d : list (string * Qc), NoDup (map fst d ++ map fst l) -> fold_left (fun d kv => dset String.eqb (fst kv) (snd kv) d) l d = d ++ l) as G.
  { induction l as [|[k v] l IH]; intros d Nd; simpl; [now rewrite app_nil_r|]. simpl in Nd. rewrite (dset_fresh _ str_eqb_sp).
    - rewrite IH; [now rewrite <- app_assoc|]. rewrite map_app. simpl. now rewrite <- app_assoc.
    - apply NoDup_remove_2 in Nd. intro Hk. apply Nd. apply in_or_app. now left. }
  apply (G _ []). simpl. now rewrite combine_fst.
Qed.

Lemma convert_prefix cs : forall p a, foldM (fun st (c : qp -> result (qp * interp)) => do r <- c (fst st); Ok (fst r, snd st ++ [snd r])) cs (p, a) =
  do r <- convert_all cs p; Ok (fst r, a ++ snd r).
Proof.
  unfold convert_all. induction cs as [|c cs IH]; intros p a; cbn [foldM]; [cbn; now rewrite app_nil_r|]. cbn [fst snd].
  destruct (c p) as [[p' f]|e]; [|reflexivity]. cbn [bind fst snd app]. rewrite (IH p' (a ++ [f])). rewrite (IH p' [f]).
  destruct (foldM _ cs (p', [])) as [[q fs]|e]; [|reflexivity]. cbn [bind fst snd]. now rewrite <- app_assoc.
Qed.
Lemma converted_points cs : forall p q fs x z, convert_all cs p = Ok (q, fs) -> (interpret_all fs x = Ok z <-> stands_for cs p z q x).
Proof.
  induction cs as [|c cs IH]; intros p q fs x z H; rewrite decodes_iff.
  - injection H as <- <-. cbn. split; [intros ->; constructor|now inversion 1].
  - unfold convert_all in H. cbn [foldM fst snd] in H. destruct (c p) as [[p' f]|e] eqn:E; [|discriminate H]. cbn [bind fst snd app] in H. rewrite convert_prefix in H.
    destruct (convert_all cs p') as [[q' fs']|e] eqn:E'; [|discriminate H]. cbn [bind fst snd app] in H. injection H as <- <-. cbn [decodes]. split.
    + intros (y & D & F). apply decodes_iff in D. apply (IH _ _ _ _ _ E') in D. econstructor; eauto.
    + inversion 1 as [|? ? ? ? ? ? ? y ? Hc Hs Hf]; subst. rewrite E in Hc. injection Hc as <- <-. exists y. split; auto. apply decodes_iff, (IH _ _ _ _ _ E'). exact Hs.
Qed.
Lemma interpret_spec p fs samples x r : prog_wf p -> interpret p fs samples x = Ok r ->
  exists y, decodes fs x y /\ length y = num_vars p /\ r_x r = Some y /\ r_vars r = p_vars p /\ r_fval r = Some (obj_at (p_obj p) y) /\
    status_at p y (r_status r) /\ r_dict r = Some (combine (var_names p) y) /\
    r_samples r = Some (match samples with [] => [mkSample y (obj_at (p_obj p) y) 1%Qc (r_status r)] | _ => samples end).
Proof.
  intros W H. unfold interpret in H. apply bind_ok in H. destruct H as (y & H1 & H). apply bind_ok in H. destruct H as (f & H2 & H). apply bind_ok in H. destruct H as (s & H3 & H).
  destruct (evals_ok _ _ _ _ W H2 H3) as (L & S & -> & T). apply decodes_iff in H1. unfold make_result in H.
  replace (length y =? length (p_vars p)) with true in H by (symmetry; now apply Nat.eqb_eq). simpl bind in H. injection H as <-.
  exists y. simpl. split; auto. split; auto. split; auto. split; auto. split; auto. split; auto. split.
  - f_equal. apply zip_dict_combine; [now apply prog_wf_nodup|]. unfold var_names. now rewrite map_length.
  - destruct samples; reflexivity.
Qed.
Lemma interpret_total p fs samples x y : shapes (num_vars p) p -> decodes fs x y -> length y = num_vars p -> exists r, interpret p fs samples x = Ok r.
Proof.
  intros S D L. apply decodes_iff in D. unfold interpret. rewrite D. simpl bind. rewrite shapes_obj by auto. simpl bind.
  destruct (feas_status_spec p y S L) as (s & E & _). rewrite E. simpl bind. unfold make_result.
  replace (length y =? length (p_vars p)) with true by (symmetry; now apply Nat.eqb_eq). simpl. eauto.
Qed.
Lemma py_nth_at x i : i < length x -> py_nth x (Z.of_nat i) = Ok (at_ x i) /\ py_nth x (Z.of_nat i - Z.of_nat (length x)) = Ok (at_ x i).
Proof.
  intro H. unfold py_nth. rewrite py_index_nat by auto. assert (nth_error x i = Some (at_ x i)) as E by now apply nth_error_nth'.
  rewrite E. split; auto. unfold py_index. replace (0 <=? Z.of_nat i - Z.of_nat (length x))%Z with false by (symmetry; apply Z.leb_gt; lia).
  replace (- Z.of_nat (length x) <=? Z.of_nat i - Z.of_nat (length x))%Z with true by (symmetry; apply Z.leb_le; lia).
  replace (Z.to_nat (Z.of_nat (length x) + (Z.of_nat i - Z.of_nat (length x)))) with i by lia. now rewrite E.
Qed.
Lemma combine_dget names x i s : NoDup names -> length x = length names -> nth_error names i = Some s -> dget String.eqb s (combine names x) = Some (at_ x i).
Proof.
  intros N L E. apply (in_dget _ str_eqb_sp); [now rewrite combine_fst|]. 
  revert x i L E. induction names as [|n names IH]; intros [|a x] [|i] L E; simpl in *; try discriminate; try lia.
  - injection E as ->. now left.
  - right. inversion N; subst. apply (IH H2 x i); auto.
Qed.

(** ** Sorting *)
Section Sort.
Context {A : Type} (lt : A -> A -> bool).
Lemma insert_perm a l : Permutation (insert_by lt a l) (a :: l).
Proof. induction l as [|b l IH]; simpl; auto. destruct (lt b a); auto. rewrite IH. apply perm_swap. Qed.
Lemma sort_perm l : Permutation (sort_by lt l) l.
Proof. induction l as [|a l IH]; simpl; auto. rewrite insert_perm. now constructor. Qed.
Variable R : A -> A -> Prop.
Hypothesis R_trans : forall a b c, R a b -> R b c -> R a c.
Hypothesis R_lt : forall a b, lt a b = true -> R a b.
Hypothesis R_ge : forall a b, lt b a = false -> R a b.
Lemma insert_sorted a l : StronglySorted R l -> StronglySorted R (insert_by lt a l).
Proof using R_trans R_lt R_ge.
  induction 1 as [|b l S IH F]; simpl; [repeat constructor|]. destruct (lt b a) eqn:E.
  - constructor; auto. eapply Permutation_Forall; [symmetry; apply insert_perm|]. constructor; auto.
  - constructor; [constructor; auto|]. constructor; auto. eapply Forall_impl; [|exact F]. intros c Hc. eapply R_trans; eauto.
Qed.
Lemma sort_sorted l : StronglySorted R (sort_by lt l).
Proof using R_trans R_lt R_ge. induction l as [|a l IH]; simpl; [constructor|now apply insert_sorted]. Qed.
End Sort.

(** The same order as [ranked], on results of the feasibility check *)
Definition key_le (s : objsense) (a b : sample) : Prop :=
  ostatus_val (s_status a) < ostatus_val (s_status b) \/
  (ostatus_val (s_status a) = ostatus_val (s_status b) /\ (sense_val s * s_fval a <= sense_val s * s_fval b)%Qc).
Lemma key_le_sorted s l : StronglySorted (key_le s) (sort_by (sample_lt s) l).
Proof.
  apply sort_sorted.
  - unfold key_le. intros a b c [H|[H H']] [K|[K K']]; [left; lia|left; lia|left; lia|right]. split; [lia|qlra].
  - unfold key_le, sample_lt. intros a b H. apply orb_prop in H. destruct H as [H|H]; [left; now apply Nat.ltb_lt|]. apply andb_prop in H. destruct H as [H1 H2].
    right. split; [now apply Nat.eqb_eq|]. destruct (qltb_spec (sense_val s * s_fval a) (sense_val s * s_fval b)); [qlra|discriminate].
  - unfold key_le, sample_lt. intros a b H. apply orb_false_elim in H. destruct H as [H1 H2]. apply Nat.ltb_ge in H1.
    destruct (Nat.eqb_spec (ostatus_val (s_status b)) (ostatus_val (s_status a))) as [E|E]; [right|left; lia]. split; [lia|].
    simpl in H2. destruct (qltb_spec (sense_val s * s_fval b) (sense_val s * s_fval a)) as [|N]; [discriminate|]. apply Qcnot_lt_le in N. exact N.
Qed.
Lemma sense_le s a b : (sense_val s * a <= sense_val s * b)%Qc <-> at_least s a b.
Proof. destruct s; simpl; split; intro; qlra. Qed.
Lemma key_le_ranked s a b : s_status a <> FAILURE -> s_status b <> FAILURE -> key_le s a b -> ranked s a b.
Proof.
  intros A B [H|[H H']]; unfold ranked.
  - destruct (s_status a), (s_status b); simpl in H; try lia; try congruence. left. split; auto. discriminate.
  - right. split; [|now apply sense_le]. destruct (s_status a), (s_status b); simpl in H; auto; lia.
Qed.
Lemma sorted_impl {A} (R R' : A -> A -> Prop) (P : A -> Prop) l : (forall a b, P a -> P b -> R a b -> R' a b) -> Forall P l -> StronglySorted R l -> StronglySorted R' l.
Proof.
  intros H F S. induction S as [|a l S IH Fa]; [constructor|]. inversion F; subst. constructor; auto. rewrite Forall_forall in *. auto.
Qed.

(** ** Merging samples *)
Lemma tuple_eqb_sp : forall a b : list Qc, reflect (a = b) (tuple_eqb a b).
Proof.
  induction a as [|x a IH]; intros [|y b]; simpl; try (constructor; congruence).
  destruct (qeqb_spec x y) as [->|N]; simpl; [|constructor; congruence]. destruct (IH b) as [->|N]; constructor; congruence.
Qed.
Lemma mass_step (d : list (list Qc * Qc)) x v y : dgetq tuple_eqb y (dadd tuple_eqb x v d) = (dgetq tuple_eqb y d + (if tuple_eqb y x then v else 0))%Qc.
Proof.
  unfold dadd. rewrite (dgetq_dset _ tuple_eqb_sp). destruct (tuple_eqb_sp y x) as [->|]; ring.
Qed.
Lemma merge_spec fs raw d : merge_samples fs raw = Ok d ->
  NoDup (map fst d) /\ sumof snd d = total_prob raw /\
  (forall t, In t raw -> exists y, decodes fs (s_x t) y /\ In y (map fst d)) /\
  (forall y v, In (y, v) d -> exists m, picks (fun t => decodes fs (s_x t) y) raw m /\ m <> [] /\ v = total_prob m).
Proof.
  unfold merge_samples. 
  assert (forall raw d0 d, foldM (fun d s => do x <- interpret_all fs (s_x s); Ok (dadd tuple_eqb x (s_prob s) d)) raw d0 = Ok d -> NoDup (map fst d0) ->
    NoDup (map fst d) /\ sumof snd d = (sumof snd d0 + total_prob raw)%Qc /\
    (forall t, In t raw -> exists y, decodes fs (s_x t) y /\ In y (map fst d)) /\ (forall y, In y (map fst d0) -> In y (map fst d)) /\
    (forall y, In y (map fst d) -> exists m, picks (fun t => decodes fs (s_x t) y) raw m /\ (In y (map fst d0) \/ m <> []) /\ dgetq tuple_eqb y d = (dgetq tuple_eqb y d0 + total_prob m)%Qc)) as G.
  { clear raw d. induction raw as [|t raw IH]; intros d0 d H N.
    - simpl in H. injection H as <-. split; auto. split; [unfold total_prob; simpl; ring|]. split; [intros t []|]. split; auto.
      intros y Hy. exists []. split; [constructor|]. split; auto. unfold total_prob. simpl. ring.
    - cbn [foldM] in H. apply bind_ok in H. destruct H as (d1 & H1 & H). apply bind_ok in H1. destruct H1 as (x & H1 & [= <-]).
      assert (NoDup (map fst (dadd tuple_eqb x (s_prob t) d0))) as N1 by (unfold dadd; now apply (dset_nodup _ tuple_eqb_sp)).
      destruct (IH _ _ H N1) as (A & B & C & K & E). split; auto. split.
      { rewrite B. assert (sumof snd (dadd tuple_eqb x (s_prob t) d0) = (sumof snd d0 + s_prob t)%Qc) as ->; [|unfold total_prob; simpl; ring].
        assert (forall l : list (list Qc * Qc), sumof snd l = dsum (fun _ => 1%Qc) l) as DS.
        { induction l as [|[a b] l IHl]; simpl; [reflexivity|]. rewrite IHl. unfold dsum. simpl. ring. }
        rewrite !DS, (dsum_dadd _ tuple_eqb_sp). ring. }
      apply decodes_iff in H1. assert (In x (map fst d)) as Hx by (apply K; unfold dadd; apply (dset_keys _ tuple_eqb_sp); auto).
      split. { intros t' [<-|Ht]; eauto. }
      split. { intros y Hy. apply K. unfold dadd. apply (dset_keys _ tuple_eqb_sp). auto. }
      intros y Hy. destruct (E y Hy) as (m & P & Q & V). rewrite mass_step in V. destruct (tuple_eqb_sp y x) as [->|Ne].
      + exists (t :: m). split; [now constructor|]. split; [right; discriminate|]. rewrite V. unfold total_prob. simpl. ring.
      + exists m. split; [constructor; auto; intro D; apply Ne; eapply decodes_fun; eauto|]. split.
        * destruct Q as [Q|Q]; auto. unfold dadd in Q. apply (dset_keys _ tuple_eqb_sp) in Q. destruct Q; [contradiction|auto].
        * rewrite V. ring. }
  intro H. destruct (G _ _ _ H) as (A & B & C & _ & E); [constructor|]. split; auto. split; [rewrite B; simpl; ring|]. split; auto.
  intros y v Hv. assert (In y (map fst d)) as Hy by (apply in_map_iff; exists (y, v); auto). destruct (E y Hy) as (m & P & [[]|Q] & V). exists m. split; auto. split; auto.
  unfold dgetq in V. rewrite (in_dget _ tuple_eqb_sp y v d A Hv) in V. rewrite V. simpl. ring.
Qed.

Section Samples.
Variables (p : qp) (fs : list interp) (raw l : list sample).
Hypothesis W : prog_wf p.
Hypothesis H : interpret_samples p fs raw = Ok l.
Lemma samples_inv : exists d l0, merge_samples fs raw = Ok d /\ Permutation l l0 /\ StronglySorted (key_le (o_sense (p_obj p))) l /\
  Forall2 (fun xp s => s_x s = fst xp /\ s_prob s = snd xp /\ length (fst xp) = num_vars p /\ s_fval s = obj_at (p_obj p) (fst xp) /\ status_at p (fst xp) (s_status s)) d l0.
Proof using W H.
  unfold interpret_samples in H. apply bind_ok in H. destruct H as (d & H1 & H2). apply bind_ok in H2. destruct H2 as (l0 & H2 & [= <-]).
  exists d, l0. split; auto. split; [apply sort_perm|]. split; [apply key_le_sorted|]. clear -H2 W. apply mapM_ok in H2.
  induction H2 as [|[x v] s d l0 E F IH]; constructor; auto. cbn [fst snd] in *. apply bind_ok in E. destruct E as (f & E1 & E). apply bind_ok in E. destruct E as (st & E2 & [= <-]).
  destruct (evals_ok _ _ _ _ W E1 E2) as (L & _ & -> & T). simpl. auto.
Qed.
Lemma samples_mass : NoDup (map s_x l) /\ total_prob l = total_prob raw /\
  (forall s, In s l -> s_fval s = obj_at (p_obj p) (s_x s) /\ length (s_x s) = num_vars p /\ status_at p (s_x s) (s_status s) /\
     exists m, picks (fun t => decodes fs (s_x t) (s_x s)) raw m /\ m <> [] /\ s_prob s = total_prob m) /\
  (forall t, In t raw -> exists s, In s l /\ decodes fs (s_x t) (s_x s)).
Proof using W H.
  destruct samples_inv as (d & l0 & M & P & _ & F). destruct (merge_spec _ _ _ M) as (N & T & C & E).
  assert (map s_x l0 = map fst d /\ map s_prob l0 = map snd d) as [X1 X2].
  { clear -F. induction F as [|[x v] s d l0 (A & B & _) F [IH1 IH2]]; simpl; auto. simpl in *. split; congruence. }
  assert (forall s, In s l0 -> exists v, In (s_x s, v) d /\ s_prob s = v /\ length (s_x s) = num_vars p /\ s_fval s = obj_at (p_obj p) (s_x s) /\ status_at p (s_x s) (s_status s)) as G.
  { clear -F. intros s Hs. induction F as [|[x v] s' d l0 (A & B & L & D & S) F IH]; [destruct Hs|]. cbn [fst snd] in *. destruct Hs as [<-|Hs].
    - subst. exists (s_prob s'). split; [now left|]. auto.
    - destruct (IH Hs) as (v' & Hv & R). exists v'. split; [now right|auto]. }
  split. { eapply Permutation_NoDup; [symmetry; apply Permutation_map; exact P|]. now rewrite X1. }
  split. { unfold total_prob at 1. rewrite (sumof_perm _ _ _ P). rewrite <- T. transitivity (sumof (fun v => v) (map s_prob l0)); [now rewrite sumof_map|]. rewrite X2. now rewrite sumof_map. }
  split.
  - intros s Hs. apply (Permutation_in _ P) in Hs. destruct (G s Hs) as (v & Hv & Ev & L & D & S). split; auto. split; auto. split; auto.
    destruct (E _ _ Hv) as (m & P1 & P2 & P3). exists m. split; auto. split; auto. congruence.
  - intros t Ht. destruct (C t Ht) as (y & D & Hy). rewrite <- X1 in Hy. apply in_map_iff in Hy. destruct Hy as (s & <- & Hs). exists s. split; auto. eapply Permutation_in; [symmetry; exact P|auto].
Qed.
Lemma samples_ranked : StronglySorted (ranked (o_sense (p_obj p))) l.
Proof using W H.
  destruct samples_inv as (d & l0 & M & P & S & F). destruct samples_mass as (_ & _ & G & _). 
  apply (sorted_impl (key_le (o_sense (p_obj p))) _ (fun s => s_status s <> FAILURE)); auto.
  - intros. now apply key_le_ranked.
  - apply Forall_forall. intros s Hs. destruct (G s Hs) as (_ & _ & T & _). destruct T as [[-> _]|[-> _]]; discriminate.
Qed.
Lemma samples_first s l' : l = s :: l' -> (exists t y, In t raw /\ decodes fs (s_x t) y /\ accepts p y) ->
  accepts p (s_x s) /\ s_status s = SUCCESS /\ forall t y, In t raw -> decodes fs (s_x t) y -> accepts p y -> at_least (o_sense (p_obj p)) (s_fval s) (obj_at (p_obj p) y).
Proof using W H.
  intros E (t0 & y0 & Ht0 & D0 & A0). pose proof samples_ranked as S. destruct samples_mass as (_ & _ & G & C).
  assert (forall u, In u l -> ranked (o_sense (p_obj p)) s u) as R.
  { intros u Hu. rewrite E in Hu, S. inversion S as [|? ? _ F]; subst. destruct Hu as [<-|Hu]; [|rewrite Forall_forall in F; auto]. right. split; auto. destruct (o_sense (p_obj p)); simpl; apply Qcle_refl. }
  assert (forall t y, In t raw -> decodes fs (s_x t) y -> accepts p y -> exists u, In u l /\ s_status u = SUCCESS /\ s_fval u = obj_at (p_obj p) y) as X.
  { intros t y Ht D A. destruct (C t Ht) as (u & Hu & Du). exists u. split; auto. destruct (G u Hu) as (V & _ & T & _). rewrite (decodes_fun _ _ _ _ Du D) in *. split; auto. destruct T as [[T _]|[_ T]]; auto; contradiction. }
  assert (s_status s = SUCCESS) as Ss.
  { destruct (X _ _ Ht0 D0 A0) as (u & Hu & Tu & _). destruct (R u Hu) as [[Q _]|[Q _]]; congruence. }
  assert (In s l) as Hs by (rewrite E; now left). destruct (G s Hs) as (_ & _ & T & _). split; [destruct T as [[_ T]|[T _]]; [auto|congruence]|]. split; auto.
  intros t y Ht D A. destruct (X _ _ Ht D A) as (u & Hu & Tu & <-). destruct (R u Hu) as [[_ Q]|[_ Q]]; [congruence|auto].
Qed.
End Samples.
