(** * The applications: facts *)
From Verif Require Export SpecApp DocFacts3.
Local Open Scope string_scope.
Local Open Scope list_scope.
Local Open Scope nat_scope.

(** ** Models of binary variables *)
Definition app_con (n : nat) (c : dcon) : Prop :=
  exists s l r, c = DLinear None s l r /\ de_wf n l /\ de_wf n r /\ de_quad l = [] /\ de_quad r = [].
Lemma app_con_wf n c : app_con n c -> dcon_wf n c.
Proof. intros (s & l & r & -> & H). exact H. Qed.
Lemma app_linear n l : Forall (app_con n) l -> filter is_linear l = l /\ filter is_quadratic l = [].
Proof. intros H. split; [apply filter_all|apply filter_none]; (eapply Forall_impl; [|exact H]); cbn; intros c (s & a & b & -> & _); reflexivity. Qed.

Lemma bits_takes names x : Forall2 dvar_takes (map (fun nm => mkDVar (Some nm) DBinary 0 1) names) x <-> bits (length names) x.
Proof.
  unfold bits. revert x. induction names as [|s l IH]; intros x; cbn.
  - split; [intros H; inversion H; split; [reflexivity|constructor]|intros (H & _); destruct x; [constructor|discriminate H]].
  - split.
    + intros H. inversion H as [|? a ? y H1 H2]; subst. apply IH in H2 as (E & F). split; [cbn; congruence|constructor; [apply H1|exact F]].
    + intros (E & F). destruct x as [|a y]; [discriminate E|]. inversion F as [|? ? F1 F2]; subst. constructor.
      * unfold dvar_takes. cbn. destruct F1 as [->| ->]; (split; [|split]); auto; qlra.
      * apply IH. split; [cbn in E; lia|exact F2].
Qed.

Lemma same_binary names : forall vs, Forall2 same_var (map (fun nm => mkDVar (Some nm) DBinary 0 1) names) vs ->
  map v_name vs = names /\ Forall (fun v => v_type v = BINARY) vs.
Proof.
  induction names as [|s l IH]; intros vs H; inversion H as [|? v ? vs' (H1 & H2 & _) H3]; subst; [split; [reflexivity|constructor]|].
  apply IH in H3 as (E & F). cbn. split; [f_equal; [exact (H1 s eq_refl)|exact E]|]. constructor; [|exact F]. cbn in H2. destruct (v_type v); auto; discriminate H2.
Qed.
Lemma binary_model_spec name names s obj cons : NoDup names -> ~ In EmptyString names ->
  de_wf (length names) obj -> Forall (app_con (length names)) cons ->
  exists p, binary_model name names s obj cons = Ok p /\ p_name p = name /\ var_names p = names /\ all_binary p /\ o_sense (p_obj p) = s /\
    length (p_lcs p) = length cons /\ p_qcs p = [] /\
    (forall x, bits (length names) x -> obj_at (p_obj p) x = dval obj x) /\
    forall x, feasible p x <-> bits (length names) x /\ Forall (dcon_holds x) cons.
Proof.
  intros N E Wo Wc. unfold binary_model. set (m := mkDM _ _ _ _ _).
  assert (length (dm_vars m) = length names) as Ln by (cbn; apply map_length).
  assert (dmodel_wf m) as W.
  { split; [rewrite Ln; exact Wo|]. split; [rewrite Ln; cbn; eapply Forall_impl; [|exact Wc]; apply app_con_wf|]. cbn. apply Forall_map, Forall_forall. discriminate. }
  assert (Forall dplain (dm_vars m)) as P. { cbn. apply Forall_map, Forall_forall. intros t _ _. cbn. auto. }
  destruct (app_linear _ _ Wc) as (Fl & Fq).
  destruct (from_docplex_total m W) as (p & Hp).
  - cbn. apply Forall_map, Forall_forall. intros; left; reflexivity.
  - right. exists names. split; [cbn; rewrite map_map; reflexivity|]. split; assumption.
  - left. cbn [dm_cons m]. rewrite Fl. apply Forall_map. eapply Forall_impl; [|exact Wc]. intros c (? & ? & ? & -> & _). reflexivity.
  - left. cbn [dm_cons m]. rewrite Fq. constructor.
  - destruct (import_faithful m p W P Hp) as (Pn & Pv & Os & Ov & Lc & Qc'). exists p. split; [exact Hp|]. split; [exact Pn|].
    rewrite Ln in Ov. cbn [dm_vars m] in Pv. apply same_binary in Pv as (Ev & Eb). split; [exact Ev|]. split; [exact Eb|]. split; [exact Os|].
    cbn [dm_cons m] in Lc, Qc'. rewrite Fl in Lc. rewrite Fq in Qc'. split; [symmetry; exact (Forall2_length _ _ _ Lc)|]. split; [inversion Qc'; reflexivity|].
    split; [intros x (Hx & _); exact (Ov x Hx)|]. intros x. rewrite (import_solutions m p x W P Hp). unfold dsolution. cbn [dm_vars dm_cons m]. rewrite bits_takes. reflexivity.
Qed.

(** ** Names *)
Lemma x_name_inj i j : x_name i = x_name j -> i = j.
Proof. intros H. apply string_app_inj_l in H. apply str_nat_inj. exact H. Qed.
Lemma x_names_nodup n : NoDup (map x_name (seq 0 n)).
Proof. apply FinFun.Injective_map_NoDup; [intros i j; apply x_name_inj|apply seq_NoDup]. Qed.
Lemma x_names_full n : ~ In EmptyString (map x_name (seq 0 n)).
Proof. intros H. apply in_map_iff in H as (i & H & _). discriminate H. Qed.
Lemma x_names_length n : length (map x_name (seq 0 n)) = n.
Proof. rewrite map_length, seq_length. reflexivity. Qed.
Lemma under_inj a : forall b c d, all_chars is_digit a = true -> all_chars is_digit c = true ->
  (a ++ "_" ++ b)%string = (c ++ "_" ++ d)%string -> a = c /\ b = d.
Proof.
  induction a as [|ch a IH]; intros b [|ch' c] d Ha Hc H; cbn in *.
  - injection H as <-. auto.
  - injection H as <- _. discriminate Hc.
  - injection H as -> _. discriminate Ha.
  - injection H as <- H. apply andb_prop in Ha as (_ & Ha). apply andb_prop in Hc as (_ & Hc). destruct (IH b c d Ha Hc H) as (-> & ->). auto.
Qed.
Lemma x_name2_inj i j k l : x_name2 i j = x_name2 k l -> i = k /\ j = l.
Proof.
  unfold x_name2. intros H. apply (string_app_inj_l "x_") in H.
  apply under_inj in H as (A & B); try apply str_nat_digits. split; apply str_nat_inj; assumption.
Qed.

(** ** Bits *)
Lemma bits_at n x i : bits n x -> at_ x i = 0%Qc \/ at_ x i = 1%Qc.
Proof.
  intros (_ & F). unfold at_. destruct (nth_in_or_default i x 0%Qc) as [H| ->]; [|left; reflexivity].
  exact (proj1 (Forall_forall _ _) F _ H).
Qed.
Lemma at_beyond x i : length x <= i -> at_ x i = 0%Qc.
Proof. apply nth_overflow. Qed.
Lemma bits_not0 n x i : bits n x -> (at_ x i <> 0%Qc <-> at_ x i = 1%Qc).
Proof. intros B. destruct (bits_at n x i B) as [->| ->]; split; intros H; try discriminate; try (exfalso; apply H; reflexivity); auto. Qed.

(** ** interpret *)
Lemma picked_from x : forall s, StronglySorted lt (picked s x) /\ Forall (fun i => s <= i) (picked s x) /\
  forall i, In i (picked s x) <-> s <= i /\ nth (i - s) x 0%Qc <> 0%Qc.
Proof.
  induction x as [|a x IH]; intros s; cbn [picked].
  - split; [constructor|]. split; [constructor|]. intros i. split; [intros []|]. intros (_ & H). exfalso. apply H. destruct (i - s); reflexivity.
  - destruct (IH (S s)) as (A & B & C). destruct (qeqb_spec a 0) as [->|Na].
    + split; [exact A|]. split; [eapply Forall_impl; [|exact B]; cbn; intros; lia|]. intros i. rewrite C. split.
      * intros (H & N). split; [lia|]. destruct (i - s) as [|k] eqn:E; [lia|]. replace (i - S s) with k in N by lia. exact N.
      * intros (H & N). destruct (i - s) as [|k] eqn:E; [exfalso; apply N; reflexivity|]. split; [lia|]. replace (i - S s) with k by lia. exact N.
    + split; [|split].
      * constructor; [exact A|]. eapply Forall_impl; [|exact B]. cbn; intros; lia.
      * constructor; [lia|]. eapply Forall_impl; [|exact B]. cbn; intros; lia.
      * intros i. cbn [In]. rewrite C. split.
        -- intros [->|(H & N)]; [split; [lia|]; rewrite Nat.sub_diag; exact Na|]. split; [lia|]. destruct (i - s) as [|k] eqn:E; [lia|]. replace (i - S s) with k in N by lia. exact N.
        -- intros (H & N). destruct (i - s) as [|k] eqn:E; [left; lia|]. right. split; [lia|]. replace (i - S s) with k by lia. exact N.
Qed.
Lemma picked_listed x : listed x (picked 0 x).
Proof. destruct (picked_from x 0) as (A & _ & C). split; [exact A|]. intros i. rewrite C. rewrite Nat.sub_0_r. unfold at_. split; [tauto|]. intros H. split; [lia|exact H]. Qed.
Lemma two_sides_snd x : forall s, snd (two_sides s x) = picked s x.
Proof. induction x as [|a x IH]; intros s; cbn; [reflexivity|]. specialize (IH (S s)). destruct (two_sides (S s) x) as [zs os]. cbn in IH. subst os. destruct (qeqb a 0); reflexivity. Qed.
Lemma two_sides_fst x : forall s, fst (two_sides s x) = picked s (map (fun a => if qeqb a 0 then 1 else 0)%Qc x).
Proof. induction x as [|a x IH]; intros s; cbn; [reflexivity|]. specialize (IH (S s)). destruct (two_sides (S s) x) as [zs os]. cbn in IH. subst zs. destruct (qeqb a 0); reflexivity. Qed.
Lemma two_sides_spec x : listed0 x (fst (two_sides 0 x)) /\ listed x (snd (two_sides 0 x)).
Proof.
  split; [|rewrite two_sides_snd; apply picked_listed]. rewrite two_sides_fst.
  destruct (picked_listed (map (fun a => if qeqb a 0 then 1 else 0)%Qc x)) as (A & C). split; [exact A|]. intros i. rewrite C. unfold at_.
  destruct (Nat.lt_ge_cases i (length x)) as [L|L].
  - rewrite (nth_indep _ 0%Qc (if qeqb 0 0 then 1 else 0)%Qc) by (rewrite map_length; exact L). rewrite (map_nth (fun a => if qeqb a 0 then 1 else 0)%Qc).
    destruct (qeqb_spec (nth i x 0%Qc) 0) as [E|E]; [split; [auto|intros _; discriminate]|]. split; [intros H; exfalso; apply H; reflexivity|]. intros (_ & H). contradiction.
  - rewrite nth_overflow by (rewrite map_length; exact L). split; [intros H; exfalso; apply H; reflexivity|lia].
Qed.
Lemma member_iff i l : member i l = true <-> In i l.
Proof. unfold member. rewrite existsb_exists. split; [intros (j & I & E); apply Nat.eqb_eq in E; subst; exact I|]. intros I. exists i. split; [exact I|apply Nat.eqb_refl]. Qed.

(** Sums over the chosen positions *)
Lemma picked_sum (f : nat -> Qc) x : Forall (fun a => a = 0 \/ a = 1)%Qc x -> forall s,
  sumof f (picked s x) = sumof (fun i => f (s + i)%nat * at_ x i)%Qc (seq 0 (length x)).
Proof.
  induction 1 as [|a x Ha F IH]; intros s; [reflexivity|]. cbn [picked length seq]. rewrite sumof_cons, Nat.add_0_r. change (at_ (a :: x) 0) with a.
  rewrite sumof_seq_shift. rewrite (sumof_ext _ (fun i => f (S s + i)%nat * at_ x i)%Qc) with (l := seq 0 (length x)).
  2:{ intros i _. rewrite Nat.add_succ_r. reflexivity. }
  rewrite <- IH. destruct Ha as [->| ->]; [change (qeqb 0 0) with true|change (qeqb 1 0) with false]; cbv iota; rewrite ?sumof_cons; ring.
Qed.
Lemma interpret_sum (f : nat -> Qc) n x : bits n x -> sumof f (picked 0 x) = sumof (fun i => f i * at_ x i)%Qc (seq 0 n).
Proof. intros (E & F). rewrite (picked_sum f x F 0), E. reflexivity. Qed.
Lemma sum_length {A} (l : list A) : sumof (fun _ => 1%Qc) l = qn (length l).
Proof. rewrite sumof_const. ring. Qed.
Lemma dval_sum_all n x : dval (sum_all n) x = sumof (at_ x) (seq 0 n).
Proof. unfold sum_all. rewrite dval_sum_of, sumof_map. apply sumof_ext. intros i _. apply dval_var. Qed.
Lemma sum_all_count n x : bits n x -> dval (sum_all n) x = qn (length (picked 0 x)).
Proof. intros B. rewrite <- sum_length, (interpret_sum (fun _ => 1%Qc) n x B), dval_sum_all. apply sumof_ext. intros; ring. Qed.

(** Well-formed expressions *)
Lemma sum_all_wf n : de_wf n (sum_all n).
Proof. apply de_wf_sum. apply Forall_map, Forall_forall. intros i I. apply in_seq in I. apply de_wf_var. lia. Qed.
Lemma sum_all_lin n : de_quad (sum_all n) = [].
Proof. apply linear_sum. apply Forall_map, Forall_forall. reflexivity. Qed.
Lemma num_con n s e c : de_wf n e -> de_quad e = [] -> app_con n (DLinear None s e (d_num c)).
Proof. intros W L. exists s, e, (d_num c). split; [reflexivity|]. split; [exact W|]. split; [apply de_wf_num|]. split; [exact L|reflexivity]. Qed.
Lemma pair_con n s i j c : i < n -> j < n -> app_con n (DLinear None s (d_add (d_var i) (d_var j)) (d_num c)).
Proof. intros I J. apply num_con; [apply de_wf_add; apply de_wf_var; assumption|reflexivity]. Qed.
Lemma pair_holds s i j c x : dcon_holds x (DLinear None s (d_add (d_var i) (d_var j)) (d_num c)) <-> holds s (at_ x i + at_ x j)%Qc c.
Proof. cbn [dcon_holds]. rewrite dval_add, !dval_var, dval_num. reflexivity. Qed.
Lemma Forall_map_iff {A B} (f : A -> B) (P : B -> Prop) l : Forall P (map f l) <-> Forall (fun a => P (f a)) l.
Proof. apply Forall_map. Qed.
