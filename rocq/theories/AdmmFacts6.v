From Verif Require RecurFacts2.
From Verif Require Export AdmmFacts5.
Local Open Scope nat_scope.

(** ** The data always exists *)
Lemma array_length e : length (lin_to_array e) = le_dim e.
Proof. unfold lin_to_array. now rewrite map_length, seq_length. Qed.
Lemma array_at e i : i < le_dim e -> at_ (lin_to_array e) i = coef1 e i.
Proof.
  intro H. unfold at_, lin_to_array. rewrite nth_indep with (d' := dgetq Nat.eqb 0 (le_co e)) by (rewrite map_length, seq_length; auto). rewrite map_nth with (f := fun i => dgetq Nat.eqb i (le_co e)). rewrite seq_nth by auto. reflexivity.
Qed.
Lemma in_objective_total op i : i < le_dim (o_lin (p_obj op)) -> i < qe_dim (o_quad (p_obj op)) -> exists b, in_objective op i = Ok b.
Proof.
  intros H1 H2. unfold in_objective. rewrite (proj2 (lin_get_nat _ _ i _) (conj eq_refl H1)). cbn [bind]. destruct (negb _); [eauto|]. rewrite (proj2 (dok_nat _ i _) (conj eq_refl H2)). cbn [bind]. eauto.
Qed.
Lemma get_q_ok op idx : Forall (fun i => i < qe_dim (o_quad (p_obj op))) idx -> exists m, get_q op idx = Ok m.
Proof.
  intro F. apply mapM_total. intros i Hi. apply mapM_total. intros j Hj. destruct (i <=? j); [|eauto]. apply in_seq in Hi, Hj. rewrite Forall_forall in F.
  eexists. apply quad_get_nat. split; [reflexivity|]. apply Nat.max_lub_lt; apply F, nth_In; lia.
Qed.
Lemma represent_total op : shapes (num_vars op) op -> exists d, represent op (indices_of BINARY op) (indices_of CONTINUOUS op) = Ok d.
Proof.
  intros ([W1 D1] & [W2 D2] & S3 & _). unfold represent. set (beq := filter (only_binary (indices_of BINARY op)) (filter (fun c => csense_eqb (lc_sense c) EQ) (p_lcs op))).
  assert (forall t i, In i (indices_of t op) -> i < num_vars op) as Lt by (intros t i Hi; apply indices_in in Hi; eapply is_var_lt; eauto).
  assert (forall c, In c beq -> lin_shape (num_vars op) (lc_lin c)) as Sc by (intros c Hc; unfold beq in Hc; rewrite !filter_In in Hc; rewrite Forall_forall in S3; apply S3; tauto).
  assert (exists l r, step1_indices op (indices_of BINARY op) beq = Ok (l, r) /\ (forall i, In i l -> In i (indices_of BINARY op))) as (l & r & -> & Hl).
  { unfold step1_indices. destruct (collect_total (in_objective op) (fun l i => do b <- in_objective op i; Ok (if b && negb (mem l i) then l ++ [i] else l)) (indices_of BINARY op)) with (l0 := @nil nat) as (l0 & E0); [reflexivity|intros i Hi; apply in_objective_total; [rewrite D1|rewrite D2]; eauto|].
    unfold step1_objective. rewrite E0. cbn [bind].
    assert (forall la, exists l1, foldM (step1_constraint op (filter (fun i => negb (mem l0 i)) (indices_of BINARY op))) beq la = Ok l1) as T.
    { clear E0. revert Sc. clearbody beq. clear S3. induction beq as [|c b IH]; intros Sc la; cbn [foldM]; [eauto|].
      destruct (collect_total (test_con op c) (fun l i => do v <- lin_get (env_of op) (lc_lin c) (KI (Z.of_nat i)); Ok (if qltb 0 v && negb (mem l i) then l ++ [i] else l)) (filter (fun i => negb (mem l0 i)) (indices_of BINARY op))) with (l0 := la) as (l1 & E1).
      - intros l' i; unfold test_con; destruct (lin_get (env_of op) (lc_lin c) (KI (Z.of_nat i))); reflexivity.
      - intros i Hi. apply filter_In in Hi. unfold test_con. rewrite (proj2 (lin_get_nat _ _ i _) (conj eq_refl (ltac:(rewrite (proj2 (Sc c (or_introl eq_refl))); eapply Lt; apply Hi) : i < le_dim (lc_lin c)))). cbn [bind]. eauto.
      - unfold step1_constraint at 1. rewrite E1. cbn [bind]. apply IH. intros; apply Sc; now right. }
    destruct (T l0) as (l1 & E1). rewrite E1. cbn [bind].
    apply (collect_spec (in_objective op)) in E0; [|reflexivity]. destruct E0 as (A0 & B0 & _). apply constraints_spec in E1. destruct E1 as (A1 & B1).
    destruct (sort_strict l1) as [A2 B2]; [apply B1, B0; constructor|].
    assert (forall i, In i (sort_by Nat.ltb l1) -> In i (indices_of BINARY op)) as Sub.
    { intros i Hi. apply B2, A1 in Hi. destruct Hi as [Hi|(c & _ & Hi & _)]; [apply A0 in Hi; destruct Hi as [[]|[Hi _]]; exact Hi|apply filter_In in Hi; apply Hi]. }
    destruct (relative_total (indices_of BINARY op) (idx_sorted BINARY (p_vars op) 0) (sort_by Nat.ltb l1) A2 Sub [] 0) as (r & E2); [intros; lia|]. rewrite E2. cbn [bind]. exists (sort_by Nat.ltb l1), (fst r). split; [reflexivity|exact Sub]. }
  cbn [bind fst snd]. destruct (get_q_ok op l) as (q0 & ->); [apply Forall_forall; intros i Hi; rewrite D2; eauto|]. cbn [bind].
  rewrite (np_take_total _ l) by (apply Forall_forall; intros i Hi; rewrite array_length, D1; eauto). cbn [bind].
  destruct (get_q_ok op (indices_of CONTINUOUS op)) as (q1 & ->); [apply Forall_forall; intros i Hi; rewrite D2; eauto|]. cbn [bind].
  rewrite (np_take_total _ (indices_of CONTINUOUS op)) by (apply Forall_forall; intros i Hi; rewrite array_length, D1; eauto). cbn [bind].
  assert (exists ab, get_a0_b0 beq l = Ok ab) as (ab & ->).
  { unfold get_a0_b0. destruct beq as [|c b]; [eauto|]. destruct (mapM_total (fun c => np_take (lin_to_array (lc_lin c)) l) (c :: b)) as (m & ->); [|cbn [bind]; eauto].
    intros c' Hc. eexists. apply np_take_total. apply Forall_forall. intros i Hi. rewrite array_length, (proj2 (Sc c' Hc)). eauto. }
  cbn [bind]. eauto.
Qed.

(** ** The objective by blocks *)
Lemma sum_list {A} (f : A -> Qc) (dflt : A) l : sumof f l = sumof (fun k => f (nth k l dflt)) (seq 0 (length l)).
Proof. induction l as [|a l IH]; [reflexivity|]. cbn [length seq]. rewrite !sumof_cons, IH, <- seq_shift, sumof_map. reflexivity. Qed.
Lemma sum_two (f : nat -> Qc) n a b : NoDup a -> NoDup b -> (forall i, In i a -> i < n /\ ~ In i b) -> (forall i, In i b -> i < n) ->
  (forall i, i < n -> ~ In i a -> ~ In i b -> f i = 0%Qc) -> sumof f (seq 0 n) = (sumof f a + sumof f b)%Qc.
Proof.
  intros Na Nb Ha Hb Z. rewrite (sumof_split f (mem a)). f_equal.
  - apply sumof_perm, NoDup_Permutation; auto; [apply NoDup_filter, seq_NoDup|]. intro i. rewrite filter_In, in_seq. destruct (mem_spec a i) as [M|M]; split; try tauto; [|intros [_ E]; discriminate]. intros _. destruct (Ha i M). split; [lia|auto].
  - rewrite (sumof_split f (mem b)). rewrite (sumof_zero f (filter (fun i => negb (mem b i)) _)).
    + rewrite Qcplus_0_r. apply sumof_perm, NoDup_Permutation; auto; [apply NoDup_filter, NoDup_filter, seq_NoDup|]. intro i. rewrite !filter_In, in_seq. destruct (mem_spec a i) as [A|A], (mem_spec b i) as [B|B]; cbn [negb]; split; try tauto; try (intros [[_ E] E']; discriminate).
      * intros _. destruct (Ha i A). contradiction.
      * intros _. specialize (Hb i B). split; [split; [lia|auto]|auto].
    + intros i Hi. rewrite !filter_In, in_seq in Hi. destruct Hi as [[Hi A] B]. apply Z; [lia| |]; intro K; [destruct (mem_spec a i)|destruct (mem_spec b i)]; try contradiction; discriminate.
Qed.
Lemma get_q_at op idx m k l : quad_upper (o_quad (p_obj op)) -> StronglySorted lt idx -> get_q op idx = Ok m -> k < length idx -> l < length idx ->
  nth l (nth k m []) 0%Qc = coef2 (o_quad (p_obj op)) (nth k idx 0) (nth l idx 0).
Proof.
  intros U S H Hk Hl. unfold get_q in H. apply mapM_ok in H.
  assert (forall A B (R : A -> B -> Prop) (xs : list A) (ys : list B) dx dy i, Forall2 R xs ys -> i < length xs -> R (nth i xs dx) (nth i ys dy)) as G.
  { intros A B R xs ys dx dy i F. revert i. induction F; intros [|i] Hi; simpl in *; try lia; auto. apply IHF. lia. }
  pose proof (G _ _ _ _ _ 0 [] k H) as H1. rewrite seq_length in H1. specialize (H1 Hk). rewrite seq_nth in H1 by auto. cbn [plus] in H1. apply mapM_ok in H1.
  pose proof (G _ _ _ _ _ 0 0%Qc l H1) as H2. rewrite seq_length in H2. specialize (H2 Hl). rewrite seq_nth in H2 by auto. cbn [plus] in H2. cbv beta in H2.
  assert (forall i j, i < j -> j < length idx -> nth i idx 0 < nth j idx 0) as Mo.
  { clear - S. induction S as [|a l0 S IH F]; intros i j Hij Hj; simpl in Hj; [lia|]. rewrite Forall_forall in F. destruct i as [|i], j as [|j]; try lia; simpl; [apply F, nth_In; lia|apply IH; lia]. }
  destruct (Nat.leb_spec k l) as [K|K].
  - apply quad_get_nat in H2. destruct H2 as [-> _]. destruct (Nat.eq_dec k l) as [->|N]; [now rewrite Nat.min_id, Nat.max_id|]. specialize (Mo k l ltac:(lia) Hl). now rewrite Nat.min_l, Nat.max_r by lia.
  - injection H2 as <-. symmetry. apply RecurFacts2.upper_zero; auto.
Qed.
Lemma block_form op idx m c x : quad_upper (o_quad (p_obj op)) -> StronglySorted lt idx -> get_q op idx = Ok m -> np_take (lin_to_array (o_lin (p_obj op))) idx = Ok c ->
  form m c (coords x idx) = (sumof (fun i => sumof (fun j => coef2 (o_quad (p_obj op)) i j * at_ x i * at_ x j) idx) idx + sumof (fun i => coef1 (o_lin (p_obj op)) i * at_ x i) idx)%Qc.
Proof.
  intros U S H1 H2. unfold form. assert (length (coords x idx) = length idx) as Le by apply map_length. rewrite Le.
  assert (forall k, k < length idx -> at_ (coords x idx) k = at_ x (nth k idx 0)) as C.
  { intros k Hk. unfold coords, at_ at 1. rewrite nth_indep with (d' := at_ x 0) by (rewrite map_length; auto). now rewrite map_nth. }
  f_equal.
  - rewrite (sum_list _ 0 idx). apply sumof_ext. intros k Hk. apply in_seq in Hk. rewrite (sum_list _ 0 idx). apply sumof_ext. intros l Hl. apply in_seq in Hl. rewrite (get_q_at op idx m k l) by (auto; lia). rewrite !C by lia. reflexivity.
  - rewrite (sum_list _ 0 idx). apply sumof_ext. intros k Hk. apply in_seq in Hk. rewrite C by lia. f_equal. apply np_take_ok in H2. destruct H2 as [-> F]. rewrite array_length in F. rewrite Forall_forall in F.
    unfold coords, at_ at 1. rewrite nth_indep with (d' := at_ (lin_to_array (o_lin (p_obj op))) 0) by (rewrite map_length; lia). rewrite map_nth. apply array_at, F, nth_In. lia.
Qed.
Lemma blocks d x : exprs_wf (a_op d) -> quad_upper (o_quad (p_obj (a_op d))) -> mixed_binary (a_op d) -> represents d -> separable (a_op d) ->
  (forall i, is_var BINARY (a_op d) i -> in_obj (a_op d) i -> In i (a_abs d)) -> length x = num_vars (a_op d) ->
  obj_at (p_obj (a_op d)) x = (o_const (p_obj (a_op d)) + form (a_q0 d) (a_c0 d) (coords x (a_abs d)) + form (a_q1 d) (a_c1 d) (coords x (a_cont d)))%Qc.
Proof.
  intros W U M R Sep Cov L. destruct (step1_spec d W R) as (Sa & Ia & _). pose proof (represents_split d R) as [_ Sc]. pose proof (represent_inv _ _ _ _ R) as (_ & _ & _ & _ & _ & _ & _ & _ & _ & Q0 & C0 & Q1 & C1 & _).
  rewrite Sc. rewrite (block_form (a_op d) (a_abs d)), (block_form (a_op d) (indices_of CONTINUOUS (a_op d))) by (auto; apply idx_sorted).
  assert (forall i, i < num_vars (a_op d) -> is_var BINARY (a_op d) i \/ is_var CONTINUOUS (a_op d) i) as Cs.
  { intros i Hi. destruct (nth_error (p_vars (a_op d)) i) as [v|] eqn:E; [|apply nth_error_None in E; unfold num_vars in Hi; lia]. unfold mixed_binary in M. rewrite Forall_forall in M. specialize (M v (nth_error_In _ _ E)).
    destruct (v_type v) eqn:Ty; [right; exists v; auto|left; exists v; auto|congruence]. }
  assert (forall i, is_var BINARY (a_op d) i -> is_var CONTINUOUS (a_op d) i -> False) as Dj by (intros i (v & A & B) (w & C & D); congruence).
  assert (forall i, i < num_vars (a_op d) -> ~ In i (a_abs d) -> ~ In i (indices_of CONTINUOUS (a_op d)) -> coef1 (o_lin (p_obj (a_op d))) i = 0%Qc /\ forall j, coef2 (o_quad (p_obj (a_op d))) i j = 0%Qc /\ coef2 (o_quad (p_obj (a_op d))) j i = 0%Qc) as Z.
  { intros i Hi N1 N2. rewrite indices_in in N2. destruct (Cs i Hi) as [B|B]; [|contradiction]. assert (~ in_obj (a_op d) i) as N by (intro K; apply N1; auto). unfold in_obj in N.
    split; [destruct (qeqb_spec (coef1 (o_lin (p_obj (a_op d))) i) 0); [auto|exfalso; apply N; auto]|]. intro j.
    split; [destruct (qeqb_spec (coef2 (o_quad (p_obj (a_op d))) i j) 0)|destruct (qeqb_spec (coef2 (o_quad (p_obj (a_op d))) j i) 0)]; auto; exfalso; apply N; right; exists j; auto. }
  assert (forall i, In i (a_abs d) -> i < num_vars (a_op d) /\ ~ In i (indices_of CONTINUOUS (a_op d))) as Ha.
  { intros i Hi. apply Ia in Hi. destruct Hi as [Hi _]. split; [eapply is_var_lt; eauto|]. rewrite indices_in. intro K. eapply Dj; eauto. }
  assert (forall i, In i (indices_of CONTINUOUS (a_op d)) -> i < num_vars (a_op d)) as Hc by (intros i Hi; apply indices_in in Hi; eapply is_var_lt; eauto).
  assert (forall f, (forall i, i < num_vars (a_op d) -> ~ In i (a_abs d) -> ~ In i (indices_of CONTINUOUS (a_op d)) -> f i = 0%Qc) -> sumof f (seq 0 (num_vars (a_op d))) = (sumof f (a_abs d) + sumof f (indices_of CONTINUOUS (a_op d)))%Qc) as Two.
  { intros f Hf. apply sum_two; auto; [now apply sorted_nodup|apply indices_nodup]. }
  unfold obj_at, lin_at, quad_at. rewrite L.
  rewrite (Two (fun i => coef1 (o_lin (p_obj (a_op d))) i * at_ x i)%Qc) by (intros i Hi N1 N2; rewrite (proj1 (Z i Hi N1 N2)); ring).
  rewrite (Two (fun i => sumof _ _)) by (intros i Hi N1 N2; apply sumof_zero; intros j _; rewrite (proj1 (proj2 (Z i Hi N1 N2) j)); ring).
  rewrite (sumof_ext (fun i => sumof (fun j => coef2 (o_quad (p_obj (a_op d))) i j * at_ x i * at_ x j)%Qc (seq 0 (num_vars (a_op d)))) (fun i => sumof (fun j => coef2 (o_quad (p_obj (a_op d))) i j * at_ x i * at_ x j)%Qc (a_abs d)) (a_abs d)).
  - rewrite (sumof_ext (fun i => sumof (fun j => coef2 (o_quad (p_obj (a_op d))) i j * at_ x i * at_ x j)%Qc (seq 0 (num_vars (a_op d)))) (fun i => sumof (fun j => coef2 (o_quad (p_obj (a_op d))) i j * at_ x i * at_ x j)%Qc (indices_of CONTINUOUS (a_op d))) (indices_of CONTINUOUS (a_op d))); [ring|].
    intros i Hi. rewrite Two; [|intros j Hj N1 N2; rewrite (proj2 (proj2 (Z j Hj N1 N2) i)); ring]. rewrite (sumof_zero _ (a_abs d)); [ring|]. intros j Hj. apply indices_in in Hi. apply Ia in Hj. rewrite (proj2 (Sep j i (proj1 Hj) Hi)). ring.
  - intros i Hi. rewrite Two; [|intros j Hj N1 N2; rewrite (proj2 (proj2 (Z j Hj N1 N2) i)); ring]. rewrite (sumof_zero _ (indices_of CONTINUOUS (a_op d))); [ring|]. intros j Hj. apply indices_in in Hj. apply Ia in Hi. rewrite (proj1 (Sep i j (proj1 Hi) Hj)). ring.
Qed.
