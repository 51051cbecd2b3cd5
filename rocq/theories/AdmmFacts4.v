From Verif Require Export AdmmFacts3.
Local Open Scope nat_scope.

(** ** Coefficients by index *)
Lemma dok_nat n i r : dok_index n (Z.of_nat i) = Ok r <-> r = i /\ i < n.
Proof.
  unfold dok_index. destruct (Nat.lt_ge_cases i n) as [H|H].
  - rewrite py_index_nat by auto. split; [intro E; injection E as <-; auto|intros [-> _]; reflexivity].
  - rewrite py_index_none by auto. split; [discriminate|intros [_ K]; lia].
Qed.
Lemma lin_get_nat env e i v : lin_get env e (KI (Z.of_nat i)) = Ok v <-> v = coef1 e i /\ i < le_dim e.
Proof.
  unfold lin_get. cbn [resolve bind]. split.
  - intro H. apply bind_ok in H. destruct H as (r & H1 & H). apply dok_nat in H1. destruct H1 as [-> L]. injection H as <-. auto.
  - intros [-> L]. rewrite (proj2 (dok_nat _ i i) (conj eq_refl L)). reflexivity.
Qed.
Lemma quad_get_nat env e i j v : quad_get env e (KI (Z.of_nat i), KI (Z.of_nat j)) = Ok v <-> v = coef2 e (Nat.min i j) (Nat.max i j) /\ Nat.max i j < qe_dim e.
Proof.
  unfold quad_get, quad_pos. cbn [resolve bind fst snd]. rewrite <- Nat2Z.inj_min, <- Nat2Z.inj_max. split.
  - intro H. apply bind_ok in H. destruct H as (r & H1 & H). apply bind_ok in H1. destruct H1 as (a & H1 & H2). apply bind_ok in H2. destruct H2 as (b & H2 & H3).
    apply dok_nat in H1, H2. destruct H1 as [-> L1], H2 as [-> L2]. injection H3 as <-. injection H as <-. auto.
  - intros [-> L]. rewrite (proj2 (dok_nat _ (Nat.min i j) _) (conj eq_refl (ltac:(lia) : Nat.min i j < qe_dim e))), (proj2 (dok_nat _ (Nat.max i j) _) (conj eq_refl L)). reflexivity.
Qed.

(** ** Collecting indices *)
Lemma mem_spec l i : reflect (In i l) (mem l i).
Proof.
  unfold mem. destruct (existsb (Nat.eqb i) l) eqn:E; constructor.
  - apply existsb_exists in E. destruct E as (j & H & E). apply Nat.eqb_eq in E. congruence.
  - intro H. rewrite <- not_true_iff_false in E. apply E. apply existsb_exists. exists i. split; auto. apply Nat.eqb_refl.
Qed.
Lemma collect_spec (test : nat -> result bool) (f : list nat -> nat -> result (list nat)) idx :
  (forall l i, f l i = do b <- test i; Ok (if b && negb (mem l i) then l ++ [i] else l)) ->
  forall l0 l, foldM f idx l0 = Ok l ->
  (forall i, In i l <-> In i l0 \/ (In i idx /\ test i = Ok true)) /\ (NoDup l0 -> NoDup l) /\ (forall i, In i idx -> exists b, test i = Ok b).
Proof.
  intro Hf. induction idx as [|a idx IH]; intros l0 l H; cbn [foldM] in H.
  - injection H as <-. split; [|split; auto]; [|intros i []]. intro i. simpl. tauto.
  - rewrite Hf in H. apply bind_ok in H. destruct H as (l1 & H1 & H). apply bind_ok in H1. destruct H1 as (b & T & H1).
    assert (l1 = if b && negb (mem l0 a) then l0 ++ [a] else l0) as -> by congruence. clear H1. destruct (IH _ _ H) as (A & B & C). clear IH H. split; [|split].
    + intro i. rewrite A. destruct (mem_spec l0 a) as [M|M], b; cbn [andb negb]; rewrite ?in_app_iff; simpl In; split; intro K;
        repeat match goal with H : _ \/ _ |- _ => destruct H | H : _ /\ _ |- _ => destruct H end; subst; try contradiction; auto; try congruence.
    + intro N. apply B. destruct (mem_spec l0 a) as [M|M], b; cbn [andb negb]; auto. apply (Permutation_NoDup (l := a :: l0)); [apply Permutation_cons_append|constructor; auto].
    + intros i [<-|Hi]; [eauto|auto].
Qed.
Lemma collect_total (test : nat -> result bool) (f : list nat -> nat -> result (list nat)) idx :
  (forall l i, f l i = do b <- test i; Ok (if b && negb (mem l i) then l ++ [i] else l)) ->
  (forall i, In i idx -> exists b, test i = Ok b) -> forall l0, exists l, foldM f idx l0 = Ok l.
Proof.
  intro Hf. induction idx as [|a idx IH]; intros T l0; cbn [foldM]; [eauto|]. destruct (T a) as (b & E); [now left|]. rewrite Hf, E. cbn [bind]. apply IH. intros; apply T; now right.
Qed.

Lemma in_objective_spec op i b : lin_wf (o_lin (p_obj op)) -> quad_wf (o_quad (p_obj op)) -> in_objective op i = Ok b -> (b = true <-> leads op i).
Proof.
  intros W W' H. unfold in_objective in H. apply bind_ok in H. destruct H as (a & H1 & H). apply lin_get_nat in H1. destruct H1 as [-> L].
  destruct (qeqb_spec (coef1 (o_lin (p_obj op)) i) 0) as [E|E]; cbn [negb] in H.
  - apply bind_ok in H. destruct H as (r & H1 & H). apply dok_nat in H1. destruct H1 as [-> L']. injection H as <-. rewrite np_sum_map.
    set (f := fun j => qabs (mget (qe_co (o_quad (p_obj op))) i j)). unfold leads. destruct (qeqb_spec (sumof f (seq 0 (qe_dim (o_quad (p_obj op))))) 0) as [Z|Z]; cbn [negb]; split; try discriminate; try reflexivity.
    + intros [K|(j & K)]; [contradiction|]. exfalso. apply K. destruct (Nat.lt_ge_cases j (qe_dim (o_quad (p_obj op)))) as [J|J]; [|apply coef2_out; auto].
      apply (sumof_nonneg_0 f) with (a := j) in Z; [|intros; apply qabs_nonneg|apply in_seq; lia]. unfold f in Z. exact (proj1 (qabs_0 _) Z).
    + intros _. right. destruct (existsb (fun j => negb (qeqb (coef2 (o_quad (p_obj op)) i j) 0)) (seq 0 (qe_dim (o_quad (p_obj op))))) eqn:X.
      * apply existsb_exists in X. destruct X as (j & _ & X). exists j. destruct (qeqb_spec (coef2 (o_quad (p_obj op)) i j) 0); [discriminate|assumption].
      * exfalso. apply Z. apply sumof_zero. intros j Hj. apply qabs_0. rewrite <- not_true_iff_false in X. destruct (qeqb_spec (coef2 (o_quad (p_obj op)) i j) 0) as [K|K]; [exact K|].
        exfalso. apply X. apply existsb_exists. exists j. split; auto. destruct (qeqb_spec (coef2 (o_quad (p_obj op)) i j) 0); [contradiction|reflexivity].
  - injection H as <-. split; auto. intros _. now left.
Qed.
Definition test_con (op : qp) (c : lincon) (i : nat) : result bool := do v <- lin_get (env_of op) (lc_lin c) (KI (Z.of_nat i)); Ok (qltb 0 v).
Lemma constraints_spec op rest beq : forall l0 l, foldM (step1_constraint op rest) beq l0 = Ok l ->
  (forall i, In i l <-> In i l0 \/ exists c, In c beq /\ In i rest /\ (0 < coef1 (lc_lin c) i)%Qc /\ i < le_dim (lc_lin c)) /\ (NoDup l0 -> NoDup l).
Proof.
  induction beq as [|c beq IH]; intros l0 l H; cbn [foldM] in H.
  - injection H as <-. split; auto. intro i. split; auto. intros [K|(c & [] & _)]; auto.
  - apply bind_ok in H. destruct H as (l1 & H1 & H). destruct (IH _ _ H) as [A B]. clear IH H.
    apply (collect_spec (test_con op c)) in H1; [|intros l' i; unfold test_con; destruct (lin_get (env_of op) (lc_lin c) (KI (Z.of_nat i))); reflexivity]. destruct H1 as (C & D & _).
    split; [|auto]. intro i. rewrite A, C. clear A B C D.
    assert (test_con op c i = Ok true <-> (0 < coef1 (lc_lin c) i)%Qc /\ i < le_dim (lc_lin c)) as T.
    { unfold test_con. split.
      - intro E. apply bind_ok in E. destruct E as (v & E1 & E). apply lin_get_nat in E1. destruct E1 as [-> ?]. destruct (qltb_spec 0 (coef1 (lc_lin c) i)); [auto|discriminate].
      - intros [P Q]. rewrite (proj2 (lin_get_nat _ _ i _) (conj eq_refl Q)). cbn [bind]. destruct (qltb_spec 0 (coef1 (lc_lin c) i)); [reflexivity|contradiction]. }
    split.
    + intros [[K|[K1 K2]]|(c' & K1 & K2 & K3)]; [auto|right; exists c; split; [now left|]; apply T in K2; tauto|right; exists c'; split; [now right|auto]].
    + intros [K|(c' & [<-|K1] & K2 & K3)]; [auto|left; right; split; auto; now apply T|right; eauto].
Qed.
Lemma strict_of_sorted l : StronglySorted le l -> NoDup l -> StronglySorted lt l.
Proof.
  induction 1 as [|a l S IH F]; intro N; constructor; inversion N; subst; auto. rewrite Forall_forall in *. intros b Hb. specialize (F b Hb). destruct (Nat.eq_dec a b) as [->|]; [contradiction|lia].
Qed.
Lemma sort_strict l : NoDup l -> StronglySorted lt (sort_by Nat.ltb l) /\ forall i, In i (sort_by Nat.ltb l) <-> In i l.
Proof.
  intro N. pose proof (sort_perm Nat.ltb l) as P. split; [|intro i; split; apply Permutation_in; [exact P|now apply Permutation_sym]].
  apply strict_of_sorted; [|eapply Permutation_NoDup; [apply Permutation_sym, P|exact N]].
  apply sort_sorted; [intros; lia|intros a b H; apply Nat.ltb_lt in H; lia|intros a b H; apply Nat.ltb_ge in H; lia].
Qed.

(** ** Relative indices *)
Lemma index_from_some l a : forall k j, index_from l a k = Some j -> k <= j /\ nth_error l (j - k) = Some a.
Proof.
  induction l as [|b l IH]; intros k j H; simpl in H; [discriminate|]. destruct (Nat.eqb_spec b a) as [->|N].
  - injection H as <-. rewrite Nat.sub_diag. auto.
  - apply IH in H. destruct H as [H1 H2]. split; [lia|]. replace (j - k) with (S (j - S k)) by lia. exact H2.
Qed.
Lemma index_from_none l a : forall k, index_from l a k = None -> ~ In a l.
Proof. induction l as [|b l IH]; intros k H; simpl in *; [tauto|]. destruct (Nat.eqb_spec b a); [discriminate|]. apply IH in H. intros [K|K]; contradiction. Qed.
Lemma nth_error_skip {A} (l : list A) k : forall j, nth_error (skipn k l) j = nth_error l (k + j).
Proof. revert l. induction k as [|k IH]; intros [|a l] j; simpl; auto. destruct j; reflexivity. Qed.
Lemma relative_spec bin : forall l acc j0 r, foldM (relative_step bin) l (acc, j0) = Ok r -> exists rel, fst r = acc ++ rel /\ Forall2 (fun a j => nth_error bin j = Some a) l rel.
Proof.
  induction l as [|a l IH]; intros acc j0 r H; cbn [foldM] in H.
  - injection H as <-. exists []. rewrite app_nil_r. auto.
  - apply bind_ok in H. destruct H as ([acc' j'] & H1 & H). unfold relative_step in H1. cbn [fst snd] in H1. destruct (index_from (skipn j0 bin) a j0) as [j|] eqn:E; [|discriminate]. injection H1 as <- <-.
    apply IH in H. destruct H as (rel & R & F). exists (j :: rel). rewrite R, <- app_assoc. split; auto. constructor; auto. apply index_from_some in E. destruct E as [E1 E2]. rewrite nth_error_skip in E2. now replace (j0 + (j - j0)) with j in E2 by lia.
Qed.
Lemma sorted_nth l : StronglySorted lt l -> forall i j a b, nth_error l i = Some a -> nth_error l j = Some b -> a < b -> i < j.
Proof.
  induction 1 as [|c l S IH F]; intros i j a b Hi Hj L; [destruct i; discriminate|]. rewrite Forall_forall in F. destruct i as [|i], j as [|j]; simpl in *; try lia.
  - injection Hi as ->. injection Hj as ->. lia.
  - injection Hj as ->. apply nth_error_In in Hi. specialize (F a Hi). lia.
  - apply IH with (i := i) (j := j) in L; auto. lia.
Qed.
Lemma relative_total bin : StronglySorted lt bin -> forall l, StronglySorted lt l -> (forall a, In a l -> In a bin) -> forall acc j0, (forall a j, In a l -> nth_error bin j = Some a -> j0 <= j) ->
  exists r, foldM (relative_step bin) l (acc, j0) = Ok r.
Proof.
  intros Sb. induction 1 as [|a l S IH F]; intros I acc j0 H; cbn [foldM]; [eauto|]. unfold relative_step at 1. cbn [fst snd].
  destruct (index_from (skipn j0 bin) a j0) as [j|] eqn:E.
  - cbn [bind]. apply IH; [intros; apply I; now right|]. intros b j' Hb Hj'. apply index_from_some in E. destruct E as [E1 E2]. rewrite nth_error_skip in E2. replace (j0 + (j - j0)) with j in E2 by lia.
    rewrite Forall_forall in F. pose proof (sorted_nth bin Sb _ _ _ _ E2 Hj' (F b Hb)). lia.
  - exfalso. apply index_from_none in E. apply E. destruct (In_nth_error bin a) as (j & Hj); [apply I; now left|]. specialize (H a j (or_introl eq_refl) Hj). apply nth_error_In with (n := j - j0). rewrite nth_error_skip. now replace (j0 + (j - j0)) with j by lia.
Qed.

(** ** The first subproblem's variables *)
Lemma only_binary_spec op c : only_binary (indices_of BINARY op) c = true <-> Forall (fun kv => is_var BINARY op (fst kv)) (le_co (lc_lin c)).
Proof.
  unfold only_binary, lin_to_dict. rewrite forallb_forall, Forall_forall. split; intros H kv K; specialize (H kv K).
  - apply indices_in. destruct (mem_spec (indices_of BINARY op) (fst kv)); [assumption|discriminate].
  - apply indices_in in H. destruct (mem_spec (indices_of BINARY op) (fst kv)); [reflexivity|contradiction].
Qed.
Lemma beq_spec d c : represents d -> In c (a_beq d) <-> binary_eq (a_op d) c.
Proof.
  intro R. apply represent_inv in R. destruct R as (_ & _ & _ & E1 & E2 & _). rewrite E2, E1, !filter_In. unfold binary_eq. rewrite <- only_binary_spec.
  assert (csense_eqb (lc_sense c) EQ = true <-> lc_sense c = EQ) as -> by (destruct (lc_sense c); simpl; split; congruence). tauto.
Qed.
Lemma step1_spec d : exprs_wf (a_op d) -> represents d ->
  StronglySorted lt (a_abs d) /\
  (forall i, In i (a_abs d) <-> is_var BINARY (a_op d) i /\ (leads (a_op d) i \/ exists c, binary_eq (a_op d) c /\ (0 < coef1 (lc_lin c) i)%Qc)) /\
  Forall2 (fun a j => nth_error (a_bin d) j = Some a) (a_abs d) (a_rel d).
Proof.
  intros (W1 & W2 & W3 & _) R. pose proof (beq_spec d) as Bq. pose proof (represent_inv _ _ _ _ R) as (_ & Eb & _ & _ & _ & _ & _ & _ & H & _).
  unfold step1_indices in H. apply bind_ok in H. destruct H as (l0 & H0 & H). apply bind_ok in H. destruct H as (l1 & H1 & H). cbv zeta in H. apply bind_ok in H. destruct H as (r & H2 & H).
  assert (a_abs d = sort_by Nat.ltb l1) as Ea by congruence. assert (a_rel d = fst r) as Er by congruence. clear H.
  apply (collect_spec (in_objective (a_op d))) in H0; [|reflexivity]. destruct H0 as (A0 & B0 & C0). apply constraints_spec in H1. destruct H1 as (A1 & B1).
  destruct (sort_strict l1) as [A2 B2]; [apply B1, B0; constructor|]. apply relative_spec in H2. destruct H2 as (rel & R1 & R2). cbn [app] in R1.
  rewrite Ea. split; auto. split; [|rewrite Er, R1, Eb; exact R2]. intro i. rewrite B2, A1.
  assert (forall c, In c (a_beq d) -> (0 < coef1 (lc_lin c) i)%Qc -> is_var BINARY (a_op d) i /\ i < le_dim (lc_lin c)) as G.
  { intros c Hc P. apply Bq in Hc; auto. destruct Hc as (Hc & _ & F). rewrite Forall_forall in W3, F. destruct (W3 c Hc) as [_ Rg]. rewrite Forall_forall in Rg.
    assert (exists v, In (i, v) (le_co (lc_lin c))) as (v & Hv).
    { unfold coef1, dgetq in P. destruct (dget Nat.eqb i (le_co (lc_lin c))) eqn:E; [|qlra]. exists q. now apply (dget_in _ nat_eqb_sp) in E. }
    split; [exact (F _ Hv)|exact (Rg _ Hv)]. }
  assert (In i l0 <-> is_var BINARY (a_op d) i /\ leads (a_op d) i) as L0.
  { rewrite A0, <- indices_in. simpl. split.
    - intros [[]|[K1 K2]]. split; auto. now apply (in_objective_spec _ _ _ W1 W2 K2).
    - intros [K1 K2]. right. split; auto. destruct (C0 i K1) as (b & T). apply (in_objective_spec _ _ _ W1 W2 T) in K2. now rewrite K2 in T. }
  rewrite L0. split.
  - intros [[K1 K2]|(c & K1 & K2 & K3 & K4)]; [auto|]. destruct (G c K1 K3). split; auto. right. exists c. split; auto. now apply Bq.
  - intros [K1 [K2|(c & K2 & K3)]]; [auto|]. destruct (mem_spec l0 i) as [M|M]; [left; now apply L0|]. right. exists c. apply Bq in K2; auto. split; auto. split; [|split; [auto|now apply (G c)]].
    apply filter_In. split; [now apply indices_in|]. destruct (mem_spec l0 i); [contradiction|reflexivity].
Qed.
