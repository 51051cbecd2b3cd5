(** * Facts about building and evaluating expressions *)
From Verif Require Export ExprFacts.
Local Open Scope nat_scope.

(** ** Dictionaries with several ways to write a key *)
Section Put.
Context {K I : Type} (eqb : I -> I -> bool) (sp : forall a b, reflect (a = b) (eqb a b)).
Context (pos : K -> result I).

Definition put (co : list (I * Qc)) (kv : K * Qc) : result (list (I * Qc)) :=
  do i <- pos (fst kv); Ok (dok_put eqb i (snd kv) co).

Fixpoint lastv (d : list (K * Qc)) (i : I) (init : Qc) : Qc :=
  match d with
  | [] => init
  | (k, v) :: d' => lastv d' i (match pos k with Ok i' => if eqb i' i then v else init | Err _ => init end)
  end.

Lemma foldM_put d : forall co co',
  NoDup (map fst co) -> foldM put d co = Ok co' ->
  NoDup (map fst co') /\ (forall i, dgetq eqb i co' = lastv d i (dgetq eqb i co)).
Proof.
  induction d as [|[k v] d IH]; simpl; intros co co' Hn H; inv_ok; [auto|].
  unfold put in H. simpl in H. inv_ok. rewrite H.
  destruct (IH _ _ (dok_put_nodup eqb sp x0 v co Hn) H0) as [H1 H2]. split; auto.
  intro i. rewrite H2. rewrite (dgetq_dok_put eqb sp) by assumption.
  destruct (sp i x0), (sp x0 i); congruence || reflexivity.
Qed.
Lemma foldM_put_Forall (P : I * Qc -> Prop) d : forall co co',
  (forall k i v, In (k, v) d -> pos k = Ok i -> P (i, v)) ->
  Forall P co -> foldM put d co = Ok co' -> Forall P co'.
Proof.
  induction d as [|[k v] d IH]; simpl; intros co co' HP Hc H; inv_ok; [auto|].
  unfold put in H. simpl in H. inv_ok. eapply IH; [| |eassumption].
  - intros; eapply HP; eauto.
  - apply (dok_put_Forall eqb sp); auto. eapply HP; eauto.
Qed.
Lemma foldM_put_ok d : forall co, (forall k v, In (k, v) d -> exists i, pos k = Ok i) -> exists co', foldM put d co = Ok co'.
Proof.
  induction d as [|[k v] d IH]; simpl; intros co H; [eauto|].
  destruct (H k v) as [i Hi]; [auto|]. unfold put at 1; simpl. rewrite Hi; simpl. apply IH. eauto.
Qed.
Lemma foldM_put_legal d : forall co co', foldM put d co = Ok co' -> forall k v, In (k, v) d -> exists i, pos k = Ok i.
Proof.
  induction d as [|[k v] d IH]; simpl; intros co co' H k' v' Hin; inv_ok; [tauto|].
  unfold put in H. simpl in H. inv_ok. destruct Hin as [E|Hin]; [|eauto].
  injection E; intros; subst. eauto.
Qed.

Lemma lastv_none d i init : (forall k v, In (k, v) d -> pos k <> Ok i) -> lastv d i init = init.
Proof.
  revert init; induction d as [|[k v] d IH]; simpl; intros init H; auto. rewrite IH by eauto.
  destruct (pos k) eqn:E; auto. destruct (sp a i); auto. subst. exfalso. eapply H; [left; reflexivity|assumption].
Qed.
Lemma lastv_app d1 d2 i init : lastv (d1 ++ d2) i init = lastv d2 i (lastv d1 i init).
Proof. revert init; induction d1 as [|[k v] d1 IH]; simpl; intros; auto. Qed.

Lemma lastv_given (pt : K -> I -> Prop) d i v :
  (forall k i, pos k = Ok i <-> pt k i) -> (lastv d i 0 = v <-> last_given pt d i v).
Proof.
  intro Hp. split.
  - revert v. induction d as [|[k w] d IH] using rev_ind; intros v H.
    + right. simpl in H. split; [intros ? ? []|auto].
    + rewrite lastv_app in H. simpl in H. destruct (pos k) eqn:E; [destruct (sp a i)|].
      * subst a w. left. exists d, k, []. repeat split; [apply Hp; assumption | intros ? ? []].
      * apply IH in H. destruct H as [(d1 & k1 & d2 & -> & H1 & H2)|[H1 H2]].
        -- left. exists d1, k1, (d2 ++ [(k, w)]). rewrite <- app_assoc. repeat split; auto.
           intros k' v' Hin. apply in_app_iff in Hin. destruct Hin as [Hin|[Hin|[]]]; [eauto|].
           injection Hin; intros; subst. rewrite <- Hp, E. congruence.
        -- right. split; auto. intros k' v' Hin. apply in_app_iff in Hin. destruct Hin as [Hin|[Hin|[]]]; [eauto|].
           injection Hin; intros; subst. rewrite <- Hp, E. congruence.
      * apply IH in H. destruct H as [(d1 & k1 & d2 & -> & H1 & H2)|[H1 H2]].
        -- left. exists d1, k1, (d2 ++ [(k, w)]). rewrite <- app_assoc. repeat split; auto.
           intros k' v' Hin. apply in_app_iff in Hin. destruct Hin as [Hin|[Hin|[]]]; [eauto|].
           injection Hin; intros; subst. rewrite <- Hp, E. congruence.
        -- right. split; auto. intros k' v' Hin. apply in_app_iff in Hin. destruct Hin as [Hin|[Hin|[]]]; [eauto|].
           injection Hin; intros; subst. rewrite <- Hp, E. congruence.
  - intros [(d1 & k1 & d2 & -> & H1 & H2)|[H1 H2]].
    + rewrite lastv_app. simpl. apply Hp in H1. rewrite H1. destruct (sp i i); [|congruence].
      apply lastv_none. intros k v' Hin. rewrite Hp. eauto.
    + subst. apply lastv_none. intros k v' Hin. rewrite Hp. eauto.
Qed.
Lemma lastv_given_self (pt : K -> I -> Prop) d i :
  (forall k i, pos k = Ok i <-> pt k i) -> last_given pt d i (lastv d i 0).
Proof. intro H. now apply lastv_given. Qed.
End Put.

(** ** Keys *)
Definition key_pos1 (env : venv) (n : nat) (k : key) : result nat := do z <- resolve env k; dok_index n z.
Definition key_pos2 (env : venv) (n : nat) (k : key * key) : result (nat * nat) :=
  do zi <- resolve env (fst k); do zj <- resolve env (snd k);
  do i <- dok_index n zi; do j <- dok_index n zj; Ok (i, j).

Lemma dok_index_spec n z i : dok_index n z = Ok i <-> i < n /\ (z = Z.of_nat i \/ z = Z.of_nat i - Z.of_nat n)%Z.
Proof.
  unfold dok_index. split.
  - destruct (py_index n z) eqn:E; [|discriminate]. intros [=]; subst. now apply py_index_some.
  - intros [Hi H]. replace (py_index n z) with (Some i); [reflexivity|]. unfold py_index.
    destruct (Z.leb_spec 0 z).
    + destruct (Z.ltb_spec z (Z.of_nat n)); [|lia]. f_equal. lia.
    + destruct (Z.leb_spec (- Z.of_nat n) z); [|lia]. f_equal. lia.
Qed.
Lemma key_pos1_spec names env n k i :
  index_exact names (ve_idx env) -> (n <= ve_n env)%nat -> length names = ve_n env ->
  key_pos1 env n k = Ok i <-> points_to names n k i.
Proof.
  intros Hx Hn Hl. unfold key_pos1, points_to. destruct k as [z|s]; simpl.
  - apply dok_index_spec.
  - specialize (Hx s). destruct (dget String.eqb s (ve_idx env)) as [j|] eqn:E; simpl.
    + rewrite dok_index_spec. pose proof (proj1 (Hx j) eq_refl) as Hj.
      assert (j < length names) by (apply nth_error_Some; congruence).
      split.
      * intros [Hi [H1|H1]]; [|lia]. assert (j = i) by lia. subst. auto.
      * intros [Hi H1]. apply Hx in H1. split; [auto|]. left. congruence.
    + split; [discriminate|]. intros [_ H1]. apply Hx in H1. discriminate.
Qed.
Lemma key_pos2_spec names env n k ij :
  index_exact names (ve_idx env) -> (n <= ve_n env)%nat -> length names = ve_n env ->
  key_pos2 env n k = Ok ij <-> points_to2 names n k ij.
Proof.
  intros Hx Hn Hl. unfold points_to2. rewrite <- !(key_pos1_spec names env n) by assumption.
  unfold key_pos1, key_pos2. destruct k as [k1 k2], ij as [i j]; simpl.
  destruct (resolve env k1) as [a|]; simpl; [|split; [discriminate|intros [? ?]; discriminate]].
  destruct (resolve env k2) as [b|]; simpl; [|split; [discriminate|intros [? ?]; discriminate]].
  destruct (dok_index n a) as [a'|]; simpl; [|split; [discriminate|intros [? ?]; discriminate]].
  destruct (dok_index n b) as [b'|]; simpl; [|split; [discriminate|intros [? ?]; discriminate]].
  split; [intros [=]; subst; auto | intros [[=] [=]]; subst; auto].
Qed.
Lemma key_pos1_lt env n k i : key_pos1 env n k = Ok i -> i < n.
Proof. unfold key_pos1. intro H. inv_ok. apply dok_index_spec in H0. tauto. Qed.
Lemma key_pos2_lt env n k ij : key_pos2 env n k = Ok ij -> fst ij < n /\ snd ij < n.
Proof. unfold key_pos2. intro H. inv_ok. apply dok_index_spec in H1, H2. simpl. tauto. Qed.

(** ** lin_make *)
Lemma lin_put_fold env n d : forall co,
  foldM (lin_put env) d (mkLin n false co)
  = (do co' <- foldM (put Nat.eqb (key_pos1 env n)) d co; Ok (mkLin n false co')).
Proof.
  induction d as [|[k v] d IH]; intro co; simpl; [reflexivity|].
  unfold lin_put at 1, put at 1, key_pos1 at 1; simpl.
  destruct (resolve env k) as [z|]; simpl; [|reflexivity].
  destruct (dok_index n z) as [i|]; simpl; [apply IH|reflexivity].
Qed.
Lemma lin_make_dict env d e :
  lin_make env (LDict d) = Ok e ->
  lin_wf e /\ le_dim e = ve_n env /\ le_int e = false /\
  forall i, coef1 e i = lastv Nat.eqb (key_pos1 env (ve_n env)) d i 0.
Proof.
  simpl. rewrite lin_put_fold. intro H. inv_ok. pose proof H as H'.
  apply (foldM_put _ nat_eqb_sp) in H; [|constructor]. destruct H as [H1 H2].
  apply (foldM_put_Forall _ nat_eqb_sp _ (fun kv => fst kv < ve_n env)) in H'; [|intros; eapply key_pos1_lt; eauto|constructor].
  repeat split; auto.
Qed.
Lemma lin_make_wf env c e : lincoef_wf c -> lin_make env c = Ok e -> lin_wf e.
Proof.
  destruct c as [ints l|d|e']; intros Hc H.
  - injection H as <-. apply lin_of_list_wf.
  - apply lin_make_dict in H. tauto.
  - injection H as <-. assumption.
Qed.
Lemma lin_make_dict_ok names env d :
  index_exact names (ve_idx env) -> length names = ve_n env ->
  is_ok (lin_make env (LDict d)) = true <-> keys_legal (points_to names (ve_n env)) d.
Proof.
  intros Hx Hl. simpl. rewrite lin_put_fold. split.
  - destruct (foldM (put Nat.eqb (key_pos1 env (ve_n env))) d []) eqn:E; [|discriminate]. intros _ k v Hin.
    destruct (foldM_put_legal _ _ _ _ _ E k v Hin) as [i Hi]. exists i. apply (key_pos1_spec names) in Hi; auto.
  - intro H. destruct (foldM_put_ok Nat.eqb (key_pos1 env (ve_n env)) d []) as [co' ->]; [|reflexivity].
    intros k v Hin. destruct (H k v Hin) as [i Hi]. exists i. apply (key_pos1_spec names); auto.
Qed.

(** ** lin_eval *)
Lemma fold_dsum (f : nat -> Qc) l :
  fold_right (fun iv s => snd iv * f (fst iv) + s)%Qc 0%Qc l = dsum f l.
Proof. induction l as [|[k v] l IH]; simpl; [reflexivity|]. rewrite IH. reflexivity. Qed.

Lemma lin_dot e X :
  lin_wf e -> lin_wf X -> le_dim X = le_dim e ->
  dsum (fun i => coef1 e i) (le_co X) = sumof (fun i => (coef1 e i * coef1 X i)%Qc) (seq 0 (le_dim e)).
Proof.
  intros He [H1 H2] Hd. rewrite (dsum_keys _ nat_eqb_sp _ _ (seq 0 (le_dim e))); auto using seq_NoDup.
  - apply sumof_ext. intros i _. unfold coef1. ring.
  - intros k Hk. apply in_map_iff in Hk. destruct Hk as ([a b] & <- & Hin).
    rewrite Forall_forall in H2. apply H2 in Hin. simpl in *. apply in_seq. lia.
Qed.
Lemma lin_eval_list env e x :
  lin_wf e -> lin_eval env e (XList x) = if Nat.eqb (length x) (le_dim e) then Ok (lin_at e x) else Err ValueError.
Proof.
  intro He. unfold lin_eval, lin_make. simpl bind.
  change (mkLin (length x) false (nonzero (combine (seq 0 (length x)) x))) with (lin_of_list false x).
  change (le_dim (lin_of_list false x)) with (length x).
  destruct (Nat.eqb_spec (length x) (le_dim e)) as [Hd|Hd]; [|reflexivity]. f_equal.
  rewrite (fold_dsum (fun i => dgetq Nat.eqb i (le_co e))).
  etransitivity; [apply (lin_dot e (lin_of_list false x)); auto using lin_of_list_wf|]. unfold lin_at. rewrite Hd. apply sumof_ext. intros i _.
  now rewrite lin_of_list_coef.
Qed.
Lemma lin_eval_dict names env e d l :
  index_exact names (ve_idx env) -> length names = ve_n env -> lin_sized (ve_n env) e ->
  describes names (ve_n env) d l -> lin_eval env e (XDict d) = Ok (lin_at e l).
Proof.
  intros Hx Hl [He Hd] (L1 & L2 & L3). unfold lin_eval.
  destruct (lin_make env (LDict d)) as [X|] eqn:E.
  2:{ apply (lin_make_dict_ok names env d Hx Hl) in L2. rewrite E in L2. discriminate. }
  simpl bind. pose proof E as E'. apply lin_make_dict in E'. destruct E' as (W1 & W2 & W3 & W4).
  replace (Nat.eqb (le_dim X) (le_dim e)) with true by (symmetry; apply Nat.eqb_eq; congruence).
  f_equal. rewrite (fold_dsum (fun i => coef1 e i)). etransitivity; [apply (lin_dot e X); auto; congruence|].
  unfold lin_at. rewrite Hd, L1. apply sumof_ext. intros i Hi. apply in_seq in Hi. f_equal. rewrite W4.
  apply (lastv_given _ nat_eqb_sp _ (points_to names (ve_n env))); [|apply L3; lia].
  intros k j. apply key_pos1_spec; auto.
Qed.

(** ** quad_make *)
Lemma quad_put_fold env n d : forall co,
  foldM (quad_put_raw env n) d co = foldM (put nat2_eqb (key_pos2 env n)) d co.
Proof.
  induction d as [|[k v] d IH]; intro co; simpl; [reflexivity|].
  unfold quad_put_raw at 1, put at 1, key_pos2 at 1; simpl.
  destruct (resolve env (fst k)); simpl; [|reflexivity].
  destruct (resolve env (snd k)); simpl; [|reflexivity].
  destruct (dok_index n a) ; simpl; [|reflexivity].
  destruct (dok_index n a0); simpl; [apply IH|reflexivity].
Qed.
Lemma triangle_wf n int co : quad_wf (mkQuad n int (triangle n co)).
Proof. split; simpl; [apply dense_nodup|apply dense_range]. Qed.

(** The matrix meant by a coefficient argument. *)
Definition raw_of (env : venv) (c : quadcoef) : nat * (nat -> nat -> Qc) :=
  match c with
  | QList _ rows => (length rows, fun i j => nth j (nth i rows []) 0%Qc)
  | QSparse e => (qe_dim e, coef2 e)
  | QDict d => (ve_n env, fun i j => lastv nat2_eqb (key_pos2 env (ve_n env)) d (i, j) 0%Qc)
  end.

Lemma rows_keys (rows : list (list Qc)) s :
  map fst (flat_map (fun ir => map (fun jv => ((fst ir, fst jv), snd jv)) (combine (seq 0 (length (snd ir))) (snd ir)))
                    (combine (seq s (length rows)) rows))
  = flat_map (fun ir => map (fun j => (fst ir, j)) (seq 0 (length (snd ir)))) (combine (seq s (length rows)) rows).
Proof.
  revert s. induction rows as [|r rows IH]; intro s; simpl; [reflexivity|].
  rewrite map_app, IH. f_equal. rewrite map_map. simpl.
  rewrite <- (combine_seq_keys r 0) at 2. rewrite map_map. reflexivity.
Qed.
Lemma rows_nodup rows : NoDup (map fst (flat_map (fun ir => map (fun jv => ((fst ir, fst jv), snd jv)) (combine (seq 0 (length (snd ir))) (snd ir)))
                    (combine (seq 0 (length rows)) rows : list (nat * list Qc)))).
Proof.
  rewrite rows_keys. apply NoDup_flat_map.
  - apply (NoDup_map_inv fst). rewrite combine_seq_keys. apply seq_NoDup.
  - intros [i r] _. simpl. apply FinFun.Injective_map_NoDup; [intros a b [=]; auto | apply seq_NoDup].
  - intros [i r] [j r'] c Hi Hj H1 H2. apply in_map_iff in H1, H2. simpl in *.
    destruct H1 as (x & <- & _), H2 as (y & E & _). injection E; intros; subst.
    assert (forall (l : list (list Qc)) s i r r', In (i, r) (combine (seq s (length l)) l) -> In (i, r') (combine (seq s (length l)) l) -> r = r') as U.
    { clear. induction l as [|a l IH]; simpl; intros s i r r' H1 H2; [tauto|].
      destruct H1 as [H1|H1], H2 as [H2|H2].
      - congruence.
      - injection H1; intros; subst. apply in_combine_l in H2. apply in_seq in H2. lia.
      - injection H2; intros; subst. apply in_combine_l in H1. apply in_seq in H1. lia.
      - eauto. }
    f_equal. eapply U; eauto.
Qed.
Lemma rows_get rows i j : mget (rows_entries rows) i j = nth j (nth i rows []) 0%Qc.
Proof.
  unfold mget, rows_entries. rewrite (dgetq_nonzero _ nat2_eqb_sp); [|apply rows_nodup].
  assert (forall (l : list (list Qc)) s i, In (s + i, nth i l []) (combine (seq s (length l)) l) \/ length l <= i) as InC.
  { clear. induction l as [|a l IH]; simpl; intros s i; [right; lia|].
    destruct i; [left; left; f_equal; lia|]. destruct (IH (S s) i) as [H|H]; [|right; lia].
    left; right. replace (s + S i) with (S s + i) by lia. exact H. }
  destruct (Nat.ltb_spec i (length rows)) as [Hi|Hi].
  - destruct (InC rows 0 i) as [Hin|]; [|lia]. simpl in Hin.
    destruct (Nat.ltb_spec j (length (nth i rows []))) as [Hj|Hj].
    + unfold dgetq. rewrite (in_dget _ nat2_eqb_sp (i, j) (nth j (nth i rows []) 0%Qc)); [reflexivity|apply rows_nodup|].
      apply in_flat_map. exists (i, nth i rows []). split; auto. apply in_map_iff. exists (j, nth j (nth i rows []) 0%Qc).
      split; auto. simpl. clear -Hj. revert j Hj. generalize (nth i rows []) as r. 
      assert (forall (r : list Qc) s j, j < length r -> In (s + j, nth j r 0%Qc) (combine (seq s (length r)) r)) as G.
      { induction r as [|a r IH]; simpl; intros s j Hj; [lia|]. destruct j; [left; f_equal; lia|].
        right. replace (s + S j) with (S s + j) by lia. apply IH. lia. }
      intros r j Hj. apply (G r 0 j Hj).
    + rewrite (nth_overflow (nth i rows [])) by assumption. apply (dgetq_notin _ nat2_eqb_sp). rewrite rows_keys.
      intro H. apply in_flat_map in H. destruct H as ([i' r] & H1 & H2). apply in_map_iff in H2.
      destruct H2 as (j' & E & Hj'). simpl in *. injection E; intros; subst. apply in_seq in Hj'.
      assert (forall (l : list (list Qc)) s i r r', In (i, r) (combine (seq s (length l)) l) -> In (i, r') (combine (seq s (length l)) l) -> r = r') as U.
      { clear. induction l as [|a l IH]; simpl; intros s i r r' H1 H2; [tauto|].
        destruct H1 as [H1|H1], H2 as [H2|H2].
        - congruence.
        - injection H1; intros; subst. apply in_combine_l in H2. apply in_seq in H2. lia.
        - injection H2; intros; subst. apply in_combine_l in H1. apply in_seq in H1. lia.
        - eauto. }
      rewrite (U _ _ _ _ _ H1 Hin) in Hj'. lia.
  - rewrite (nth_overflow rows) by assumption. replace (nth j [] 0%Qc) with 0%Qc by (destruct j; reflexivity).
    apply (dgetq_notin _ nat2_eqb_sp). rewrite rows_keys.
    intro H. apply in_flat_map in H. destruct H as ([i' r] & H1 & H2). apply in_map_iff in H2.
    destruct H2 as (j' & E & Hj'). simpl in *. injection E; intros; subst. apply in_combine_l in H1. apply in_seq in H1. lia.
Qed.

Lemma quad_make_spec env c e :
  quad_make env c = Ok e ->
  quad_wf e /\ quad_upper e /\ Forall (fun kv => snd kv <> 0%Qc) (qe_co e) /\
  qe_dim e = fst (raw_of env c) /\
  (forall i j, i < qe_dim e -> j < qe_dim e ->
     coef2 e i j = (if i <? j then snd (raw_of env c) i j + snd (raw_of env c) j i
                    else if j <? i then 0 else snd (raw_of env c) i j)%Qc) /\
  (forall x, form_at (qe_dim e) (coef2 e) x = form_at (qe_dim e) (snd (raw_of env c)) x).
Proof.
  destruct c as [ints rows|d|e0]; simpl; intro H.
  - destruct (forallb (fun r => length r =? length rows) rows) eqn:Hsq; [|discriminate]. inv_ok; simpl.
    split; [apply triangle_wf|]. split; [apply triangle_upper|]. split; [apply nonzero_nz|]. split; [reflexivity|]. split.
    + intros i j Hi Hj. unfold coef2; simpl. rewrite triangle_get by assumption. now rewrite !rows_get.
    + intro x. unfold coef2; simpl. rewrite triangle_form. unfold form_at. apply sumof_ext. intros i _.
      apply sumof_ext. intros j _. now rewrite rows_get.
  - rewrite quad_put_fold in H. inv_ok; simpl. pose proof H as H'.
    apply (foldM_put _ nat2_eqb_sp) in H; [|constructor]. destruct H as [H1 H2].
    split; [apply triangle_wf|]. split; [apply triangle_upper|]. split; [apply nonzero_nz|]. split; [reflexivity|]. split.
    + intros i j Hi Hj. unfold coef2; simpl. rewrite triangle_get by assumption. unfold mget. now rewrite !H2.
    + intro y. unfold coef2; simpl. rewrite triangle_form. unfold form_at. apply sumof_ext. intros i _.
      apply sumof_ext. intros j _. unfold mget. now rewrite !H2.
  - inv_ok; simpl.
    split; [apply triangle_wf|]. split; [apply triangle_upper|]. split; [apply nonzero_nz|]. split; [reflexivity|]. split.
    + intros i j Hi Hj. unfold coef2; simpl. now rewrite triangle_get by assumption.
    + intro x. unfold coef2; simpl. now rewrite triangle_form.
Qed.
Lemma quad_make_sized env c e : quad_make env c = Ok e -> quad_sized (qe_dim e) e.
Proof. intro H. apply quad_make_spec in H. destruct H as (H1 & H2 & _). split; [exact H1|]. split; [exact H2|reflexivity]. Qed.

(** ** Evaluation *)
Lemma fold_dsum2 (f : nat -> nat -> Qc) l :
  fold_right (fun kv s => snd kv * f (fst (fst kv)) (snd (fst kv)) + s)%Qc 0%Qc l = dsum (fun ij => f (fst ij) (snd ij)) l.
Proof. induction l as [|[k v] l IH]; simpl; [reflexivity|]. rewrite IH. reflexivity. Qed.
Lemma quad_eval_list env e x :
  quad_wf e -> quad_eval env e (XList x) = if Nat.eqb (length x) (qe_dim e) then Ok (quad_at e x) else Err ValueError.
Proof.
  intro He. unfold quad_eval. simpl bind. destruct (Nat.eqb_spec (length x) (qe_dim e)) as [Hd|]; [|reflexivity]. f_equal.
  transitivity (dsum (fun ij => (at_ x (fst ij) * at_ x (snd ij))%Qc) (qe_co e)).
  - unfold dsum. induction (qe_co e) as [|[[i j] v] l IH]; simpl; [reflexivity|]. rewrite IH. unfold at_. ring.
  - destruct He as [H1 H2]. rewrite (quad_entries_at _ _ (qe_dim e)) by assumption. unfold quad_at. rewrite Hd. reflexivity.
Qed.

Definition arr_put (env : venv) (n : nat) (l : list Qc) (kv : key * Qc) : result (list Qc) :=
  do z <- resolve env (fst kv); do i <- dok_index (length l) z; Ok (update i (snd kv) l).
Lemma cast_fold env n d : forall l, length l = n ->
  (forall k v, In (k, v) d -> exists i, key_pos1 env n k = Ok i) ->
  exists l', foldM (fun l kv => do z <- resolve env (fst kv);
                         do i <- dok_index (length l) z; Ok (update i (snd kv) l)) d l = Ok l'
   /\ length l' = n /\ forall i, i < n -> nth i l' 0%Qc = lastv Nat.eqb (key_pos1 env n) d i (nth i l 0%Qc).
Proof.
  induction d as [|[k v] d IH]; simpl; intros l Hl Hk; [eauto|].
  destruct (Hk k v) as [i Hi]; [auto|]. pose proof (key_pos1_lt _ _ _ _ Hi) as Hin. pose proof Hi as Hp. unfold key_pos1 in Hi.
  destruct (resolve env k) as [z|] eqn:Er; [|discriminate]. simpl in Hi |- *. rewrite Hl, Hi. simpl.
  destruct (IH (update i v l)) as (l' & H1 & H2 & H3).
  - now rewrite update_length.
  - eauto.
  - exists l'. repeat split; auto. intros j Hj. rewrite H3 by assumption.
    rewrite nth_update by lia. rewrite Hp. reflexivity.
Qed.
Lemma cast_array_dict names env d l :
  index_exact names (ve_idx env) -> length names = ve_n env ->
  describes names (ve_n env) d l -> cast_array env (XDict d) = Ok l.
Proof.
  intros Hx Hl (L1 & L2 & L3). unfold cast_array.
  destruct (cast_fold env (ve_n env) d (repeat 0%Qc (ve_n env))) as (l' & H1 & H2 & H3).
  - apply repeat_length.
  - intros k v Hin. destruct (L2 k v Hin) as [i Hi]. exists i. apply (key_pos1_spec names); auto.
  - rewrite H1. f_equal. apply (nth_ext _ _ 0%Qc 0%Qc); [congruence|]. intros i Hi. rewrite H3 by congruence.
    replace (nth i (repeat 0%Qc (ve_n env)) 0%Qc) with 0%Qc by (symmetry; apply nth_repeat).
    apply (lastv_given _ nat_eqb_sp _ (points_to names (ve_n env))); [intros; apply key_pos1_spec; auto|].
    apply L3. congruence.
Qed.
Lemma quad_eval_dict names env e d l :
  index_exact names (ve_idx env) -> length names = ve_n env -> quad_wf e -> qe_dim e = ve_n env ->
  describes names (ve_n env) d l -> quad_eval env e (XDict d) = Ok (quad_at e l).
Proof.
  intros Hx Hl He Hd HD. pose proof (quad_eval_list env e l He) as Q. unfold quad_eval in *.
  rewrite (cast_array_dict names env d l) by assumption. simpl bind in *. rewrite Q.
  destruct HD as [L _]. replace (length l =? qe_dim e) with true by (symmetry; apply Nat.eqb_eq; congruence). reflexivity.
Qed.

Lemma obj_eval_list env o n x : obj_sized n o -> length x = n -> obj_eval env o (XList x) = Ok (obj_at o x).
Proof.
  intros [[H1 H2] (H3 & H4 & H5)] Hx. unfold obj_eval. rewrite lin_eval_list by assumption.
  rewrite H2, Hx, Nat.eqb_refl. simpl bind. rewrite quad_eval_list by assumption. rewrite H5, Hx, Nat.eqb_refl. reflexivity.
Qed.

(** ** Gradients *)
Local Open Scope Qc_scope.
Lemma vadd_at x h i : (i < length x)%nat -> at_ (vadd x h) i = at_ x i + at_ h i.
Proof.
  intro H. unfold at_ at 1, vadd. rewrite (nth_indep _ 0 (at_ x 0 + at_ h 0)) by (rewrite map_length, seq_length; lia).
  rewrite (map_nth (fun i => at_ x i + at_ h i) (seq 0 (length x)) 0%nat). now rewrite seq_nth.
Qed.
Lemma vadd_length x h : length (vadd x h) = length x.
Proof. unfold vadd. now rewrite map_length, seq_length. Qed.
Lemma lin_grad_at e i : (i < le_dim e)%nat -> at_ (lin_grad e) i = coef1 e i.
Proof.
  intro H. unfold at_, lin_grad, lin_to_array.
  rewrite (nth_indep _ 0 (dgetq Nat.eqb 0%nat (le_co e))) by (rewrite map_length, seq_length; lia).
  rewrite (map_nth (fun i => dgetq Nat.eqb i (le_co e)) (seq 0 (le_dim e)) 0%nat). now rewrite seq_nth.
Qed.
Lemma lin_grad_length e : length (lin_grad e) = le_dim e.
Proof. unfold lin_grad, lin_to_array. now rewrite map_length, seq_length. Qed.
Lemma lin_grad_expansion e x h :
  length x = le_dim e -> length h = le_dim e -> lin_at e (vadd x h) = lin_at e x + dot (lin_grad e) h.
Proof.
  intros Hx Hh. unfold lin_at, dot. rewrite vadd_length, lin_grad_length, Hx, <- sumof_add.
  apply sumof_ext. intros i Hi. apply in_seq in Hi. rewrite vadd_at, lin_grad_at by lia. ring.
Qed.
Lemma quad_grad_expansion env e x h g :
  length x = qe_dim e -> length h = qe_dim e -> quad_grad env e (XList x) = Ok g ->
  length g = qe_dim e /\ quad_at e (vadd x h) = quad_at e x + dot g h + quad_at e h.
Proof.
  intros Hx Hh. unfold quad_grad. simpl bind. rewrite Hx, Nat.eqb_refl. intro H. injection H as <-.
  split; [now rewrite map_length, seq_length|].
  unfold dot. rewrite map_length, seq_length.
  rewrite (sumof_ext _ (fun k => sumof (fun j => (coef2 e j k + coef2 e k j) * at_ x j * at_ h k) (seq 0 (qe_dim e)))).
  2:{ intros k Hk. apply in_seq in Hk. unfold at_ at 1.
      set (F := fun k0 => fold_right (fun j s => (mget (qe_co e) j k0 + mget (qe_co e) k0 j) * nth j x 0 + s) 0 (seq 0 (qe_dim e))).
      rewrite (nth_indep _ 0 (F 0%nat)) by (rewrite map_length, seq_length; lia).
      rewrite (map_nth F), seq_nth by lia. unfold F. simpl plus.
      set (l := seq 0 (qe_dim e)). induction l as [|a l IH]; simpl; [ring|].
      rewrite Qcmult_plus_distr_l, IH. reflexivity. }
  unfold quad_at. rewrite vadd_length, Hx, Hh. set (n := qe_dim e).
  transitivity (sumof (fun i => sumof (fun j => coef2 e i j * at_ x i * at_ x j) (seq 0 n)) (seq 0 n)
    + sumof (fun k => sumof (fun j => coef2 e j k * at_ x j * at_ h k) (seq 0 n)) (seq 0 n)
    + sumof (fun k => sumof (fun j => coef2 e k j * at_ x j * at_ h k) (seq 0 n)) (seq 0 n)
    + sumof (fun i => sumof (fun j => coef2 e i j * at_ h i * at_ h j) (seq 0 n)) (seq 0 n)).
  - rewrite (sumof_swap (fun k j => coef2 e j k * at_ x j * at_ h k)).
    rewrite <- !sumof_add. apply sumof_ext. intros i Hi. rewrite <- !sumof_add. apply sumof_ext. intros j Hj.
    apply in_seq in Hi, Hj. rewrite !vadd_at by (unfold n in *; lia). ring.
  - f_equal. rewrite <- !Qcplus_assoc. f_equal. rewrite <- sumof_add. apply sumof_ext. intros k _.
    rewrite <- sumof_add. apply sumof_ext. intros j _. ring.
Qed.
