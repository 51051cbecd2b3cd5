(** * Lemmas behind the property theorems on expressions (C07 - C10, C12) *)
From Verif Require Export ExprMake.
Local Open Scope nat_scope.

(** ** Views of a linear expression *)
Lemma lin_to_array_at e i : i < le_dim e -> nth_error (lin_to_array e) i = Some (coef1 e i).
Proof.
  intro H. unfold lin_to_array. rewrite nth_error_map.
  rewrite (nth_error_nth' _ 0) by (rewrite seq_length; lia). rewrite seq_nth by lia. reflexivity.
Qed.
Lemma lin_get_spec names env e k i :
  index_exact names (ve_idx env) -> length names = ve_n env -> le_dim e <= ve_n env ->
  points_to names (le_dim e) k i -> lin_get env e k = Ok (coef1 e i).
Proof.
  intros Hx Hl Hd Hp. apply (key_pos1_spec names env) in Hp; auto. unfold key_pos1 in Hp. unfold lin_get.
  destruct (resolve env k); simpl in *; [|discriminate]. rewrite Hp. reflexivity.
Qed.
Lemma lin_set_spec names env e k i v :
  index_exact names (ve_idx env) -> length names = ve_n env -> le_dim e <= ve_n env -> lin_wf e ->
  points_to names (le_dim e) k i ->
  exists e', lin_set env e k v = Ok e' /\ lin_wf e' /\ le_dim e' = le_dim e /\ le_int e' = le_int e /\
    forall j, coef1 e' j = if Nat.eqb j i then dtype_cast (le_int e) v else coef1 e j.
Proof.
  intros Hx Hl Hd [W1 W2] Hp. pose proof Hp as [Hi _]. apply (key_pos1_spec names env) in Hp; auto.
  unfold key_pos1 in Hp. unfold lin_set, lin_put. simpl.
  destruct (resolve env k); simpl in *; [|discriminate]. rewrite Hp. simpl. eexists. split; [reflexivity|].
  repeat split; simpl.
  - now apply (dok_put_nodup _ nat_eqb_sp).
  - now apply (dok_put_Forall _ nat_eqb_sp).
  - intro j. unfold coef1; simpl. now apply (dgetq_dok_put _ nat_eqb_sp).
Qed.
Lemma name_at_ok names i : i < length names -> exists s, name_at names i = Ok s /\ nth_error names i = Some s.
Proof.
  intro H. unfold name_at. destruct (nth_error names i) eqn:E; [eauto|]. apply nth_error_None in E. lia.
Qed.
Lemma lin_names_fold names (co : list (nat * Qc)) : forall d : list (string * Qc),
  NoDup names -> NoDup (map fst co) -> Forall (fun kv => fst kv < length names) co ->
  (forall s i, In i (map fst co) -> nth_error names i = Some s -> ~ In s (map fst d)) ->
  exists d', foldM (fun d kv => do s <- name_at names (fst kv); Ok (dset String.eqb s (snd kv) d)) co d = Ok (d ++ d')
    /\ Forall2 (fun kv sv => nth_error names (fst kv) = Some (fst sv) /\ snd sv = snd kv) co d'.
Proof.
  induction co as [|[k v] co IH]; intros d Hn Hk Hr Hf; simpl.
  - exists []. rewrite app_nil_r. auto.
  - inversion Hk; inversion Hr; subst. simpl in *. destruct (name_at_ok names k) as (s & E1 & E2); [assumption|].
    rewrite E1. simpl. rewrite (dset_fresh _ str_eqb_sp) by (eapply Hf; eauto).
    destruct (IH (d ++ [(s, v)])) as (d' & E & F); auto.
    + intros s' i Hi Hs' Hin. rewrite map_app in Hin. apply in_app_iff in Hin. destruct Hin as [Hin|[Hin|[]]].
      * eapply Hf; eauto.
      * simpl in Hin. subst s'. assert (i = k).
        { eapply (proj1 (NoDup_nth_error names)); eauto; [apply nth_error_Some; congruence|congruence]. }
        subst. contradiction.
    + exists ((s, v) :: d'). rewrite E, <- app_assoc. simpl. split; auto.
Qed.
Lemma lin_names_spec names e :
  NoDup names -> lin_wf e -> le_dim e <= length names ->
  exists d, lin_to_dict_names names e = Ok d /\
    Forall2 (fun kv sv => nth_error names (fst kv) = Some (fst sv) /\ snd sv = snd kv) (lin_to_dict e) d.
Proof.
  intros Hn [W1 W2] Hd. destruct (lin_names_fold names (le_co e) []) as (d & E & F); auto.
  - eapply Forall_impl; [|exact W2]. simpl. intros; lia.
  - exists d. auto.
Qed.
Lemma lin_to_dict_get e i : lin_wf e -> dgetq Nat.eqb i (lin_to_dict e) = coef1 e i.
Proof. reflexivity. Qed.

(** ** Symmetric view, rebuilding *)
Lemma lastv_nodup {K I} (eqb : I -> I -> bool) (sp : forall a b, reflect (a = b) (eqb a b)) (pos : K -> result I)
   (f : I -> K) (co : list (I * Qc)) i init :
  (forall i v, In (i, v) co -> pos (f i) = Ok i) -> NoDup (map fst co) ->
  lastv eqb pos (map (fun kv => (f (fst kv), snd kv)) co) i init
  = match dget eqb i co with Some v => v | None => init end.
Proof.
  revert init; induction co as [|[k v] co IH]; simpl; intros init Hp Hn; [reflexivity|].
  inversion Hn; subst. rewrite IH; auto.
  - rewrite (Hp k v) by auto. destruct (sp k i), (sp i k); try congruence.
    + subst. destruct (dget eqb i co) eqn:E; [|reflexivity].
      exfalso. apply H1. apply (dget_in eqb sp) in E. apply in_map_iff. now exists (i, q).
  - eauto.
Qed.

Definition dict_keys (co : list ((nat * nat) * Qc)) : list ((key * key) * Qc) :=
  map (fun kv => ((KI (Z.of_nat (fst (fst kv))), KI (Z.of_nat (snd (fst kv)))), snd kv)) co.

Lemma symmetric_tri n co i j : (i < n) -> (j < n) ->
  Forall (fun kv => fst (fst kv) <= snd (fst kv)) co ->
  (if i <? j then mget (sym_matrix n co) i j + mget (sym_matrix n co) j i
   else if j <? i then 0 else mget (sym_matrix n co) i j)%Qc = mget co i j.
Proof.
  intros Hi Hj Hu. rewrite !symmetric_get by assumption.
  assert (forall a b, b < a -> mget co a b = 0%Qc) as Z.
  { intros a b H. apply (dgetq_notin _ nat2_eqb_sp). intro Hin. apply in_map_iff in Hin.
    destruct Hin as ([[c d] v] & E & Hin). simpl in E. injection E; intros; subst.
    rewrite Forall_forall in Hu. apply Hu in Hin. simpl in Hin. lia. }
  destruct (Nat.ltb_spec i j), (Nat.ltb_spec j i); try lia.
  - rewrite (Z j i) by assumption. pose proof (half_half (mget co i j)). qlra.
  - now rewrite Z.
  - ring.
Qed.
Lemma upper_tri n co i j : (i < n) -> (j < n) ->
  Forall (fun kv => fst (fst kv) <= snd (fst kv)) co ->
  (if i <? j then mget co i j + mget co j i else if j <? i then 0 else mget co i j)%Qc = mget co i j.
Proof.
  intros Hi Hj Hu.
  assert (forall a b, b < a -> mget co a b = 0%Qc) as Z.
  { intros a b H. apply (dgetq_notin _ nat2_eqb_sp). intro Hin. apply in_map_iff in Hin.
    destruct Hin as ([[c d] v] & E & Hin). simpl in E. injection E; intros; subst.
    rewrite Forall_forall in Hu. apply Hu in Hin. simpl in Hin. lia. }
  destruct (Nat.ltb_spec i j), (Nat.ltb_spec j i); try lia.
  - rewrite (Z j i) by assumption. ring.
  - now rewrite Z.
  - reflexivity.
Qed.

Lemma to_array_at sym e i j : i < qe_dim e -> j < qe_dim e ->
  nth j (nth i (quad_to_array sym e) []) 0%Qc = mget (quad_entries sym e) i j.
Proof.
  intros Hi Hj. unfold quad_to_array.
  set (F := fun i => map (fun j => mget (quad_entries sym e) i j) (seq 0 (qe_dim e))).
  rewrite (nth_indep _ [] (F 0)) by (rewrite map_length, seq_length; lia).
  rewrite (map_nth F), seq_nth by lia. unfold F. simpl plus.
  set (G := fun j => mget (quad_entries sym e) i j).
  rewrite (nth_indep _ 0%Qc (G 0)) by (rewrite map_length, seq_length; lia).
  rewrite (map_nth G), seq_nth by lia. reflexivity.
Qed.
Lemma to_array_square sym e :
  length (quad_to_array sym e) = qe_dim e /\
  forallb (fun r => length r =? length (quad_to_array sym e)) (quad_to_array sym e) = true.
Proof.
  unfold quad_to_array. rewrite map_length, seq_length. split; auto. apply forallb_forall. intros r Hr.
  apply in_map_iff in Hr. destruct Hr as (i & <- & _). rewrite map_length, seq_length. apply Nat.eqb_refl.
Qed.

Lemma rebuild_array env ints sym e :
  quad_wf e -> quad_upper e ->
  exists e', quad_make env (QList ints (quad_to_array sym e)) = Ok e' /\ qe_dim e' = qe_dim e /\
    forall i j, coef2 e' i j = coef2 e i j.
Proof.
  intros W U. destruct (to_array_square sym e) as [L S].
  assert (exists e', quad_make env (QList ints (quad_to_array sym e)) = Ok e') as [e' E].
  { simpl. rewrite S. eauto. }
  exists e'. split; auto. pose proof E as E'. apply quad_make_spec in E'. destruct E' as (W' & _ & _ & D & C & _).
  simpl in D, C. rewrite L in D. split; auto. intros i j.
  destruct (Nat.ltb_spec i (qe_dim e)) as [Hi|Hi]; [destruct (Nat.ltb_spec j (qe_dim e)) as [Hj|Hj]|].
  - rewrite C by congruence. rewrite !to_array_at by assumption. destruct sym; simpl.
    + now apply symmetric_tri.
    + now apply (upper_tri (qe_dim e)).
  - rewrite !coef2_out; auto; right; congruence.
  - rewrite !coef2_out; auto; left; congruence.
Qed.

Lemma rebuild_dict env sym e :
  quad_wf e -> quad_upper e -> qe_dim e = ve_n env ->
  exists e', quad_make env (QDict (dict_keys (quad_to_dict sym e))) = Ok e' /\ qe_dim e' = qe_dim e /\
    forall i j, coef2 e' i j = coef2 e i j.
Proof.
  intros W U Dm.
  assert (NoDup (map fst (quad_to_dict sym e)) /\
          Forall (fun kv => fst (fst kv) < qe_dim e /\ snd (fst kv) < qe_dim e) (quad_to_dict sym e)) as [N R].
  { destruct sym; simpl; [split; [apply dense_nodup|apply dense_range]|exact W]. }
  assert (forall ij v, In (ij, v) (quad_to_dict sym e) ->
            key_pos2 env (ve_n env) (KI (Z.of_nat (fst ij)), KI (Z.of_nat (snd ij))) = Ok ij) as P.
  { intros [i j] v Hin. rewrite Forall_forall in R. apply R in Hin. simpl in Hin. unfold key_pos2, dok_index. simpl.
    rewrite !py_index_nat by lia. reflexivity. }
  assert (exists e', quad_make env (QDict (dict_keys (quad_to_dict sym e))) = Ok e') as [e' E].
  { simpl. rewrite quad_put_fold.
    destruct (foldM_put_ok nat2_eqb (key_pos2 env (ve_n env)) (dict_keys (quad_to_dict sym e)) []) as [co' ->]; [|simpl; eauto].
    intros k v Hin. apply in_map_iff in Hin. destruct Hin as ([ij w] & Eq & Hin). injection Eq; intros; subst.
    exists ij. eapply P; eauto. }
  exists e'. split; auto. pose proof E as E'. apply quad_make_spec in E'. destruct E' as (W' & _ & _ & D & C & _).
  simpl in D, C. split; [congruence|].
  assert (forall i j, lastv nat2_eqb (key_pos2 env (ve_n env)) (dict_keys (quad_to_dict sym e)) (i, j) 0%Qc
                      = mget (quad_entries sym e) i j) as L.
  { intros i j. unfold dict_keys.
    rewrite (lastv_nodup _ nat2_eqb_sp _ (fun ij => (KI (Z.of_nat (fst ij)), KI (Z.of_nat (snd ij)))) (quad_to_dict sym e)); auto. }
  intros i j.
  destruct (Nat.ltb_spec i (qe_dim e)) as [Hi|Hi]; [destruct (Nat.ltb_spec j (qe_dim e)) as [Hj|Hj]|].
  - rewrite C by congruence. rewrite !L. destruct sym; simpl.
    + now apply symmetric_tri.
    + now apply (upper_tri (qe_dim e)).
  - rewrite !coef2_out; auto; right; congruence.
  - rewrite !coef2_out; auto; left; congruence.
Qed.

Lemma sym_view e i j : quad_upper e -> i < qe_dim e -> j < qe_dim e ->
  mget (quad_entries true e) i j = mget (quad_entries true e) j i.
Proof.
  intros U Hi Hj. simpl. rewrite !symmetric_get by assumption.
  assert (forall a b, b < a -> mget (qe_co e) a b = 0%Qc) as Z.
  { intros a b H. apply (dgetq_notin _ nat2_eqb_sp). intro Hin. apply in_map_iff in Hin.
    destruct Hin as ([[c d] v] & E & Hin). simpl in E. injection E; intros; subst.
    unfold quad_upper in U. rewrite Forall_forall in U. apply U in Hin. simpl in Hin. lia. }
  destruct (Nat.ltb_spec i j), (Nat.ltb_spec j i); try lia.
  - rewrite (Z j i) by assumption. pose proof (half_half (mget (qe_co e) i j)). qlra.
  - rewrite (Z i j) by assumption. pose proof (half_half (mget (qe_co e) j i)). qlra.
  - assert (i = j) by lia. subst. reflexivity.
Qed.
Lemma sym_value e x : quad_wf e -> length x = qe_dim e ->
  form_at (qe_dim e) (mget (quad_entries true e)) x = quad_at e x.
Proof.
  intros W Hx. simpl. rewrite symmetric_form. unfold quad_at, form_at. rewrite Hx. reflexivity.
Qed.

(** ** Reading and writing quadratic coefficients *)
Lemma points_to_resolve names env n k i :
  index_exact names (ve_idx env) -> length names = ve_n env -> n <= ve_n env -> nonneg_key k ->
  points_to names n k i -> resolve env k = Ok (Z.of_nat i) /\ i < n.
Proof.
  intros Hx Hl Hn Hk [Hi Hp]. split; auto. destruct k as [z|s]; simpl in *.
  - f_equal. lia.
  - apply Hx in Hp. now rewrite Hp.
Qed.
Lemma quad_pos_spec names env n ki kj i j :
  index_exact names (ve_idx env) -> length names = ve_n env -> n <= ve_n env ->
  nonneg_key ki -> nonneg_key kj -> points_to names n ki i -> points_to names n kj j ->
  quad_pos env n (ki, kj) = Ok (Nat.min i j, Nat.max i j).
Proof.
  intros Hx Hl Hn Hki Hkj Hi Hj.
  destruct (points_to_resolve names env n ki i) as [R1 L1]; auto.
  destruct (points_to_resolve names env n kj j) as [R2 L2]; auto.
  unfold quad_pos. simpl. rewrite R1, R2. simpl.
  rewrite <- Nat2Z.inj_min, <- Nat2Z.inj_max. unfold dok_index.
  rewrite !py_index_nat by lia. reflexivity.
Qed.
Lemma quad_set_spec env e k v ij :
  quad_wf e -> quad_pos env (qe_dim e) k = Ok ij -> fst ij < qe_dim e -> snd ij < qe_dim e ->
  exists e', quad_set env e k v = Ok e' /\ quad_wf e' /\ qe_dim e' = qe_dim e /\
   (fst ij <= snd ij -> quad_upper e -> quad_upper e') /\
   forall a b, coef2 e' a b = if nat2_eqb (a, b) ij then dtype_cast (qe_int e) v else coef2 e a b.
Proof.
  intros [W1 W2] Hp H1 H2. unfold quad_set. rewrite Hp. simpl. eexists. split; [reflexivity|].
  repeat split; simpl.
  - now apply (dok_put_nodup _ nat2_eqb_sp).
  - now apply (dok_put_Forall _ nat2_eqb_sp).
  - intros Hle U. unfold quad_upper in *. simpl. now apply (dok_put_Forall _ nat2_eqb_sp).
  - intros a b. unfold coef2, mget; simpl. now apply (dgetq_dok_put _ nat2_eqb_sp).
Qed.

(** ** Gradient of an objective *)
Lemma zip_add_at a b i : length a = length b -> i < length a -> at_ (zip_add a b) i = (at_ a i + at_ b i)%Qc.
Proof.
  revert b i; induction a as [|x a IH]; intros [|y b] i Hl Hi; simpl in *; try lia.
  destruct i; [reflexivity|]. unfold at_ in *. simpl. apply IH; lia.
Qed.
Lemma zip_add_length a b : length a = length b -> length (zip_add a b) = length a.
Proof. revert b; induction a as [|x a IH]; intros [|y b] Hl; simpl in *; try lia. f_equal. apply IH. lia. Qed.
Lemma obj_grad_expansion env o n x h :
  obj_sized n o -> length x = n -> length h = n ->
  exists g, obj_grad env o (XList x) = Ok g /\ length g = n /\
    obj_at o (vadd x h) = (obj_at o x + dot g h + quad_at (o_quad o) h)%Qc.
Proof.
  intros [[L1 L2] (Q1 & Q2 & Q3)] Hx Hh. unfold obj_grad.
  destruct (quad_grad env (o_quad o) (XList x)) as [gq|] eqn:E.
  2:{ unfold quad_grad in E. simpl in E. rewrite Hx, Q3, Nat.eqb_refl in E. discriminate. }
  simpl bind. apply (quad_grad_expansion _ _ _ h) in E; try congruence. destruct E as [Lg Eg].
  unfold np_add. rewrite lin_grad_length, Lg, L2, Q3, Nat.eqb_refl.
  eexists; split; [reflexivity|]. split; [rewrite zip_add_length; rewrite lin_grad_length; congruence|].
  unfold obj_at. rewrite Eg, lin_grad_expansion by congruence.
  replace (dot (zip_add (lin_grad (o_lin o)) gq) h) with (dot (lin_grad (o_lin o)) h + dot gq h)%Qc; [ring|].
  unfold dot. rewrite zip_add_length by (rewrite lin_grad_length; congruence). rewrite Lg, lin_grad_length, L2, Q3.
  rewrite <- sumof_add. apply sumof_ext. intros i Hi. apply in_seq in Hi.
  rewrite zip_add_at by (rewrite ?lin_grad_length; lia). ring.
Qed.

(** ** Constraint senses *)
Definition not_lower (c : ascii) : bool := negb ((97 <=? nat_of_ascii c) && (nat_of_ascii c <=? 122)).
Lemma upper_ascii_spec a b : not_lower b = true -> (upper_ascii a = b <-> same_letter a b).
Proof.
  intro Hb. unfold upper_ascii, same_letter. 
  destruct (Nat.leb_spec 97 (nat_of_ascii a)) as [H1|H1]; [destruct (Nat.leb_spec (nat_of_ascii a) 122) as [H2|H2]|]; simpl.
  - split.
    + intros <-. right. exists (nat_of_ascii a - 97). repeat split; [lia| |f_equal; lia].
      etransitivity; [symmetry; apply ascii_nat_embedding|f_equal; lia].
    + intros [->|(k & Hk & -> & ->)].
      * exfalso. unfold not_lower in Hb. destruct (Nat.leb_spec 97 (nat_of_ascii b)), (Nat.leb_spec (nat_of_ascii b) 122); simpl in Hb; try discriminate; lia.
      * f_equal. rewrite nat_ascii_embedding by lia. lia.
  - split; auto. intros [->|(k & Hk & -> & ->)]; auto. rewrite nat_ascii_embedding in H2 by lia. lia.
  - split; auto. intros [->|(k & Hk & -> & ->)]; auto. rewrite nat_ascii_embedding in H1 by lia. lia.
Qed.
Lemma upper_spec s t : all_chars not_lower t = true -> (upper s = t <-> same_word s t).
Proof.
  revert t; induction s as [|a s IH]; intros [|b t] H; simpl in *; try (split; intro; congruence || tauto).
  apply andb_true_iff in H. destruct H as [H1 H2]. rewrite <- (upper_ascii_spec a b H1), <- (IH t H2).
  split; [intros [=]; auto | intros [-> ->]; auto].
Qed.
Lemma str_mem_in s l : str_mem s l = true <-> In s l.
Proof.
  unfold str_mem. rewrite existsb_exists. split.
  - intros (t & H1 & H2). apply String.eqb_eq in H2. now subst.
  - intro H. exists s. split; auto. apply String.eqb_refl.
Qed.
Lemma sense_convert_spec s c :
  sense_convert (SStr s) = Ok c <-> exists t, In t (spellings c) /\ same_word s t.
Proof.
  assert ((exists t, In t (spellings c) /\ same_word s t) <-> In (upper s) (spellings c)) as ->.
  { split.
    - intros (t & H1 & H2). apply upper_spec in H2; [now subst|]. destruct c; simpl in H1; intuition (subst; reflexivity).
    - intro H. exists (upper s). split; auto. apply upper_spec; auto. destruct c; simpl in H; repeat destruct H as [H|H]; try contradiction; rewrite <- H; reflexivity. }
  unfold sense_convert.
  destruct (str_mem (upper s) ["E"; "L"; "G"; "EQ"; "LE"; "GE"; "="; "=="; "<="; "<"; ">="; ">"]%string) eqn:E1; simpl negb; cbv iota.
  - apply str_mem_in in E1.
    destruct (str_mem (upper s) ["E"; "EQ"; "="; "=="]%string) eqn:E2.
    + apply str_mem_in in E2. split.
      * intros [=]; subst. exact E2.
      * intro H. destruct c; [exfalso|exfalso|reflexivity]; simpl in H, E2; intuition congruence.
    + destruct (str_mem (upper s) ["L"; "LE"; "<="; "<"]%string) eqn:E3.
      * apply str_mem_in in E3. split.
        -- intros [=]; subst. simpl in *. intuition.
        -- intro H. destruct c; [reflexivity|exfalso|exfalso]; simpl in H, E3; intuition congruence.
      * assert (~ In (upper s) ["E"; "EQ"; "="; "=="]%string) by (rewrite <- str_mem_in; congruence).
        assert (~ In (upper s) ["L"; "LE"; "<="; "<"]%string) by (rewrite <- str_mem_in; congruence).
        split.
        -- intros [=]; subst. simpl in *. intuition.
        -- intro Hc. destruct c; [exfalso|reflexivity|exfalso]; simpl in *; intuition.
  - assert (~ In (upper s) ["E"; "L"; "G"; "EQ"; "LE"; "GE"; "="; "=="; "<="; "<"; ">="; ">"]%string) as Hn
      by (rewrite <- str_mem_in; congruence).
    split; [discriminate|]. intro H. exfalso. apply Hn. destruct c; simpl in *; intuition.
Qed.
Lemma sense_convert_err a e : sense_convert a = Err e -> e = QiskitOptimizationError.
Proof.
  destruct a as [s|c]; unfold sense_convert; [|discriminate]. cbv zeta.
  repeat match goal with |- (if ?b then _ else _) = _ -> _ => destruct b end; congruence.
Qed.
