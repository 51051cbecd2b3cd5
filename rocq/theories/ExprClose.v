(** * Closing lemmas for the property file of expressions *)
From Verif Require Export ExprProps ProgramProps.
Local Open Scope nat_scope.

Section Env.
Variables (names : list string) (env : venv).
Hypothesis Hx : index_exact names (ve_idx env).
Hypothesis Hl : length names = ve_n env.

Lemma lin_construct :
  (forall ints l, exists e, lin_make env (LList ints l) = Ok e /\ lin_sized (length l) e /\ forall i, coef1 e i = nth i l 0%Qc) /\
  (forall d, keys_legal (points_to names (ve_n env)) d ->
     exists e, lin_make env (LDict d) = Ok e /\ lin_sized (ve_n env) e /\
       forall i, i < ve_n env -> last_given (points_to names (ve_n env)) d i (coef1 e i)) /\
  (forall d e, lin_make env (LDict d) = Ok e -> keys_legal (points_to names (ve_n env)) d).
Proof.
  split; [|split].
  - intros ints l. exists (lin_of_list ints l). split; [reflexivity|]. split; [split; [apply lin_of_list_wf|reflexivity]|].
    intro i. apply lin_of_list_coef.
  - intros d H. apply (lin_make_dict_ok names env d Hx Hl) in H.
    destruct (lin_make env (LDict d)) as [e|] eqn:E; [|discriminate]. exists e. split; auto.
    apply lin_make_dict in E. destruct E as (W & D & _ & C). split; [split; auto|]. intros i Hi. rewrite C.
    apply (lastv_given_self _ nat_eqb_sp). intros k j. apply key_pos1_spec; auto.
  - intros d e E. apply (lin_make_dict_ok names env d Hx Hl). now rewrite E.
Qed.

Lemma lin_evaluate e : lin_sized (ve_n env) e ->
  (forall x, length x = ve_n env -> lin_eval env e (XList x) = Ok (lin_at e x)) /\
  (forall x, length x <> ve_n env -> lin_eval env e (XList x) = Err ValueError) /\
  (forall d x, describes names (ve_n env) d x -> lin_eval env e (XDict d) = Ok (lin_at e x)).
Proof.
  intros [W D]. repeat split.
  - intros x L. rewrite lin_eval_list, D by assumption. apply Nat.eqb_eq in L. now rewrite L.
  - intros x L. rewrite lin_eval_list, D by assumption. apply Nat.eqb_neq in L. now rewrite L.
  - intros d x L. apply (lin_eval_dict names); auto. split; auto.
Qed.

Lemma lin_views e : lin_sized (ve_n env) e -> NoDup names ->
  (length (lin_to_array e) = ve_n env /\ forall i, i < ve_n env -> nth_error (lin_to_array e) i = Some (coef1 e i)) /\
  (forall i, dgetq Nat.eqb i (lin_to_dict e) = coef1 e i) /\
  (exists d, lin_to_dict_names names e = Ok d /\
     Forall2 (fun kv sv => nth_error names (fst kv) = Some (fst sv) /\ snd sv = snd kv) (lin_to_dict e) d) /\
  (forall k i, points_to names (ve_n env) k i -> lin_get env e k = Ok (coef1 e i)).
Proof.
  intros [W D] Hn. split; [|split; [|split]].
  - rewrite <- D. split; [apply lin_grad_length|]. intros. now apply lin_to_array_at.
  - intro i. now apply lin_to_dict_get.
  - apply lin_names_spec; auto. rewrite D, Hl. auto.
  - intros k i H. apply (lin_get_spec names); auto; rewrite D; auto.
Qed.

Lemma quad_construct_list ints rows : 
  Forall (fun r => length r = length rows) rows ->
  exists e, quad_make env (QList ints rows) = Ok e /\ quad_sized (length rows) e /\
    Forall (fun kv => snd kv <> 0%Qc) (qe_co e) /\
    forall x, length x = length rows ->
      quad_at e x = form_at (length rows) (fun i j => nth j (nth i rows []) 0%Qc) x.
Proof using env.
  clear Hx Hl names.
  intro H. assert (forallb (fun r => length r =? length rows) rows = true) as S.
  { apply forallb_forall. rewrite Forall_forall in H. intros r Hr. apply Nat.eqb_eq. now apply H. }
  assert (exists e, quad_make env (QList ints rows) = Ok e) as [e E] by (simpl; rewrite S; eauto).
  exists e. split; auto. pose proof (quad_make_spec _ _ _ E) as (A1 & A2 & A3 & A4 & A5 & A6). simpl in A4.
  repeat split; auto; try apply A1. intros x Hlx. unfold quad_at. rewrite Hlx. rewrite A4 in A6. rewrite <- A6. reflexivity.
Qed.
Lemma quad_construct_dict d : keys_legal (points_to2 names (ve_n env)) d ->
  exists e M, quad_make env (QDict d) = Ok e /\ quad_sized (ve_n env) e /\
    Forall (fun kv => snd kv <> 0%Qc) (qe_co e) /\
    (forall i j, i < ve_n env -> j < ve_n env -> last_given (points_to2 names (ve_n env)) d (i, j) (M i j)) /\
    forall x, length x = ve_n env -> quad_at e x = form_at (ve_n env) M x.
Proof.
  intro H.
  assert (exists e, quad_make env (QDict d) = Ok e) as [e E].
  { simpl. rewrite quad_put_fold.
    destruct (foldM_put_ok nat2_eqb (key_pos2 env (ve_n env)) d []) as [co' ->]; [|simpl; eauto].
    intros k v Hin. destruct (H k v Hin) as [i Hi]. exists i. apply (key_pos2_spec names); auto. }
  exists e, (snd (raw_of env (QDict d))). split; auto.
  pose proof (quad_make_spec _ _ _ E) as (A1 & A2 & A3 & A4 & A5 & A6). simpl in A4.
  split; [repeat split; auto; apply A1|]. split; auto. split.
  - intros i j Hi Hj. simpl. apply (lastv_given_self _ nat2_eqb_sp). intros k ij. apply key_pos2_spec; auto.
  - intros x Hlx. unfold quad_at. rewrite Hlx. rewrite A4 in A6. rewrite <- A6. reflexivity.
Qed.
Lemma quad_construct_sparse e0 : quad_wf e0 ->
  exists e, quad_make env (QSparse e0) = Ok e /\ quad_sized (qe_dim e0) e /\
    Forall (fun kv => snd kv <> 0%Qc) (qe_co e) /\
    forall x, length x = qe_dim e0 -> quad_at e x = quad_at e0 x.
Proof using env.
  clear Hx Hl names.
  intro W. eexists. split; [reflexivity|].
  pose proof (quad_make_spec env (QSparse e0) _ eq_refl) as (A1 & A2 & A3 & A4 & A5 & A6). simpl in *.
  split; [split; auto|]. split; auto. intros x Hlx. unfold quad_at. rewrite Hlx. exact (A6 x).
Qed.
Lemma quad_evaluate e : quad_shape (ve_n env) e ->
  (forall x, length x = ve_n env -> quad_eval env e (XList x) = Ok (quad_at e x)) /\
  (forall x, length x <> ve_n env -> quad_eval env e (XList x) = Err ValueError) /\
  (forall d x, describes names (ve_n env) d x -> quad_eval env e (XDict d) = Ok (quad_at e x)).
Proof.
  intros [W D]. repeat split.
  - intros x L. rewrite quad_eval_list, D by assumption. apply Nat.eqb_eq in L. now rewrite L.
  - intros x L. rewrite quad_eval_list, D by assumption. apply Nat.eqb_neq in L. now rewrite L.
  - intros d x L. apply (quad_eval_dict names); auto.
Qed.

Lemma quad_symmetric_view e : quad_sized (ve_n env) e ->
  (forall i j, i < ve_n env -> j < ve_n env ->
     nth j (nth i (quad_to_array true e) []) 0%Qc = nth i (nth j (quad_to_array true e) []) 0%Qc) /\
  (forall x, length x = ve_n env ->
     form_at (ve_n env) (fun i j => nth j (nth i (quad_to_array true e) []) 0%Qc) x = quad_at e x) /\
  (forall x, length x = ve_n env ->
     form_at (ve_n env) (fun i j => nth j (nth i (quad_to_array false e) []) 0%Qc) x = quad_at e x).
Proof using env.
  clear Hx Hl names.
  intros (W & U & D). rewrite <- D. 
  assert (forall sym x, form_at (qe_dim e) (fun i j => nth j (nth i (quad_to_array sym e) []) 0%Qc) x
     = form_at (qe_dim e) (mget (quad_entries sym e)) x) as F.
  { intros sym x. unfold form_at. apply sumof_ext. intros i Hi. apply sumof_ext. intros j Hj.
    apply in_seq in Hi, Hj. rewrite to_array_at by lia. reflexivity. }
  split; [|split].
  - intros i j Hi Hj. rewrite !to_array_at by assumption. now apply sym_view.
  - intros x L. rewrite F. now apply sym_value.
  - intros x L. rewrite F. unfold quad_at, form_at, coef2. simpl. now rewrite L.
Qed.

Lemma quad_rebuild e sym ints : quad_sized (ve_n env) e ->
  (exists e', quad_make env (QList ints (quad_to_array sym e)) = Ok e' /\ qe_dim e' = qe_dim e /\
    forall i j, coef2 e' i j = coef2 e i j) /\
  (exists e', quad_make env (QDict (dict_keys (quad_to_dict sym e))) = Ok e' /\ qe_dim e' = qe_dim e /\
    forall i j, coef2 e' i j = coef2 e i j).
Proof using env.
  clear Hx Hl names. intros (W & U & D). split; [now apply rebuild_array|now apply rebuild_dict]. Qed.

Lemma lin_assign e k i v : lin_sized (ve_n env) e -> le_int e = false -> points_to names (ve_n env) k i ->
  exists e', lin_set env e k v = Ok e' /\ lin_sized (ve_n env) e' /\ le_int e' = false /\
    lin_get env e' k = Ok v /\
    (forall k', points_to names (ve_n env) k' i -> lin_get env e' k' = Ok v) /\
    forall k' j, points_to names (ve_n env) k' j -> j <> i -> lin_get env e' k' = lin_get env e k'.
Proof.
  intros [W D] Hi Hp. rewrite <- D in Hp.
  destruct (lin_set_spec names env e k i v) as (e' & E & W' & D' & I' & C); auto; [rewrite D; auto|].
  exists e'. rewrite Hi in *. split; [exact E|]. split; [split; [exact W'|congruence]|]. split; [congruence|].
  assert (forall k' j, points_to names (ve_n env) k' j -> lin_get env e' k' = Ok (coef1 e' j)) as G'.
  { intros k' j Hj. apply (lin_get_spec names); auto; rewrite D', D; auto. }
  assert (forall k' j, points_to names (ve_n env) k' j -> lin_get env e k' = Ok (coef1 e j)) as G.
  { intros k' j Hj. apply (lin_get_spec names); auto; rewrite D; auto. }
  rewrite D in Hp. simpl in C. split; [|split].
  - rewrite (G' k i Hp), C, Nat.eqb_refl. reflexivity.
  - intros k' Hk. rewrite (G' k' i Hk), C, Nat.eqb_refl. reflexivity.
  - intros k' j Hj Hn. rewrite (G' k' j Hj), (G k' j Hj), C. apply Nat.eqb_neq in Hn. now rewrite Hn.
Qed.

Lemma quad_assign e ki kj i j v :
  quad_sized (ve_n env) e -> qe_int e = false -> nonneg_key ki -> nonneg_key kj ->
  points_to names (ve_n env) ki i -> points_to names (ve_n env) kj j ->
  exists e', quad_set env e (ki, kj) v = Ok e' /\ quad_sized (ve_n env) e' /\ qe_int e' = false /\
    quad_get env e' (ki, kj) = Ok v /\ quad_get env e' (kj, ki) = Ok v /\
    forall ka kb a b, nonneg_key ka -> nonneg_key kb ->
      points_to names (ve_n env) ka a -> points_to names (ve_n env) kb b ->
      (a, b) <> (i, j) -> (a, b) <> (j, i) -> quad_get env e' (ka, kb) = quad_get env e (ka, kb).
Proof.
  intros (W & U & D) I Ni Nj Pi Pj.
  assert (forall ka kb a b, nonneg_key ka -> nonneg_key kb -> points_to names (ve_n env) ka a -> points_to names (ve_n env) kb b ->
    quad_pos env (ve_n env) (ka, kb) = Ok (Nat.min a b, Nat.max a b)) as QP.
  { intros. apply (quad_pos_spec names); auto. }
  assert (i < ve_n env /\ j < ve_n env) as [Li Lj] by (split; [apply Pi|apply Pj]).
  destruct (quad_set_spec env e (ki, kj) v (Nat.min i j, Nat.max i j)) as (e' & E & W' & D' & U' & C); auto.
  - rewrite D. now apply QP.
  - rewrite D. simpl. lia.
  - rewrite D. simpl. lia.
  - exists e'. assert (qe_dim e' = ve_n env) as D'' by congruence.
    assert (qe_int e' = false) as I'. { unfold quad_set in E. destruct (quad_pos _ _ _); [|discriminate]. injection E as <-. exact I. }
    rewrite I in C. simpl in C.
    assert (forall f ka kb a b, qe_dim f = ve_n env -> nonneg_key ka -> nonneg_key kb -> points_to names (ve_n env) ka a -> points_to names (ve_n env) kb b ->
       quad_get env f (ka, kb) = Ok (coef2 f (Nat.min a b) (Nat.max a b))) as G.
    { intros f ka kb a b Df N1 N2 P1 P2. unfold quad_get. rewrite Df, (QP ka kb a b) by assumption. reflexivity. }
    repeat split; auto; try apply W'.
    + apply U'; auto. simpl. lia.
    + rewrite (G e' ki kj i j), C by assumption. destruct (nat2_eqb_sp (Nat.min i j, Nat.max i j) (Nat.min i j, Nat.max i j)); congruence.
    + rewrite (G e' kj ki j i), C by assumption. rewrite Nat.min_comm, Nat.max_comm.
      destruct (nat2_eqb_sp (Nat.min i j, Nat.max i j) (Nat.min i j, Nat.max i j)); congruence.
    + intros ka kb a b Na Nb Pa Pb H1 H2. rewrite (G e' ka kb a b), (G e ka kb a b), C by assumption.
      destruct (nat2_eqb_sp (Nat.min a b, Nat.max a b) (Nat.min i j, Nat.max i j)) as [Eq|]; [|reflexivity].
      exfalso. injection Eq; intros.
      destruct (Nat.min_spec a b) as [[? ?]|[? ?]], (Nat.min_spec i j) as [[? ?]|[? ?]];
      assert ((a = i /\ b = j) \/ (a = j /\ b = i)) as [[? ?]|[? ?]] by lia; subst; tauto.
Qed.
End Env.

Lemma lin_gradient env e x h n : lin_shape n e -> length x = n -> length h = n ->
  length (lin_grad e) = n /\ exists a b, lin_eval env e (XList x) = Ok a /\ lin_eval env e (XList (vadd x h)) = Ok b /\
  b = (a + dot (lin_grad e) h)%Qc.
Proof.
  intros [W D] Hx Hh. split; [now rewrite lin_grad_length|].
  exists (lin_at e x), (lin_at e (vadd x h)). rewrite !lin_eval_list, vadd_length, D, Hx, Nat.eqb_refl by assumption.
  repeat split. apply lin_grad_expansion; congruence.
Qed.
Lemma quad_gradient env e x h n : quad_shape n e -> length x = n -> length h = n ->
  exists g a b c, quad_grad env e (XList x) = Ok g /\ length g = n /\
    quad_eval env e (XList x) = Ok a /\ quad_eval env e (XList (vadd x h)) = Ok b /\ quad_eval env e (XList h) = Ok c /\
    b = (a + dot g h + c)%Qc.
Proof.
  intros [W D] Hx Hh. destruct (quad_grad env e (XList x)) as [g|] eqn:E.
  2:{ unfold quad_grad in E. simpl in E. rewrite Hx, D, Nat.eqb_refl in E. discriminate. }
  pose proof (quad_grad_expansion env e x h g) as G. rewrite D in G. destruct (G Hx Hh E) as [L Q].
  exists g, (quad_at e x), (quad_at e (vadd x h)), (quad_at e h).
  rewrite !quad_eval_list, vadd_length, D, Hx, Hh, Nat.eqb_refl by assumption. auto 10.
Qed.
Lemma obj_gradient env o x h n : obj_sized n o -> length x = n -> length h = n ->
  exists g a b c, obj_grad env o (XList x) = Ok g /\ length g = n /\
    obj_eval env o (XList x) = Ok a /\ obj_eval env o (XList (vadd x h)) = Ok b /\
    quad_eval env (o_quad o) (XList h) = Ok c /\ b = (a + dot g h + c)%Qc.
Proof.
  intros S Hx Hh. destruct (obj_grad_expansion env o n x h S Hx Hh) as (g & E & L & Q).
  exists g, (obj_at o x), (obj_at o (vadd x h)), (quad_at (o_quad o) h).
  rewrite !(obj_eval_list env o n), quad_eval_list; auto; try (now rewrite vadd_length); [|apply S].
  destruct S as [_ (_ & _ & D)]. rewrite Hh, D, Nat.eqb_refl. auto 10.
Qed.

Lemma sense_spellings :
  (forall s c, sense_convert (SStr s) = Ok c <-> exists t, In t (spellings c) /\ same_word s t) /\
  (forall s, (forall c t, In t (spellings c) -> ~ same_word s t) -> sense_convert (SStr s) = Err QiskitOptimizationError) /\
  (forall a c, sense_convert a = Ok c -> sense_convert (SVal c) = Ok c).
Proof.
  split; [exact sense_convert_spec|]. split; [|reflexivity].
  intros s H. destruct (sense_convert (SStr s)) as [c|e] eqn:E.
  - apply sense_convert_spec in E. destruct E as (t & H1 & H2). exfalso. eapply H; eauto.
  - f_equal. eapply sense_convert_err; eauto.
Qed.
