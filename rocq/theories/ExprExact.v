(** * Reading and writing single coefficients with any keys *)
From Verif Require Export ExprClose.
Local Open Scope list_scope.
Local Open Scope nat_scope.

Lemma cast_kept int v : kept_as int v (dtype_cast int v).
Proof.
  unfold kept_as, dtype_cast. destruct int; [|reflexivity]. destruct (qleb_spec 0 v) as [H|H].
  - exists (qfloor v). split; [reflexivity|]. left. split; [exact H|]. split; [apply qfloor_le|apply qfloor_lt].
  - exists (qceil v). split; [reflexivity|]. right. split; [now apply Qcnot_le_lt|]. split; [apply qceil_le|]. pose proof (qceil_lt v). qlra.
Qed.
Section Keys.
Variables (names : list string) (env : venv).
Hypothesis Hx : index_exact names (ve_idx env).
Hypothesis Hl : length names = ve_n env.
Lemma resolve_known k : known_key names k -> exists z, resolve env k = Ok z /\ forall n i, n <= ve_n env -> (points_to names n k i <-> dok_index n z = Ok i).
Proof.
  intro K. assert (exists z, resolve env k = Ok z) as [z E].
  { destruct k as [z|s]; [now exists z|]. cbn in *. apply In_nth_error in K. destruct K as [i K]. apply Hx in K. rewrite K. eauto. }
  exists z. split; [exact E|]. intros n i N. rewrite <- (key_pos1_spec names env n k i Hx N Hl). unfold key_pos1. now rewrite E.
Qed.
Lemma resolve_unknown k : ~ known_key names k -> resolve env k = Err KeyError.
Proof.
  destruct k as [z|s]; cbn; intro K; [now destruct K|]. destruct (dget String.eqb s (ve_idx env)) as [i|] eqn:D; [|reflexivity]. exfalso. apply Hx in D. apply K. eapply nth_error_In. exact D.
Qed.
Lemma points_known n k i : points_to names n k i -> known_key names k.
Proof. intros [_ H]. destruct k; cbn; [exact I|]. eapply nth_error_In. exact H. Qed.
Lemma known_dec k : known_key names k \/ ~ known_key names k.
Proof. destruct k; cbn; [auto|]. destruct (in_dec string_dec s names); auto. Qed.
Lemma dok_err n z : (forall i, dok_index n z <> Ok i) -> dok_index n z = Err IndexError.
Proof. unfold dok_index. destruct (py_index n z); [|reflexivity]. intro H. now destruct (H n0). Qed.
Lemma pos_err n k : n <= ve_n env -> (forall i, ~ points_to names n k i) -> key_pos1 env n k = Err (match k with KS s => if in_dec string_dec s names then IndexError else KeyError | KI _ => IndexError end).
Proof.
  intros N H. unfold key_pos1. destruct (known_dec k) as [K|K].
  - destruct (resolve_known k K) as (z & E & P). rewrite E. cbn [bind]. rewrite dok_err by (intros i D; apply (H i), (P n i N), D).
    destruct k as [?|s]; [reflexivity|]. destruct (in_dec string_dec s names); [reflexivity|contradiction].
  - rewrite (resolve_unknown k K). destruct k as [?|s]; [now destruct K|]. destruct (in_dec string_dec s names); [contradiction|reflexivity].
Qed.
(** ** Linear *)
Lemma lin_any e k i v : lin_wf e -> le_dim e <= ve_n env -> points_to names (le_dim e) k i ->
  exists e' w, kept_as (le_int e) v w /\ lin_set env e k v = Ok e' /\ lin_wf e' /\ le_dim e' = le_dim e /\ le_int e' = le_int e /\
    forall k' j, points_to names (le_dim e) k' j -> (j = i -> lin_get env e' k' = Ok w) /\ (j <> i -> lin_get env e' k' = lin_get env e k').
Proof.
  intros [W1 W2] N P. pose proof (points_known _ _ _ P) as K. destruct (resolve_known k K) as (z & E & R). apply (R _ _ N) in P.
  exists (mkLin (le_dim e) (le_int e) (dok_put Nat.eqb i (dtype_cast (le_int e) v) (le_co e))), (dtype_cast (le_int e) v).
  split; [apply cast_kept|]. split; [unfold lin_set, lin_put; cbn [fst snd]; rewrite E; cbn [bind]; now rewrite P|].
  split. { split; cbn; [now apply (dok_put_nodup _ nat_eqb_sp)|]. apply (dok_put_Forall _ nat_eqb_sp); [|exact W2]. cbn. apply dok_index_spec in P. tauto. }
  split; [reflexivity|]. split; [reflexivity|]. intros k' j P'. pose proof (points_known _ _ _ P') as K'. destruct (resolve_known k' K') as (z' & E' & R'). apply (R' _ _ N) in P'.
  unfold lin_get. cbn [le_dim le_co]. rewrite E'. cbn [bind]. rewrite P'. cbn [bind]. rewrite (dgetq_dok_put _ nat_eqb_sp) by assumption.
  destruct (nat_eqb_sp j i) as [->|D]; split; intro Q; congruence.
Qed.
Lemma lin_bad e k v : le_dim e <= ve_n env -> (forall i, ~ points_to names (le_dim e) k i) ->
  let err := match k with KS s => if in_dec string_dec s names then IndexError else KeyError | KI _ => IndexError end in
  lin_set env e k v = Err err /\ lin_get env e k = Err err.
Proof.
  intros N P. pose proof (pos_err _ _ N P) as H. unfold key_pos1 in H. unfold lin_set, lin_put, lin_get. cbn [fst snd]. cbv zeta.
  destruct (resolve env k) as [z|]; cbn [bind] in *; [rewrite H; auto|]. injection H as ->. auto.
Qed.
(** ** Quadratic *)
Lemma resolve_sign n k i : points_to names n k i -> exists z, resolve env k = Ok z /\ i < n /\ if from_end k then z = (Z.of_nat i - Z.of_nat n)%Z else z = Z.of_nat i.
Proof.
  intros [L H]. destruct k as [z|s]; cbn in *.
  - exists z. split; [reflexivity|]. split; [exact L|]. destruct (Z.ltb_spec z 0); lia.
  - apply Hx in H. rewrite H. eauto.
Qed.
Lemma dok_of n z i : i < n -> z = Z.of_nat i \/ z = (Z.of_nat i - Z.of_nat n)%Z -> dok_index n z = Ok i.
Proof. intros H K. apply dok_index_spec. auto. Qed.
Lemma pos_any n ki kj i j : n <= ve_n env -> points_to names n ki i -> points_to names n kj j -> quad_pos env n (ki, kj) = Ok (pair_place ki kj i j) /\ fst (pair_place ki kj i j) < n /\ snd (pair_place ki kj i j) < n.
Proof.
  intros N P Q. destruct (resolve_sign _ _ _ P) as (zi & Ei & Li & Si), (resolve_sign _ _ _ Q) as (zj & Ej & Lj & Sj).
  unfold quad_pos, pair_place. cbn [fst snd]. rewrite Ei, Ej. cbn [bind]. split.
  - destruct (from_end ki), (from_end kj); subst.
    + rewrite (dok_of n _ (Nat.min i j)), (dok_of n _ (Nat.max i j)) by lia. reflexivity.
    + rewrite (dok_of n _ i), (dok_of n _ j) by lia. reflexivity.
    + rewrite (dok_of n _ j), (dok_of n _ i) by lia. reflexivity.
    + rewrite (dok_of n _ (Nat.min i j)), (dok_of n _ (Nat.max i j)) by lia. reflexivity.
  - destruct (from_end ki), (from_end kj); cbn; lia.
Qed.
Lemma quad_any e ki kj i j v : quad_wf e -> qe_dim e <= ve_n env -> points_to names (qe_dim e) ki i -> points_to names (qe_dim e) kj j ->
  exists e' w, kept_as (qe_int e) v w /\ quad_set env e (ki, kj) v = Ok e' /\ quad_wf e' /\ qe_dim e' = qe_dim e /\ qe_int e' = qe_int e /\
    forall ka kb a b, points_to names (qe_dim e) ka a -> points_to names (qe_dim e) kb b ->
      (pair_place ka kb a b = pair_place ki kj i j -> quad_get env e' (ka, kb) = Ok w) /\ (pair_place ka kb a b <> pair_place ki kj i j -> quad_get env e' (ka, kb) = quad_get env e (ka, kb)).
Proof.
  intros [W1 W2] N P Q. destruct (pos_any _ _ _ _ _ N P Q) as (E & L1 & L2). set (c := pair_place ki kj i j) in *.
  exists (mkQuad (qe_dim e) (qe_int e) (dok_put nat2_eqb c (dtype_cast (qe_int e) v) (qe_co e))), (dtype_cast (qe_int e) v).
  split; [apply cast_kept|]. split; [unfold quad_set; rewrite E; reflexivity|].
  split. { split; cbn; [now apply (dok_put_nodup _ nat2_eqb_sp)|]. now apply (dok_put_Forall _ nat2_eqb_sp). }
  split; [reflexivity|]. split; [reflexivity|]. intros ka kb a b A B. destruct (pos_any _ _ _ _ _ N A B) as (E' & _ & _).
  unfold quad_get. cbn [qe_dim qe_co]. rewrite E'. cbn [bind]. rewrite (dgetq_dok_put _ nat2_eqb_sp) by assumption.
  destruct (nat2_eqb_sp (pair_place ka kb a b) c) as [H|H]; split; intro Z; congruence.
Qed.
Lemma quad_bad e ki kj v : qe_dim e <= ve_n env -> (forall i, ~ points_to names (qe_dim e) ki i) \/ (forall j, ~ points_to names (qe_dim e) kj j) ->
  (~ known_key names ki \/ ~ known_key names kj -> quad_set env e (ki, kj) v = Err KeyError /\ quad_get env e (ki, kj) = Err KeyError) /\
  (known_key names ki -> known_key names kj -> quad_set env e (ki, kj) v = Err IndexError /\ quad_get env e (ki, kj) = Err IndexError).
Proof.
  intros N H. unfold quad_set, quad_get, quad_pos. cbn [fst snd]. split.
  - intros [K|K]; [rewrite (resolve_unknown ki K); auto|]. rewrite (resolve_unknown kj K).
    destruct (known_dec ki) as [K2|K2]; [destruct (resolve_known ki K2) as (z & E & _); rewrite E; auto|rewrite (resolve_unknown ki K2); auto].
  - intros Ki Kj. destruct (resolve_known ki Ki) as (zi & Ei & Ri), (resolve_known kj Kj) as (zj & Ej & Rj). rewrite Ei, Ej. cbn [bind].
    assert (bind (dok_index (qe_dim e) (Z.min zi zj)) (fun i => bind (dok_index (qe_dim e) (Z.max zi zj)) (fun j => Ok (i, j))) = Err IndexError) as ->; [|auto].
    assert (dok_index (qe_dim e) zi = Err IndexError \/ dok_index (qe_dim e) zj = Err IndexError) as B.
    { destruct H as [H|H]; [left|right]; apply dok_err; intros i D; apply (H i); [apply (Ri _ _ N)|apply (Rj _ _ N)]; exact D. }
    assert (forall z, dok_index (qe_dim e) z = Err IndexError \/ exists i, dok_index (qe_dim e) z = Ok i) as T by (intro z; unfold dok_index; destruct (py_index _ z); eauto).
    destruct (Z.min_spec zi zj) as [[M1 ->]|[M1 ->]], (Z.max_spec zi zj) as [[M2 ->]|[M2 ->]]; try lia; destruct (T zi) as [X|[? X]], (T zj) as [Y|[? Y]]; rewrite ?X, ?Y; cbn [bind]; rewrite ?X, ?Y; try reflexivity; destruct B; congruence.
Qed.
Lemma quad_mixed e ka kb a b : quad_upper e -> qe_dim e <= ve_n env -> points_to names (qe_dim e) ka a -> points_to names (qe_dim e) kb b ->
  from_end ka = true -> from_end kb = false -> b < a -> quad_get env e (ka, kb) = Ok 0%Qc /\ quad_get env e (kb, ka) = Ok 0%Qc.
Proof.
  intros U N A B Fa Fb L. unfold quad_get. destruct (pos_any _ _ _ _ _ N A B) as (-> & _ & _), (pos_any _ _ _ _ _ N B A) as (-> & _ & _).
  unfold pair_place. rewrite Fa, Fb. cbn [bind]. assert (dgetq nat2_eqb (a, b) (qe_co e) = 0%Qc) as Z; [|rewrite Z; auto].
  unfold dgetq. destruct (dget nat2_eqb (a, b) (qe_co e)) as [c|] eqn:D; [|reflexivity]. exfalso. apply (dget_in _ nat2_eqb_sp) in D. unfold quad_upper in U. rewrite Forall_forall in U. apply U in D. cbn in D. lia.
Qed.
(** ** Dictionaries *)
Lemma lin_dict_prefix d : forall e, lin_wf e -> le_dim e <= ve_n env -> keys_legal (points_to names (le_dim e)) d ->
  exists e', foldM (lin_put env) d e = Ok e' /\ lin_wf e' /\ le_dim e' = le_dim e.
Proof.
  induction d as [|[k v] d IH]; intros e W N L; [exists e; auto|]. destruct (L k v (or_introl eq_refl)) as [i P].
  destruct (lin_any e k i v W N P) as (e1 & w & _ & E & W1 & D1 & _ & _). cbn [foldM]. change (lin_put env e (k, v)) with (lin_set env e k v). rewrite E. cbn [bind].
  destruct (IH e1 W1) as (e2 & E2 & W2 & D2); [lia|rewrite D1; intros k' v' H; apply (L k' v'); now right|]. exists e2. rewrite D2. auto.
Qed.
Lemma lin_dict_bad pre k v post : keys_legal (points_to names (ve_n env)) pre -> (forall i, ~ points_to names (ve_n env) k i) ->
  lin_make env (LDict (pre ++ (k, v) :: post)) = Err (match k with KS _ => KeyError | KI _ => IndexError end).
Proof.
  intros L B. cbn [lin_make]. rewrite foldM_app. destruct (lin_dict_prefix pre (mkLin (ve_n env) false [])) as (e & -> & W & D); [split; constructor|cbn; lia|exact L|]. cbn [bind foldM].
  change (lin_put env e (k, v)) with (lin_set env e k v). cbn in D. rewrite <- D in B. destruct (lin_bad e k v) as [-> _]; [lia|exact B|]. cbn [bind]. destruct k as [z|s]; [reflexivity|].
  destruct (in_dec string_dec s names) as [H|H]; [|reflexivity]. exfalso. apply In_nth_error in H. destruct H as [i H]. apply (B i). split; [|exact H]. rewrite D, <- Hl. apply nth_error_Some. congruence.
Qed.
Lemma quad_dict_prefix n d : n <= ve_n env -> keys_legal (points_to2 names n) d -> forall co, exists co', foldM (quad_put_raw env n) d co = Ok co'.
Proof.
  intro N. induction d as [|[[k1 k2] v] d IH]; intros L co; [exists co; auto|]. destruct (L (k1, k2) v (or_introl eq_refl)) as [[i j] P].
  apply (key_pos2_spec names env n _ _ Hx N Hl) in P. unfold key_pos2 in P. cbn [fst snd] in P. inv_ok.
  cbn [foldM]. assert (exists c, quad_put_raw env n co (k1, k2, v) = Ok c) as [c ->] by (unfold quad_put_raw; cbn [fst snd]; rewrite H, H0; cbn [bind]; rewrite H1; cbn [bind]; rewrite H2; cbn [bind]; eauto). cbn [bind]. apply IH. intros k' v' I. apply (L k' v'). now right.
Qed.
Lemma quad_dict_bad pre ki kj v post : keys_legal (points_to2 names (ve_n env)) pre -> (forall i, ~ points_to names (ve_n env) ki i) \/ (forall j, ~ points_to names (ve_n env) kj j) ->
  (~ known_key names ki \/ ~ known_key names kj -> quad_make env (QDict (pre ++ (ki, kj, v) :: post)) = Err KeyError) /\
  (known_key names ki -> known_key names kj -> quad_make env (QDict (pre ++ (ki, kj, v) :: post)) = Err IndexError).
Proof.
  intros L H. cbn [quad_make]. rewrite foldM_app. destruct (quad_dict_prefix (ve_n env) pre (le_n _) L []) as (co & ->). cbn [bind foldM].
  assert (forall e, quad_put_raw env (ve_n env) co (ki, kj, v) = Err e -> bind (bind (quad_put_raw env (ve_n env) co (ki, kj, v)) (fun c => foldM (quad_put_raw env (ve_n env)) post c)) (fun c => Ok (mkQuad (ve_n env) false (triangle (ve_n env) c))) = Err e) as T by (intros e ->; reflexivity).
  unfold quad_put_raw in T at 1. cbn [fst snd] in T. split.
  - intros [K|K]; apply T; [now rewrite (resolve_unknown ki K)|]. rewrite (resolve_unknown kj K).
    destruct (known_dec ki) as [K2|K2]; [destruct (resolve_known ki K2) as (z & E & _); now rewrite E|now rewrite (resolve_unknown ki K2)].
  - intros Ki Kj. apply T. destruct (resolve_known ki Ki) as (zi & Ei & Ri), (resolve_known kj Kj) as (zj & Ej & Rj). rewrite Ei, Ej. cbn [bind].
    destruct H as [H|H].
    + rewrite (dok_err (ve_n env) zi); [reflexivity|]. intros i D. apply (H i), (Ri _ _ (le_n _)), D.
    + assert (dok_index (ve_n env) zi = Err IndexError \/ exists i, dok_index (ve_n env) zi = Ok i) as [->|[i ->]] by (unfold dok_index; destruct (py_index _ zi); eauto); [reflexivity|].
      cbn [bind]. rewrite (dok_err (ve_n env) zj); [reflexivity|]. intros j D. apply (H j), (Rj _ _ (le_n _)), D.
Qed.
End Keys.
