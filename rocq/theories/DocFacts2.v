(** * from_docplex as a whole *)
From Verif Require Export DocFacts.
Local Open Scope string_scope.
Local Open Scope list_scope.
Local Open Scope nat_scope.

Lemma same_env p q : p_vars q = p_vars p -> p_vidx q = p_vidx p -> env_of q = env_of p.
Proof. intros A B. unfold env_of, num_vars. rewrite A, B. reflexivity. Qed.

(** ** Constraints *)
Lemma linear_constraint_any p lin s rhs name q : ok_state (linear_constraint p lin s rhs name) = Ok q ->
  exists c nm e, sense_convert s = Ok c /\ lin_make (env_of p) (lcoef_or_empty lin) = Ok e /\
    q = add_lc p (mkLC nm e c rhs) /\ ~ In nm (map fst (p_lidx p)) /\ (forall t, name = Some t -> t <> EmptyString -> nm = t) /\ nm <> EmptyString.
Proof.
  intros H. destruct (linear_constraint_cases p lin s rhs name) as [(e & E)|(nm & F & N & [(e & E)|(c & le & S & L & E)])];
    rewrite E in H; try discriminate H. injection H as <-. exists c, nm, le.
  split; [exact S|]. split; [exact L|]. split; [reflexivity|]. split; [exact F|]. split.
  - intros t -> Ht. apply (con_name_given _ _ _ _ _ Ht N).
  - intros ->. unfold con_name in N. destruct name as [[|a r]|].
    + destruct (auto_name_spec (p_lidx p) "c" (length (p_lcs p))) as (m & _ & Em & _). rewrite Em in N. discriminate N.
    + destruct (dhas _ _ _); discriminate N.
    + destruct (auto_name_spec (p_lidx p) "c" (length (p_lcs p))) as (m & _ & Em & _). rewrite Em in N. discriminate N.
Qed.
Lemma quadratic_constraint_any p lin quad s rhs name q : ok_state (quadratic_constraint p lin quad s rhs name) = Ok q ->
  exists c nm e e2, sense_convert s = Ok c /\ lin_make (env_of p) (lcoef_or_empty lin) = Ok e /\ quad_make (env_of p) (qcoef_or_empty quad) = Ok e2 /\
    q = add_qc p (mkQC nm e e2 c rhs) /\ ~ In nm (map fst (p_qidx p)) /\ (forall t, name = Some t -> t <> EmptyString -> nm = t) /\ nm <> EmptyString.
Proof.
  intros H. destruct (quadratic_constraint_cases p lin quad s rhs name) as [(e & E)|(nm & F & N & [(e & E)|(c & le & qe & S & L & Q & E)])];
    rewrite E in H; try discriminate H. injection H as <-. exists c, nm, le, qe.
  split; [exact S|]. split; [exact L|]. split; [exact Q|]. split; [reflexivity|]. split; [exact F|]. split.
  - intros t -> Ht. apply (con_name_given _ _ _ _ _ Ht N).
  - intros ->. unfold con_name in N. destruct name as [[|a r]|].
    + destruct (auto_name_spec (p_qidx p) "q" (length (p_qcs p))) as (m & _ & Em & _). rewrite Em in N. discriminate N.
    + destruct (dhas _ _ _); discriminate N.
    + destruct (auto_name_spec (p_qidx p) "q" (length (p_qcs p))) as (m & _ & Em & _). rewrite Em in N. discriminate N.
Qed.

(** The row made from a constraint: name, sense and the difference of the sides. *)
Definition lc_made (n : nat) (d : dcon) (c : lincon) : Prop :=
  (forall s, dcon_name d = Some s -> s <> EmptyString -> lc_name c = s) /\ lc_sense c = dcon_sense d /\
  lc_name c <> EmptyString /\ lin_wf (lc_lin c) /\ le_dim (lc_lin c) = n /\
  match d with
  | DLinear _ _ l r => lc_rhs c = (de_const r - de_const l)%Qc /\ forall x, length x = n -> (lc_at c x - lc_rhs c = dval l x - dval r x)%Qc
  | _ => False
  end.
Definition qc_made (n : nat) (d : dcon) (c : quadcon) : Prop :=
  (forall s, dcon_name d = Some s -> s <> EmptyString -> qc_name c = s) /\ qc_sense c = dcon_sense d /\
  qc_name c <> EmptyString /\ (lin_wf (qc_lin c) /\ quad_wf (qc_quad c)) /\ (le_dim (qc_lin c) = n /\ qe_dim (qc_quad c) = n) /\
  match d with
  | DQuadratic _ _ l r => qc_rhs c = (de_const r - de_const l)%Qc /\ forall x, length x = n -> (qc_at c x - qc_rhs c = dval l x - dval r x)%Qc
  | _ => False
  end.

Section Rows.
  Variable names : list string.
  Variable n : nat.
  Hypothesis Hn : length names = n.

  Lemma exact_names p : idx_exact p -> NoDup (var_names p).
  Proof using. intros X. apply (index_finds_nodup _ (p_vidx p)). apply (index_exact_finds _ _ (ie_v _ X)). Qed.

  Lemma import_lincon_inv p nm s l r q : idx_exact p -> var_names p = names -> dcon_wf n (DLinear nm s l r) ->
    import_lincon names p (DLinear nm s l r) = Ok q ->
    exists c, q = add_lc p c /\ ~ In (lc_name c) (map fst (p_lidx p)) /\ lc_made n (DLinear nm s l r) c.
  Proof using Hn.
    intros X N (Wl & Wr & Ql & Qr) H. cbn [import_lincon] in H.
    assert (NoDup names) as ND by (rewrite <- N; apply exact_names; exact X).
    destruct (put_lin names (de_lin l) []) as [d1|] eqn:E1; [|discriminate H]. cbn [bind] in H.
    destruct (take_lin names (de_lin r) d1) as [d2|] eqn:E2; [|discriminate H]. cbn [bind] in H.
    destruct (put_lin_spec names ND (de_lin l) [] d1 (proj1 Wl) ltac:(intros ? ? _ _ []) (legal_nil names) E1) as (L1 & S1).
    destruct (take_lin_spec names ND (de_lin r) d1 d2 L1 E2) as (L2 & S2).
    destruct (linear_constraint_any _ _ _ _ _ _ H) as (c & nm' & e & Sc & Le & Eq & F & G & NE).
    rewrite sense_text_ok in Sc. injection Sc as <-.
    assert (length (var_names p) = ve_n (env_of p)) as Hlen by (rewrite names_length; reflexivity).
    destruct (lin_make_named (env_of p) (var_names p) (ie_v _ X) Hlen d2 e (proj1 L2) Le) as (We & De & Dic & _).
    exists (mkLC nm' e s (de_const r - de_const l)%Qc). split; [exact Eq|]. split; [exact F|].
    unfold lc_made. cbn [lc_name lc_sense lc_lin lc_rhs dcon_name dcon_sense].
    split; [exact G|]. split; [reflexivity|]. split; [exact NE|]. split; [exact We|].
    split; [rewrite De, <- Hlen, N; exact Hn|]. split; [reflexivity|].
    intros x Hx. unfold lc_at. cbn [lc_lin]. destruct Dic as (_ & _ & Dx). rewrite Dx by (rewrite N; congruence).
    rewrite N, S2, S1 by congruence. rewrite dsum_nil, !dval_sum, Ql, Qr, !dsum_nil. ring.
  Qed.

  Lemma import_quadcon_inv p nm s l r q : idx_exact p -> var_names p = names -> dcon_wf n (DQuadratic nm s l r) ->
    import_quadcon names p (DQuadratic nm s l r) = Ok q ->
    exists c, q = add_qc p c /\ ~ In (qc_name c) (map fst (p_qidx p)) /\ qc_made n (DQuadratic nm s l r) c.
  Proof using Hn.
    intros X N (Wl & Wr) H. cbn [import_quadcon] in H.
    assert (NoDup names) as ND by (rewrite <- N; apply exact_names; exact X).
    destruct (put_lin names (de_lin l) []) as [d1|] eqn:E1; [|discriminate H]. cbn [bind] in H.
    destruct (put_quad names (de_quad l) []) as [q1|] eqn:E3; [|discriminate H]. cbn [bind] in H.
    destruct (take_lin names (de_lin r) d1) as [d2|] eqn:E2; [|discriminate H]. cbn [bind] in H.
    destruct (take_quad names (de_quad r) q1) as [q2|] eqn:E4; [|discriminate H]. cbn [bind] in H.
    destruct (put_lin_spec names ND (de_lin l) [] d1 (proj1 Wl) ltac:(intros ? ? _ _ []) (legal_nil names) E1) as (L1 & S1).
    destruct (take_lin_spec names ND (de_lin r) d1 d2 L1 E2) as (L2 & S2).
    destruct (put_quad_spec names ND (de_quad l) [] q1 (proj1 (proj2 Wl)) ltac:(intros ? ? ? ? _ _ _ []) (legal2_nil names) E3) as (L3 & S3).
    destruct (take_quad_spec names ND (de_quad r) q1 q2 L3 E4) as (L4 & S4).
    destruct (quadratic_constraint_any _ _ _ _ _ _ _ H) as (c & nm' & e & e2 & Sc & Le & Qe & Eq & F & G & NE).
    rewrite sense_text_ok in Sc. injection Sc as <-.
    assert (length (var_names p) = ve_n (env_of p)) as Hlen by (rewrite names_length; reflexivity).
    destruct (lin_make_named (env_of p) (var_names p) (ie_v _ X) Hlen d2 e (proj1 L2) Le) as (We & De & Dic & _).
    destruct (quad_make_named (env_of p) (var_names p) (ie_v _ X) Hlen q2 e2 (proj1 L4) Qe) as (We2 & De2 & Dic2).
    exists (mkQC nm' e e2 s (de_const r - de_const l)%Qc). split; [exact Eq|]. split; [exact F|].
    unfold qc_made. cbn [qc_name qc_sense qc_lin qc_quad qc_rhs dcon_name dcon_sense].
    split; [exact G|]. split; [reflexivity|]. split; [exact NE|]. split; [split; assumption|].
    split; [split; [rewrite De, <- Hlen, N; exact Hn|rewrite De2, <- Hlen, N; exact Hn]|]. split; [reflexivity|].
    intros x Hx. unfold qc_at. cbn [qc_lin qc_quad]. destruct Dic as (_ & _ & Dx). destruct Dic2 as (_ & _ & Dx2).
    rewrite Dx, Dx2 by (rewrite N; congruence).
    rewrite N, S2, S1, S4, S3 by congruence. rewrite !dsum_nil, !dval_sum. ring.
  Qed.

  Lemma import_lincons_inv l : forall p q, idx_exact p -> var_names p = names -> Forall (dcon_wf n) l ->
    foldM (import_lincon names) l p = Ok q ->
    idx_exact q /\ p_vars q = p_vars p /\ p_vidx q = p_vidx p /\ p_qcs q = p_qcs p /\ p_qidx q = p_qidx p /\ p_obj q = p_obj p /\ p_name q = p_name p /\
    exists cs, p_lcs q = p_lcs p ++ cs /\ Forall2 (lc_made n) (filter is_linear l) cs.
  Proof using Hn.
    induction l as [|d l IH]; intros p q X N W H; cbn [foldM] in H.
    - injection H as <-. repeat (split; [first [exact X|reflexivity]|]). exists []. rewrite app_nil_r. split; [reflexivity|constructor].
    - pose proof (Forall_inv W) as Wd; pose proof (Forall_inv_tail W) as Wl. destruct d as [nm s a b|nm s a b|]; [| |destruct Wd].
      + destruct (import_lincon _ p _) as [p1|e] eqn:E1; [|discriminate H]. cbn [bind] in H.
        destruct (import_lincon_inv p _ _ _ _ _ X N Wd E1) as (c & -> & F & M).
        destruct (IH (add_lc p c) q (add_lc_exact _ _ X F) N Wl H) as (X2 & A & B & C & D & E & G & cs & Hc & R).
        split; [exact X2|]. split; [exact A|]. split; [exact B|]. split; [exact C|]. split; [exact D|]. split; [exact E|]. split; [exact G|]. exists (c :: cs). split.
        * rewrite Hc. cbn. rewrite <- app_assoc. reflexivity.
        * cbn. constructor; assumption.
      + cbn [import_lincon bind] in H. exact (IH p q X N Wl H).
  Qed.
  Lemma import_quadcons_inv l : forall p q, idx_exact p -> var_names p = names -> Forall (dcon_wf n) l ->
    foldM (import_quadcon names) l p = Ok q ->
    idx_exact q /\ p_vars q = p_vars p /\ p_vidx q = p_vidx p /\ p_lcs q = p_lcs p /\ p_lidx q = p_lidx p /\ p_obj q = p_obj p /\ p_name q = p_name p /\
    exists cs, p_qcs q = p_qcs p ++ cs /\ Forall2 (qc_made n) (filter is_quadratic l) cs.
  Proof using Hn.
    induction l as [|d l IH]; intros p q X N W H; cbn [foldM] in H.
    - injection H as <-. repeat (split; [first [exact X|reflexivity]|]). exists []. rewrite app_nil_r. split; [reflexivity|constructor].
    - pose proof (Forall_inv W) as Wd; pose proof (Forall_inv_tail W) as Wl. destruct d as [nm s a b|nm s a b|]; [| |destruct Wd].
      + cbn [import_quadcon bind] in H. exact (IH p q X N Wl H).
      + destruct (import_quadcon _ p _) as [p1|e] eqn:E1; [|discriminate H]. cbn [bind] in H.
        destruct (import_quadcon_inv p _ _ _ _ _ X N Wd E1) as (c & -> & F & M).
        destruct (IH (add_qc p c) q (add_qc_exact _ _ X F) N Wl H) as (X2 & A & B & C & D & E & G & cs & Hc & R).
        split; [exact X2|]. split; [exact A|]. split; [exact B|]. split; [exact C|]. split; [exact D|]. split; [exact E|]. split; [exact G|]. exists (c :: cs). split.
        * rewrite Hc. cbn. rewrite <- app_assoc. reflexivity.
        * cbn. constructor; assumption.
  Qed.
End Rows.

Lemma from_docplex_spec m p : dmodel_wf m -> from_docplex m = Ok p ->
  let n := length (dm_vars m) in
  idx_exact p /\ p_name p = dm_name m /\ Forall2 imports (dm_vars m) (p_vars p) /\ bounds_ok p /\
  o_sense (p_obj p) = dm_sense m /\ o_const (p_obj p) = de_const (dm_obj m) /\
  lin_wf (o_lin (p_obj p)) /\ quad_wf (o_quad (p_obj p)) /\ le_dim (o_lin (p_obj p)) = n /\ qe_dim (o_quad (p_obj p)) = n /\
  (forall x, length x = n -> obj_at (p_obj p) x = dval (dm_obj m) x) /\
  Forall2 (lc_made n) (filter is_linear (dm_cons m)) (p_lcs p) /\ Forall2 (qc_made n) (filter is_quadratic (dm_cons m)) (p_qcs p).
Proof.
  intros (Wo & Wc & Wt) H n. unfold from_docplex in H.
  destruct (foldM import_var (dm_vars m) _) as [st|e] eqn:E1; [|discriminate H]. cbn [bind] in H.
  destruct (import_vars_inv (dm_vars m) (new_qp (dm_name m), []) st (idx_exact_new (dm_name m)) eq_refl E1) as (X & N & R & vs & V & I & B). cbn [fst] in R, V.
  destruct st as [p0 names]. cbn [fst snd] in *.
  assert (num_vars p0 = n) as Hv. { unfold num_vars. rewrite V. cbn. symmetry. exact (Forall2_length _ _ _ I). }
  assert (length names = n) as Hn by (rewrite N, names_length; exact Hv).
  assert (NoDup names) as ND by (rewrite N; apply exact_names; exact X).
  destruct (put_lin names (de_lin (dm_obj m)) []) as [d1|] eqn:E2; [|discriminate H]. cbn [bind] in H.
  destruct (put_quad names (de_quad (dm_obj m)) []) as [q1|] eqn:E3; [|discriminate H]. cbn [bind] in H.
  destruct (put_lin_spec names ND _ [] d1 (proj1 Wo) ltac:(intros ? ? _ _ []) (legal_nil names) E2) as (L1 & S1).
  destruct (put_quad_spec names ND _ [] q1 (proj1 (proj2 Wo)) ltac:(intros ? ? ? ? _ _ _ []) (legal2_nil names) E3) as (L3 & S3).
  destruct (ok_state (set_objective p0 _ _ _ _)) as [p1|] eqn:E4; [|discriminate H]. cbn [bind] in H.
  destruct (set_objective_inv _ _ _ _ _ _ E4) as (e & e2 & Le & Qe & Ep1).
  assert (length (var_names p0) = ve_n (env_of p0)) as Hlen by (rewrite names_length; reflexivity).
  destruct (lin_make_named (env_of p0) (var_names p0) (ie_v _ X) Hlen d1 e (proj1 L1) Le) as (We & De & Dic & _).
  destruct (quad_make_named (env_of p0) (var_names p0) (ie_v _ X) Hlen q1 e2 (proj1 L3) Qe) as (We2 & De2 & Dic2).
  assert (idx_exact p1) as X1 by (rewrite Ep1; apply set_obj_exact; exact X).
  assert (var_names p1 = names) as N1 by (rewrite Ep1, N; reflexivity).
  destruct (foldM (import_lincon names) (dm_cons m) p1) as [p2|] eqn:E5; [|discriminate H]. cbn [bind] in H.
  destruct (import_lincons_inv names n Hn _ _ _ X1 N1 Wc E5) as (X2 & V2 & V2i & Q2 & Q2i & O2 & Nm2 & cs & C2 & M2).
  assert (var_names p2 = names) as N2 by (unfold var_names; rewrite V2; exact N1).
  destruct (import_quadcons_inv names n Hn _ _ _ X2 N2 Wc H) as (X3 & V3 & V3i & L3c & L3i & O3 & Nm3 & cs3 & C3 & M3).
  assert (p_vars p = vs) as Vp by (rewrite V3, V2, Ep1; cbn; rewrite V; reflexivity).
  destruct R as (R1 & R2 & R3 & R4 & R5 & R6 & R7).
  assert (p_obj p = mkObj (de_const (dm_obj m)) e e2 (dm_sense m)) as Op by (rewrite O3, O2, Ep1; reflexivity).
  split; [exact X3|]. split; [rewrite Nm3, Nm2, Ep1; exact R6|]. split; [rewrite Vp; exact I|].
  split; [unfold bounds_ok; rewrite Vp; exact B|]. rewrite Op. cbn [o_sense o_const o_lin o_quad].
  split; [reflexivity|]. split; [reflexivity|]. split; [exact We|]. split; [exact We2|]. split; [rewrite De; exact Hv|]. split; [rewrite De2; exact Hv|].
  split; [|split].
  - intros x Hx. unfold obj_at. cbn [o_sense o_const o_lin o_quad]. destruct Dic as (_ & _ & Dx). destruct Dic2 as (_ & _ & Dx2).
    rewrite Dx, Dx2 by congruence. rewrite <- N, S1, S3 by congruence. rewrite !dsum_nil, dval_sum. ring.
  - rewrite L3c, C2, Ep1. cbn. rewrite R1. cbn. exact M2.
  - rewrite C3, Q2, Ep1. cbn. rewrite R3. cbn. exact M3.
Qed.

(** ** When an import succeeds *)
Lemma import_var_total st d : dv_type d <> DOtherType -> (v_lb (var_of d "") <= v_ub (var_of d ""))%Qc ->
  (forall s, dv_name d = Some s -> ~ In s (map fst (p_vidx (fst st)))) -> exists st', import_var st d = Ok st'.
Proof.
  intros T B F.
  assert (forall lb ub ty, (lb <= ub)%Qc -> exists q s, add_variable (fst st) lb ub ty (dv_name d) = (q, Ok [s])) as G.
  { intros lb ub ty L. destruct (dv_name d) as [s|] eqn:E.
    - destruct (add_variable_named (fst st) lb ub ty s (F s eq_refl) L) as (q & Eq & _). eauto.
    - destruct (add_variable_unnamed (fst st) lb ub ty L) as (q & k & Eq & _). eauto. }
  unfold import_var. unfold var_of in B. destruct (dv_type d); cbn in B.
  - destruct (G (dv_lb d) (dv_ub d) CONTINUOUS B) as (q & s & E). unfold continuous_var. rewrite E. eauto.
  - destruct (G 0%Qc 1%Qc BINARY B) as (q & s & E). unfold binary_var. rewrite E. eauto.
  - destruct (G (dv_lb d) (dv_ub d) INTEGER B) as (q & s & E). unfold integer_var. rewrite E. eauto.
  - contradiction T; reflexivity.
Qed.

(** The names still to come are not taken. *)
Definition open_names (taken : list string) (l : list (option string)) : Prop :=
  Forall (fun o => o = None) l \/ exists ss, l = map Some ss /\ NoDup (taken ++ ss) /\ ~ In EmptyString ss.

Lemma import_vars_total l : forall st, idx_exact (fst st) -> Forall (fun d => dv_type d <> DOtherType) l ->
  Forall (fun d => (v_lb (var_of d "") <= v_ub (var_of d ""))%Qc) l -> open_names (var_names (fst st)) (map dv_name l) ->
  exists st', foldM import_var l st = Ok st'.
Proof.
  induction l as [|d l IH]; intros st X T B O; cbn [foldM].
  - eauto.
  - inversion T as [|? ? T1 T2]; inversion B as [|? ? B1 B2]; subst.
    destruct (import_var_total st d T1 B1) as (st1 & E1).
    { intros s E. destruct O as [O|(ss & O & N & _)].
      - inversion O as [|? ? O1 O2]; subst. congruence.
      - destruct ss as [|s' ss]; [discriminate O|]. injection O as O1 O2.
        rewrite E in O1. injection O1 as <-. apply exact_fresh; [exact X|]. apply NoDup_remove_2 in N. rewrite in_app_iff in N. tauto. }
    rewrite E1. cbn [bind]. destruct (import_var_inv _ _ _ E1) as (s & Q & Nm & F & L & G & _).
    apply IH; [rewrite Q; apply add_var_exact; [exact X|rewrite var_of_name; exact F]|exact T2|exact B2|].
    destruct O as [O|(ss & O & N & Z)].
    + left. inversion O as [|? ? O1 O2]; subst. exact O2.
    + right. destruct ss as [|s' ss]; [discriminate O|]. injection O as O1 O2. exists ss. split; [exact O2|].
      rewrite Q, add_var_names, var_of_name, (G s' O1), <- app_assoc. split; [exact N|]. intros Hi. apply Z. right. exact Hi.
Qed.

Section RowsTotal.
  Variable names : list string.
  Variable n : nat.
  Hypothesis Hn : length names = n.

  Lemma legal_incl d : legal names d -> incl (map fst d) names. Proof using. intros L; apply L. Qed.

  Lemma import_lincon_total p nm s l r : idx_exact p -> var_names p = names -> dcon_wf n (DLinear nm s l r) ->
    (forall t, nm = Some t -> t <> EmptyString /\ ~ In t (map lc_name (p_lcs p))) ->
    exists q, import_lincon names p (DLinear nm s l r) = Ok q.
  Proof using Hn.
    intros X N (Wl & Wr & Ql & Qr) F. cbn [import_lincon].
    assert (NoDup names) as ND by (rewrite <- N; apply exact_names; exact X).
    destruct Wl as (A1 & A2 & A3 & A4). destruct Wr as (B1 & B2 & B3 & B4). rewrite <- Hn in A3, B3.
    destruct (put_lin_total names (de_lin l) [] A3) as (d1 & E1). rewrite E1. cbn [bind].
    destruct (take_lin_total names (de_lin r) d1 B3) as (d2 & E2). rewrite E2. cbn [bind].
    destruct (put_lin_spec names ND (de_lin l) [] d1 A1 ltac:(intros ? ? _ _ []) (legal_nil names) E1) as (L1 & S1).
    destruct (take_lin_spec names ND (de_lin r) d1 d2 L1 E2) as (L2 & S2).
    destruct (lin_make_keys p d2 X ltac:(rewrite N; apply L2)) as (e & Le).
    destruct nm as [t|].
    - destruct (F t eq_refl) as (Ft & Fi).
      destruct (linear_constraint p (by_name d2) (SStr (sense_text s)) (de_const r - de_const l)%Qc (Some t)) as [q res] eqn:E.
      unfold linear_constraint in E. destruct t as [|a t]; [congruence|]. cbn [con_name] in E.
      rewrite (exact_missing _ _ _ (ie_l _ X) Fi), sense_text_ok in E. cbn [bind] in E. rewrite Le in E. cbn [bind] in E.
      injection E as <- <-. eexists; reflexivity.
    - destruct (linear_constraint_unnamed p (by_name d2) (SStr (sense_text s)) (de_const r - de_const l)%Qc) as (m & _ & _ & _ & G).
      destruct (G s e (sense_text_ok s) Le) as (q & E & _). rewrite E. eexists; reflexivity.
  Qed.
  Lemma import_quadcon_total p nm s l r : idx_exact p -> var_names p = names -> dcon_wf n (DQuadratic nm s l r) ->
    (forall t, nm = Some t -> t <> EmptyString /\ ~ In t (map qc_name (p_qcs p))) ->
    exists q, import_quadcon names p (DQuadratic nm s l r) = Ok q.
  Proof using Hn.
    intros X N (Wl & Wr) F. cbn [import_quadcon].
    assert (NoDup names) as ND by (rewrite <- N; apply exact_names; exact X).
    destruct Wl as (A1 & A2 & A3 & A4). destruct Wr as (B1 & B2 & B3 & B4). rewrite <- Hn in A3, B3, A4, B4.
    destruct (put_lin_total names (de_lin l) [] A3) as (d1 & E1). rewrite E1. cbn [bind].
    destruct (put_quad_total names (de_quad l) [] A4) as (q1 & E3). rewrite E3. cbn [bind].
    destruct (take_lin_total names (de_lin r) d1 B3) as (d2 & E2). rewrite E2. cbn [bind].
    destruct (take_quad_total names (de_quad r) q1 B4) as (q2 & E4). rewrite E4. cbn [bind].
    destruct (put_lin_spec names ND (de_lin l) [] d1 A1 ltac:(intros ? ? _ _ []) (legal_nil names) E1) as (L1 & S1).
    destruct (take_lin_spec names ND (de_lin r) d1 d2 L1 E2) as (L2 & S2).
    destruct (put_quad_spec names ND (de_quad l) [] q1 A2 ltac:(intros ? ? ? ? _ _ _ []) (legal2_nil names) E3) as (L3 & S3).
    destruct (take_quad_spec names ND (de_quad r) q1 q2 L3 E4) as (L4 & S4).
    destruct (lin_make_keys p d2 X ltac:(rewrite N; apply L2)) as (e & Le).
    destruct (quad_make_keys p q2 X ltac:(rewrite N; apply L4)) as (e2 & Qe).
    destruct nm as [t|].
    - destruct (F t eq_refl) as (Ft & Fi).
      destruct (quadratic_constraint p (by_name d2) (by_name2 q2) (SStr (sense_text s)) (de_const r - de_const l)%Qc (Some t)) as [q res] eqn:E.
      unfold quadratic_constraint in E. destruct t as [|a t]; [congruence|]. cbn [con_name] in E.
      rewrite (exact_missing _ _ _ (ie_q _ X) Fi), sense_text_ok in E. cbn [bind] in E. rewrite Le in E. cbn [bind] in E. rewrite Qe in E. cbn [bind] in E.
      injection E as <- <-. eexists; reflexivity.
    - destruct (quadratic_constraint_unnamed p (by_name d2) (by_name2 q2) (SStr (sense_text s)) (de_const r - de_const l)%Qc) as (m & _ & _ & _ & G).
      destruct (G s e e2 (sense_text_ok s) Le Qe) as (q & E & _). rewrite E. eexists; reflexivity.
  Qed.

  Lemma open_head taken o l : open_names taken (o :: l) -> forall t, o = Some t -> t <> EmptyString /\ ~ In t taken.
  Proof using.
    intros [O|(ss & O & N & Z)] t E.
    - inversion O; congruence.
    - destruct ss as [|s ss]; [discriminate O|]. injection O as O1 O2. rewrite E in O1. injection O1 as <-. split.
      + intros ->. apply Z. left; reflexivity.
      + apply NoDup_remove_2 in N. rewrite in_app_iff in N. tauto.
  Qed.
  Lemma open_tail taken nm o l : open_names taken (o :: l) -> (forall t, o = Some t -> t <> EmptyString -> nm = t) -> open_names (taken ++ [nm]) l.
  Proof using.
    intros [O|(ss & O & N & Z)] E.
    - left. inversion O; assumption.
    - right. destruct ss as [|s ss]; [discriminate O|]. injection O as O1 O2. exists ss. split; [exact O2|].
      rewrite (E s O1) by (intros ->; apply Z; left; reflexivity). rewrite <- app_assoc. split; [exact N|]. intros Hi. apply Z. right; exact Hi.
  Qed.

  Lemma import_lincons_total l : forall p, idx_exact p -> var_names p = names -> Forall (dcon_wf n) l ->
    open_names (map lc_name (p_lcs p)) (map dcon_name (filter is_linear l)) -> exists q, foldM (import_lincon names) l p = Ok q.
  Proof using Hn.
    induction l as [|d l IH]; intros p X N W O; cbn [foldM]; [eauto|].
    pose proof (Forall_inv W) as Wd; pose proof (Forall_inv_tail W) as Wl. destruct d as [nm s a b|nm s a b|]; [| |destruct Wd].
    - cbn [filter is_linear map] in O.
      destruct (import_lincon_total p nm s a b X N Wd (open_head _ _ _ O)) as (q & E). rewrite E. cbn [bind].
      destruct (import_lincon_inv names n Hn p _ _ _ _ _ X N Wd E) as (c & -> & F & M).
      apply IH; [apply add_lc_exact; assumption|exact N|exact Wl|].
      unfold add_lc. cbn. rewrite map_app. cbn. exact (open_tail _ (lc_name c) nm _ O (proj1 M)).
    - cbn [import_lincon bind]. cbn [filter is_linear] in O. exact (IH p X N Wl O).
  Qed.
  Lemma import_quadcons_total l : forall p, idx_exact p -> var_names p = names -> Forall (dcon_wf n) l ->
    open_names (map qc_name (p_qcs p)) (map dcon_name (filter is_quadratic l)) -> exists q, foldM (import_quadcon names) l p = Ok q.
  Proof using Hn.
    induction l as [|d l IH]; intros p X N W O; cbn [foldM]; [eauto|].
    pose proof (Forall_inv W) as Wd; pose proof (Forall_inv_tail W) as Wl. destruct d as [nm s a b|nm s a b|]; [| |destruct Wd].
    - cbn [import_quadcon bind]. cbn [filter is_quadratic] in O. exact (IH p X N Wl O).
    - cbn [filter is_quadratic map] in O.
      destruct (import_quadcon_total p nm s a b X N Wd (open_head _ _ _ O)) as (q & E). rewrite E. cbn [bind].
      destruct (import_quadcon_inv names n Hn p _ _ _ _ _ X N Wd E) as (c & -> & F & M).
      apply IH; [apply add_qc_exact; assumption|exact N|exact Wl|].
      unfold add_qc. cbn. rewrite map_app. cbn. exact (open_tail _ (qc_name c) nm _ O (proj1 M)).
  Qed.
End RowsTotal.

Lemma named_open l : named_alike l -> open_names [] l.
Proof. intros [A|(ss & A & B & C)]; [left; exact A|right; exists ss; auto]. Qed.

Lemma from_docplex_total m : dmodel_wf m ->
  Forall (fun d => dv_type d = DBinary \/ (dv_lb d <= dv_ub d)%Qc) (dm_vars m) -> named_alike (map dv_name (dm_vars m)) ->
  named_alike (map dcon_name (filter is_linear (dm_cons m))) -> named_alike (map dcon_name (filter is_quadratic (dm_cons m))) ->
  exists p, from_docplex m = Ok p.
Proof.
  intros (Wo & Wc & Wt) Hb Hv Hl Hq. unfold from_docplex.
  destruct (import_vars_total (dm_vars m) (new_qp (dm_name m), []) (idx_exact_new _) Wt) as (st & E1).
  { eapply Forall_impl; [|exact Hb]. intros d [B|B]; unfold var_of.
    - rewrite B. cbn. qlra.
    - destruct (dv_type d); cbn; try exact B. qlra. }
  { apply named_open. exact Hv. }
  rewrite E1. cbn [bind].
  destruct (import_vars_inv (dm_vars m) (new_qp (dm_name m), []) st (idx_exact_new (dm_name m)) eq_refl E1) as (X & N & R & vs & V & I & B). cbn [fst] in R, V.
  destruct st as [p0 names]. cbn [fst snd] in *. set (n := length (dm_vars m)) in *.
  assert (num_vars p0 = n) as Hnv. { unfold num_vars. rewrite V. cbn. symmetry. exact (Forall2_length _ _ _ I). }
  assert (length names = n) as Hn by (rewrite N, names_length; exact Hnv).
  assert (NoDup names) as ND by (rewrite N; apply exact_names; exact X).
  destruct Wo as (A1 & A2 & A3 & A4). rewrite <- Hn in A3, A4.
  destruct (put_lin_total names (de_lin (dm_obj m)) [] A3) as (d1 & E2). rewrite E2. cbn [bind].
  destruct (put_quad_total names (de_quad (dm_obj m)) [] A4) as (q1 & E3). rewrite E3. cbn [bind].
  destruct (put_lin_spec names ND _ [] d1 A1 ltac:(intros ? ? _ _ []) (legal_nil names) E2) as (L1 & _).
  destruct (put_quad_spec names ND _ [] q1 A2 ltac:(intros ? ? ? ? _ _ _ []) (legal2_nil names) E3) as (L3 & _).
  destruct (lin_make_keys p0 d1 X ltac:(rewrite <- N; apply L1)) as (e & Le).
  destruct (quad_make_keys p0 q1 X ltac:(rewrite <- N; apply L3)) as (e2 & Qe).
  assert (exists p1, ok_state (set_objective p0 (dm_sense m) (de_const (dm_obj m)) (by_name d1) (by_name2 q1)) = Ok p1) as (p1 & E4).
  { unfold set_objective. assert (obj_make (env_of p0) (de_const (dm_obj m)) (by_name d1) (by_name2 q1) (dm_sense m) = Ok (mkObj (de_const (dm_obj m)) e e2 (dm_sense m))) as ->.
    { unfold obj_make. unfold lcoef_or_empty in Le. unfold qcoef_or_empty in Qe. destruct (by_name d1); rewrite Le; cbn [bind]; destruct (by_name2 q1); rewrite Qe; reflexivity. }
    eexists; reflexivity. }
  rewrite E4. cbn [bind]. destruct (set_objective_inv _ _ _ _ _ _ E4) as (e' & e2' & _ & _ & Ep1).
  assert (idx_exact p1) as X1 by (rewrite Ep1; apply set_obj_exact; exact X).
  assert (var_names p1 = names) as N1 by (rewrite Ep1, N; reflexivity).
  destruct R as (R1 & R2 & R3 & R4 & R5 & R6 & R7).
  destruct (import_lincons_total names n Hn (dm_cons m) p1 X1 N1 Wc) as (p2 & E5).
  { rewrite Ep1. cbn. rewrite R1. apply named_open. exact Hl. }
  rewrite E5. cbn [bind].
  destruct (import_lincons_inv names n Hn _ _ _ X1 N1 Wc E5) as (X2 & V2 & V2i & Q2 & Q2i & O2 & Nm2 & cs & C2 & M2).
  apply (import_quadcons_total names n Hn (dm_cons m) p2 X2); [unfold var_names; rewrite V2; exact N1|exact Wc|].
  rewrite Q2, Ep1. cbn. rewrite R3. apply named_open. exact Hq.
Qed.
