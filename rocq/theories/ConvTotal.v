(** * The converters succeed *)
From Verif Require Export SpecTotal SubstTotal QuboFacts.
Local Open Scope string_scope.
Local Open Scope list_scope.
Local Open Scope nat_scope.

(** ** Calls with named arguments *)
Lemma add_variable_total p lb ub ty s : idx_exact p -> ~ In s (var_names p) -> (lb <= ub)%Qc ->
  ok_state (add_variable p lb ub ty (Some s)) = Ok (add_var p (mkVar s lb ub ty)).
Proof.
  intros X F B. destruct (add_variable_named p lb ub ty s) as (q & E & _); [now apply exact_fresh|assumption|].
  assert (ok_state (add_variable p lb ub ty (Some s)) = Ok q) as Eq by (rewrite E; reflexivity).
  rewrite Eq. apply add_variable_inv in Eq. destruct Eq as (-> & _). reflexivity.
Qed.
Lemma copy_var_total p v : idx_exact p -> ~ In (v_name v) (var_names p) -> (v_lb v <= v_ub v)%Qc -> copy_var p v = Ok (add_var p (copyv v)).
Proof.
  intros X F B. unfold copy_var, copyv, binary_var, integer_var, continuous_var. destruct v as [nm lb ub []]; cbn [v_type v_name v_lb v_ub] in *;
  rewrite add_variable_total; auto. qlra.
Qed.
Lemma copy_vars_total l : forall p, idx_exact p -> NoDup (var_names p ++ map v_name l) -> Forall (fun v => (v_lb v <= v_ub v)%Qc) l ->
  exists q, foldM copy_var l p = Ok q.
Proof.
  induction l as [|v l IH]; intros p X N B; cbn [foldM]; [eauto|]. inversion B as [|? ? Bv Bl]; subst. cbn [map] in N. pose proof (NoDup_remove _ _ _ N) as [N1 N2].
  assert (~ In (v_name v) (var_names p)) as F by (intro; apply N2, in_or_app; now left).
  rewrite copy_var_total; auto. cbn [bind]. apply IH; auto.
  - apply add_var_exact; auto. rewrite copyv_name. now apply exact_fresh.
  - rewrite add_var_names, copyv_name, <- app_assoc. exact N.
Qed.
Lemma con_name_total idx n pre s : s <> EmptyString -> dhas String.eqb s idx = false -> con_name idx n pre (Some s) = Ok s.
Proof. intros N H. destruct s as [|ch r]; [congruence|]. unfold con_name. now rewrite H. Qed.
Lemma linear_call dst d s sv rhs nm : idx_exact dst -> nm <> EmptyString -> ~ In nm (map lc_name (p_lcs dst)) -> sense_convert s = Ok sv ->
  incl (map fst d) (var_names dst) -> exists e, ok_state (linear_constraint dst (by_name d) s rhs (Some nm)) = Ok (add_lc dst (mkLC nm e sv rhs)).
Proof.
  intros X N F S I. destruct (lin_make_keys dst d X I) as [e E]. exists e. unfold linear_constraint.
  rewrite con_name_total; [|assumption|now apply (exact_missing _ _ _ (ie_l _ X))]. cbn. cbn in E. rewrite E, S. reflexivity.
Qed.
Lemma quadratic_call dst d d2 s sv rhs nm : idx_exact dst -> nm <> EmptyString -> ~ In nm (map qc_name (p_qcs dst)) -> sense_convert s = Ok sv ->
  incl (map fst d) (var_names dst) -> (forall a b, In (a, b) (map fst d2) -> In a (var_names dst) /\ In b (var_names dst)) ->
  exists e e2, ok_state (quadratic_constraint dst (by_name d) (by_name2 d2) s rhs (Some nm)) = Ok (add_qc dst (mkQC nm e e2 sv rhs)).
Proof.
  intros X N F S I I2. destruct (lin_make_keys dst d X I) as [e E]. destruct (quad_make_keys dst d2 X I2) as [e2 E2]. exists e, e2. unfold quadratic_constraint.
  rewrite con_name_total; [|assumption|now apply (exact_missing _ _ _ (ie_q _ X))]. unfold by_name, by_name2 in *. cbn [lcoef_or_empty qcoef_or_empty bind] in *. rewrite E. cbn [bind]. rewrite E2. cbn [bind]. rewrite S. reflexivity.
Qed.
Lemma objective_call dst s c d d2 : idx_exact dst -> incl (map fst d) (var_names dst) ->
  (forall a b, In (a, b) (map fst d2) -> In a (var_names dst) /\ In b (var_names dst)) ->
  exists e e2, ok_state (set_objective dst s c (by_name d) (by_name2 d2)) = Ok (set_obj (mkObj c e e2 s) dst).
Proof.
  intros X I I2. destruct (lin_make_keys dst d X I) as [e E]. destruct (quad_make_keys dst d2 X I2) as [e2 E2]. exists e, e2. unfold set_objective, obj_make.
  unfold by_name, by_name2 in *. cbn [lcoef_or_empty qcoef_or_empty] in *. rewrite E. cbn [bind]. rewrite E2. reflexivity.
Qed.

(** ** Names of slack variables *)
Lemma rev_string_inj a b c d : (a ++ c)%string = (b ++ d)%string -> String.length c = String.length d -> c = d.
Proof. intros E L. now apply string_app_inj_len in E. Qed.
Lemma slack_name_inj i j a b : slack_name i a = slack_name j b -> a = b.
Proof.
  unfold slack_name. destruct i, j; intro E.
  - now apply string_app_inj_r in E.
  - exfalso. apply (f_equal list_ascii_of_string) in E. apply (f_equal (@rev ascii)) in E. 
    assert (forall u v, list_ascii_of_string (u ++ v) = list_ascii_of_string u ++ list_ascii_of_string v) as A by (induction u as [|ch u IH]; intro v; cbn; congruence).
    rewrite !A, !rev_app_distr in E. cbn in E. discriminate.
  - exfalso. apply (f_equal list_ascii_of_string) in E. apply (f_equal (@rev ascii)) in E. 
    assert (forall u v, list_ascii_of_string (u ++ v) = list_ascii_of_string u ++ list_ascii_of_string v) as A by (induction u as [|ch u IH]; intro v; cbn; congruence).
    rewrite !A, !rev_app_distr in E. cbn in E. discriminate.
  - now apply string_app_inj_r in E.
Qed.

(** ** InequalityToEquality *)
Lemma get_variable_total p s : index_finds (var_names p) (p_vidx p) -> In s (var_names p) -> exists v, get_variable p (KS s) = Ok v.
Proof.
  intros F Hin. apply In_nth_error in Hin. destruct Hin as [i Hi]. unfold get_variable, lookup. rewrite (F s i Hi).
  assert (i < length (p_vars p)) as L by (rewrite <- (map_length v_name); apply nth_error_Some; unfold var_names in Hi; congruence).
  unfold py_nth. rewrite py_index_nat by assumption. destruct (nth_error (p_vars p) i) eqn:E; [eauto|apply nth_error_None in E; lia].
Qed.
Lemma linear_bounds_total p d : index_finds (var_names p) (p_vidx p) -> incl (map fst d) (var_names p) -> exists b, calc_linear_bounds p d = Ok b.
Proof.
  intros F I. unfold calc_linear_bounds. apply foldM_total. intros b [s w] Hin. destruct (get_variable_total p s F) as [v E].
  - apply I. apply (in_map fst _ _ Hin).
  - cbn [fst]. rewrite E. cbn [bind]. eauto.
Qed.
Lemma quadratic_bounds_total p d d2 : index_finds (var_names p) (p_vidx p) -> incl (map fst d) (var_names p) ->
  (forall a b, In (a, b) (map fst d2) -> In a (var_names p) /\ In b (var_names p)) -> exists b, calc_quadratic_bounds p d d2 = Ok b.
Proof.
  intros F I I2. unfold calc_quadratic_bounds. destruct (linear_bounds_total p d F I) as [b ->]. cbn [bind]. apply foldM_total. intros b' [[s t] w] Hin.
  destruct (I2 s t) as [Hs Ht]; [apply (in_map fst _ _ Hin)|].
  destruct (get_variable_total p s F Hs) as [v E], (get_variable_total p t F Ht) as [v' E']. cbn [fst snd]. rewrite E. cbn [bind]. rewrite E'. cbn [bind]. eauto.
Qed.
(** A slack variable for one of the constraints [cs]. *)
Definition slack_var (cs : list string) (v : variable) : Prop :=
  exists i c, In c cs /\ v_name v = slack_name i c /\ (v_lb v < v_ub v)%Qc /\ v_type v = if i then INTEGER else CONTINUOUS.
(** What a step leaves: the names of the variables, possibly with a slack variable, and one more constraint. *)
Record stepped (src dst dst' : qp) (nm : string) (lnames qnames : list string) : Prop := {
  st_exact : idx_exact dst';
  st_vars : exists l, p_vars dst' = p_vars dst ++ l /\ Forall (slack_var [nm]) l;
  st_lcs : map lc_name (p_lcs dst') = map lc_name (p_lcs dst) ++ lnames;
  st_qcs : map qc_name (p_qcs dst') = map qc_name (p_qcs dst) ++ qnames }.
Section Slack.
Variables (src dst : qp).
Hypothesis W : prog_wf src.
Hypothesis X : idx_exact dst.
Hypothesis I0 : incl (var_names src) (var_names dst).
Let F := proj1 W : index_finds (var_names src) (p_vidx src).

Lemma slack_added i nm ub : ~ In (slack_name i nm) (var_names dst) -> (0 < ub)%Qc ->
  add_slack i dst (slack_name i nm) ub = Ok (add_var dst (mkVar (slack_name i nm) 0 ub (if i then INTEGER else CONTINUOUS))).
Proof using X.
  intros N P. assert (0 <= ub)%Qc as P' by (apply Qclt_le_weak; exact P). unfold add_slack, integer_var, continuous_var.
  destruct i; rewrite add_variable_total; auto.
Qed.
Lemma slack_linear_total i d s rhs nm : (i = true -> any_float d = false) -> incl (map fst d) (var_names src) -> nm <> EmptyString ->
  ~ In nm (map lc_name (p_lcs dst)) -> ~ In (slack_name i nm) (var_names dst) ->
  exists dst', slack_linear i src dst d s rhs nm = Ok dst' /\ stepped src dst dst' nm [nm] [].
Proof using W X I0 F.
  intros Fl I Nn Nc Ns. unfold slack_linear. replace (i && any_float d)%bool with false by (destruct i; [now rewrite Fl|reflexivity]). cbv iota zeta.
  destruct (linear_bounds_total src d F I) as [b ->]. cbn [bind].
  destruct (qltb_spec 0 (slack_ub s (slack_rhs i s rhs) (fst b) (snd b))) as [P|P].
  - rewrite (slack_added i nm _ Ns P). cbn [bind]. set (w := mkVar _ _ _ _). set (d1 := add_var dst w).
    assert (idx_exact d1) as X1 by (apply add_var_exact; [exact X|now apply exact_fresh]).
    assert (var_names d1 = var_names dst ++ [slack_name i nm]) as V1 by apply add_var_names.
    destruct (linear_call d1 (dset String.eqb (slack_name i nm) (slack_sign s) d) (SStr "==") EQ (slack_rhs i s rhs) nm) as [e E]; auto.
    { rewrite V1. intros a Ha. apply (dset_keys _ str_eqb_sp) in Ha. apply in_or_app. destruct Ha as [->|Ha]; [right; now left|left; auto]. }
    rewrite E. eexists. split; [reflexivity|]. constructor.
    + apply add_lc_exact; auto. eapply missing_fresh; [apply X1|]. exact Nc.
    + exists [w]. split; [reflexivity|]. constructor; [|constructor]. exists i, nm. cbn. auto.
    + cbn. rewrite map_app. reflexivity.
    + cbn. now rewrite app_nil_r.
  - destruct (linear_call dst d (SStr "==") EQ (slack_rhs i s rhs) nm) as [e E]; auto.
    { intros a Ha. apply I0, I, Ha. }
    rewrite E. eexists. split; [reflexivity|]. constructor.
    + apply add_lc_exact; auto. eapply missing_fresh; [apply X|]. exact Nc.
    + exists []. cbn. rewrite app_nil_r. split; [reflexivity|constructor].
    + cbn. rewrite map_app. reflexivity.
    + cbn. now rewrite app_nil_r.
Qed.
Lemma slack_quadratic_total i d d2 s rhs nm : (i = true -> any_float d = false /\ any_float d2 = false) -> incl (map fst d) (var_names src) ->
  (forall a b, In (a, b) (map fst d2) -> In a (var_names src) /\ In b (var_names src)) -> nm <> EmptyString ->
  ~ In nm (map qc_name (p_qcs dst)) -> ~ In (slack_name i nm) (var_names dst) ->
  exists dst', slack_quadratic i src dst d d2 s rhs nm = Ok dst' /\ stepped src dst dst' nm [] [nm].
Proof using W X I0 F.
  intros Fl I I2 Nn Nc Ns. unfold slack_quadratic.
  replace (i && (any_float d || any_float d2))%bool with false by (destruct i; [destruct (Fl eq_refl) as [-> ->]; reflexivity|reflexivity]). cbv iota zeta.
  destruct (quadratic_bounds_total src d d2 F I I2) as [b ->]. cbn [bind].
  destruct (qltb_spec 0 (slack_ub s (slack_rhs i s rhs) (fst b) (snd b))) as [P|P].
  - rewrite (slack_added i nm _ Ns P). cbn [bind]. set (w := mkVar _ _ _ _). set (d1 := add_var dst w).
    assert (idx_exact d1) as X1 by (apply add_var_exact; [exact X|now apply exact_fresh]).
    assert (var_names d1 = var_names dst ++ [slack_name i nm]) as V1 by apply add_var_names.
    destruct (quadratic_call d1 (dset String.eqb (slack_name i nm) (slack_sign s) d) d2 (SStr "==") EQ (slack_rhs i s rhs) nm) as (e & e2 & E); auto.
    { rewrite V1. intros a Ha. apply (dset_keys _ str_eqb_sp) in Ha. apply in_or_app. destruct Ha as [->|Ha]; [right; now left|left; auto]. }
    { rewrite V1. intros a b' Ha. destruct (I2 _ _ Ha). split; apply in_or_app; left; auto. }
    rewrite E. eexists. split; [reflexivity|]. constructor.
    + apply add_qc_exact; auto. eapply missing_fresh; [apply X1|]. exact Nc.
    + exists [w]. split; [reflexivity|]. constructor; [|constructor]. exists i, nm. cbn. auto.
    + cbn. now rewrite app_nil_r.
    + cbn. rewrite map_app. reflexivity.
  - destruct (quadratic_call dst d d2 (SStr "==") EQ (slack_rhs i s rhs) nm) as (e & e2 & E); auto.
    { intros a Ha. apply I0, I, Ha. }
    { intros a b' Ha. destruct (I2 _ _ Ha). auto. }
    rewrite E. eexists. split; [reflexivity|]. constructor.
    + apply add_qc_exact; auto. eapply missing_fresh; [apply X|]. exact Nc.
    + exists []. cbn. rewrite app_nil_r. split; [reflexivity|constructor].
    + cbn. now rewrite app_nil_r.
    + cbn. rewrite map_app. reflexivity.
Qed.
End Slack.

Section Ineq.
Variables (mode : slack_mode) (src : qp).
Hypothesis W : prog_wf src.
Hypothesis D : dims_fit src.
Hypothesis SF : slack_free src.
Hypothesis M : mode <> MOther.
Hypothesis MI : mode = MInteger -> int_ineqs src.

Lemma names_integral {n} e d : lin_wf e -> NoDup n -> lin_to_dict_names n e = Ok d -> Forall (fun kv => integral (snd kv)) (le_co e) -> any_float d = false.
Proof using.
  intros We N E H. apply any_float_iff. destruct (lin_names_dict _ _ _ N We E) as [_ S].
  eapply (Forall_snd integral); [symmetry; exact S|exact H].
Qed.
Lemma names2_integral {n} e d : quad_wf e -> NoDup n -> quad_to_dict_names n false e = Ok d -> Forall (fun kv => integral (snd kv)) (qe_co e) -> any_float d = false.
Proof using.
  intros We N E H. apply any_float_iff. destruct (quad_names_dict _ _ _ N We E) as [_ S].
  eapply (Forall_snd integral); [symmetry; exact S|exact H].
Qed.
(** The state after some constraints: [done] are the inequalities met so far. *)
Record reached (dst : qp) (done lnames qnames : list string) : Prop := {
  re_exact : idx_exact dst;
  re_vars : exists l, p_vars dst = map copyv (p_vars src) ++ l /\ Forall (slack_var done) l;
  re_lcs : map lc_name (p_lcs dst) = lnames;
  re_qcs : map qc_name (p_qcs dst) = qnames }.
Lemma reached_step dst dst' done ln qn nm l q : reached dst done ln qn -> stepped src dst dst' nm l q -> reached dst' (done ++ [nm]) (ln ++ l) (qn ++ q).
Proof using.
  intros [R1 (k & R2 & R3) R4 R5] [S1 (k' & S2 & S3) S4 S5]. constructor; auto; try congruence.
  exists (k ++ k'). split; [rewrite S2, R2, app_assoc; reflexivity|]. apply Forall_app. split; (eapply Forall_impl; [|eassumption]);
  intros v (i & c & A & B); exists i, c; (split; [apply in_or_app; auto|exact B]).
Qed.
Lemma reached_names dst done ln qn : reached dst done ln qn -> exists l, var_names dst = var_names src ++ l /\ forall s, In s l -> exists i c, In c done /\ s = slack_name i c.
Proof using.
  intros [_ (l & E & H) _ _]. exists (map v_name l). split; [unfold var_names; rewrite E, map_app, var_names_copy; reflexivity|]. intros s Hs. apply in_map_iff in Hs.
  destruct Hs as (v & <- & Hv). rewrite Forall_forall in H. destruct (H v Hv) as (i & c & A & B & _). eauto.
Qed.
Lemma reached_incl dst done ln qn : reached dst done ln qn -> incl (var_names src) (var_names dst).
Proof using. intros R a Ha. destruct (reached_names _ _ _ _ R) as (l & -> & _). apply in_or_app. now left. Qed.
Lemma slack_fresh dst done ln qn i nm : reached dst done ln qn -> In nm (lin_ineqs src ++ quad_ineqs src) -> ~ In nm done ->
  ~ In (slack_name i nm) (var_names dst).
Proof using SF.
  intros R0 Hin Nd H. destruct (reached_names _ _ _ _ R0) as (l & E & R). rewrite E in H. apply in_app_or in H. destruct H as [H|H].
  - destruct SF as [S _]. destruct (S nm Hin) as [S1 S2]. unfold slack_name in H. destruct i; [apply S1|apply S2]; exact H.
  - destruct (R _ H) as (j & c & A & B). apply slack_name_inj in B. subst. contradiction.
Qed.
Lemma ineq_linear_total dst done ln qn c : reached dst done ln qn -> lin_wf (lc_lin c) -> In c (p_lcs src) ->
  lc_name c <> EmptyString -> ~ In (lc_name c) ln -> (lc_sense c <> EQ -> ~ In (lc_name c) done) ->
  exists dst', ineq_linear mode src dst c = Ok dst' /\
    reached dst' (done ++ (match lc_sense c with EQ => [] | _ => [lc_name c] end)) (ln ++ [lc_name c]) qn.
Proof using W D SF M MI.
  intros R We Hc Nn Nl Nd. destruct D as (_ & _ & D3 & _). rewrite Forall_forall in D3.
  destruct (lin_names_total src W (lc_lin c) We (D3 c Hc)) as [d Ed]. unfold ineq_linear. rewrite Ed. cbn [bind].
  destruct (lin_names_dict _ _ _ (prog_wf_nodup _ W) We Ed) as [(D1 & D2 & _) _].
  assert (incl (map fst d) (var_names src)) as I. { intros a Ha. apply in_map_iff in Ha. destruct Ha as ([a' v] & <- & Ha). eapply D2; eauto. }
  pose proof (reached_incl _ _ _ _ R) as I0.
  assert (~ In (lc_name c) (map lc_name (p_lcs dst))) as Nl' by (rewrite (re_lcs _ _ _ _ R); exact Nl).
  assert (lc_sense c <> EQ -> forall i, ~ In (slack_name i (lc_name c)) (var_names dst)) as Fr.
  { intros Ns i. apply (slack_fresh dst done ln qn); auto. apply in_or_app. left. unfold lin_ineqs. apply in_map, filter_In. split; auto. destruct (lc_sense c); congruence. }
  assert (lc_sense c <> EQ -> mode = MInteger -> any_float d = false) as Fl.
  { intros Ns E. destruct (MI E) as [M1 _]. rewrite Forall_forall in M1. exact (names_integral _ _ We (prog_wf_nodup _ W) Ed (M1 c Hc Ns)). }
  assert (forall s, s <> EQ -> lc_sense c = s -> exists dst', match mode with MInteger => slack_linear true src dst d s (lc_rhs c) (lc_name c) | MContinuous => slack_linear false src dst d s (lc_rhs c) (lc_name c)
      | MAuto => slack_linear (negb (any_float d)) src dst d s (lc_rhs c) (lc_name c) | MOther => Err QiskitOptimizationError end = Ok dst' /\ reached dst' (done ++ [lc_name c]) (ln ++ [lc_name c]) qn) as G.
  { intros s Ns Es. rewrite Es in *. specialize (Fr Ns). specialize (Fl Ns).
    assert (exists dst', match mode with MInteger => slack_linear true src dst d s (lc_rhs c) (lc_name c) | MContinuous => slack_linear false src dst d s (lc_rhs c) (lc_name c)
      | MAuto => slack_linear (negb (any_float d)) src dst d s (lc_rhs c) (lc_name c) | MOther => Err QiskitOptimizationError end = Ok dst' /\ stepped src dst dst' (lc_name c) [lc_name c] []) as (dst' & E & S).
    { destruct mode; try congruence; apply slack_linear_total; auto; try apply R; try discriminate. intro Ef. now apply negb_true_iff in Ef. }
    exists dst'. split; [exact E|]. apply (reached_step _ _ _ _ _ _ _ _ R) in S. now rewrite app_nil_r in S. }
  destruct (lc_sense c) eqn:Es; [apply G; congruence|apply G; congruence|].
  destruct (linear_call dst d (SVal EQ) EQ (lc_rhs c) (lc_name c)) as [e E]; auto; [apply R|eapply incl_tran; eauto|].
  rewrite E. eexists. split; [reflexivity|]. rewrite app_nil_r. destruct R as [R1 R2 R3 R4]. constructor; auto.
    + apply add_lc_exact; auto. eapply missing_fresh; [apply R1|]. exact Nl'.
    + cbn. rewrite map_app. cbn. congruence.
Qed.
Lemma ineq_quadratic_total dst done ln qn c : reached dst done ln qn -> lin_wf (qc_lin c) -> quad_wf (qc_quad c) -> In c (p_qcs src) ->
  qc_name c <> EmptyString -> ~ In (qc_name c) qn -> (qc_sense c <> EQ -> ~ In (qc_name c) done) ->
  exists dst', ineq_quadratic mode src dst c = Ok dst' /\
    reached dst' (done ++ (match qc_sense c with EQ => [] | _ => [qc_name c] end)) ln (qn ++ [qc_name c]).
Proof using W D SF M MI.
  intros R We Wq Hc Nn Nl Nd. destruct D as (_ & _ & _ & D4). rewrite Forall_forall in D4. destruct (D4 c Hc) as [D5 D6].
  destruct (lin_names_total src W (qc_lin c) We D5) as [d Ed]. destruct (quad_names_total src (qc_quad c) Wq D6) as [d2 Ed2]. unfold ineq_quadratic. rewrite Ed. cbn [bind]. rewrite Ed2. cbn [bind].
  destruct (lin_names_dict _ _ _ (prog_wf_nodup _ W) We Ed) as [(D1 & D2 & _) _]. destruct (quad_names_dict _ _ _ (prog_wf_nodup _ W) Wq Ed2) as [(D7 & D8 & _) _].
  assert (incl (map fst d) (var_names src)) as I. { intros a Ha. apply in_map_iff in Ha. destruct Ha as ([a' v] & <- & Ha). eapply D2; eauto. }
  assert (forall a b, In (a, b) (map fst d2) -> In a (var_names src) /\ In b (var_names src)) as I2.
  { intros a b Ha. apply in_map_iff in Ha. destruct Ha as ([[a' b'] v] & [= <- <-] & Ha). eapply D8; eauto. }
  pose proof (reached_incl _ _ _ _ R) as I0.
  assert (~ In (qc_name c) (map qc_name (p_qcs dst))) as Nl' by (rewrite (re_qcs _ _ _ _ R); exact Nl).
  assert (qc_sense c <> EQ -> forall i, ~ In (slack_name i (qc_name c)) (var_names dst)) as Fr.
  { intros Ns i. apply (slack_fresh dst done ln qn); auto. apply in_or_app. right. unfold quad_ineqs. apply in_map, filter_In. split; auto. destruct (qc_sense c); congruence. }
  assert (qc_sense c <> EQ -> mode = MInteger -> any_float d = false /\ any_float d2 = false) as Fl.
  { intros Ns E. destruct (MI E) as [_ M1]. rewrite Forall_forall in M1. destruct (M1 c Hc Ns) as [M2 M3]. split; [exact (names_integral _ _ We (prog_wf_nodup _ W) Ed M2)|exact (names2_integral _ _ Wq (prog_wf_nodup _ W) Ed2 M3)]. }
  assert (forall s, s <> EQ -> qc_sense c = s -> exists dst', match mode with MInteger => slack_quadratic true src dst d d2 s (qc_rhs c) (qc_name c) | MContinuous => slack_quadratic false src dst d d2 s (qc_rhs c) (qc_name c)
      | MAuto => slack_quadratic (negb (any_float d || any_float d2)) src dst d d2 s (qc_rhs c) (qc_name c) | MOther => Err QiskitOptimizationError end = Ok dst' /\ reached dst' (done ++ [qc_name c]) ln (qn ++ [qc_name c])) as G.
  { intros s Ns Es. rewrite Es in *. specialize (Fr Ns). specialize (Fl Ns).
    assert (exists dst', match mode with MInteger => slack_quadratic true src dst d d2 s (qc_rhs c) (qc_name c) | MContinuous => slack_quadratic false src dst d d2 s (qc_rhs c) (qc_name c)
      | MAuto => slack_quadratic (negb (any_float d || any_float d2)) src dst d d2 s (qc_rhs c) (qc_name c) | MOther => Err QiskitOptimizationError end = Ok dst' /\ stepped src dst dst' (qc_name c) [] [qc_name c]) as (dst' & E & S).
    { destruct mode; try congruence; apply slack_quadratic_total; auto; try apply R; try discriminate.
      intro Ef. apply negb_true_iff, orb_false_iff in Ef. exact Ef. }
    exists dst'. split; [exact E|]. apply (reached_step _ _ _ _ _ _ _ _ R) in S. now rewrite app_nil_r in S. }
  destruct (qc_sense c) eqn:Es; [apply G; congruence|apply G; congruence|].
  destruct (quadratic_call dst d d2 (SVal EQ) EQ (qc_rhs c) (qc_name c)) as (e & e2 & E); auto; [apply R|eapply incl_tran; eauto|intros a b Ha; destruct (I2 a b Ha); auto|].
  rewrite E. eexists. split; [reflexivity|]. rewrite app_nil_r. destruct R as [R1 R2 R3 R4]. constructor; auto.
  - apply add_qc_exact; auto. eapply missing_fresh; [apply R1|]. exact Nl'.
  - cbn. rewrite map_app. cbn. congruence.
Qed.
Definition linq (cs : list lincon) : list string := map lc_name (filter (fun c => match lc_sense c with EQ => false | _ => true end) cs).
Definition quadq (cs : list quadcon) : list string := map qc_name (filter (fun c => match qc_sense c with EQ => false | _ => true end) cs).
Lemma linq_in cs s : In s (linq cs) -> In s (map lc_name cs).
Proof using. unfold linq. rewrite !in_map_iff. intros (c & E & H). apply filter_In in H. exists c. tauto. Qed.
Lemma quadq_in cs s : In s (quadq cs) -> In s (map qc_name cs).
Proof using. unfold quadq. rewrite !in_map_iff. intros (c & E & H). apply filter_In in H. exists c. tauto. Qed.
Lemma ineq_linears_total cs : forall dst done ln, reached dst done ln [] -> incl cs (p_lcs src) -> Forall (fun c => lin_wf (lc_lin c)) cs ->
  Forall (fun c => lc_name c <> EmptyString) cs -> NoDup (ln ++ map lc_name cs) -> incl done ln ->
  exists dst', foldM (ineq_linear mode src) cs dst = Ok dst' /\ reached dst' (done ++ linq cs) (ln ++ map lc_name cs) [].
Proof using W D SF M MI.
  induction cs as [|c cs IH]; intros dst done ln R Ic Wf Nn Nd Id; cbn [foldM].
  - exists dst. unfold linq. cbn. now rewrite !app_nil_r.
  - inversion Wf; inversion Nn; subst. cbn [map] in Nd. pose proof (NoDup_remove _ _ _ Nd) as [N1 N2].
    assert (~ In (lc_name c) ln) as Nl by (intro; apply N2, in_or_app; now left).
    destruct (ineq_linear_total dst done ln [] c R) as (d1 & E & R1); auto; [apply Ic; now left|].
    rewrite E. cbn [bind]. destruct (IH d1 _ _ R1) as (dst' & E' & R'); auto.
    + intros a Ha. apply Ic. now right.
    + rewrite <- app_assoc. exact Nd.
    + intros a Ha. apply in_app_or in Ha. apply in_or_app. destruct Ha as [Ha|Ha]; [left; auto|]. right. destruct (lc_sense c); cbn in Ha |- *; tauto.
    + exists dst'. split; auto. cbn [map]. replace (linq (c :: cs)) with ((match lc_sense c with EQ => [] | _ => [lc_name c] end) ++ linq cs); [|unfold linq; cbn; destruct (lc_sense c); reflexivity].
      rewrite <- !app_assoc in R'. exact R'.
Qed.
Lemma ineq_quadratics_total cs : forall dst done dq ln qn, reached dst (done ++ dq) ln qn -> incl cs (p_qcs src) ->
  Forall (fun c => lin_wf (qc_lin c) /\ quad_wf (qc_quad c)) cs ->
  Forall (fun c => qc_name c <> EmptyString) cs -> NoDup (qn ++ map qc_name cs) -> incl dq qn -> (forall s, In s (quadq cs) -> ~ In s done) ->
  exists dst', foldM (ineq_quadratic mode src) cs dst = Ok dst' /\ reached dst' (done ++ dq ++ quadq cs) ln (qn ++ map qc_name cs).
Proof using W D SF M MI.
  induction cs as [|c cs IH]; intros dst done dq ln qn R Ic Wf Nn Nd Id Ix; cbn [foldM].
  - exists dst. unfold quadq. cbn. now rewrite !app_nil_r.
  - inversion Wf as [|? ? [Wl Wq]]; inversion Nn; subst. cbn [map] in Nd. pose proof (NoDup_remove _ _ _ Nd) as [N1 N2].
    assert (~ In (qc_name c) qn) as Nl by (intro; apply N2, in_or_app; now left).
    assert (quadq (c :: cs) = (match qc_sense c with EQ => [] | _ => [qc_name c] end) ++ quadq cs) as Q by (unfold quadq; cbn; destruct (qc_sense c); reflexivity).
    destruct (ineq_quadratic_total dst (done ++ dq) ln qn c R) as (d1 & E & R1); auto; [apply Ic; now left| |].
    { intros Ns Hin. apply in_app_or in Hin. destruct Hin as [Hin|Hin]; [|auto]. revert Hin. apply Ix. rewrite Q. destruct (qc_sense c); try congruence; now left. }
    rewrite E. cbn [bind]. rewrite <- app_assoc in R1. destruct (IH d1 _ _ _ _ R1) as (dst' & E' & R'); auto.
    + intros a Ha. apply Ic. now right.
    + rewrite <- app_assoc. exact Nd.
    + intros a Ha. apply in_app_or in Ha. apply in_or_app. destruct Ha as [Ha|Ha]; [left; auto|]. right. destruct (qc_sense c); cbn in Ha |- *; tauto.
    + intros s Hs. apply Ix. rewrite Q. apply in_or_app. now right.
    + exists dst'. split; auto. cbn [map]. rewrite Q. rewrite <- !app_assoc in R'. exact R'.
Qed.
Theorem ineq_total : exists dst, ineq_to_eq mode src = Ok dst /\ reached dst (lin_ineqs src ++ quad_ineqs src) (map lc_name (p_lcs src)) (map qc_name (p_qcs src)).
Proof using W D SF M MI.
  pose proof W as (F & Fl & Fq & B & (W1 & W2 & W3 & W4) & N1 & N2). pose proof D as (D1 & D2 & _).
  pose proof (prog_wf_nodup _ W) as ND. unfold ineq_to_eq.
  destruct (copy_vars_total (p_vars src) (new_qp (p_name src))) as [d0 E0]; [apply idx_exact_new|exact ND|exact B|].
  rewrite E0. cbn [bind]. pose proof E0 as C0. apply copy_vars_inv in C0; [|apply idx_exact_new]. destruct C0 as (X0 & V0 & L0 & _ & Q0 & _).
  assert (var_names d0 = var_names src) as M0 by (unfold var_names; rewrite V0; cbn; apply var_names_copy).
  destruct (lin_names_total src W _ W1 D1) as [d Ed]. destruct (quad_names_total src _ W2 D2) as [d2 Ed2]. rewrite Ed. cbn [bind]. rewrite Ed2. cbn [bind].
  destruct (lin_names_dict _ _ _ ND W1 Ed) as [(_ & I1 & _) _]. destruct (quad_names_dict _ _ _ ND W2 Ed2) as [(_ & I2 & _) _].
  destruct (objective_call d0 (o_sense (p_obj src)) (o_const (p_obj src)) d d2 X0) as (e & e2 & E1).
  { rewrite M0. intros a Ha. apply in_map_iff in Ha. destruct Ha as ([a' v] & <- & Ha). eapply I1; eauto. }
  { rewrite M0. intros a b Ha. apply in_map_iff in Ha. destruct Ha as ([[a' b'] v] & [= <- <-] & Ha). eapply I2; eauto. }
  rewrite E1. cbn [bind]. set (d1 := set_obj _ d0).
  assert (reached d1 [] [] []) as R0.
  { constructor; [now apply set_obj_exact| |cbn; now rewrite L0|cbn; now rewrite Q0]. exists []. rewrite app_nil_r. split; [exact V0|constructor]. }
  destruct (ineq_linears_total (p_lcs src) d1 [] [] R0) as (dl & E2 & R1); auto; [apply incl_refl|exact (index_finds_nodup _ _ Fl)|apply incl_refl|].
  rewrite E2. cbn [bind]. cbn [app] in R1. rewrite <- (app_nil_r (linq (p_lcs src))) in R1.
  destruct (ineq_quadratics_total (p_qcs src) dl _ [] _ [] R1) as (dq & E3 & R2); auto; [apply incl_refl|exact (index_finds_nodup _ _ Fq)|apply incl_refl| |].
  { intros s Hs Hl. destruct SF as [_ S]. exact (S s Hl Hs). }
  exists dq. split; [exact E3|]. exact R2.
Qed.
End Ineq.

(** ** IntegerToBinary *)
Lemma at_split a : forall b d e, all_chars is_digit d = true -> all_chars is_digit e = true -> (a ++ "@" ++ d)%string = (b ++ "@" ++ e)%string -> a = b /\ d = e.
Proof.
  assert (forall b d e, all_chars is_digit d = true -> d = (b ++ "@" ++ e)%string -> False) as N.
  { intros b d e H ->. rewrite all_chars_app in H. cbn in H. rewrite andb_false_r in H. discriminate. }
  induction a as [|x a IH]; intros [|y b] d e Hd He E; cbn [String.append] in E.
  - injection E as ->. auto.
  - injection E as _ E. exfalso. exact (N _ _ _ Hd E).
  - injection E as _ E. exfalso. exact (N _ _ _ He (eq_sym E)).
  - injection E as -> E. destruct (IH b d e Hd He E) as [-> ->]. auto.
Qed.
Lemma bit_name_inj a b i j : (a ++ "@" ++ str_nat i)%string = (b ++ "@" ++ str_nat j)%string -> a = b /\ i = j.
Proof. intro E. apply at_split in E; try apply str_nat_digits. destruct E as [-> E]. split; auto. now apply str_nat_inj. Qed.
Lemma int_log2_total r : (0 < r)%Qc -> exists z, int_log2 r = Ok z.
Proof.
  intro H. unfold int_log2. destruct (qltb_spec r 0) as [K|_]; [exfalso; qlra|]. destruct (qeqb_spec r 0) as [K|_]; [exfalso; qlra|]. destruct (qleb 1 r); eauto.
Qed.
Lemma convert_var_total nm lb ub : (lb < ub)%Qc -> exists bits, convert_var nm lb ub = Ok bits.
Proof. intro H. destruct (int_log2_total (ub - lb)) as [z E]; [qlra|]. unfold convert_var. cbv zeta. rewrite E. cbn [bind]. eauto. Qed.
Lemma convert_var_fixed nm lb ub : lb = ub -> convert_var nm lb ub = Err OverflowError.
Proof.
  intros ->. unfold convert_var, int_log2. replace (ub - ub)%Qc with 0%Qc by ring. reflexivity.
Qed.
Lemma int_to_bin_fixed p v e : In v (p_vars p) -> v_type v = INTEGER -> convert_var (v_name v) (v_lb v) (v_ub v) = Err e -> exists e', int_to_bin p = Err e'.
Proof.
  intros Hv T E. unfold int_to_bin, count_type. replace (0 <? _) with true.
  - assert (exists i, In (i, v) (combine (seq 0 (num_vars p)) (p_vars p))) as [i Hi].
    { unfold num_vars. generalize 0. clear T E e. induction (p_vars p) as [|w l IH]; [destruct Hv|]. intro k. simpl. destruct Hv as [->|Hv]; [eauto|]. destruct (IH Hv (S k)) as [i Hi]. eauto. }
    assert (forall l s, In (i, v) l -> exists e', foldM i2b_declare l s = Err e') as F.
    { clear Hi. induction l as [|a l IH]; intros s []; cbn [foldM].
      - subst a. unfold i2b_declare at 1. cbn [fst snd]. rewrite T, E. cbn [bind]. eauto.
      - destruct (i2b_declare s a); cbn [bind]; eauto. }
    destruct (F _ (new_qp (p_name p), []) Hi) as [e' ->]. cbn [bind]. eauto.
  - symmetry. apply Nat.ltb_lt. assert (In v (filter (fun v => vartype_eqb (v_type v) INTEGER) (p_vars p))) as H by (apply filter_In; rewrite T; auto).
    destruct (filter _ _); [destruct H|simpl; lia].
Qed.
Lemma convert_var_names nm lb ub bits : convert_var nm lb ub = Ok bits ->
  exists n, map fst bits = map (fun i => (nm ++ "@" ++ str_nat i)%string) (seq 0 n).
Proof.
  unfold convert_var. cbv zeta. destruct (int_log2 _) as [z|]; [|discriminate]. cbn [bind]. intros [= <-]. rewrite map_map. cbn [fst].
  set (co := enc_coeffs _ _). exists (length co). generalize 0 as k. induction co as [|c co IH]; intro k; cbn; [reflexivity|]. now rewrite IH.
Qed.
Lemma xp_shape v : (v_type v = INTEGER -> (v_lb v < v_ub v)%Qc) ->
  (v_type v <> INTEGER /\ map fst (xp v) = [v_name v]) \/
  (v_type v = INTEGER /\ exists n, map fst (xp v) = map (fun i => (v_name v ++ "@" ++ str_nat i)%string) (seq 0 n)).
Proof.
  intro R. unfold xp, is_int. destruct (v_type v) eqn:E; [left; split; [discriminate|reflexivity]|left; split; [discriminate|reflexivity]|right]. split; auto. unfold bits_of. destruct (convert_var_total (v_name v) _ _ (R eq_refl)) as [bits Eb]. rewrite Eb. eapply convert_var_names; eauto.
Qed.
Lemma xp_nodup p : NoDup (var_names p) -> proper_ranges p -> bits_free p -> NoDup (xp_names (p_vars p)).
Proof.
  intros ND PR BF. unfold xp_names.
  enough (forall l, incl l (p_vars p) -> NoDup (map v_name l) -> NoDup (flat_map (fun v => map fst (xp v)) l)) as G by (apply G; [apply incl_refl|exact ND]).
  clear ND. unfold proper_ranges in PR. rewrite Forall_forall in PR.
  induction l as [|v l IH]; intros I N; cbn [flat_map]; [constructor|]. inversion N as [|? ? N1 N2]; subst.
  apply NoDup_app_intro; [|apply IH; auto; intros a Ha; apply I; now right|].
  - destruct (xp_shape v (PR v (I v (or_introl eq_refl)))) as [[_ ->]|[_ (n & ->)]]; [repeat constructor; intros []|].
    apply FinFun.Injective_map_NoDup; [|apply seq_NoDup]. intros i j E. now apply bit_name_inj in E.
  - intros s Hs Hl. apply in_flat_map in Hl. destruct Hl as (w & Hw & Hl). assert (v_name v <> v_name w) as Nvw by (intro E; apply N1; rewrite E; now apply in_map).
    assert (In v (p_vars p)) as Iv by (apply I; now left). assert (In w (p_vars p)) as Iw by (apply I; now right).
    destruct (xp_shape v (PR v Iv)) as [[Tv Ev]|[Tv (n & Ev)]], (xp_shape w (PR w Iw)) as [[Tw Ew]|[Tw (m & Ew)]]; rewrite Ev in Hs; rewrite Ew in Hl.
    + destruct Hs as [<-|[]], Hl as [E|[]]. congruence.
    + destruct Hs as [<-|[]]. apply in_map_iff in Hl. destruct Hl as (k & E & _). symmetry in E. revert E. now apply BF.
    + destruct Hl as [<-|[]]. apply in_map_iff in Hs. destruct Hs as (k & E & _). symmetry in E. revert E. now apply BF.
    + apply in_map_iff in Hs, Hl. destruct Hs as (k & <- & _), Hl as (k' & E & _). apply bit_name_inj in E. destruct E as [E _]. congruence.
Qed.
Lemma declare_bits_total bits : forall p, idx_exact p -> NoDup (var_names p ++ map fst bits) -> exists q, declare_bits p bits = Ok q.
Proof.
  unfold declare_bits. induction bits as [|b bits IH]; intros p X N; cbn [foldM]; [eauto|]. cbn [map] in N. pose proof (NoDup_remove _ _ _ N) as [N1 N2].
  assert (~ In (fst b) (var_names p)) as F by (intro; apply N2, in_or_app; now left).
  unfold binary_var at 1. rewrite add_variable_total; auto; [|qlra]. cbn [bind]. apply IH.
  - apply add_var_exact; auto. now apply exact_fresh.
  - rewrite add_var_names. cbn [v_name]. rewrite <- app_assoc. exact N.
Qed.
Lemma declare_total l : forall k st, idx_exact (fst st) -> NoDup (var_names (fst st) ++ xp_names l) ->
  Forall (fun v => (v_type v = INTEGER -> (v_lb v < v_ub v)%Qc) /\ (v_lb v <= v_ub v)%Qc) l ->
  exists st', foldM i2b_declare (combine (seq k (length l)) l) st = Ok st'.
Proof.
  induction l as [|v l IH]; intros k st X N B; cbn [length seq combine foldM]; [eauto|]. inversion B as [|? ? [B1 B2] B3]; subst.
  unfold xp_names in N. cbn [flat_map] in N.
  assert (exists d t, i2b_declare st (k, v) = Ok (d, t) /\ idx_exact d /\ var_names d = var_names (fst st) ++ map fst (xp v)) as (d & t & E & Xd & V).
  { unfold i2b_declare, xp, is_int in *. cbn [fst snd]. destruct (v_type v) eqn:Ty; [| |].
    all: try (assert (~ In (v_name v) (var_names (fst st))) as F by (intro Hin; cbn [map fst app] in N; apply NoDup_remove_2 in N; apply N, in_or_app; now left);
              rewrite copy_var_total by auto; cbn [bind]; eexists _, _; split; [reflexivity|]; split; [apply add_var_exact; auto; rewrite copyv_name; now apply exact_fresh|];
              rewrite add_var_names, copyv_name; reflexivity).
    unfold bits_of in N |- *. destruct (convert_var_total (v_name v) _ _ (B1 eq_refl)) as [bits Eb]. rewrite Eb in N |- *. cbn [bind].
    destruct (declare_bits_total bits (fst st) X) as [d Ed].
    { rewrite app_assoc in N. clear -N. revert N. generalize (var_names (fst st) ++ map fst bits) as u. induction u as [|a u IHu]; cbn; intro N; [constructor|]. inversion N as [|? ? N1 N2]; subst. constructor; auto. intro Hin. apply N1, in_or_app. now left. }
    rewrite Ed. cbn [bind]. eexists _, _. split; [reflexivity|]. apply declare_bits_inv in Ed; auto. destruct Ed as (A1 & A2 & _). split; auto.
    unfold var_names. rewrite A2, map_app, map_map. reflexivity. }
  rewrite E. cbn [bind]. apply (IH (S k) (d, t)); auto. cbn [fst]. rewrite V, <- app_assoc. exact N.
Qed.

Section SubTotal.
Variables (src : qp) (conv : nat -> option (list (string * Qc))).
Hypothesis W : prog_wf src.
Hypothesis D : dims_fit src.
Hypothesis Hconv : forall i v, nth_error (p_vars src) i = Some v -> conv i = if is_int v then Some (bits_of v) else None.
Hypothesis ND : NoDup (xp_names (p_vars src)).
Let names' := xp_names (p_vars src).
Let F := proj1 W : index_finds (var_names src) (p_vidx src).

Definition lin_ok (l : list (string * Qc)) : Prop := incl (map fst l) names'.
Definition quad_ok (q : list ((string * string) * Qc)) : Prop := forall a b, In (a, b) (map fst q) -> In a names' /\ In b names'.
Lemma dset_ok a b w q : In a names' -> In b names' -> quad_ok q -> quad_ok (dset str2_eqb (a, b) w q).
Proof using. intros Ha Hb Q x y H. apply (dset_keys _ str2_eqb_sp) in H. destruct H as [H|H]; [injection H as -> ->; auto|auto]. Qed.
Lemma dadd_ok a w l : In a names' -> lin_ok l -> lin_ok (dadd String.eqb a w l).
Proof using. intros Ha L x H. apply (SubstTotal.dadd_keys _ str_eqb_sp) in H. destruct H as [->|H]; auto. Qed.
Lemma fold_ok {A S} (P : S -> Prop) (f : S -> A -> S) l : (forall s a, In a l -> P s -> P (f s a)) -> forall s, P s -> P (fold_left f l s).
Proof using. induction l as [|a l IH]; intros H s Hs; cbn; auto. apply IH; [intros; apply H; auto; now right|]. apply H; auto. now left. Qed.
Lemma i2b_quad_total d : (forall s t v, In ((s, t), v) d -> In s (var_names src) /\ In t (var_names src)) ->
  exists q l c, i2b_quadratic src conv d = Ok (q, l, c) /\ quad_ok q /\ lin_ok l.
Proof using W Hconv F.
  intro I. unfold i2b_quadratic.
  enough (forall d q0 l0 c0, (forall s t v, In ((s, t), v) d -> In s (var_names src) /\ In t (var_names src)) -> quad_ok q0 -> lin_ok l0 ->
    exists q l c, foldM (i2b_term src conv) d (q0, l0, c0) = Ok (q, l, c) /\ quad_ok q /\ lin_ok l) as G.
  { apply G; auto; [intros a b []|intros a []]. }
  clear d I. induction d as [|[[s t] w] d IH]; intros q0 l0 c0 I Q L; cbn [foldM]; [eauto 8|].
  destruct (I s t w (or_introl eq_refl)) as [Is It].
  destruct (vof_spec src conv F Hconv s Is) as (i & X1 & X2 & X3 & _ & _ & X4). destruct (vof_spec src conv F Hconv t It) as (j & Y1 & Y2 & Y3 & _ & _ & Y4).
  pose proof (fun z => vof_block_in src conv F Hconv s z Is) as Bs. pose proof (fun z => vof_block_in src conv F Hconv t z It) as Bt. fold names' in Bs, Bt.
  assert (exists q1 l1 c1, i2b_term src conv (q0, l0, c0) (s, t, w) = Ok (q1, l1, c1) /\ quad_ok q1 /\ lin_ok l1) as (q1 & l1 & c1 & E & Q1 & L1).
  { unfold i2b_term. cbn [fst snd]. rewrite X1. cbn [bind]. rewrite X2. cbn [bind]. rewrite Y1. cbn [bind]. rewrite Y2. cbn [bind]. rewrite X4, Y4, X3, Y3.
    unfold xp in Bs, Bt. destruct (is_int (vof src s)), (is_int (vof src t)); (eexists _, _, _; split; [reflexivity|]); split.
    - apply fold_ok; auto. intros q b Hb Hq. apply fold_ok; auto. intros q' b' Hb' Hq'. apply dset_ok; auto; [apply Bs|apply Bt]; now apply in_map.
    - apply fold_ok. { intros l b Hb Hl. apply dadd_ok; auto. apply Bt. now apply in_map. } apply fold_ok; auto. intros l b Hb Hl. apply dadd_ok; auto. apply Bs. now apply in_map.
    - apply fold_ok; auto. intros q b Hb Hq. apply dset_ok; auto; [apply Bs; now apply in_map|apply Bt; left; exact Y3].
    - apply dadd_ok; auto. apply Bt. left. exact Y3.
    - apply fold_ok; auto. intros q b Hb Hq. apply dset_ok; auto; [apply Bs; left; exact X3|apply Bt; now apply in_map].
    - apply dadd_ok; auto. apply Bs. left. exact X3.
    - apply dset_ok; auto; [apply Bs; left; exact X3|apply Bt; left; exact Y3].
    - exact L. }
  rewrite E. cbn [bind]. apply IH; auto. intros a b v Hin. apply (I a b v). now right.
Qed.
Lemma i2b_lin_total e : lin_wf e -> le_dim e <= num_vars src ->
  exists d l c, lin_to_dict_names (var_names src) e = Ok d /\ i2b_linear src conv d = Ok (l, c) /\ lin_ok l.
Proof using W Hconv ND F.
  intros We L. destruct (lin_names_total src W e We L) as [d Ed]. destruct (lin_names_dict _ _ _ (prog_wf_nodup _ W) We Ed) as [(D1 & D2 & _) _].
  exists d, (lin_image src d), (lin_const src d). split; auto. split; [now apply (i2b_linear_spec src conv F Hconv ND)|].
  intros z Hz. apply lin_image_keys in Hz. destruct Hz as (s & Hs & Hz). apply in_map_iff in Hs. destruct Hs as ([s' v] & <- & Hs). cbn [fst] in Hz.
  apply (vof_block_in src conv F Hconv s'); [eapply D2; eauto|exact Hz].
Qed.
Lemma i2b_quadx_total e : quad_wf e -> qe_dim e <= num_vars src ->
  exists d q l c, quad_to_dict_names (var_names src) false e = Ok d /\ i2b_quadratic src conv d = Ok (q, l, c) /\ quad_ok q /\ lin_ok l.
Proof using W Hconv F.
  intros We L. destruct (quad_names_total src e We L) as [d Ed]. destruct (quad_names_dict _ _ _ (prog_wf_nodup _ W) We Ed) as [(D1 & D2 & _) _].
  destruct (i2b_quad_total d D2) as (q & l & c & E & Q & K). exists d, q, l, c. auto.
Qed.
Lemma merge_ok l m : lin_ok l -> lin_ok m -> lin_ok (merge_linear l m).
Proof using. intros L M. unfold merge_linear. apply fold_ok; auto. intros s [k w] Hin Hs. apply dadd_ok; auto. apply M. apply (in_map fst _ _ Hin). Qed.

Record i2b_reached (dst : qp) (ln qn : list string) : Prop := {
  ir_tracks : tracks src dst;
  ir_lcs : map lc_name (p_lcs dst) = ln;
  ir_qcs : map qc_name (p_qcs dst) = qn }.
Lemma lincons_total cs : forall dst ln qn, i2b_reached dst ln qn -> incl cs (p_lcs src) -> Forall (fun c => lin_wf (lc_lin c)) cs ->
  Forall (fun c => lc_name c <> EmptyString) cs -> NoDup (ln ++ map lc_name cs) ->
  exists dst', foldM (i2b_lincon src conv) cs dst = Ok dst' /\ i2b_reached dst' (ln ++ map lc_name cs) qn.
Proof using W D Hconv ND F.
  induction cs as [|c cs IH]; intros dst ln qn R Ic Wf Nn Nd; cbn [foldM]; [exists dst; cbn; now rewrite app_nil_r|].
  inversion Wf; inversion Nn; subst. cbn [map] in Nd. pose proof (NoDup_remove _ _ _ Nd) as [N1 N2].
  assert (~ In (lc_name c) ln) as Nl by (intro; apply N2, in_or_app; now left).
  destruct D as (_ & _ & D3 & _). rewrite Forall_forall in D3.
  destruct (i2b_lin_total (lc_lin c)) as (d & l & k & E1 & E2 & L); auto; [apply D3, Ic; now left|].
  destruct R as [T R1 R2]. pose proof (tracks_names _ _ T) as V. destruct T as [X V0].
  destruct (linear_call dst l (SVal (lc_sense c)) (lc_sense c) (lc_rhs c - k)%Qc (lc_name c)) as [e E]; auto; [congruence|now rewrite V|].
  unfold i2b_lincon at 1. rewrite E1. cbn [bind]. rewrite E2. cbn [bind fst snd]. rewrite E. cbn [bind].
  match goal with |- exists d', foldM _ _ ?x = _ /\ _ => destruct (IH x (ln ++ [lc_name c]) qn) as (dst' & E' & R') end; auto.
  - constructor; [split|cbn; rewrite map_app; cbn; congruence|exact R2].
    + apply add_lc_exact; auto. eapply missing_fresh; [apply X|]. cbn. congruence.
    + exact V0.
  - intros a Ha. apply Ic. now right.
  - rewrite <- app_assoc. exact Nd.
  - exists dst'. split; auto. rewrite <- app_assoc in R'. exact R'.
Qed.
Lemma quadcons_total cs : forall dst ln qn, i2b_reached dst ln qn -> incl cs (p_qcs src) -> Forall (fun c => lin_wf (qc_lin c) /\ quad_wf (qc_quad c)) cs ->
  Forall (fun c => qc_name c <> EmptyString) cs -> NoDup (qn ++ map qc_name cs) ->
  exists dst', foldM (i2b_quadcon src conv) cs dst = Ok dst' /\ i2b_reached dst' ln (qn ++ map qc_name cs).
Proof using W D Hconv ND F.
  induction cs as [|c cs IH]; intros dst ln qn R Ic Wf Nn Nd; cbn [foldM]; [exists dst; cbn; now rewrite app_nil_r|].
  inversion Wf as [|? ? [Wl Wq]]; inversion Nn; subst. cbn [map] in Nd. pose proof (NoDup_remove _ _ _ Nd) as [N1 N2].
  assert (~ In (qc_name c) qn) as Nl by (intro; apply N2, in_or_app; now left).
  destruct D as (_ & _ & _ & D3). rewrite Forall_forall in D3. destruct (D3 c) as [Da Db]; [apply Ic; now left|].
  destruct (i2b_lin_total (qc_lin c)) as (d & l & k & E1 & E2 & L); auto. destruct (i2b_quadx_total (qc_quad c)) as (d2 & q & l2 & k2 & E3 & E4 & Q & L2); auto.
  destruct R as [T R1 R2]. pose proof (tracks_names _ _ T) as V. destruct T as [X V0].
  destruct (quadratic_call dst (merge_linear l l2) q (SVal (qc_sense c)) (qc_sense c) (qc_rhs c - (k + k2))%Qc (qc_name c)) as (e & e2 & E); auto; [congruence|rewrite V; now apply merge_ok|now rewrite V|].
  unfold i2b_quadcon at 1. rewrite E1. cbn [bind]. rewrite E2. cbn [bind fst snd]. rewrite E3. cbn [bind]. rewrite E4. cbn [bind]. rewrite E. cbn [bind].
  match goal with |- exists d', foldM _ _ ?x = _ /\ _ => destruct (IH x ln (qn ++ [qc_name c])) as (dst' & E' & R') end; auto.
  - constructor; [split|exact R1|cbn; rewrite map_app; cbn; congruence].
    + apply add_qc_exact; auto. eapply missing_fresh; [apply X|]. cbn. congruence.
    + exact V0.
  - intros a Ha. apply Ic. now right.
  - rewrite <- app_assoc. exact Nd.
  - exists dst'. split; auto. rewrite <- app_assoc in R'. exact R'.
Qed.
Lemma substitute_total dst : tracks src dst -> p_lcs dst = [] -> p_qcs dst = [] -> exists q, i2b_substitute src conv dst = Ok q.
Proof using W D Hconv ND F.
  intros T Lc Qc0. pose proof W as (_ & Fl & Fq & _ & (W1 & W2 & W3 & W4) & N1 & N2). pose proof D as (D1 & D2 & _).
  unfold i2b_substitute. destruct (i2b_lin_total _ W1 D1) as (d & l & k & E1 & E2 & L). destruct (i2b_quadx_total _ W2 D2) as (d2 & q & l2 & k2 & E3 & E4 & Q & L2).
  rewrite E1. cbn [bind]. rewrite E2. cbn [bind]. rewrite E3. cbn [bind]. rewrite E4. cbn [bind fst snd].
  pose proof (tracks_names _ _ T) as V. destruct T as [X V0].
  destruct (objective_call dst (o_sense (p_obj src)) (o_const (p_obj src) + k + k2)%Qc (merge_linear l l2) q X) as (e & e2 & E); [rewrite V; now apply merge_ok|now rewrite V|].
  rewrite E. cbn [bind]. set (d1 := set_obj _ dst).
  assert (i2b_reached d1 [] []) as R0. { constructor; [split; [now apply set_obj_exact|exact V0]|cbn; now rewrite Lc|cbn; now rewrite Qc0]. }
  destruct (lincons_total (p_lcs src) d1 [] [] R0) as (dl & El & Rl); auto; [apply incl_refl|exact (index_finds_nodup _ _ Fl)|]. rewrite El. cbn [bind].
  destruct (quadcons_total (p_qcs src) dl _ [] Rl) as (dq & Eq & Rq); auto; [apply incl_refl|exact (index_finds_nodup _ _ Fq)|]. eauto.
Qed.
End SubTotal.
Theorem int_to_bin_total p : prog_wf p -> dims_fit p -> proper_ranges p -> bits_free p -> exists r, int_to_bin p = Ok r.
Proof.
  intros W D PR BF. unfold int_to_bin. destruct (0 <? count_type INTEGER p); [|eauto]. pose proof (prog_wf_nodup _ W) as ND0.
  pose proof (xp_nodup p ND0 PR BF) as ND. pose proof W as (_ & _ & _ & B & _).
  destruct (declare_total (p_vars p) 0 (new_qp (p_name p), [])) as [[d0 tbl] E0]; [apply idx_exact_new|exact ND| |].
  { apply Forall_forall. intros v Hv. unfold proper_ranges in PR. unfold bounds_ok in B. rewrite Forall_forall in PR, B. auto. }
  unfold num_vars. rewrite E0. cbn [bind fst snd]. pose proof E0 as A. apply declare_inv in A; [|apply idx_exact_new|reflexivity].
  destruct A as (A1 & A2 & A3 & A4 & A5 & A6 & _). cbn [fst snd] in *.
  destruct (substitute_total p (fun i => dget Nat.eqb i tbl) W D (fun i v Hv => A6 i v Hv) ND d0 (conj A1 A2) A3 A4) as [q E].
  rewrite E. cbn [bind]. eauto.
Qed.

(** ** LinearEqualityToPenalty *)
Lemma index_call_lin dst d : Forall (fun kv => fst kv < num_vars dst) d -> exists e, lin_make (env_of dst) (lcoef_or_empty (by_index d)) = Ok e.
Proof.
  intro H. unfold by_index. cbn [lcoef_or_empty lin_make]. rewrite lin_put_fold.
  match goal with |- exists e, bind (foldM ?f ?l ?s) _ = _ => destruct (foldM_put_ok Nat.eqb (key_pos1 (env_of dst) (ve_n (env_of dst))) l s) as [co E] end.
  - intros k v Hin. apply in_map_iff in Hin. destruct Hin as ([i w] & [= <- <-] & Hin). rewrite Forall_forall in H. specialize (H _ Hin). cbn [fst] in *. exists i.
    unfold key_pos1. cbn. unfold dok_index. now rewrite py_index_nat.
  - rewrite E. cbn [bind]. eauto.
Qed.
Lemma index_call_quad dst d : Forall (fun kv => fst (fst kv) < num_vars dst /\ snd (fst kv) < num_vars dst) d -> exists e, quad_make (env_of dst) (qcoef_or_empty (by_index2 d)) = Ok e.
Proof.
  intro H. unfold by_index2. cbn [qcoef_or_empty quad_make]. rewrite quad_put_fold.
  match goal with |- exists e, bind (foldM ?f ?l ?s) _ = _ => destruct (foldM_put_ok nat2_eqb (key_pos2 (env_of dst) (ve_n (env_of dst))) l s) as [co E] end.
  - intros k v Hin. apply in_map_iff in Hin. destruct Hin as ([[i j] w] & [= <- <-] & Hin). rewrite Forall_forall in H. destruct (H _ Hin) as [H1 H2]. cbn [fst snd] in *. exists (i, j).
    unfold key_pos2. cbn [fst snd resolve bind]. change (ve_n (env_of dst)) with (num_vars dst). unfold dok_index. rewrite !py_index_nat by assumption. reflexivity.
  - rewrite E. cbn [bind]. eauto.
Qed.
Lemma Forall_keys {K} (P : K -> Prop) (eqb : K -> K -> bool) (sp : forall a b, reflect (a = b) (eqb a b)) k w (d : list (K * Qc)) :
  P k -> Forall (fun kv => P (fst kv)) d -> Forall (fun kv => P (fst kv)) (dadd eqb k w d).
Proof.
  intros Pk H. apply Forall_forall. intros [k' v] Hin. cbn. apply (in_map fst) in Hin. apply (SubstTotal.dadd_keys _ sp) in Hin. cbn in Hin. destruct Hin as [->|Hin]; auto.
  apply in_map_iff in Hin. destruct Hin as ([k2 v2] & <- & Hin). rewrite Forall_forall in H. apply (H _ Hin).
Qed.
Theorem penalize_total c p : prog_wf p -> dims_fit p -> all_equations p -> exists q, penalize c p = Ok q.
Proof.
  intros W D AE. pose proof W as (F & _ & _ & B & ((_ & W1) & (_ & W2) & W3 & _) & _). pose proof D as (D1 & D2 & D3 & _). pose proof (prog_wf_nodup _ W) as ND. unfold penalize.
  destruct (copy_vars_total (p_vars p) (new_qp (p_name p))) as [d0 E0]; [apply idx_exact_new|exact ND|exact B|].
  rewrite E0. cbn [bind]. pose proof E0 as C0. apply copy_vars_inv in C0; [|apply idx_exact_new]. destruct C0 as (X0 & V0 & _).
  assert (num_vars d0 = num_vars p) as Nv by (unfold num_vars; rewrite V0; cbn; apply map_length).
  set (n := num_vars p) in *. set (s := sense_val (o_sense (p_obj p))).
  set (P := fun st : Qc * list (nat * Qc) * list ((nat * nat) * Qc) => Forall (fun kv => fst kv < n) (snd (fst st)) /\ Forall (fun kv => fst (fst kv) < n /\ snd (fst kv) < n) (snd st)).
  enough (forall cs st, Forall (fun c => lc_sense c = EQ) cs -> Forall (fun c => lin_wf (lc_lin c)) cs -> Forall (fun c => le_dim (lc_lin c) <= n) cs -> P st ->
    exists st', foldM (pen_con s c) cs st = Ok st' /\ P st') as G.
  { destruct (G (p_lcs p) (o_const (p_obj p), lin_to_dict (o_lin (p_obj p)), quad_to_dict false (o_quad (p_obj p))) AE W3 D3) as ([[o l] q] & E & [P1 P2]).
    { split; cbn [fst snd].
      - unfold lin_to_dict. eapply Forall_impl; [|exact W1]. cbv beta. intros; lia.
      - unfold quad_to_dict. eapply Forall_impl; [|exact W2]. cbv beta. intros; lia. }
    rewrite E. cbn [bind fst snd] in *. rewrite <- Nv in P1, P2. destruct (index_call_lin d0 l P1) as [e E1]. destruct (index_call_quad d0 q P2) as [e2 E2].
    unfold set_objective, obj_make. unfold by_index, by_index2 in *. cbn [lcoef_or_empty qcoef_or_empty] in *. rewrite E1. cbn [bind]. rewrite E2. cbn. eauto. }
  clear - s P. induction cs as [|k cs IH]; intros st A Wf Dm Pst; cbn [foldM]; [eauto|]. inversion A as [|? ? A1 A2]; inversion Wf as [|? ? [_ Wa] Wb]; inversion Dm as [|? ? Da Db]; subst.
  unfold pen_con at 1. rewrite A1. destruct st as [[o l] q]. cbn [bind]. apply IH; auto. destruct Pst as [P1 P2]. cbn [fst snd] in *.
  assert (forall kv, In kv (lin_to_dict (lc_lin k)) -> fst kv < n) as K.
  { intros kv Hin. rewrite Forall_forall in Wa. specialize (Wa _ Hin). lia. }
  split; cbn [fst snd].
  - apply fold_ok; auto. intros d kv Hin Hd. apply (Forall_keys (fun i => i < n) _ nat_eqb_sp); auto.
  - apply fold_ok; auto. intros d kv Hin Hd. apply fold_ok; auto. intros d' kw Hin' Hd'. apply (Forall_keys (fun ij => fst ij < n /\ snd ij < n) _ nat2_eqb_sp); cbn; auto.
Qed.

(** ** QuadraticProgramToQubo *)
Lemma ie_dims mode src dst sv DD : ieinv mode src dst sv DD -> dims_fit dst.
Proof.
  intros I. destruct (ie_objfit _ _ _ _ _ I) as ((_ & A) & _ & B). destruct (ie_fit _ _ _ _ _ I) as [C1 C2]. repeat split; auto.
  - eapply Forall_impl; [|exact C1]. cbv beta. tauto.
  - eapply Forall_impl; [|exact C2]. cbv beta. tauto.
Qed.

Lemma lin_make_dim env d e : lin_make env (lcoef_or_empty (by_name d)) = Ok e -> le_dim e = ve_n env.
Proof. unfold by_name. cbn [lcoef_or_empty lin_make]. rewrite lin_put_fold. intro H. apply bind_ok in H. destruct H as (co & _ & [= <-]). reflexivity. Qed.
Lemma quad_make_dim env d e : quad_make env (qcoef_or_empty (by_name2 d)) = Ok e -> qe_dim e = ve_n env.
Proof. intro H. apply quad_make_spec in H. destruct H as (_ & _ & _ & D & _). exact D. Qed.
Lemma foldM_keep_inv {A S} (P : S -> Prop) (f : S -> A -> result S) l : (forall s a s', In a l -> P s -> f s a = Ok s' -> P s') -> forall s s', P s -> foldM f l s = Ok s' -> P s'.
Proof.
  induction l as [|a l IH]; intros H s s' Ps E; cbn [foldM] in E; [now injection E as <-|]. apply bind_ok in E. destruct E as (s1 & E1 & E2).
  apply (IH (fun s a s' Ha => H s a s' (or_intror Ha)) s1); auto. apply (H s a); auto. now left.
Qed.
Lemma int_to_bin_dims p q tbl : prog_wf p -> dims_fit p -> all_equations p -> int_to_bin p = Ok (q, tbl) -> dims_fit q /\ all_equations q.
Proof.
  intros W D A E. unfold int_to_bin in E. destruct (0 <? count_type INTEGER p); [|injection E as <- <-; auto].
  apply bind_ok in E. destruct E as ([d0 t0] & E0 & E). apply bind_ok in E. destruct E as (q' & E1 & [= <- <-]). cbn [fst snd] in *.
  unfold num_vars in E0. apply declare_inv in E0; [|apply idx_exact_new|reflexivity]. destruct E0 as (_ & _ & Z1 & Z2 & _). cbn [fst snd new_qp p_lcs p_qcs] in Z1, Z2.
  pose proof W as (_ & _ & _ & _ & _ & N1 & N2). rewrite Forall_forall in N1, N2. unfold all_equations in *. rewrite Forall_forall in A.
  unfold i2b_substitute in E1. apply bind_ok in E1. destruct E1 as (d & _ & E1). apply bind_ok in E1. destruct E1 as (lc & _ & E1). apply bind_ok in E1. destruct E1 as (d2 & _ & E1).
  apply bind_ok in E1. destruct E1 as ([[qq ql] qk] & _ & E1). apply bind_ok in E1. destruct E1 as (o1 & Eo & E1). apply bind_ok in E1. destruct E1 as (l1 & El & Eq).
  set (P := fun x => dims_fit x /\ Forall (fun c => lc_sense c = EQ) (p_lcs x)).
  assert (P o1) as P0.
  { apply set_objective_inv in Eo. destruct Eo as (e & e2 & M1 & M2 & ->). apply lin_make_dim in M1. apply quad_make_dim in M2. cbn in M1, M2.
    split; [|cbn; rewrite Z1; constructor]. unfold dims_fit. cbn. rewrite Z1, Z2. unfold num_vars in *. cbn. repeat split; try constructor; lia. }
  assert (P l1) as P1.
  { revert El. apply foldM_keep_inv; auto. intros x c y Hc [Dx Ax] H. unfold i2b_lincon in H. apply bind_ok in H. destruct H as (? & _ & H). apply bind_ok in H. destruct H as (? & _ & H).
    apply linear_constraint_inv in H; [|auto]. destruct H as (sc & e & S & M & -> & _). apply lin_make_dim in M. cbn in S, M. injection S as <-.
    destruct Dx as (Q1 & Q2 & Q3 & Q4). split; [|cbn; apply Forall_app; split; auto; constructor; auto; cbn; auto].
    unfold dims_fit, num_vars in *. cbn. repeat split; auto. apply Forall_app. split; auto. constructor; auto. cbn. lia. }
  change (P q'). revert Eq. apply foldM_keep_inv; auto. intros x c y Hc [Dx Ax] H. unfold i2b_quadcon in H. apply bind_ok in H. destruct H as (? & _ & H). apply bind_ok in H. destruct H as (? & _ & H).
  apply bind_ok in H. destruct H as (? & _ & H). apply bind_ok in H. destruct H as ([[? ?] ?] & _ & H).
  apply quadratic_constraint_inv in H; [|auto]. destruct H as (sc & e & e2 & S & M & M2 & -> & _). apply lin_make_dim in M. apply quad_make_dim in M2. cbn in S, M, M2. injection S as <-.
  destruct Dx as (Q1 & Q2 & Q3 & Q4). split; [|exact Ax].
  unfold dims_fit, num_vars in *. cbn. repeat split; auto. apply Forall_app. split; auto. constructor; auto. cbn. lia.
Qed.

Lemma copyv_proper v : (v_type v = INTEGER -> (v_lb v < v_ub v)%Qc) -> v_type (copyv v) = INTEGER -> (v_lb (copyv v) < v_ub (copyv v))%Qc.
Proof. unfold copyv. destruct (v_type v) eqn:E; cbn; intros H K; try discriminate; auto. congruence. Qed.
Theorem to_qubo_total pen p : prog_wf p -> dims_fit p -> qubo_compatible p = true -> slack_free p -> proper_ranges p -> bits_free p -> slack_bits_free p ->
  exists r, to_qubo pen p = Ok r.
Proof.
  intros W D C SF PR BF SB. unfold to_qubo. rewrite C. apply qubo_compatible_iff in C. destruct C as (Di & Q & Il).
  destruct (ineq_total MInteger p W D SF) as (p1 & E1 & R); [discriminate| |].
  { intros _. split; [|rewrite Q; constructor]. eapply Forall_impl; [|exact Il]. intros c H _. exact H. }
  rewrite E1. cbn [bind]. pose proof (ineq_to_eq_wf _ _ _ E1) as W1. destruct (ineq_to_eq_inv _ _ _ W E1) as (sv & I & _). pose proof (ie_dims _ _ _ _ _ I) as D1.
  destruct R as [_ (l & V & Sl) _ _]. unfold quad_ineqs in Sl. rewrite Q in Sl. cbn [filter map] in Sl. rewrite app_nil_r in Sl. rewrite Forall_forall in Sl.
  destruct (int_to_bin_total p1 W1 D1) as [[p2 tbl] E2].
  - unfold proper_ranges in *. rewrite V. apply Forall_app. split.
    + apply Forall_map. eapply Forall_impl; [|exact PR]. cbv beta. intros v. apply copyv_proper.
    + apply Forall_forall. intros v Hv _. destruct (Sl v Hv) as (i & c & _ & _ & H & _). exact H.
  - unfold bits_free. rewrite V. intros v w k Hv Hw Tv Tw.
    assert (exists w0, In w0 (p_vars p) /\ w = copyv w0) as (w0 & Hw0 & ->).
    { apply in_app_or in Hw. destruct Hw as [Hw|Hw]; [apply in_map_iff in Hw; destruct Hw as (w0 & <- & Hw); eauto|]. exfalso.
      pose proof (ineq_discrete p p1 Di Q E1) as Dq. unfold discrete in Dq. rewrite V in Dq. rewrite Forall_forall in Dq. specialize (Dq w (in_or_app _ _ _ (or_intror Hw))).
      destruct (Sl w Hw) as (i & c & _ & _ & _ & T). destruct i; congruence. }
    rewrite copyv_name. rewrite copyv_type in Tw. apply in_app_or in Hv. destruct Hv as [Hv|Hv].
    + apply in_map_iff in Hv. destruct Hv as (v0 & <- & Hv). rewrite copyv_type in Tv. rewrite copyv_name. now apply BF.
    + destruct (Sl v Hv) as (i & c & Hc & Nm & _ & T). rewrite Nm. destruct i; [|congruence]. unfold slack_name. intro E. apply (SB c w0 k Hc Hw0 Tw). rewrite E.
      clear. induction c as [|ch c IH]; cbn [String.append] in *; congruence.
  - rewrite E2. cbn [bind fst snd]. pose proof (int_to_bin_wf _ _ _ W1 E2) as W2.
    destruct (int_to_bin_dims _ _ _ W1 D1 (proj1 (ie_eq _ _ _ _ _ I)) E2) as [D2 A2].
    destruct (penalize_total (match pen with Some c => c | None => auto_penalty p2 end) p2 W2 D2 A2) as [q E3]. rewrite E3. cbn [bind]. eauto.
Qed.

(** ** Programs without @ in the names of variables *)
Lemma at_in a b : all_chars (fun c => negb (Ascii.eqb c "@")) (a ++ "@" ++ b) = false.
Proof. rewrite all_chars_app. cbn. apply andb_false_r. Qed.
Lemma no_at_free p : no_at p -> (forall c, In c (lin_ineqs p) -> ~ In c (quad_ineqs p)) -> slack_free p /\ bits_free p /\ slack_bits_free p.
Proof.
  intros N X. unfold no_at in N. rewrite Forall_forall in N.
  assert (forall a b, ~ In (a ++ "@" ++ b)%string (var_names p)) as K.
  { intros a b H. unfold var_names in H. apply in_map_iff in H. destruct H as (v & E & H). apply N in H. rewrite E, at_in in H. discriminate. }
  split; [|split].
  - split; auto. intros c _. split; [exact (K c "int_slack")|exact (K c "continuous_slack")].
  - intros v w k _ Hw _ _ E. apply N in Hw. rewrite E, at_in in Hw. discriminate.
  - intros c w k _ Hw _ E. apply N in Hw. rewrite E in Hw. change ("@int_slack" ++ "@" ++ str_nat k)%string with ("@" ++ ("int_slack@" ++ str_nat k))%string in Hw. rewrite at_in in Hw. discriminate.
Qed.
