(** * Facts about compatibility messages *)
From Verif Require Export SpecCompat QuboFacts ReuseFacts.
Local Open Scope string_scope.
Local Open Scope list_scope.
Local Open Scope nat_scope.

Lemma is_compatible_iff msg : is_compatible msg = true <-> msg = "".
Proof. unfold is_compatible. rewrite Nat.eqb_eq. destruct msg; simpl; split; auto; discriminate. Qed.
Lemma verify_iff msg : verify msg = if is_compatible msg then Ok tt else Err QiskitOptimizationError.
Proof. destruct msg; reflexivity. Qed.
(** Searching a text in another *)
Fixpoint prefix_b (a s : string) : bool := match a, s with EmptyString, _ => true | String x a', String y s' => Ascii.eqb x y && prefix_b a' s' | _, _ => false end.
Fixpoint says_b (s part : string) : bool := prefix_b part s || match s with EmptyString => false | String _ s' => says_b s' part end.
Lemma prefix_b_iff a : forall s, prefix_b a s = true <-> exists b, s = (a ++ b)%string.
Proof.
  induction a as [|x a IH]; intro s; simpl; [split; eauto|]. destruct s as [|y s]; [split; [discriminate|intros (b & H); discriminate]|].
  rewrite andb_true_iff, Ascii.eqb_eq, IH. split; [intros (-> & b & ->); eauto|intros (b & H); inversion H; subst; eauto].
Qed.
Lemma says_b_iff s part : says_b s part = true <-> says s part.
Proof.
  unfold says. induction s as [|c s IH]; simpl; rewrite orb_true_iff, prefix_b_iff.
  - split; [intros [(b & H)|H]; [exists "", b; exact H|discriminate]|]. intros (a & b & H). destruct a; [eauto|discriminate].
  - rewrite IH. split.
    + intros [(b & H)|(a & b & H)]; [exists "", b; exact H|exists (String c a), b; simpl; now rewrite H].
    + intros (a & b & H). destruct a as [|x a]; [eauto|]. simpl in H. inversion H. eauto.
Qed.
Lemma continuous_iff p : (0 <? count_type CONTINUOUS p) = true <-> has_continuous p.
Proof.
  rewrite Nat.ltb_lt. unfold has_continuous, count_type. split.
  - intro H. destruct (filter _ _) as [|v l] eqn:E; [simpl in H; lia|]. exists v. assert (In v (filter (fun v => vartype_eqb (v_type v) CONTINUOUS) (p_vars p))) as I by (rewrite E; left; reflexivity).
    apply filter_In in I. destruct I as [I T]. split; auto. destruct (v_type v); try discriminate; reflexivity.
  - intros (v & I & T). assert (In v (filter (fun v => vartype_eqb (v_type v) CONTINUOUS) (p_vars p))) as F by (apply filter_In; split; auto; now rewrite T). destruct (filter _ _); [destruct F|simpl; lia].
Qed.
Lemma quadratic_iff p : (0 <? length (p_qcs p)) = true <-> has_quadratic p.
Proof. rewrite Nat.ltb_lt. unfold has_quadratic. destruct (p_qcs p) as [|c l]; simpl; split; try lia; [intros (c & [])|]. intros _. exists c. auto. Qed.
Lemma not_integral_dec v : integral v \/ ~ integral v.
Proof. destruct (is_integer v) eqn:E; [left; now apply is_integer_spec|right; intro H; apply is_integer_spec in H; congruence]. Qed.
Lemma any_float_true {K} (d : list (K * Qc)) : any_float d = true <-> exists kv, In kv d /\ ~ integral (snd kv).
Proof.
  unfold any_float. rewrite existsb_exists. split; intros (kv & I & H); exists kv; split; auto.
  - apply negb_true_iff in H. intro X. apply is_integer_spec in X. congruence.
  - apply negb_true_iff. destruct (is_integer (snd kv)) eqn:E; auto. apply is_integer_spec in E. contradiction.
Qed.
Lemma row_iff e : lin_wf e -> any_float (lin_to_dict e) = true <-> fractional_row e.
Proof.
  intros [N _]. rewrite any_float_true. unfold fractional_row, lin_to_dict. split.
  - intros ([i v] & I & H). exists i. unfold coef1, dgetq. rewrite (in_dget _ nat_eqb_sp _ _ _ N I). exact H.
  - intros (i & H). unfold coef1, dgetq in H. destruct (dget Nat.eqb i (le_co e)) as [v|] eqn:E; [|exfalso; apply H, integral_0]. apply (dget_in _ nat_eqb_sp) in E. exists (i, v). auto.
Qed.
Lemma form_iff e : quad_wf e -> any_float (quad_to_dict false e) = true <-> fractional_form e.
Proof.
  intros [N _]. rewrite any_float_true. unfold fractional_form, quad_to_dict, quad_entries. split.
  - intros ([[i j] v] & I & H). exists i, j. unfold coef2, mget, dgetq. rewrite (in_dget _ nat2_eqb_sp _ _ _ N I). exact H.
  - intros (i & j & H). unfold coef2, mget, dgetq in H. destruct (dget nat2_eqb (i, j) (qe_co e)) as [v|] eqn:E; [|exfalso; apply H, integral_0]. apply (dget_in _ nat2_eqb_sp) in E. exists ((i, j), v). auto.
Qed.
Lemma fraction_iff p : exprs_wf p -> existsb (fun c => any_float (lin_to_dict (lc_lin c))) (p_lcs p) || existsb (fun c => any_float (quad_to_dict false (qc_quad c)) || any_float (lin_to_dict (qc_lin c))) (p_qcs p) = true <-> has_fraction p.
Proof.
  intros (_ & _ & L & Q). rewrite orb_true_iff, !existsb_exists. rewrite Forall_forall in L, Q. unfold has_fraction. split; (intros [(c & I & H)|(c & I & H)]; [left|right]; exists c; split; auto).
  - now apply row_iff; auto.
  - apply orb_true_iff in H. destruct (Q c I) as [A B]. rewrite row_iff, form_iff in H by auto. tauto.
  - apply row_iff; auto.
  - destruct (Q c I) as [A B]. apply orb_true_iff. rewrite row_iff, form_iff by auto. tauto.
Qed.
Lemma qubo_able_iff p : exprs_wf p -> qubo_compatible p = true <-> qubo_able p.
Proof.
  intro W. unfold qubo_able. rewrite <- continuous_iff, <- quadratic_iff, <- (fraction_iff p W). unfold qubo_compatible.
  destruct (count_type CONTINUOUS p); [|split; [discriminate|]; intros (H & _); exfalso; now apply H]. destruct (length (p_qcs p)); [|split; [discriminate|]; intros (_ & H & _); exfalso; now apply H].
  cbn [Nat.ltb Nat.leb Nat.eqb andb]. destruct (existsb _ (p_lcs p)), (existsb _ (p_qcs p)); cbn; split; try discriminate; try tauto. intros _. repeat split; discriminate.
Qed.
Lemma qubo_msg_compatible p : qubo_compatible p = is_compatible (qubo_msg p).
Proof.
  unfold qubo_compatible, qubo_msg. destruct (count_type CONTINUOUS p); [|destruct (length (p_qcs p)), (existsb _ (p_lcs p)), (existsb _ (p_qcs p)); reflexivity].
  destruct (length (p_qcs p)); destruct (existsb _ (p_lcs p)), (existsb _ (p_qcs p)); reflexivity.
Qed.
Lemma continuous_msg_compatible who p : continuous_only p = is_compatible (continuous_msg who p).
Proof.
  unfold continuous_only, continuous_msg, count_type.
  assert (filter (fun v => match v_type v with CONTINUOUS => true | _ => false end) (p_vars p) = filter (fun v => vartype_eqb (v_type v) CONTINUOUS) (p_vars p)) as ->.
  { apply filter_ext. intro v. destruct (v_type v); reflexivity. }
  destruct (Nat.ltb_spec (length (filter (fun v => vartype_eqb (v_type v) CONTINUOUS) (p_vars p))) (length (p_vars p))), (Nat.leb_spec (length (p_vars p)) (length (filter (fun v => vartype_eqb (v_type v) CONTINUOUS) (p_vars p)))); try lia; reflexivity.
Qed.
Lemma gw_msg_compatible p : gw_compatible p = is_compatible (gw_msg p).
Proof. unfold gw_compatible, gw_msg. destruct (Nat.eqb _ _); reflexivity. Qed.
Lemma count_all t p : count_type t p = length (p_vars p) <-> all_of t p.
Proof.
  unfold count_type, all_of. induction (p_vars p) as [|v l IH]; simpl; [split; auto; intros _ v []|].
  assert (length (filter (fun v => vartype_eqb (v_type v) t) l) <= length l) as B by (clear; induction l as [|a l IH]; simpl; auto; destruct (vartype_eqb _ _); simpl; lia).
  destruct (vartype_eqb (v_type v) t) eqn:E.
  - assert (v_type v = t) as T by (destruct (v_type v), t; try discriminate; reflexivity). simpl. split.
    + intros H w [<-|I]; auto. apply IH; auto.
    + intro H. f_equal. apply IH. auto.
  - split; [lia|]. intro H. rewrite (H v (or_introl eq_refl)) in E. destruct t; discriminate.
Qed.
Lemma continuous_all who p : continuous_msg who p = "" <-> all_of CONTINUOUS p.
Proof.
  rewrite <- count_all. unfold continuous_msg. assert (count_type CONTINUOUS p <= length (p_vars p)) as B.
  { unfold count_type. generalize (p_vars p). induction l as [|a l IH]; simpl; auto. destruct (vartype_eqb _ _); simpl; lia. }
  destruct (Nat.ltb_spec (count_type CONTINUOUS p) (length (p_vars p))); simpl; split; try lia; auto. discriminate.
Qed.
Lemma gw_all p : gw_msg p = "" <-> all_of BINARY p.
Proof. rewrite <- count_all. unfold gw_msg, num_vars. destruct (Nat.eqb_spec (count_type BINARY p) (length (p_vars p))); simpl; split; auto; try contradiction. discriminate. Qed.
Lemma gw_counts p : gw_msg p <> "" -> says (gw_msg p) ("total number of variables " ++ str_nat (length (p_vars p)) ++ " and there are " ++ str_nat (num_binary p) ++ " binary variables")%string.
Proof.
  unfold gw_msg. destruct (Nat.eqb _ _); [congruence|]. intros _. exists "Only binary variables are supported, while the ", " across them".
  assert (count_type BINARY p = num_binary p) as -> by (unfold count_type, num_binary; f_equal; apply filter_ext; intro v; now destruct (v_type v)).
  unfold num_vars. assert (forall a b c : string, (a ++ b) ++ c = a ++ (b ++ c))%string as A by (intros a b c; induction a as [|x a IH]; cbn; [reflexivity|now rewrite IH]).
  rewrite !A. reflexivity.
Qed.

(** ADMM: the message is empty exactly when the check passes *)
Definition admm_row (p : qp) (i : nat) : result (list Qc) := mapM (fun j => quad_get (env_of p) (o_quad (p_obj p)) (KI (Z.of_nat i), KI (Z.of_nat j))) (indices_of CONTINUOUS p).
Lemma admm_row_msg p i js : forall msg, foldM (fun msg j => do a <- quad_get (env_of p) (o_quad (p_obj p)) (KI (Z.of_nat i), KI (Z.of_nat j));
    Ok (if qeqb a 0 then msg else (msg ++ "Binary and continuous variables are not separable in the objective. ")%string)) js msg =
  match mapM (fun j => quad_get (env_of p) (o_quad (p_obj p)) (KI (Z.of_nat i), KI (Z.of_nat j))) js with
  | Ok l => Ok (fold_left (fun msg a => if qeqb a 0 then msg else (msg ++ "Binary and continuous variables are not separable in the objective. ")%string) l msg)
  | Err e => Err e end.
Proof.
  induction js as [|j js IH]; intro msg; [reflexivity|]. cbn [foldM mapM]. destruct (quad_get _ _ _) as [a|e]; cbn [bind]; [|reflexivity]. rewrite IH. destruct (mapM _ js); reflexivity.
Qed.
Definition adds (l : list Qc) (msg : string) : string := fold_left (fun msg a => if qeqb a 0 then msg else (msg ++ "Binary and continuous variables are not separable in the objective. ")%string) l msg.
Lemma adds_nonempty l : forall msg, msg <> "" -> adds l msg <> "".
Proof. induction l as [|a l IH]; intros msg N; [exact N|]. cbn. apply IH. destruct (qeqb a 0); auto. destruct msg; [congruence|discriminate]. Qed.
Lemma adds_empty l : adds l "" = "" <-> forallb (fun v => qeqb v 0) l = true.
Proof.
  induction l as [|a l IH]; cbn; [tauto|]. destruct (qeqb a 0); cbn; [exact IH|]. split; [|discriminate]. intro H. exfalso. revert H. apply adds_nonempty. discriminate.
Qed.
Lemma admm_msg_compatible p : admm_compatible p = (do msg <- admm_msg p; Ok (is_compatible msg)).
Proof.
  unfold admm_compatible, admm_msg. change (mapM (fun i => mapM _ (indices_of CONTINUOUS p)) (indices_of BINARY p)) with (mapM (admm_row p) (indices_of BINARY p)).
  assert (forall is msg, foldM (fun msg i => foldM (fun msg j => do a <- quad_get (env_of p) (o_quad (p_obj p)) (KI (Z.of_nat i), KI (Z.of_nat j));
      Ok (if qeqb a 0 then msg else (msg ++ "Binary and continuous variables are not separable in the objective. ")%string)) (indices_of CONTINUOUS p) msg) is msg =
    match mapM (admm_row p) is with Ok ls => Ok (fold_left (fun msg l => adds l msg) ls msg) | Err e => Err e end) as X.
  { induction is as [|i is IH]; intro msg; [reflexivity|]. cbn [foldM mapM]. rewrite admm_row_msg. fold (admm_row p i). destruct (admm_row p i) as [l|e]; cbn [bind]; [|reflexivity]. rewrite IH. destruct (mapM _ is); reflexivity. }
  rewrite X. destruct (mapM _ _) as [ls|e]; cbn [bind]; [|reflexivity]. f_equal. clear X.
  assert (forall ls msg, msg <> "" -> fold_left (fun msg l => adds l msg) ls msg <> "") as N. { clear. induction ls as [|l ls IH]; intros msg H; cbn; auto. apply IH, adds_nonempty, H. }
  induction ls as [|l ls IH]; [reflexivity|]. cbn [forallb fold_left]. destruct (forallb (fun v => qeqb v 0) l) eqn:E.
  - apply adds_empty in E. rewrite E. exact IH.
  - cbn. symmetry. assert (adds l "" <> "") as A by (intro A; apply adds_empty in A; congruence). destruct (is_compatible (fold_left (fun msg l0 => adds l0 msg) ls (adds l ""))) eqn:C; auto. apply is_compatible_iff in C. exfalso. exact (N _ _ A C).
Qed.
