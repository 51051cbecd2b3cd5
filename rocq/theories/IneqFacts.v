(** * InequalityToEquality *)
From Verif Require Export NamedFacts.
Local Open Scope nat_scope.

Lemma NoDup_snoc {A} (l : list A) a : NoDup l -> ~ In a l -> NoDup (l ++ [a]).
Proof. intros N H. apply NoDup_rev in N. rewrite <- (rev_involutive (l ++ [a])). apply NoDup_rev. rewrite rev_app_distr. simpl. constructor; auto. now rewrite <- in_rev. Qed.

(** ** Slack arithmetic *)
Definition slack_val (s : csense) (rhs' L : Qc) : Qc := match s with LE => (rhs' - L)%Qc | _ => (L - rhs')%Qc end.
Lemma slack_rhs_sound i s rhs L : s <> EQ -> holds s L (slack_rhs i s rhs) -> holds s L rhs.
Proof.
  unfold slack_rhs. destruct i, s; simpl; try congruence; auto; intros _ H.
  - pose proof (qfloor_le rhs). qlra.
  - pose proof (qceil_le rhs). qlra.
Qed.
Lemma slack_rhs_complete i s rhs L : s <> EQ -> (i = true -> integral L) -> holds s L rhs -> holds s L (slack_rhs i s rhs).
Proof.
  unfold slack_rhs. destruct i, s; simpl; try congruence; auto; intros _ Hi H; destruct (Hi eq_refl) as [z ->]; apply qz_le.
  - now apply floor_greatest.
  - now apply ceil_least.
Qed.
Lemma slack_rhs_integral i s rhs : s <> EQ -> i = true -> integral (slack_rhs i s rhs).
Proof. intros Hs ->. destruct s; simpl; try congruence; eexists; reflexivity. Qed.
Lemma slack_complete i s rhs L lo hi : s <> EQ -> (i = true -> integral L) -> (lo <= L)%Qc -> (L <= hi)%Qc -> holds s L rhs ->
  let a := slack_val s (slack_rhs i s rhs) L in
  (0 <= a)%Qc /\ (a <= slack_ub s (slack_rhs i s rhs) lo hi)%Qc /\
  (L + slack_sign s * a)%Qc = slack_rhs i s rhs /\ (i = true -> integral a).
Proof.
  intros Hs Hi Hlo Hhi H. apply (slack_rhs_complete i) in H; auto.
  assert (i = true -> integral (slack_rhs i s rhs)) as Hr by (intro; now apply slack_rhs_integral).
  set (r := slack_rhs i s rhs) in *. clearbody r. destruct s; simpl in *; try congruence;
  (split; [qlra|split; [qlra|split; [ring|intro E; apply integral_sub; auto]]]).
Qed.
Lemma slack_sound i s rhs L a : s <> EQ -> (0 <= a)%Qc -> (L + slack_sign s * a)%Qc = slack_rhs i s rhs -> holds s L rhs.
Proof.
  intros Hs Ha H. apply (slack_rhs_sound i); auto. rewrite <- H. destruct s; simpl; try congruence; qlra.
Qed.

(** ** Bounds of the left-hand side *)
Lemma between_scale l u a c : (l <= a)%Qc -> (a <= u)%Qc ->
  (qmin (l * c) (u * c) <= a * c)%Qc /\ (a * c <= qmax (l * c) (u * c))%Qc.
Proof.
  intros H1 H2. unfold qmin, qmax. destruct (Qclt_le_dec c 0) as [Hc|Hc].
  - assert (u * c <= a * c /\ a * c <= l * c)%Qc as [A B] by (split; qnra).
    split; [destruct (qleb_spec (l * c)%Qc (u * c)%Qc)|destruct (qleb_spec (l * c)%Qc (u * c)%Qc)]; qlra.
  - assert (l * c <= a * c /\ a * c <= u * c)%Qc as [A B] by (split; qnra).
    split; [destruct (qleb_spec (l * c)%Qc (u * c)%Qc)|destruct (qleb_spec (l * c)%Qc (u * c)%Qc)]; qlra.
Qed.
Lemma qmin_l a b : (qmin a b <= a)%Qc. Proof. unfold qmin. destruct (qleb_spec a b); qlra. Qed.
Lemma qmin_r a b : (qmin a b <= b)%Qc. Proof. unfold qmin. destruct (qleb_spec a b); qlra. Qed.
Lemma qmax_l a b : (a <= qmax a b)%Qc. Proof. unfold qmax. destruct (qleb_spec a b); qlra. Qed.
Lemma qmax_r a b : (b <= qmax a b)%Qc. Proof. unfold qmax. destruct (qleb_spec a b); qlra. Qed.
Lemma qmin_cases a b : qmin a b = a \/ qmin a b = b. Proof. unfold qmin. destruct (qleb a b); auto. Qed.
Lemma qmax_cases a b : qmax a b = a \/ qmax a b = b. Proof. unfold qmax. destruct (qleb a b); auto. Qed.
Lemma between_product l u l' u' a b c : (l <= a)%Qc -> (a <= u)%Qc -> (l' <= b)%Qc -> (b <= u')%Qc ->
  (qmin4 (l * l' * c) (l * u' * c) (u * l' * c) (u * u' * c) <= a * b * c)%Qc /\
  (a * b * c <= qmax4 (l * l' * c) (l * u' * c) (u * l' * c) (u * u' * c))%Qc.
Proof.
  intros H1 H2 H3 H4.
  destruct (between_scale l' u' b (a * c)%Qc H3 H4) as [A B].
  destruct (between_scale l u a (l' * c)%Qc H1 H2) as [C D].
  destruct (between_scale l u a (u' * c)%Qc H1 H2) as [E F].
  replace (l * (l' * c))%Qc with (l * l' * c)%Qc in * by ring. replace (u * (l' * c))%Qc with (u * l' * c)%Qc in * by ring.
  replace (l * (u' * c))%Qc with (l * u' * c)%Qc in * by ring. replace (u * (u' * c))%Qc with (u * u' * c)%Qc in * by ring.
  replace (a * (l' * c))%Qc with (l' * (a * c))%Qc in * by ring. replace (a * (u' * c))%Qc with (u' * (a * c))%Qc in * by ring.
  replace (b * (a * c))%Qc with (a * b * c)%Qc in * by ring.
  set (ll := (l * l' * c)%Qc) in *. set (lu := (l * u' * c)%Qc) in *. set (ul := (u * l' * c)%Qc) in *. set (uu := (u * u' * c)%Qc) in *.
  set (P := (l' * (a * c))%Qc) in *. set (Q := (u' * (a * c))%Qc) in *. set (R := (a * b * c)%Qc) in *. clearbody ll lu ul uu P Q R.
  clear H1 H2 H3 H4. split.
  - unfold qmin4. pose proof (qmin_l ll lu). pose proof (qmin_r ll lu).
    pose proof (qmin_l (qmin ll lu) ul). pose proof (qmin_r (qmin ll lu) ul).
    pose proof (qmin_l (qmin (qmin ll lu) ul) uu). pose proof (qmin_r (qmin (qmin ll lu) ul) uu).
    set (m := qmin (qmin (qmin ll lu) ul) uu) in *. clearbody m.
    destruct (qmin_cases P Q) as [e|e], (qmin_cases ll ul) as [e1|e1], (qmin_cases lu uu) as [e2|e2];
    rewrite e in A; rewrite e1 in C; rewrite e2 in E; clear -H H0 H1 H2 H3 H4 A C E; qlra.
  - unfold qmax4. pose proof (qmax_l ll lu). pose proof (qmax_r ll lu).
    pose proof (qmax_l (qmax ll lu) ul). pose proof (qmax_r (qmax ll lu) ul).
    pose proof (qmax_l (qmax (qmax ll lu) ul) uu). pose proof (qmax_r (qmax (qmax ll lu) ul) uu).
    set (m := qmax (qmax (qmax ll lu) ul) uu) in *. clearbody m.
    destruct (qmax_cases P Q) as [e|e], (qmax_cases ll ul) as [e1|e1], (qmax_cases lu uu) as [e2|e2];
    rewrite e in B; rewrite e1 in D; rewrite e2 in F; clear -H H0 H1 H2 H3 H4 B D F; qlra.
Qed.

Lemma get_variable_named p s v : index_finds (var_names p) (p_vidx p) -> In s (var_names p) -> get_variable p (KS s) = Ok v ->
  exists i, nth_error (p_vars p) i = Some v /\ nth_error (var_names p) i = Some s.
Proof.
  intros F Hin H. apply In_nth_error in Hin. destruct Hin as [i Hi]. unfold get_variable, lookup in H. rewrite (F s i Hi) in H.
  assert (i < length (p_vars p)) as L by (rewrite <- (map_length v_name); apply nth_error_Some; unfold var_names in Hi; congruence).
  unfold py_nth in H. rewrite py_index_nat in H by assumption. destruct (nth_error (p_vars p) i) eqn:E; [|discriminate].
  injection H as ->. eauto.
Qed.
Lemma Forall2_nth {A} (R : A -> Qc -> Prop) l x i a : Forall2 R l x -> nth_error l i = Some a -> R a (at_ x i).
Proof. intro F. revert i. induction F; intros [|i] E; simpl in *; try discriminate; [injection E as <-; assumption|eauto]. Qed.
Lemma in_bounds_named p x s v : index_finds (var_names p) (p_vidx p) -> In s (var_names p) -> get_variable p (KS s) = Ok v ->
  in_bounds p x -> in_range v (valof (var_names p) x s).
Proof.
  intros F Hin H B. destruct (get_variable_named p s v F Hin H) as (i & A & C).
  rewrite (valof_nth _ x i s); auto; [eapply Forall2_nth; eauto|eapply index_finds_nodup; eauto].
Qed.

Lemma calc_linear_bounds_spec src x : index_finds (var_names src) (p_vidx src) -> in_bounds src x -> forall d b,
  (forall s v, In (s, v) d -> In s (var_names src)) -> calc_linear_bounds src d = Ok b ->
  (fst b <= dsum (valof (var_names src) x) d)%Qc /\ (dsum (valof (var_names src) x) d <= snd b)%Qc.
Proof.
  intros F B d b Hd H. unfold calc_linear_bounds in H.
  enough (forall d b0 b, (forall s v, In (s, v) d -> In s (var_names src)) ->
    foldM (fun b kv => do x <- get_variable src (KS (fst kv));
           Ok (fst b + qmin (v_lb x * snd kv) (v_ub x * snd kv), snd b + qmax (v_lb x * snd kv) (v_ub x * snd kv))%Qc) d b0 = Ok b ->
    (fst b <= fst b0 + dsum (valof (var_names src) x) d)%Qc /\ (snd b0 + dsum (valof (var_names src) x) d <= snd b)%Qc) as G.
  { destruct (G d _ _ Hd H) as [G1 G2]. simpl in *. split; qlra. }
  clear d b Hd H. induction d as [|[s c] d IH]; intros b0 b Hd H; cbn [foldM fst snd] in H.
  - injection H as <-. rewrite dsum_nil. split; qlra.
  - inv_ok. rewrite dsum_cons. apply IH in H0; [|intros; eapply Hd; right; eauto]. cbn [fst snd] in H0.
    pose proof (Hd s c (or_introl eq_refl)) as Is.
    match goal with h : get_variable _ _ = Ok ?v |- _ => pose proof (in_bounds_named src x s v F Is h B) as [R1 R2];
      destruct (between_scale _ _ _ c R1 R2) as [S1 S2] end.
    set (w := valof (var_names src) x s) in *. replace (c * w)%Qc with (w * c)%Qc by ring. destruct H0. split; qlra.
Qed.
Lemma calc_quadratic_bounds_spec src x : index_finds (var_names src) (p_vidx src) -> in_bounds src x -> forall l d b,
  (forall s v, In (s, v) l -> In s (var_names src)) ->
  (forall s t v, In ((s, t), v) d -> In s (var_names src) /\ In t (var_names src)) -> calc_quadratic_bounds src l d = Ok b ->
  let L := (dsum (valof (var_names src) x) l + dsum (valof2 (var_names src) x) d)%Qc in (fst b <= L)%Qc /\ (L <= snd b)%Qc.
Proof.
  intros F B l d b Hl Hd H. unfold calc_quadratic_bounds in H. apply bind_ok in H. destruct H as (b0 & Hb & H).
  apply (calc_linear_bounds_spec src x F B) in Hb; auto.
  enough ((fst b <= fst b0 + dsum (valof2 (var_names src) x) d)%Qc /\ (snd b0 + dsum (valof2 (var_names src) x) d <= snd b)%Qc) as G.
  { cbv zeta. destruct Hb, G. split; qlra. }
  clear Hb Hl. revert b0 b H Hd. induction d as [|[[s t] c] d IH]; intros b0 b H Hd; cbn [foldM fst snd] in H.
  - injection H as <-. rewrite dsum_nil. split; qlra.
  - inv_ok. rewrite dsum_cons. match goal with h : foldM _ _ _ = Ok _ |- _ => rename h into H0 end.
    apply IH in H0; [|intros; eapply Hd; right; eauto]. cbn [fst snd] in H0.
    destruct (Hd s t c (or_introl eq_refl)) as [Is It].
    repeat match goal with
    | h : get_variable _ (KS s) = Ok ?v |- _ => pose proof (in_bounds_named src x s v F Is h B) as [R1 R2]; clear h
    | h : get_variable _ (KS t) = Ok ?v |- _ => pose proof (in_bounds_named src x t v F It h B) as [R3 R4]; clear h end.
    destruct (between_product _ _ _ _ _ _ c R1 R2 R3 R4) as [S1 S2]. unfold valof2 at 1 3. cbn [fst snd].
    set (w := valof (var_names src) x s) in *. set (w' := valof (var_names src) x t) in *.
    replace (c * (w * w'))%Qc with (w * w' * c)%Qc by ring. destruct H0. split; qlra.
Qed.

(** ** Extending a program by a slack variable *)
Lemma ext_dict names more f g d x t : dict_of names f d -> dict_of (names ++ more) g d ->
  length x = length names -> length t = length more -> g (x ++ t) = f x.
Proof.
  intros (N & I & E) (_ & _ & E') Lx Lt. rewrite E' by (rewrite !app_length; lia). rewrite E by assumption.
  apply dsum_ext. intros s v Hin. apply valof_app_l; eauto.
Qed.
Lemma ext_dict_slack names more nm f g d sg x t a : dict_of names f d -> dict_of ((names ++ more) ++ [nm]) g (d ++ [(nm, sg)]) ->
  ~ In nm (names ++ more) -> length x = length names -> length t = length more -> g ((x ++ t) ++ [a]) = (f x + sg * a)%Qc.
Proof.
  intros (N & I & E) (_ & _ & E') Hn Lx Lt. rewrite E' by (rewrite !app_length; simpl; lia). rewrite E by assumption.
  rewrite dsum_app, dsum_cons, dsum_nil. rewrite valof_app_r by (rewrite ?app_length; auto; lia). rewrite valof_one.
  rewrite (dsum_ext _ (valof names x)); [ring|]. intros s v Hin.
  rewrite valof_app_l by (rewrite ?app_length, ?in_app_iff; auto; try lia; left; eauto). apply valof_app_l; eauto.
Qed.
Lemma ext_dict2 names more f g d x t : dict_of2 names f d -> dict_of2 (names ++ more) g d ->
  length x = length names -> length t = length more -> g (x ++ t) = f x.
Proof.
  intros (N & I & E) (_ & _ & E') Lx Lt. rewrite E' by (rewrite !app_length; lia). rewrite E by assumption.
  apply dsum_ext. intros [s s'] v Hin. destruct (I _ _ _ Hin). unfold valof2. cbn [fst snd]. f_equal; apply valof_app_l; eauto.
Qed.

Lemma typed_integral p x i : discrete p -> typed p x -> integral (at_ x i).
Proof.
  unfold discrete, typed. intros D T. revert i. induction T as [|v a vs x H T IH]; intro i.
  - unfold at_. destruct i; apply integral_0.
  - inversion D; subst. destruct i as [|i]; [|now apply IH]. unfold at_. simpl. unfold has_type in H.
    destruct (v_type v); [congruence| |assumption]. destruct H as [->| ->]; [apply integral_0|apply integral_1].
Qed.
Lemma valof_integral p x s : discrete p -> typed p x -> integral (valof (var_names p) x s).
Proof.
  intros D T. unfold valof, dgetq. destruct (dget String.eqb s (combine (var_names p) x)) eqn:E; [|apply integral_0].
  apply (dget_in _ str_eqb_sp) in E. apply in_combine_r in E. apply In_nth_error in E. destruct E as [i E].
  pose proof (typed_integral p x i D T) as G. unfold at_ in G. rewrite (nth_error_nth _ _ _ E) in G. exact G.
Qed.
Lemma any_float_false {K} (d : list (K * Qc)) : any_float d = false -> Forall (fun kv => integral (snd kv)) d.
Proof.
  unfold any_float. induction d as [|kv d IH]; simpl; intro H; [constructor|]. apply orb_false_iff in H. destruct H as [H1 H2].
  constructor; auto. apply is_integer_spec. now destruct (is_integer (snd kv)).
Qed.
Lemma any_float_same {K} (d : list (K * Qc)) : any_float d = false <-> Forall (fun kv => integral (snd kv)) d.
Proof.
  split; [apply any_float_false|]. intro F. unfold any_float. induction F as [|kv d H F IH]; simpl; [reflexivity|].
  apply is_integer_spec in H. now rewrite H, IH.
Qed.
Lemma dsum_integral {K} f (d : list (K * Qc)) : Forall (fun kv => integral (snd kv)) d -> (forall k, integral (f k)) -> integral (dsum f d).
Proof.
  intros F H. unfold dsum. apply sumof_integral. intros kv Hin. apply integral_mul; auto. rewrite Forall_forall in F. auto.
Qed.

(** What processing one constraint [f s rhs] yields: an equation [g = rhs'] and new variables. *)
Section Slacked.
Variables (mode : slack_mode) (src : qp) (m : nat) (i : bool) (s : csense) (rhs : Qc) (f g : list Qc -> Qc) (rhs' : Qc).
Let n := num_vars src.
Inductive slacked : list variable -> Prop :=
| sl_eq : s = EQ -> rhs' = rhs -> (forall x t, length x = n -> length t = m -> g (x ++ t) = f x) -> slacked []
| sl_none lo hi : s <> EQ -> rhs' = slack_rhs i s rhs ->
    (i = true -> mode <> MContinuous /\ forall x, discrete src -> typed src x -> integral (f x)) ->
    (forall x, in_bounds src x -> (lo <= f x)%Qc /\ (f x <= hi)%Qc) -> (slack_ub s rhs' lo hi <= 0)%Qc ->
    (forall x t, length x = n -> length t = m -> g (x ++ t) = f x) -> slacked []
| sl_one lo hi v : s <> EQ -> rhs' = slack_rhs i s rhs ->
    (i = true -> mode <> MContinuous /\ forall x, discrete src -> typed src x -> integral (f x)) ->
    (forall x, in_bounds src x -> (lo <= f x)%Qc /\ (f x <= hi)%Qc) ->
    v_lb v = 0%Qc -> v_ub v = slack_ub s rhs' lo hi -> v_type v = (if i then INTEGER else CONTINUOUS) ->
    (forall x t a, length x = n -> length t = m -> g ((x ++ t) ++ [a]) = (f x + slack_sign s * a)%Qc) -> slacked [v].
End Slacked.

Definition cons_hold (p : qp) (x : list Qc) : Prop := lcs_hold p x /\ qcs_hold p x.
Definition cons_fit (p : qp) : Prop :=
  Forall (fun c => lin_wf (lc_lin c) /\ le_dim (lc_lin c) <= num_vars p) (p_lcs p) /\
  Forall (fun c => (lin_wf (qc_lin c) /\ le_dim (qc_lin c) <= num_vars p) /\ quad_wf (qc_quad c) /\ qe_dim (qc_quad c) <= num_vars p) (p_qcs p).
Lemma cons_hold_app p x t : cons_fit p -> length x = num_vars p -> cons_hold p (x ++ t) <-> cons_hold p x.
Proof.
  intros [F1 F2] L. unfold cons_hold, lcs_hold, qcs_hold. rewrite !Forall_forall in *.
  split; intros [H1 H2]; (split; intros c Hc; [specialize (F1 c Hc); specialize (H1 c Hc)|specialize (F2 c Hc); specialize (H2 c Hc)]).
  - unfold lc_at in *. rewrite lin_at_app in H1; tauto || (destruct F1; auto; lia).
  - unfold qc_at in *. destruct F2 as ((W & D) & W' & D'). rewrite lin_at_app, quad_at_app in H2; auto; lia.
  - unfold lc_at in *. rewrite lin_at_app; tauto || (destruct F1; auto; lia).
  - unfold qc_at in *. destruct F2 as ((W & D) & W' & D'). rewrite lin_at_app, quad_at_app; auto; lia.
Qed.

Record ieinv (mode : slack_mode) (src dst : qp) (sv : list variable) (D : list Qc -> Prop) : Prop := {
  ie_exact : idx_exact dst;
  ie_vars : p_vars dst = map copyv (p_vars src) ++ sv;
  ie_sense : o_sense (p_obj dst) = o_sense (p_obj src);
  ie_obj : forall x t, length x = num_vars src -> length t = length sv -> obj_at (p_obj dst) (x ++ t) = obj_at (p_obj src) x;
  ie_objfit : (lin_wf (o_lin (p_obj dst)) /\ le_dim (o_lin (p_obj dst)) <= num_vars dst) /\
              quad_wf (o_quad (p_obj dst)) /\ qe_dim (o_quad (p_obj dst)) <= num_vars dst;
  ie_fit : cons_fit dst;
  ie_eq : Forall (fun c => lc_sense c = EQ) (p_lcs dst) /\ Forall (fun c => qc_sense c = EQ) (p_qcs dst);
  ie_sv : Forall (fun v => v_lb v = 0%Qc /\ v_type v <> BINARY) sv;
  ie_quad : forall i j w, In ((i, j), w) (qe_co (o_quad (p_obj dst))) -> i < num_vars src /\ j < num_vars src /\ exists w',
    In ((i, j), w') (qe_co (o_quad (p_obj src))) \/ In ((j, i), w') (qe_co (o_quad (p_obj src)));
  ie_complete : mode = MContinuous \/ discrete src -> forall x, in_bounds src x -> typed src x -> D x ->
    exists t, Forall2 in_range sv t /\ Forall2 has_type sv t /\ cons_hold dst (x ++ t);
  ie_sound : forall x t, length x = num_vars src -> Forall2 in_range sv t -> cons_hold dst (x ++ t) -> D x }.

Lemma ieinv_nv mode src dst sv D : ieinv mode src dst sv D -> num_vars dst = num_vars src + length sv.
Proof. intros I. unfold num_vars. rewrite (ie_vars _ _ _ _ _ I), app_length, map_length. reflexivity. Qed.
Lemma Forall2_length {A B} (R : A -> B -> Prop) l m : Forall2 R l m -> length l = length m.
Proof. induction 1; simpl; congruence. Qed.

Lemma ieinv_step mode src dst dst' sv vs D i s rhs f g rhs' :
  ieinv mode src dst sv D -> slacked mode src (length sv) i s rhs f g rhs' vs ->
  idx_exact dst' -> p_vars dst' = p_vars dst ++ vs -> p_obj dst' = p_obj dst -> cons_fit dst' ->
  Forall (fun c => lc_sense c = EQ) (p_lcs dst') -> Forall (fun c => qc_sense c = EQ) (p_qcs dst') ->
  (forall y, cons_hold dst' y <-> cons_hold dst y /\ g y = rhs') ->
  ieinv mode src dst' (sv ++ vs) (fun x => D x /\ holds s (f x) rhs).
Proof.
  intros I S X V O FT E1 E2 C. pose proof (ieinv_nv _ _ _ _ _ I) as NV. pose proof I as I0. destruct I as [_ i2 i3 i4 i5 i6 _ i8 i8' i9 i10].
  assert (num_vars dst' = num_vars dst + length vs) as NV' by (unfold num_vars; rewrite V, app_length; reflexivity).
  assert (forall x t, length x = num_vars src -> length t = length (sv ++ vs) -> obj_at (p_obj dst') (x ++ t) = obj_at (p_obj src) x) as OBJ.
  { intros x t Lx Lt. rewrite O. rewrite app_length in Lt.
    rewrite <- (firstn_skipn (length sv) t). rewrite app_assoc.
    rewrite <- (i4 x (firstn (length sv) t) Lx) by (rewrite firstn_length; lia).
    unfold obj_at. destruct i5 as ((W1 & D1) & W2 & D2).
    rewrite lin_at_app, quad_at_app; auto; rewrite app_length, firstn_length; lia. }
  constructor; auto.
  - now rewrite V, i2, app_assoc.
  - now rewrite O.
  - rewrite O. destruct i5 as ((W1 & D1) & W2 & D2). repeat split; try assumption; try lia; apply W1 || apply W2.
  - apply Forall_app. split; auto. destruct S; auto. constructor; auto. rewrite H3, H5. split; auto. destruct i; discriminate.
  - now rewrite O.
  - intros M x B T [Dx Hx]. assert (length x = num_vars src) as Lx by (apply Forall2_length in B; unfold num_vars; congruence).
    destruct (i9 M x B T Dx) as (t & R1 & R2 & H). pose proof (Forall2_length _ _ _ R1) as Lt.
    destruct S as [Es Er G|lo hi Hs Er Hi Hb Hu G|lo hi v Hs Er Hi Hb Hlb Hub Hty G].
    + exists t. rewrite app_nil_r. split; auto. split; auto. apply C. split; auto. rewrite G by auto. subst. exact Hx.
    + exists t. rewrite app_nil_r. split; auto. split; auto. apply C. split; auto. rewrite G by auto.
      destruct (Hb x B) as [B1 B2].
      assert (i = true -> integral (f x)) as Hint by (intro Ei; destruct (Hi Ei) as [M' K]; destruct M; [congruence|auto]).
      destruct (slack_complete i s rhs (f x) lo hi Hs Hint B1 B2 Hx) as (P1 & P2 & P3 & _). rewrite <- Er in *.
      set (a := slack_val s rhs' (f x)) in *. assert (a = 0%Qc) as Ha by qlra. rewrite Ha in P3. rewrite <- P3. ring.
    + destruct (Hb x B) as [B1 B2].
      assert (i = true -> integral (f x)) as Hint by (intro Ei; destruct (Hi Ei) as [M' K]; destruct M; [congruence|auto]).
      destruct (slack_complete i s rhs (f x) lo hi Hs Hint B1 B2 Hx) as (P1 & P2 & P3 & P4). rewrite <- Er in *.
      exists (t ++ [slack_val s rhs' (f x)]). split; [|split].
      * apply Forall2_app; auto. constructor; auto. unfold in_range. rewrite Hlb, Hub. auto.
      * apply Forall2_app; auto. constructor; auto. unfold has_type. rewrite Hty. destruct i; auto.
      * rewrite app_assoc. apply C. split; [apply cons_hold_app; auto; rewrite app_length; lia|]. rewrite G by auto. exact P3.
  - intros x t Lx R H. apply C in H. destruct H as [H1 H2].
    apply Forall2_app_inv_l in R. destruct R as (t1 & t2 & R1 & R2 & ->). pose proof (Forall2_length _ _ _ R1) as Lt.
    rewrite app_assoc in H1. apply cons_hold_app in H1; auto; [|rewrite app_length; lia]. split; [eapply i10; eauto|].
    destruct S as [Es Er G|lo hi Hs Er Hi Hb Hu G|lo hi v Hs Er Hi Hb Hlb Hub Hty G].
    + assert (t2 = []) as -> by (inversion R2; auto). rewrite app_nil_r in H2. rewrite G in H2 by auto. rewrite Es. now rewrite H2, Er.
    + assert (t2 = []) as -> by (inversion R2; auto). rewrite app_nil_r in H2. rewrite G in H2 by auto. rewrite Er in H2. apply (slack_sound i s rhs (f x) 0 Hs); [qlra|]. rewrite H2. ring.
    + assert (exists a, t2 = [a] /\ in_range v a) as (a & -> & Ra) by (inversion R2 as [|? a ? ? Ra R3]; inversion R3; subst; eauto).
      rewrite app_assoc in H2. rewrite G in H2 by auto. rewrite Er in H2.
      apply (slack_sound i s rhs (f x) a Hs); auto. destruct Ra as [Ra _]. now rewrite Hlb in Ra.
Qed.

(** ** One constraint *)
Definition add_vars (p : qp) (vs : list variable) : qp := fold_left add_var vs p.
Definition int_range (v : variable) : Prop := integral (v_lb v) /\ integral (v_ub v).
Definition int_quad (e : quadexpr) : Prop := Forall (fun kv => integral (snd kv)) (qe_co e).

Lemma Forall_snd {K L} (P : Qc -> Prop) (d : list (K * Qc)) (d' : list (L * Qc)) : map snd d = map snd d' ->
  Forall (fun kv => P (snd kv)) d -> Forall (fun kv => P (snd kv)) d'.
Proof. rewrite <- !(Forall_map snd). intros ->. auto. Qed.
Lemma lcl_integral src : Forall int_range (p_vars src) -> forall d b,
  Forall (fun kv => integral (snd kv)) d -> calc_linear_bounds src d = Ok b -> integral (fst b) /\ integral (snd b).
Proof.
  intros IR d b Hd H. unfold calc_linear_bounds in H.
  assert (forall z, z = (0%Qc, 0%Qc) -> integral (fst z) /\ integral (snd z)) as Z by (intros z ->; split; apply integral_0).
  specialize (Z _ eq_refl). revert Z H. generalize (0%Qc, 0%Qc) as b0. induction d as [|[s c] d IH]; intros b0 Z H; cbn [foldM fst snd] in H.
  - now injection H as <-.
  - apply bind_ok in H. destruct H as (b1 & H1 & H). apply bind_ok in H1. destruct H1 as (v & Hv & E). injection E as <-.
    inversion Hd; subst. eapply IH; [assumption| |exact H]. cbn [fst snd] in *.
    assert (int_range v) as [I1 I2].
    { unfold get_variable, lookup in Hv. destruct (dget _ _ _); [|discriminate]. unfold py_nth in Hv. destruct (py_index _ _) as [j|]; [|discriminate].
      destruct (nth_error (p_vars src) j) eqn:E; [|discriminate]. injection Hv as ->. rewrite Forall_forall in IR. apply IR. eapply nth_error_In; eauto. }
    destruct Z as [Z1 Z2]. split; apply integral_add; auto.
    + destruct (qmin_cases (v_lb v * c) (v_ub v * c))%Qc as [-> | ->]; apply integral_mul; auto.
    + destruct (qmax_cases (v_lb v * c) (v_ub v * c))%Qc as [-> | ->]; apply integral_mul; auto.
Qed.

Section Step.
Variables (mode : slack_mode) (src : qp).
Hypothesis W : prog_wf src.
Let names := var_names src.

Lemma names_exact dst : idx_exact dst -> index_exact (var_names dst) (ve_idx (env_of dst)) /\ length (var_names dst) = ve_n (env_of dst).
Proof using. intros [X _ _]. split; [exact X|apply names_length]. Qed.

Lemma add_slack_inv i dst nm ub dst1 : add_slack i dst nm ub = Ok dst1 ->
  dst1 = add_var dst (mkVar nm 0 ub (if i then INTEGER else CONTINUOUS)) /\ ~ In nm (map fst (p_vidx dst)).
Proof using. unfold add_slack, integer_var, continuous_var. destruct i; intro H; apply add_variable_inv in H; tauto. Qed.

Lemma slack_linear_shape i dst sv lin c e0 s rhs name dst' :
  idx_exact dst -> var_names dst = names ++ map v_name sv -> name <> EmptyString -> s <> EQ ->
  (i = true -> mode <> MContinuous) ->
  dict_of names (lin_at e0) lin -> c = map snd lin ->
  slack_linear i src dst lin s rhs name = Ok dst' ->
  exists vs e rhs', dst' = add_lc (add_vars dst vs) (mkLC name e EQ rhs') /\ idx_exact dst' /\ lin_wf e /\
    le_dim e = num_vars dst + length vs /\ slacked mode src (length sv) i s rhs (lin_at e0) (lin_at e) rhs' vs /\
    (i = true -> int_lin e /\ integral rhs' /\ (Forall int_range (p_vars src) -> Forall int_range vs)).
Proof using W.
  intros X V Hname Hs Hi Dd _ H. unfold slack_linear in H.
  destruct (i && any_float lin) eqn:Eif; [discriminate|].
  assert (i = true -> Forall (fun kv => integral (snd kv)) lin) as Hint by (intros ->; now apply any_float_false).
  apply bind_ok in H. destruct H as (b & Hb & H).
  assert (forall x, in_bounds src x -> (fst b <= lin_at e0 x)%Qc /\ (lin_at e0 x <= snd b)%Qc) as BD.
  { intros x B. destruct Dd as (_ & I & E). rewrite E by (apply Forall2_length in B; unfold names; rewrite names_length; symmetry; exact B).
    apply calc_linear_bounds_spec; auto. apply W. }
  assert (i = true -> mode <> MContinuous /\ forall x, discrete src -> typed src x -> integral (lin_at e0 x)) as HI.
  { intro Ei. split; auto. intros x Dc T. destruct Dd as (_ & I & E).
    rewrite E by (apply Forall2_length in T; unfold names; rewrite names_length; symmetry; exact T).
    apply dsum_integral; auto. intro k. now apply valof_integral. }
  cbv zeta in H. destruct (qltb_spec 0 (slack_ub s (slack_rhs i s rhs) (fst b) (snd b))) as [Hu|Hu].
  - apply bind_ok in H. destruct H as (dst1 & Ha & H). apply add_slack_inv in Ha. destruct Ha as (-> & Hf).
    set (v := mkVar (slack_name i name) 0 (slack_ub s (slack_rhs i s rhs) (fst b) (snd b)) (if i then INTEGER else CONTINUOUS)) in *.
    apply linear_constraint_inv in H; auto. destruct H as (cs & e & Ec & Ee & -> & Hfr). injection Ec as <-.
    assert (~ In (slack_name i name) (names ++ map v_name sv)) as Hnn.
    { rewrite <- V. intro A. apply Hf. eapply index_finds_keys; eauto. apply index_exact_finds, X. }
    assert (~ In (slack_name i name) (map fst lin)) as Hnl.
    { intro A. apply in_map_iff in A. destruct A as ([k w] & E & A). simpl in E. subst. apply Hnn, in_app_iff. left. apply Dd in A. exact A. }
    rewrite (dset_fresh _ str_eqb_sp) in Ee by assumption.
    assert (idx_exact (add_var dst v)) as X1 by (apply add_var_exact; auto).
    destruct (names_exact _ X1) as [X2 X3].
    assert (NoDup (map fst (lin ++ [(slack_name i name, slack_sign s)]))) as ND.
    { rewrite map_app. simpl. apply NoDup_snoc; auto. apply Dd. }
    destruct (lin_make_named _ _ X2 X3 _ _ ND Ee) as (Wf & Dim & Dic & Tr).
    rewrite add_var_names, V in Dic. simpl v_name in Dic.
    exists [v], e, (slack_rhs i s rhs). split; [reflexivity|]. split; [apply add_lc_exact; auto|]. split; auto. split.
    { rewrite Dim. simpl. unfold num_vars. simpl. rewrite app_length. reflexivity. }
    split.
    + eapply sl_one; eauto. intros x t a Lx Lt. eapply ext_dict_slack; eauto; unfold names; rewrite ?names_length, ?map_length; auto.
    + intro Ei. split; [|split].
      * apply Tr. apply Forall_app. split; auto. constructor; auto. destruct s; simpl; [apply integral_1| |]; apply integral_opp, integral_1.
      * now apply slack_rhs_integral.
      * intro IR. constructor; auto. split; [apply integral_0|]. simpl.
        destruct (lcl_integral src IR lin b (Hint Ei) Hb). pose proof (slack_rhs_integral i s rhs Hs Ei).
        destruct s; simpl in *; apply integral_sub; auto.
  - apply linear_constraint_inv in H; auto. destruct H as (cs & e & Ec & Ee & -> & Hfr). injection Ec as <-.
    destruct (names_exact _ X) as [X2 X3]. assert (NoDup (map fst lin)) as ND by apply Dd.
    destruct (lin_make_named _ _ X2 X3 _ _ ND Ee) as (Wf & Dim & Dic & Tr). rewrite V in Dic.
    exists [], e, (slack_rhs i s rhs). split; [reflexivity|]. split; [apply add_lc_exact; auto|]. split; auto. split.
    { rewrite Dim. simpl. lia. }
    split.
    + eapply sl_none; eauto; [now apply Qcnot_lt_le|]. intros x t Lx Lt. eapply ext_dict; eauto; unfold names; rewrite ?names_length, ?map_length; auto.
    + intro Ei. split; [apply Tr; auto|]. split; auto. now apply slack_rhs_integral.
Qed.

Lemma slack_quadratic_shape i dst sv lin quad e0 q0 s rhs name dst' :
  idx_exact dst -> var_names dst = names ++ map v_name sv -> name <> EmptyString -> s <> EQ ->
  (i = true -> mode <> MContinuous) ->
  dict_of names (lin_at e0) lin -> dict_of2 names (quad_at q0) quad ->
  slack_quadratic i src dst lin quad s rhs name = Ok dst' ->
  exists vs e q rhs', dst' = add_qc (add_vars dst vs) (mkQC name e q EQ rhs') /\ idx_exact dst' /\ lin_wf e /\ quad_wf q /\
    le_dim e = num_vars dst + length vs /\ qe_dim q = num_vars dst + length vs /\
    slacked mode src (length sv) i s rhs (fun x => lin_at e0 x + quad_at q0 x)%Qc (fun x => lin_at e x + quad_at q x)%Qc rhs' vs.
Proof using W.
  intros X V Hname Hs Hi Dd Dq H. unfold slack_quadratic in H.
  destruct (i && (any_float lin || any_float quad)) eqn:Eif; [discriminate|].
  assert (i = true -> Forall (fun kv => integral (snd kv)) lin /\ Forall (fun kv => integral (snd kv)) quad) as Hint.
  { intros ->. simpl in Eif. apply orb_false_iff in Eif. split; apply any_float_false; tauto. }
  apply bind_ok in H. destruct H as (b & Hb & H).
  assert (forall x, in_bounds src x -> (fst b <= lin_at e0 x + quad_at q0 x)%Qc /\ (lin_at e0 x + quad_at q0 x <= snd b)%Qc) as BD.
  { intros x B. pose proof Dd as (_ & I & E). pose proof Dq as (_ & I' & E').
    assert (length x = length names) as L by (apply Forall2_length in B; unfold names; rewrite names_length; symmetry; exact B).
    rewrite E, E' by assumption. apply calc_quadratic_bounds_spec; auto. apply W. }
  assert (i = true -> mode <> MContinuous /\ forall x, discrete src -> typed src x -> integral (lin_at e0 x + quad_at q0 x)%Qc) as HI.
  { intro Ei. split; auto. intros x Dc T. pose proof Dd as (_ & I & E). pose proof Dq as (_ & I' & E').
    assert (length x = length names) as L by (apply Forall2_length in T; unfold names; rewrite names_length; symmetry; exact T).
    rewrite E, E' by assumption. destruct (Hint Ei). apply integral_add; apply dsum_integral; auto.
    - intro k. now apply valof_integral.
    - intro k. apply integral_mul; now apply valof_integral. }
  cbv zeta in H. destruct (qltb_spec 0 (slack_ub s (slack_rhs i s rhs) (fst b) (snd b))) as [Hu|Hu].
  - apply bind_ok in H. destruct H as (dst1 & Ha & H). apply add_slack_inv in Ha. destruct Ha as (-> & Hf).
    set (v := mkVar (slack_name i name) 0 (slack_ub s (slack_rhs i s rhs) (fst b) (snd b)) (if i then INTEGER else CONTINUOUS)) in *.
    apply quadratic_constraint_inv in H; auto. destruct H as (cs & e & q & Ec & Ee & Eq & -> & Hfr). injection Ec as <-.
    assert (~ In (slack_name i name) (names ++ map v_name sv)) as Hnn.
    { rewrite <- V. intro A. apply Hf. eapply index_finds_keys; eauto. apply index_exact_finds, X. }
    assert (~ In (slack_name i name) (map fst lin)) as Hnl.
    { intro A. apply in_map_iff in A. destruct A as ([k w] & E & A). simpl in E. subst. apply Hnn, in_app_iff. left. apply Dd in A. exact A. }
    rewrite (dset_fresh _ str_eqb_sp) in Ee by assumption.
    assert (idx_exact (add_var dst v)) as X1 by (apply add_var_exact; auto).
    destruct (names_exact _ X1) as [X2 X3].
    assert (NoDup (map fst (lin ++ [(slack_name i name, slack_sign s)]))) as ND.
    { rewrite map_app. simpl. apply NoDup_snoc; auto. apply Dd. }
    destruct (lin_make_named _ _ X2 X3 _ _ ND Ee) as (Wf & Dim & Dic & Tr).
    assert (NoDup (map fst quad)) as ND2 by apply Dq.
    destruct (quad_make_named _ _ X2 X3 _ _ ND2 Eq) as (Wq & Dimq & Dicq).
    rewrite add_var_names, V in Dic, Dicq. simpl v_name in Dic, Dicq.
    assert (num_vars (add_var dst v) = num_vars dst + 1) as NV by (unfold num_vars; simpl; rewrite app_length; reflexivity).
    exists [v], e, q, (slack_rhs i s rhs). split; [reflexivity|]. split; [apply add_qc_exact; auto|]. split; auto. split; auto.
    split; [rewrite Dim; exact NV|]. split; [rewrite Dimq; exact NV|].
    eapply sl_one; eauto. intros x t a Lx Lt.
    assert (length x = length names) as Lx' by (unfold names; rewrite names_length; auto).
    assert (length t = length (map v_name sv)) as Lt' by (rewrite map_length; auto).
    rewrite (ext_dict_slack _ _ _ _ _ _ _ x t a Dd Dic Hnn Lx' Lt').
    rewrite <- app_assoc in Dicq |- *. rewrite (ext_dict2 _ _ _ _ _ x (t ++ [a]) Dq Dicq) by (auto; rewrite !app_length; simpl; lia).
    ring.
  - apply quadratic_constraint_inv in H; auto. destruct H as (cs & e & q & Ec & Ee & Eq & -> & Hfr). injection Ec as <-.
    destruct (names_exact _ X) as [X2 X3]. assert (NoDup (map fst lin)) as ND by apply Dd. assert (NoDup (map fst quad)) as ND2 by apply Dq.
    destruct (lin_make_named _ _ X2 X3 _ _ ND Ee) as (Wf & Dim & Dic & Tr). destruct (quad_make_named _ _ X2 X3 _ _ ND2 Eq) as (Wq & Dimq & Dicq).
    rewrite V in Dic, Dicq.
    exists [], e, q, (slack_rhs i s rhs). split; [reflexivity|]. split; [apply add_qc_exact; auto|]. split; auto. split; auto.
    split; [rewrite Dim; simpl; lia|]. split; [rewrite Dimq; simpl; lia|].
    eapply sl_none; eauto; [now apply Qcnot_lt_le|]. intros x t Lx Lt.
    assert (length x = length names) as Lx' by (unfold names; rewrite names_length; auto).
    assert (length t = length (map v_name sv)) as Lt' by (rewrite map_length; auto).
    now rewrite (ext_dict _ _ _ _ _ x t Dd Dic Lx' Lt'), (ext_dict2 _ _ _ _ _ x t Dq Dicq Lx' Lt').
Qed.

Lemma integral_same {K L} (a : list (K * Qc)) (b : list (L * Qc)) : map snd a = map snd b ->
  Forall (fun kv => integral (snd kv)) a <-> Forall (fun kv => integral (snd kv)) b.
Proof using. intro E. split; intro H; (eapply Forall_snd; [|exact H]); congruence. Qed.
Lemma ineq_linear_shape dst sv c dst' :
  idx_exact dst -> var_names dst = names ++ map v_name sv -> lc_name c <> EmptyString -> lin_wf (lc_lin c) ->
  ineq_linear mode src dst c = Ok dst' ->
  exists i vs e rhs', dst' = add_lc (add_vars dst vs) (mkLC (lc_name c) e EQ rhs') /\ idx_exact dst' /\ lin_wf e /\
    le_dim e = num_vars dst + length vs /\ slacked mode src (length sv) i (lc_sense c) (lc_rhs c) (lc_at c) (lin_at e) rhs' vs /\
    (lc_sense c <> EQ -> i = true <-> mode <> MContinuous /\ int_lin (lc_lin c)) /\
    (mode = MInteger -> (lc_sense c = EQ -> int_lin (lc_lin c) /\ integral (lc_rhs c)) ->
       int_lin e /\ integral rhs' /\ (Forall int_range (p_vars src) -> Forall int_range vs)).
Proof using W.
  intros X V Hname Wl H. unfold ineq_linear in H. apply bind_ok in H. destruct H as (lin & Hlin & H).
  apply lin_names_dict in Hlin; [|now apply prog_wf_nodup|assumption]. destruct Hlin as [Dd Vals].
  assert (any_float lin = false <-> int_lin (lc_lin c)) as FL by (rewrite any_float_same; apply integral_same; exact Vals).
  assert (forall i, (i = true -> mode <> MContinuous) -> (mode = MInteger -> i = true) -> (mode <> MContinuous -> any_float lin = false -> i = true) -> lc_sense c <> EQ ->
    slack_linear i src dst lin (lc_sense c) (lc_rhs c) (lc_name c) = Ok dst' ->
    exists i vs e rhs', dst' = add_lc (add_vars dst vs) (mkLC (lc_name c) e EQ rhs') /\ idx_exact dst' /\ lin_wf e /\
    le_dim e = num_vars dst + length vs /\ slacked mode src (length sv) i (lc_sense c) (lc_rhs c) (lc_at c) (lin_at e) rhs' vs /\
    (lc_sense c <> EQ -> i = true <-> mode <> MContinuous /\ int_lin (lc_lin c)) /\
    (mode = MInteger -> (lc_sense c = EQ -> int_lin (lc_lin c) /\ integral (lc_rhs c)) ->
       int_lin e /\ integral rhs' /\ (Forall int_range (p_vars src) -> Forall int_range vs))) as G.
  { intros i Hi Hi' Hj Hs E. assert (i = true -> any_float lin = false) as Hf by (intros ->; unfold slack_linear in E; destruct (any_float lin); [discriminate E|reflexivity]). destruct (slack_linear_shape i dst sv lin _ (lc_lin c) _ _ _ dst' X V Hname Hs Hi Dd eq_refl E) as (vs & e & rhs' & A1 & A2 & A3 & A4 & A5 & A6).
    exists i, vs, e, rhs'. do 5 (split; [assumption|]). split; [|auto]. intros _. rewrite <- FL. split; [auto|intros [? ?]; auto]. }
  destruct (lc_sense c) eqn:Es.
  - destruct mode; try discriminate; (eapply G; [| | |discriminate|exact H]); auto; try discriminate; try congruence; intros _ ->; reflexivity.
  - destruct mode; try discriminate; (eapply G; [| | |discriminate|exact H]); auto; try discriminate; try congruence; intros _ ->; reflexivity.
  - apply linear_constraint_inv in H; auto. destruct H as (cs & e & Ec & Ee & -> & Hfr). injection Ec as <-.
    destruct (names_exact _ X) as [X2 X3]. assert (NoDup (map fst lin)) as ND by apply Dd.
    destruct (lin_make_named _ _ X2 X3 _ _ ND Ee) as (Wf & Dim & Dic & Tr). rewrite V in Dic.
    exists false, [], e, (lc_rhs c). split; [reflexivity|]. split; [apply add_lc_exact; auto|]. split; auto. split; [rewrite Dim; simpl; lia|].
    split; [apply sl_eq; auto; intros x t Lx Lt; eapply ext_dict; eauto; unfold names; rewrite ?names_length, ?map_length; auto|].
    split; [congruence|]. intros _ K. destruct (K eq_refl) as [K1 K2]. split; [|split]; auto. apply Tr. eapply Forall_snd; [|exact K1]. auto.
Qed.
Lemma ineq_quadratic_shape dst sv c dst' :
  idx_exact dst -> var_names dst = names ++ map v_name sv -> qc_name c <> EmptyString -> lin_wf (qc_lin c) -> quad_wf (qc_quad c) ->
  ineq_quadratic mode src dst c = Ok dst' ->
  exists i vs e q rhs', dst' = add_qc (add_vars dst vs) (mkQC (qc_name c) e q EQ rhs') /\ idx_exact dst' /\ lin_wf e /\ quad_wf q /\
    le_dim e = num_vars dst + length vs /\ qe_dim q = num_vars dst + length vs /\
    slacked mode src (length sv) i (qc_sense c) (qc_rhs c) (qc_at c) (fun x => lin_at e x + quad_at q x)%Qc rhs' vs /\
    (qc_sense c <> EQ -> i = true <-> mode <> MContinuous /\ int_lin (qc_lin c) /\ int_quad (qc_quad c)).
Proof using W.
  intros X V Hname Wl Wq0 H. unfold ineq_quadratic in H. apply bind_ok in H. destruct H as (lin & Hlin & H).
  apply bind_ok in H. destruct H as (quad & Hquad & H).
  apply lin_names_dict in Hlin; [|now apply prog_wf_nodup|assumption]. destruct Hlin as [Dd Vl].
  apply quad_names_dict in Hquad; [|now apply prog_wf_nodup|assumption]. destruct Hquad as [Dq Vq].
  assert (any_float lin || any_float quad = false <-> int_lin (qc_lin c) /\ int_quad (qc_quad c)) as FL.
  { rewrite orb_false_iff, !any_float_same. pose proof (integral_same _ _ Vl). pose proof (integral_same _ _ Vq). unfold int_lin, int_quad. tauto. }
  assert (forall i, (i = true -> mode <> MContinuous) -> (mode <> MContinuous -> any_float lin || any_float quad = false -> i = true) -> qc_sense c <> EQ ->
    slack_quadratic i src dst lin quad (qc_sense c) (qc_rhs c) (qc_name c) = Ok dst' ->
    exists i vs e q rhs', dst' = add_qc (add_vars dst vs) (mkQC (qc_name c) e q EQ rhs') /\ idx_exact dst' /\ lin_wf e /\ quad_wf q /\
    le_dim e = num_vars dst + length vs /\ qe_dim q = num_vars dst + length vs /\
    slacked mode src (length sv) i (qc_sense c) (qc_rhs c) (qc_at c) (fun x => lin_at e x + quad_at q x)%Qc rhs' vs /\
    (qc_sense c <> EQ -> i = true <-> mode <> MContinuous /\ int_lin (qc_lin c) /\ int_quad (qc_quad c))) as G.
  { intros i Hi Hj Hs E. assert (i = true -> any_float lin || any_float quad = false) as Hf by (intros ->; unfold slack_quadratic in E; destruct (any_float lin || any_float quad); [discriminate E|reflexivity]).
    destruct (slack_quadratic_shape i dst sv lin quad (qc_lin c) (qc_quad c) _ _ _ dst' X V Hname Hs Hi Dd Dq E) as (vs & e & q & rhs' & A1 & A2 & A3 & A4 & A5 & A6 & A7).
    exists i, vs, e, q, rhs'. do 7 (split; [assumption|]). intros _. rewrite <- FL. split; [auto|intros [? ?]; auto]. }
  destruct (qc_sense c) eqn:Es.
  - destruct mode; try discriminate; (eapply G; [| | |exact H]); try discriminate; try congruence; auto; intros _ ->; reflexivity.
  - destruct mode; try discriminate; (eapply G; [| | |exact H]); try discriminate; try congruence; auto; intros _ ->; reflexivity.
  - apply quadratic_constraint_inv in H; auto. destruct H as (cs & e & q & Ec & Ee & Eq & -> & Hfr). injection Ec as <-.
    destruct (names_exact _ X) as [X2 X3]. assert (NoDup (map fst lin)) as ND by apply Dd. assert (NoDup (map fst quad)) as ND2 by apply Dq.
    destruct (lin_make_named _ _ X2 X3 _ _ ND Ee) as (Wf & Dim & Dic & Tr). destruct (quad_make_named _ _ X2 X3 _ _ ND2 Eq) as (Wq & Dimq & Dicq).
    rewrite V in Dic, Dicq.
    exists false, [], e, q, (qc_rhs c). split; [reflexivity|]. split; [apply add_qc_exact; auto|]. split; auto. split; auto.
    split; [rewrite Dim; simpl; lia|]. split; [rewrite Dimq; simpl; lia|].
    split; [|congruence]. apply sl_eq; auto. intros x t Lx Lt.
    assert (length x = length names) as Lx' by (unfold names; rewrite names_length; auto).
    assert (length t = length (map v_name sv)) as Lt' by (rewrite map_length; auto).
    unfold qc_at. now rewrite (ext_dict _ _ _ _ _ x t Dd Dic Lx' Lt'), (ext_dict2 _ _ _ _ _ x t Dq Dicq Lx' Lt').
Qed.
End Step.

(** ** The whole conversion *)
Lemma slacked_sv mode src m i s rhs f g rhs' vs : slacked mode src m i s rhs f g rhs' vs -> length vs <= 1.
Proof. intros []; simpl; lia. Qed.
Lemma add_vars_fields p vs : p_vars (add_vars p vs) = p_vars p ++ vs /\ p_lcs (add_vars p vs) = p_lcs p /\ p_qcs (add_vars p vs) = p_qcs p /\
  p_obj (add_vars p vs) = p_obj p.
Proof.
  unfold add_vars. revert p. induction vs as [|v vs IH]; intro p; simpl; [now rewrite app_nil_r|].
  destruct (IH (add_var p v)) as (A & B & C & D). rewrite A, B, C, D. simpl. rewrite <- app_assoc. auto.
Qed.
Lemma fit_more p vs : cons_fit p -> cons_fit (add_vars p vs).
Proof.
  destruct (add_vars_fields p vs) as (A & B & C & D). unfold cons_fit, num_vars. rewrite A, B, C, app_length.
  intros [F1 F2]. split; (eapply Forall_impl; [|eassumption]); simpl; intros c; [intros [W K]|intros ((W & K) & W' & K')].
  - split; auto. lia.
  - split; [split; auto; lia|split; auto; lia].
Qed.
Lemma cons_hold_add_lc p vs c y : cons_hold (add_lc (add_vars p vs) c) y <-> cons_hold p y /\ holds (lc_sense c) (lc_at c y) (lc_rhs c).
Proof.
  destruct (add_vars_fields p vs) as (A & B & C & D). unfold cons_hold, lcs_hold, qcs_hold. simpl. rewrite B, C. rewrite Forall_app.
  split; [intros [[H1 H2] H3]; inversion H2; auto|intros [[H1 H2] H3]; auto].
Qed.
Lemma cons_hold_add_qc p vs c y : cons_hold (add_qc (add_vars p vs) c) y <-> cons_hold p y /\ holds (qc_sense c) (qc_at c y) (qc_rhs c).
Proof.
  destruct (add_vars_fields p vs) as (A & B & C & D). unfold cons_hold, lcs_hold, qcs_hold. simpl. rewrite B, C. rewrite Forall_app.
  split; [intros [H1 [H2 H3]]; inversion H3; auto|intros [[H1 H2] H3]; auto].
Qed.
Lemma add_lc_fit p c : cons_fit p -> lin_wf (lc_lin c) -> le_dim (lc_lin c) = num_vars p -> cons_fit (add_lc p c).
Proof. intros [F1 F2] W D. split; auto. simpl. apply Forall_app. split; auto. constructor; auto. split; auto. unfold num_vars in *; simpl; lia. Qed.
Lemma add_qc_fit p c : cons_fit p -> lin_wf (qc_lin c) -> le_dim (qc_lin c) = num_vars p -> quad_wf (qc_quad c) -> qe_dim (qc_quad c) = num_vars p ->
  cons_fit (add_qc p c).
Proof.
  intros [F1 F2] W D W' D'. split; auto. simpl. apply Forall_app. split; auto. constructor; auto. unfold num_vars in *.
  simpl. split; split; auto; lia.
Qed.
Lemma ieinv_names mode src dst sv D : ieinv mode src dst sv D -> var_names dst = var_names src ++ map v_name sv.
Proof.
  intro I. unfold var_names. rewrite (ie_vars _ _ _ _ _ I), map_app, map_map. f_equal. apply map_ext. apply copyv_name.
Qed.

(** Integrality of the data of the constraints. *)
Record iedata (dst : qp) (sv : list variable) : Prop := { id_rows : int_rows dst; id_sv : Forall int_range sv; id_qcs : p_qcs dst = [] }.

Lemma linear_step mode src dst sv D c dst' : prog_wf src -> lc_name c <> EmptyString -> lin_wf (lc_lin c) ->
  ieinv mode src dst sv D -> ineq_linear mode src dst c = Ok dst' ->
  exists vs, ieinv mode src dst' (sv ++ vs) (fun x => D x /\ holds (lc_sense c) (lc_at c x) (lc_rhs c)) /\
  (mode = MInteger -> (lc_sense c = EQ -> int_lin (lc_lin c) /\ integral (lc_rhs c)) -> Forall int_range (p_vars src) -> iedata dst sv -> iedata dst' (sv ++ vs)).
Proof.
  intros W Hn Wl I H. pose proof (ieinv_names _ _ _ _ _ I) as V.
  destruct (ineq_linear_shape mode src W dst sv c dst' (ie_exact _ _ _ _ _ I) V Hn Wl H) as (i & vs & e & rhs' & -> & X & We & De & S & _ & ID).
  destruct (add_vars_fields dst vs) as (A1 & A2 & A3 & A4). exists vs. split.
  - eapply ieinv_step; eauto.
    + apply add_lc_fit; auto; [apply fit_more; apply I|]. simpl. unfold num_vars in *. rewrite A1, app_length. lia.
    + simpl. rewrite A2. apply Forall_app. split; [apply I|]. constructor; auto.
    + simpl. rewrite A3. apply I.
    + intro y. rewrite cons_hold_add_lc. reflexivity.
  - intros M E IR [R1 R2 R3]. destruct (ID M E) as (I1 & I2 & I3). constructor; [|apply Forall_app; split; auto|simpl; now rewrite A3].
    unfold int_rows. simpl. rewrite A2. apply Forall_app. split; auto.
Qed.
Lemma quadratic_step mode src dst sv D c dst' : prog_wf src -> qc_name c <> EmptyString -> lin_wf (qc_lin c) -> quad_wf (qc_quad c) ->
  ieinv mode src dst sv D -> ineq_quadratic mode src dst c = Ok dst' ->
  exists vs, ieinv mode src dst' (sv ++ vs) (fun x => D x /\ holds (qc_sense c) (qc_at c x) (qc_rhs c)).
Proof.
  intros W Hn Wl Wq I H. pose proof (ieinv_names _ _ _ _ _ I) as V.
  destruct (ineq_quadratic_shape mode src W dst sv c dst' (ie_exact _ _ _ _ _ I) V Hn Wl Wq H) as (i & vs & e & q & rhs' & -> & X & We & Wq' & De & Dq & S & _).
  destruct (add_vars_fields dst vs) as (A1 & A2 & A3 & A4). exists vs.
  eapply ieinv_step; eauto.
  - apply add_qc_fit; auto; [apply fit_more; apply I| |]; simpl; unfold num_vars in *; rewrite A1, app_length; lia.
  - simpl. rewrite A2. apply I.
  - simpl. rewrite A3. apply Forall_app. split; [apply I|]. constructor; auto.
  - intro y. rewrite cons_hold_add_qc. reflexivity.
Qed.
Lemma ieinv_iff mode src dst sv D D' : (forall x, D x <-> D' x) -> ieinv mode src dst sv D -> ieinv mode src dst sv D'.
Proof.
  intros E []. constructor; auto.
  - intros M x B T Dx. apply ie_complete0; auto. now apply E.
  - intros x t Lx R H. apply E. eauto.
Qed.
Lemma linear_steps mode src cs : forall dst sv D dst', prog_wf src ->
  Forall (fun c => lc_name c <> EmptyString) cs -> Forall (fun c => lin_wf (lc_lin c)) cs ->
  ieinv mode src dst sv D -> foldM (ineq_linear mode src) cs dst = Ok dst' ->
  exists vs, ieinv mode src dst' (sv ++ vs) (fun x => D x /\ Forall (fun c => holds (lc_sense c) (lc_at c x) (lc_rhs c)) cs) /\
  (mode = MInteger -> Forall (fun c => lc_sense c = EQ -> int_lin (lc_lin c) /\ integral (lc_rhs c)) cs -> Forall int_range (p_vars src) ->
     iedata dst sv -> iedata dst' (sv ++ vs)).
Proof.
  induction cs as [|c cs IH]; intros dst sv D dst' W N F I H; cbn [foldM] in H.
  - injection H as <-. exists []. rewrite app_nil_r. split; [|auto]. eapply ieinv_iff; [|exact I]. intro x. split; auto. tauto.
  - apply bind_ok in H. destruct H as (d1 & H1 & H2). inversion N; inversion F; subst.
    destruct (linear_step _ _ _ _ _ _ _ W H3 H7 I H1) as (vs & I1 & K1).
    destruct (IH _ _ _ _ W H4 H8 I1 H2) as (vs2 & I2 & K2). exists (vs ++ vs2). rewrite app_assoc. split.
    + eapply ieinv_iff; [|exact I2]. intro x. rewrite Forall_cons_iff. tauto.
    + intros M E IR ID. inversion E; subst. auto.
Qed.
Lemma quadratic_steps mode src cs : forall dst sv D dst', prog_wf src ->
  Forall (fun c => qc_name c <> EmptyString) cs -> Forall (fun c => lin_wf (qc_lin c) /\ quad_wf (qc_quad c)) cs ->
  ieinv mode src dst sv D -> foldM (ineq_quadratic mode src) cs dst = Ok dst' ->
  exists vs, ieinv mode src dst' (sv ++ vs) (fun x => D x /\ Forall (fun c => holds (qc_sense c) (qc_at c x) (qc_rhs c)) cs).
Proof.
  induction cs as [|c cs IH]; intros dst sv D dst' W N F I H; cbn [foldM] in H.
  - injection H as <-. exists []. rewrite app_nil_r. eapply ieinv_iff; [|exact I]. intro x. split; auto. tauto.
  - apply bind_ok in H. destruct H as (d1 & H1 & H2). inversion N; inversion F; subst.
    destruct H7 as [W1 W2]. destruct (quadratic_step _ _ _ _ _ _ _ W H3 W1 W2 I H1) as (vs & I1).
    destruct (IH _ _ _ _ W H4 H8 I1 H2) as (vs2 & I2). exists (vs ++ vs2). rewrite app_assoc.
    eapply ieinv_iff; [|exact I2]. intro x. rewrite Forall_cons_iff. tauto.
Qed.

Lemma var_names_copy l : map v_name (map copyv l) = map v_name l.
Proof. rewrite map_map. apply map_ext. apply copyv_name. Qed.
Lemma ineq_start mode src dst lin quad dst' : prog_wf src ->
  foldM copy_var (p_vars src) (new_qp (p_name src)) = Ok dst ->
  lin_to_dict_names (var_names src) (o_lin (p_obj src)) = Ok lin ->
  quad_to_dict_names (var_names src) false (o_quad (p_obj src)) = Ok quad ->
  ok_state (set_objective dst (o_sense (p_obj src)) (o_const (p_obj src)) (by_name lin) (by_name2 quad)) = Ok dst' ->
  ieinv mode src dst' [] (fun _ => True) /\ p_lcs dst' = [] /\ p_qcs dst' = [].
Proof.
  intros W Hc Hl Hq Ho. pose proof Hq as Hq0. pose proof W as (_ & _ & _ & _ & (W1 & W2 & _) & _).
  apply copy_vars_inv in Hc; [|apply idx_exact_new]. destruct Hc as (X & V & L & _ & Q & _ & O & _ & _ & B).
  apply lin_names_dict in Hl; [|now apply prog_wf_nodup|assumption]. apply quad_names_dict in Hq; [|now apply prog_wf_nodup|assumption].
  destruct Hl as [Dl _], Hq as [Dq _].
  apply set_objective_inv in Ho. destruct Ho as (e & q & Ee & Eq & ->).
  destruct (names_exact _ X) as [X2 X3]. assert (NoDup (map fst lin)) as ND by apply Dl. assert (NoDup (map fst quad)) as ND2 by apply Dq.
  destruct (lin_make_named _ _ X2 X3 _ _ ND Ee) as (Wf & Dim & Dic & Tr). destruct (quad_make_named _ _ X2 X3 _ _ ND2 Eq) as (Wq & Dimq & Dicq).
  assert (var_names dst = var_names src ++ []) as VN by (unfold var_names; rewrite V; simpl; rewrite var_names_copy, app_nil_r; reflexivity).
  rewrite VN in Dic, Dicq. simpl in V, L, Q.
  split; [|now split]. constructor; simpl; auto.
  - now apply set_obj_exact.
  - now rewrite app_nil_r.
  - intros x t Lx Lt. unfold obj_at. simpl.
    rewrite (ext_dict _ _ _ _ _ x t Dl Dic), (ext_dict2 _ _ _ _ _ x t Dq Dicq); auto; now rewrite names_length.
  - split; (split; [assumption|rewrite ?Dim, ?Dimq; apply le_n]).
  - split; simpl; rewrite ?L, ?Q; constructor.
  - rewrite L, Q. auto.
  - intros i j w Hin. destruct (quad_make_sources _ _ X2 X3 _ _ Eq _ _ _ Hin) as (s & t & v & Hd & K).
    apply quad_names_inv in Hq0; [|now apply prog_wf_nodup|assumption]. destruct (Forall2_in_r _ _ _ _ Hq0 Hd) as ([[a b] w'] & A1 & (A2 & A3) & _). cbn [fst snd] in *.
    rewrite VN, app_nil_r in K. assert (forall k n, nth_error (var_names src) k = Some n -> k < num_vars src) as LT by (intros k n E; rewrite <- names_length; apply nth_error_Some; congruence).
    split; [destruct K as [[K1 K2]|[K1 K2]]; eauto|]. split; [destruct K as [[K1 K2]|[K1 K2]]; eauto|]. exists w'. assert (NoDup (var_names src)) as N by now apply prog_wf_nodup.
    destruct K as [[K1 K2]|[K1 K2]]; [left|right].
    + now rewrite (name_inj _ _ _ _ N K1 A2), (name_inj _ _ _ _ N K2 A3).
    + now rewrite (name_inj _ _ _ _ N K1 A2), (name_inj _ _ _ _ N K2 A3).
  - intros _ x _ _ _. exists []. split; auto. split; auto. split; unfold lcs_hold, qcs_hold; simpl; rewrite ?L, ?Q; constructor.
Qed.

Theorem ineq_to_eq_inv mode src dst : prog_wf src -> ineq_to_eq mode src = Ok dst ->
  exists sv, ieinv mode src dst sv (cons_hold src) /\
  (mode = MInteger -> Forall (fun c => lc_sense c = EQ -> int_lin (lc_lin c) /\ integral (lc_rhs c)) (p_lcs src) -> p_qcs src = [] ->
     Forall int_range (p_vars src) -> iedata dst sv).
Proof.
  intros W H. unfold ineq_to_eq in H.
  apply bind_ok in H. destruct H as (d0 & Hc & H). apply bind_ok in H. destruct H as (lin & Hl & H).
  apply bind_ok in H. destruct H as (quad & Hq & H). apply bind_ok in H. destruct H as (d1 & Ho & H).
  apply bind_ok in H. destruct H as (d2 & H2 & H3).
  destruct (ineq_start mode src _ _ _ _ W Hc Hl Hq Ho) as (I & Z1 & Z2).
  pose proof W as (_ & _ & _ & _ & (_ & _ & W3 & W4) & N1 & N2).
  destruct (linear_steps _ _ _ _ _ _ _ W N1 W3 I H2) as (vs & I2 & K2).
  destruct (quadratic_steps _ _ _ _ _ _ _ W N2 W4 I2 H3) as (vs2 & I3).
  exists (vs ++ vs2). split.
  - eapply ieinv_iff; [|exact I3]. intro x. unfold cons_hold, lcs_hold, qcs_hold. tauto.
  - intros M E Q IR. rewrite Q in H3. simpl in H3. injection H3 as <-.
    destruct (K2 M E IR) as [K3 K4 K5]; [constructor; [unfold int_rows; rewrite Z1; constructor|constructor|assumption]|].
    assert (vs2 = []) as ->; [|rewrite app_nil_r; now constructor].
    assert (length vs2 = 0) as L2; [|destruct vs2; [reflexivity|discriminate]].
    pose proof (ieinv_nv _ _ _ _ _ I2) as V1. pose proof (ieinv_nv _ _ _ _ _ I3) as V2. simpl in *. rewrite !app_length in *. lia.
Qed.
