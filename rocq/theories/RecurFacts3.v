(** * Facts about the recursive optimizer: the shape of a substituted objective *)
From Verif Require Export RecurFacts2.
Local Open Scope nat_scope.

Section Closed.
Variable P : Qc -> Prop.
Hypothesis P0 : P 0%Qc.
Hypothesis PA : forall a b, P a -> P b -> P (a + b)%Qc.

Lemma dgetq_P {K} (eqb : K -> K -> bool) (sp : forall a b, reflect (a = b) (eqb a b)) k (d : list (K * Qc)) : Forall (fun kv => P (snd kv)) d -> P (dgetq eqb k d).
Proof using P0.
  intro F. unfold dgetq. destruct (dget eqb k d) as [v|] eqn:E; auto. apply (dget_in _ sp) in E. rewrite Forall_forall in F. exact (F _ E).
Qed.
Lemma dadd_P {K} (eqb : K -> K -> bool) (sp : forall a b, reflect (a = b) (eqb a b)) k v (d : list (K * Qc)) :
  P v -> Forall (fun kv => P (snd kv)) d -> Forall (fun kv => P (snd kv)) (dadd eqb k v d).
Proof using P0 PA. intros Hv F. unfold dadd. apply (dset_Forall _ sp); auto. cbn. apply PA; auto. now apply (dgetq_P _ sp). Qed.
Lemma coef1_P e : Forall (fun kv => P (snd kv)) (le_co e) -> forall i, P (coef1 e i).
Proof using P0. intros F i. now apply (dgetq_P _ nat_eqb_sp). Qed.
Lemma coef2_P e : Forall (fun kv => P (snd kv)) (qe_co e) -> forall i j, P (coef2 e i j).
Proof using P0. intros F i j. now apply (dgetq_P _ nat2_eqb_sp). Qed.
Lemma coef1_all e : lin_wf e -> (forall i, P (coef1 e i)) -> Forall (fun kv => P (snd kv)) (le_co e).
Proof using. clear. intros [N _] H. apply Forall_forall. intros [i v] Hin. specialize (H i). unfold coef1, dgetq in H. now rewrite (in_dget _ nat_eqb_sp _ _ _ N Hin) in H. Qed.
Lemma coef2_all e : quad_wf e -> (forall i j, P (coef2 e i j)) -> Forall (fun kv => P (snd kv)) (qe_co e).
Proof using. clear. intros [N _] H. apply Forall_forall. intros [[i j] v] Hin. specialize (H i j). unfold coef2, mget, dgetq in H. now rewrite (in_dget _ nat2_eqb_sp _ _ _ N Hin) in H. Qed.

Lemma lin_put_values env d : forall e e', foldM (lin_put env) d e = Ok e' -> lin_wf e -> le_int e = false -> Forall (fun kv => P (snd kv)) d -> Forall (fun kv => P (snd kv)) (le_co e) ->
  lin_wf e' /\ le_dim e' = le_dim e /\ le_int e' = false /\ Forall (fun kv => P (snd kv)) (le_co e').
Proof using.
  clear. induction d as [|kv d IH]; intros e e' H We Ie Fd Fe; cbn [foldM] in H; [injection H as <-; auto|]. apply bind_ok in H. destruct H as (e1 & H1 & H).
  unfold lin_put in H1. apply bind_ok in H1. destruct H1 as (z & _ & H1). apply bind_ok in H1. destruct H1 as (i & Hi & H1). injection H1 as <-. rewrite Ie in H. cbn [dtype_cast] in H.
  inversion Fd as [|? ? Fk Fd']; subst. assert (i < le_dim e) as Li. { unfold dok_index in Hi. destruct (py_index (le_dim e) z) as [i'|] eqn:Ez; [|discriminate]. injection Hi as ->. apply py_index_some in Ez; tauto. }
  destruct (IH _ _ H) as (A & B & C & D); auto.
  - destruct We as [W1 W2]. split; cbn; [now apply (dok_put_nodup _ nat_eqb_sp)|now apply (dok_put_Forall _ nat_eqb_sp)].
  - cbn. now apply (dok_put_Forall _ nat_eqb_sp).
Qed.
Lemma by_name_P {A B} (f : A -> B) (d : list (A * Qc)) : Forall (fun kv => P (snd kv)) d -> Forall (fun kv => P (snd kv)) (map (fun kv => (f (fst kv), snd kv)) d).
Proof using. clear. intro F. induction F; constructor; auto. Qed.
Lemma lin_make_P env d e : lin_make env (lcoef_or_empty (by_name d)) = Ok e -> Forall (fun kv => P (snd kv)) d ->
  lin_shape (ve_n env) e /\ le_int e = false /\ Forall (fun kv => P (snd kv)) (le_co e).
Proof using.
  clear. intros H F. cbn in H. apply lin_put_values in H; auto.
  - destruct H as (A & B & C & D). cbn in B. split; [split; auto|auto].
  - split; [constructor|constructor].
  - now apply (by_name_P KS).
  - constructor.
Qed.
Lemma triangle_P n i co : Forall (fun kv => P (snd kv)) co -> let e := mkQuad n i (triangle n co) in
  quad_shape n e /\ quad_upper e /\ Forall (fun kv => P (snd kv)) (qe_co e).
Proof using P0 PA.
  intro F. cbv zeta. assert (quad_wf (mkQuad n i (triangle n co))) as W by apply triangle_wf. split; [split; auto|]. split; [apply triangle_upper|].
  apply coef2_all; auto. intros a b. unfold coef2. cbn [qe_co]. destruct (Nat.lt_ge_cases a n) as [La|La]; [destruct (Nat.lt_ge_cases b n) as [Lb|Lb]|].
  - rewrite triangle_get by auto. repeat destruct (_ <? _); auto; try apply PA; unfold mget; now apply (dgetq_P _ nat2_eqb_sp).
  - unfold mget, dgetq. destruct (dget nat2_eqb (a, b) (triangle n co)) as [v|] eqn:E; auto. apply (dget_in _ nat2_eqb_sp) in E. destruct W as [_ W]. rewrite Forall_forall in W. specialize (W _ E). cbn in W. lia.
  - unfold mget, dgetq. destruct (dget nat2_eqb (a, b) (triangle n co)) as [v|] eqn:E; auto. apply (dget_in _ nat2_eqb_sp) in E. destruct W as [_ W]. rewrite Forall_forall in W. specialize (W _ E). cbn in W. lia.
Qed.
Lemma quad_make_P env d e : quad_make env (qcoef_or_empty (by_name2 d)) = Ok e -> Forall (fun kv => P (snd kv)) d ->
  quad_shape (ve_n env) e /\ quad_upper e /\ Forall (fun kv => P (snd kv)) (qe_co e).
Proof using P0 PA.
  intros H F. cbn in H. apply bind_ok in H. destruct H as (co & H & E). injection E as <-. apply triangle_P.
  assert (forall l co0 co1, foldM (quad_put_raw env (ve_n env)) l co0 = Ok co1 -> Forall (fun kv => P (snd kv)) l -> Forall (fun kv => P (snd kv)) co0 -> Forall (fun kv => P (snd kv)) co1) as G.
  { clear. induction l as [|kv l IH]; intros co0 co1 H Fl F0; cbn [foldM] in H; [injection H as <-; auto|]. apply bind_ok in H. destruct H as (co2 & H2 & H). inversion Fl; subst.
    eapply IH; eauto. unfold quad_put_raw in H2. inv_ok. now apply (dok_put_Forall _ nat2_eqb_sp). }
  eapply G; eauto. apply (by_name_P (fun k => (KS (fst k), KS (snd k)))). exact F.
Qed.
Lemma dok_add_P kz a b e : dok_add kz a b = Ok e -> lin_wf a -> lin_wf b -> Forall (fun kv => P (snd kv)) (le_co a) -> Forall (fun kv => P (snd kv)) (le_co b) -> le_int a = false ->
  lin_shape (le_dim a) e /\ le_int e = false /\ Forall (fun kv => P (snd kv)) (le_co e).
Proof using P0 PA.
  intros H Wa Wb Fa Fb Ia. destruct (dok_add_spec _ _ _ _ Wa Wb H) as (We & De & _ & _). split; [split; auto|]. unfold dok_add in H. destruct (Nat.eqb _ _); [|discriminate]. injection H as <-.
  cbn [le_int le_co]. rewrite Ia. split; auto. clear -Fa Fb P0 PA. revert Fa. generalize (le_co a). induction Fb as [|kv l Hk Fb IH]; intros co Fa; cbn [fold_left]; auto. apply IH.
  assert (P (dgetq Nat.eqb (fst kv) co + snd kv)%Qc) by (apply PA; auto; now apply (dgetq_P _ nat_eqb_sp)).
  destruct kz; [apply (dset_Forall _ nat_eqb_sp)|apply (dok_put_Forall _ nat_eqb_sp)]; auto.
Qed.

Variables (p : qp) (subs : subs_t).
Hypothesis ND : NoDup (var_names p).
Hypothesis PM : forall e, In e subs -> forall c, P c -> P (c * snd (snd e))%Qc.
Lemma repl_P s c : P c -> P (c * snd (repl subs s))%Qc.
Proof using PM.
  intro Hc. unfold repl. destruct (dget String.eqb s subs) as [r|] eqn:E; [|cbn; now rewrite Qcmult_1_r]. apply (dget_in _ str_eqb_sp) in E. exact (PM _ E c Hc).
Qed.
Lemma sub_lin_P dst e c l : sub_lin p subs dst e = Ok (c, l) -> lin_wf e -> Forall (fun kv => P (snd kv)) (le_co e) ->
  lin_shape (num_vars dst) l /\ le_int l = false /\ Forall (fun kv => P (snd kv)) (le_co l).
Proof using P0 PA PM ND.
  intros H We Fe. unfold sub_lin in H. apply bind_ok in H. destruct H as (d & Hd & H). cbv zeta in H. apply bind_ok in H. destruct H as (l' & Hl & H). injection H as _ <-.
  apply lin_make_P in Hl; auto. destruct (lin_names_dict _ _ _ ND We Hd) as [_ Ed].
  assert (Forall (fun kv => P (snd kv)) d) as Fd. { apply Forall_map in Fe. rewrite <- Ed in Fe. now apply Forall_map. }
  clear -Fd P0 PA PM. assert (forall st, Forall (fun kv => P (snd kv)) (snd st) -> Forall (fun kv => P (snd kv)) (snd (fold_left (sub_lin_step subs) d st))) as G; [|apply G; constructor].
  induction Fd as [|kv d Hk Fd IH]; intros st Fs; cbn [fold_left]; auto. apply IH. unfold sub_lin_step. destruct (String.eqb _ CONST); cbn [snd]; auto.
  apply (dadd_P _ str_eqb_sp); auto. now apply repl_P.
Qed.
Lemma sub_quad_P dst e c l q : sub_quad p subs dst e = Ok (c, l, q) -> quad_wf e -> Forall (fun kv => P (snd kv)) (qe_co e) ->
  lin_shape (num_vars dst) l /\ le_int l = false /\ Forall (fun kv => P (snd kv)) (le_co l) /\
  quad_shape (num_vars dst) q /\ quad_upper q /\ Forall (fun kv => P (snd kv)) (qe_co q).
Proof using P0 PA PM ND.
  intros H We Fe. unfold sub_quad in H. apply bind_ok in H. destruct H as (d & Hd & H). destruct (fold_left (sub_quad_step subs) d ([], [], [])) as [[c0 l0] q0] eqn:Ef.
  apply bind_ok in H. destruct H as (l' & Hl & H). apply bind_ok in H. destruct H as (q' & Hq & H). injection H as <- <- <-.
  destruct (quad_names_dict _ _ _ ND We Hd) as [_ Ed].
  assert (Forall (fun kv => P (snd kv)) d) as Fd. { apply Forall_map in Fe. rewrite <- Ed in Fe. now apply Forall_map. }
  assert (Forall (fun kv => P (snd kv)) l0 /\ Forall (fun kv => P (snd kv)) q0) as [F1 F2].
  { clear -Fd P0 PA PM Ef. assert (forall c l q, Forall (fun kv => P (snd kv)) l -> Forall (fun kv => P (snd kv)) q ->
      let st := fold_left (sub_quad_step subs) d (c, l, q) in Forall (fun kv => P (snd kv)) (snd (fst st)) /\ Forall (fun kv => P (snd kv)) (snd st)) as G.
    { clear Ef. induction Fd as [|[[s t] v] d Hk Fd IH]; intros c l q Fl Fq; cbn [fold_left]; auto. unfold sub_quad_step at 2 4. cbn [fst snd] in *.
      assert (P (v * snd (repl subs s) * snd (repl subs t))%Qc) by (apply repl_P, repl_P; auto).
      destruct (String.eqb _ CONST), (String.eqb _ CONST); apply IH; auto; try (apply (dadd_P _ str_eqb_sp); auto); try (apply (dadd_P _ str2_eqb_sp); auto). }
    specialize (G [] [] [] (Forall_nil _) (Forall_nil _)). rewrite Ef in G. exact G. }
  destruct (lin_make_P _ _ _ Hl F1) as (A1 & A2 & A3). destruct (quad_make_P _ _ _ Hq F2) as (B1 & B2 & B3). auto 10.
Qed.
Lemma sub_objective_P kz dst dst' : sub_objective kz p subs dst = Ok dst' -> lin_wf (o_lin (p_obj p)) -> quad_wf (o_quad (p_obj p)) ->
  (forall i, P (coef1 (o_lin (p_obj p)) i)) -> (forall i j, P (coef2 (o_quad (p_obj p)) i j)) ->
  exists o, dst' = set_obj o dst /\ lin_shape (num_vars dst) (o_lin o) /\ quad_shape (num_vars dst) (o_quad o) /\ quad_upper (o_quad o) /\ le_int (o_lin o) = false /\
    (forall i, P (coef1 (o_lin o) i)) /\ (forall i j, P (coef2 (o_quad o) i j)).
Proof using P0 PA PM ND.
  intros H Wl Wq Pl Pq. apply coef1_all in Pl; auto. apply coef2_all in Pq; auto. unfold sub_objective in H. cbv zeta in H.
  apply bind_ok in H. destruct H as ([c1 l1] & H1 & H). apply bind_ok in H. destruct H as ([[c2 l2] q2] & H2 & H). apply bind_ok in H. destruct H as (l & H3 & H). cbn [fst snd] in *.
  destruct (sub_lin_P _ _ _ _ H1 Wl Pl) as ([A1 A2] & A3 & A4). destruct (sub_quad_P _ _ _ _ _ H2 Wq Pq) as ([B1 B2] & B3 & B4 & [B5 B6] & B7 & B8).
  destruct (dok_add_P _ _ _ _ H3 A1 B1 A4 B4 A3) as ([C1 C2] & C3 & C4).
  apply set_objective_inv in H. destruct H as (e & e2 & He & He2 & ->). injection He as <-. injection He2 as <-.
  destruct (triangle_P (qe_dim q2) (qe_int q2) (qe_co q2) B8) as ([T1 T2] & T3 & T4).
  eexists. split; [reflexivity|]. cbn [o_lin o_quad]. split; [split; [auto|congruence]|]. split; [split; [auto|congruence]|]. split; auto. split; auto. split; [now apply coef1_P|now apply coef2_P].
Qed.
End Closed.
