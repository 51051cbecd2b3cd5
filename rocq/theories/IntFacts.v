(** * The QUBO of a program with whole coefficients *)
From Verif Require Export QuboFacts RecurFacts3.
Local Open Scope list_scope.
Local Open Scope nat_scope.

Definition ints {K} (d : list (K * Qc)) : Prop := Forall (fun kv => integral (snd kv)) d.
Lemma values_Forall {K L} (P : Qc -> Prop) (d : list (K * Qc)) (e : list (L * Qc)) : map snd d = map snd e -> Forall (fun kv => P (snd kv)) e -> Forall (fun kv => P (snd kv)) d.
Proof. intros E F. apply Forall_map in F. rewrite <- E in F. now apply Forall_map. Qed.
Lemma py_nth_In {A} (l : list A) z v : py_nth l z = Ok v -> In v l.
Proof. unfold py_nth. destruct (py_index _ _) as [i|]; [|discriminate]. destruct (nth_error l i) eqn:E; [|discriminate]. intros [= ->]. now apply nth_error_In in E. Qed.
Lemma lookup_In {A} (l : list A) idx k v : lookup l idx k = Ok v -> In v l.
Proof. unfold lookup. destruct k as [z|s]; [apply py_nth_In|]. destruct (dget _ _ _); [apply py_nth_In|discriminate]. Qed.
Lemma integral_min a b : integral a -> integral b -> integral (qmin a b).
Proof. unfold qmin. now destruct (qleb a b). Qed.
Lemma integral_max a b : integral a -> integral b -> integral (qmax a b).
Proof. unfold qmax. now destruct (qleb a b). Qed.
Lemma integral_abs a : integral a -> integral (qabs a).
Proof. intro H. unfold qabs. destruct (qltb _ _) || destruct (qleb _ _); auto; now apply integral_opp. Qed.

Section Module.
(** Numbers closed under sums and whole multiples *)
Variable P : Qc -> Prop.
Hypothesis P1 : P 1%Qc.
Hypothesis PA : forall a b, P a -> P b -> P (a + b)%Qc.
Hypothesis PM : forall a z, P a -> P (a * qz z)%Qc.
Lemma P_int a : integral a -> P a.
Proof using P1 PM. intros [z ->]. replace (qz z) with (1 * qz z)%Qc by ring. now apply PM. Qed.
Lemma P0' : P 0%Qc.
Proof using P1 PM. apply P_int, integral_0. Qed.
Lemma P_mul a b : P a -> integral b -> P (a * b)%Qc.
Proof using PM. intros H [z ->]. now apply PM. Qed.
Lemma P_mul' a b : integral a -> P b -> P (a * b)%Qc.
Proof using PM. intros H Hb. rewrite Qcmult_comm. now apply P_mul. Qed.
Lemma P_opp a : P a -> P (- a)%Qc.
Proof using PM. intro H. replace (- a)%Qc with (a * qz (-1))%Qc by (change (qz (-1)) with (- (1))%Qc; ring). now apply PM. Qed.

Record whole (p : qp) : Prop := mkWhole {
  w_const : P (o_const (p_obj p));
  w_lin : Forall (fun kv => P (snd kv)) (le_co (o_lin (p_obj p)));
  w_quad : Forall (fun kv => P (snd kv)) (qe_co (o_quad (p_obj p)));
  w_vars : Forall (fun v => integral (v_lb v) /\ integral (v_ub v)) (p_vars p);
  w_cons : Forall (fun c => ints (le_co (lc_lin c)) /\ integral (lc_rhs c)) (p_lcs p);
  w_qcs : p_qcs p = []
}.
(** Before the inequalities are converted, their right-hand sides may be any numbers *)
Record whole_src (p : qp) : Prop := mkWholeSrc {
  s_const : P (o_const (p_obj p));
  s_lin : Forall (fun kv => P (snd kv)) (le_co (o_lin (p_obj p)));
  s_quad : Forall (fun kv => P (snd kv)) (qe_co (o_quad (p_obj p)));
  s_vars : Forall (fun v => integral (v_lb v) /\ integral (v_ub v)) (p_vars p);
  s_cons : Forall (fun c => ints (le_co (lc_lin c)) /\ (lc_sense c = EQ -> integral (lc_rhs c))) (p_lcs p);
  s_qcs : p_qcs p = []
}.
Lemma whole_con p lin s rhs name q : ok_state (linear_constraint p (by_name lin) s rhs name) = Ok q -> ints lin -> integral rhs -> whole p -> whole q.
Proof using.
  intros H L R [A B C D E F]. destruct (linear_constraint_cases p (by_name lin) s rhs name) as [[e X]|(nm & _ & _ & [[e X]|(c & le & _ & X2 & X)])]; rewrite X in H; try discriminate. injection H as <-.
  destruct (lin_make_P integral _ _ _ X2 L) as (_ & _ & G). constructor; cbn; auto. apply Forall_app. split; [exact E|]. constructor; [|constructor]. cbn. auto.
Qed.
Lemma whole_var p v : whole p -> integral (v_lb v) -> integral (v_ub v) -> whole (add_var p v).
Proof using. intros [A B C D E F] L U. constructor; cbn; auto. apply Forall_app. split; [exact D|]. constructor; [auto|constructor]. Qed.
Lemma copyv_int v : integral (v_lb v) /\ integral (v_ub v) -> integral (v_lb (copyv v)) /\ integral (v_ub (copyv v)).
Proof using. clear. destruct v as [nm lb ub []]; cbn; intros H; auto using integral_0, integral_1. Qed.
Lemma whole_copy l : forall p q, foldM copy_var l p = Ok q -> Forall (fun v => integral (v_lb v) /\ integral (v_ub v)) l -> whole p -> whole q.
Proof using.
  induction l as [|v l IH]; intros p q H F W; cbn [foldM] in H; [now injection H as <-|]. apply bind_ok in H. destruct H as (p1 & H1 & H). inversion F as [|? ? Fv Fl]; subst. apply copy_var_inv in H1. destruct H1 as (-> & _).
  apply (IH _ _ H Fl). apply copyv_int in Fv. now apply whole_var.
Qed.
Lemma whole_new nm : whole (new_qp nm).
Proof using P1 PM. constructor; cbn; auto. apply P0'. Qed.
Lemma whole_obj p s c lin quad q : ok_state (set_objective p s c (by_name lin) (by_name2 quad)) = Ok q -> P c -> Forall (fun kv => P (snd kv)) lin -> Forall (fun kv => P (snd kv)) quad -> whole p -> whole q.
Proof using P1 PA PM.
  intros H Pc Pl Pq [A B C D E F]. apply set_objective_inv in H. destruct H as (e & e2 & H1 & H2 & ->). destruct (lin_make_P P _ _ _ H1 Pl) as (_ & _ & G1). destruct (quad_make_P P P0' PA _ _ _ H2 Pq) as (_ & _ & G2). constructor; cbn; auto.
Qed.
(** ** Inequalities *)
Lemma bounds_int src lin b : Forall (fun v => integral (v_lb v) /\ integral (v_ub v)) (p_vars src) -> ints lin -> calc_linear_bounds src lin = Ok b -> integral (fst b) /\ integral (snd b).
Proof using.
  clear. intros V L. unfold calc_linear_bounds. assert (integral (fst (0, 0)%Qc) /\ integral (snd (0, 0)%Qc)) as Z by (cbn; auto using integral_0). revert Z. generalize (0, 0)%Qc. induction L as [|kv l Hk L IH]; intros b0 Z H; cbn [foldM] in H; [now injection H as <-|].
  apply bind_ok in H. destruct H as (b1 & H1 & H). apply bind_ok in H1. destruct H1 as (v & Hv & H1). injection H1 as <-. apply (IH _) in H; [exact H|]. unfold get_variable in Hv. apply lookup_In in Hv. rewrite Forall_forall in V. destruct (V v Hv) as [V1 V2]. destruct Z as [Z1 Z2]. cbn [fst snd].
  split; apply integral_add; auto; [apply integral_min|apply integral_max]; now apply integral_mul.
Qed.
Lemma whole_ineq src dst c q : prog_wf src -> whole_src src -> In c (p_lcs src) -> ineq_linear MInteger src dst c = Ok q -> whole dst -> whole q.
Proof using.
  intros W S I H D. unfold ineq_linear in H. apply bind_ok in H. destruct H as (lin & Hl & H). pose proof W as (_ & _ & _ & _ & (_ & _ & Wl & _) & _). destruct S as [_ _ _ SV SC _]. rewrite Forall_forall in SC, Wl. destruct (SC c I) as [Ci Cr].
  assert (ints lin) as Li by (apply (values_Forall integral) with (e := le_co (lc_lin c)); [apply (lin_names_dict (var_names src)); [now apply prog_wf_nodup|now apply Wl|exact Hl]|exact Ci]).
  assert (forall s, slack_linear true src dst lin s (lc_rhs c) (lc_name c) = Ok q -> s <> EQ -> whole q) as G.
  { intros s H0 N. unfold slack_linear in H0. destruct (true && any_float lin); [discriminate H0|]. apply bind_ok in H0. destruct H0 as (b & Hb & H0). apply (bounds_int src lin b SV Li) in Hb. destruct Hb as [B1 B2].
    assert (integral (slack_rhs true s (lc_rhs c))) as R by (destruct s; cbn; first [apply integral_qz|congruence]). destruct (qltb 0 _).
    - apply bind_ok in H0. destruct H0 as (d1 & Hd & H0). apply add_slack_inv in Hd. destruct Hd as [-> _]. eapply whole_con; [exact H0| |exact R|].
      + apply (dset_Forall _ str_eqb_sp); [|exact Li]. cbn. destruct s; cbn; auto using integral_1, integral_opp.
      + apply whole_var; cbn; auto using integral_0. destruct s; cbn; now apply integral_sub.
    - eapply whole_con; eauto. }
  destruct (lc_sense c) eqn:Es; first [eapply G; [exact H|discriminate]|eapply whole_con; eauto].
Qed.
Lemma whole_ineqs src q : prog_wf src -> whole_src src -> ineq_to_eq MInteger src = Ok q -> whole q.
Proof using P1 PA PM.
  intros W S H. unfold ineq_to_eq in H. apply bind_ok in H. destruct H as (d0 & H0 & H). apply bind_ok in H. destruct H as (lin & Hl & H). apply bind_ok in H. destruct H as (quad & Hq & H). apply bind_ok in H. destruct H as (d1 & H1 & H). apply bind_ok in H. destruct H as (d2 & H2 & H).
  pose proof W as (_ & _ & _ & _ & (Wo & Wq & _) & _). pose proof S as [S1 S2 S3 S4 S5 S6]. rewrite S6 in H. cbn [foldM] in H. injection H as <-.
  apply whole_copy in H0; [|exact S4|apply whole_new].
  assert (whole d1) as D1. { eapply whole_obj; [exact H1|exact S1| | |exact H0].
    - apply values_Forall with (e := le_co (o_lin (p_obj src))); [apply (lin_names_dict (var_names src)); [now apply prog_wf_nodup|exact Wo|exact Hl]|exact S2].
    - apply values_Forall with (e := qe_co (o_quad (p_obj src))); [apply (quad_names_dict (var_names src)); [now apply prog_wf_nodup|exact Wq|exact Hq]|exact S3]. }
  clear H1 H0. assert (forall l, incl l (p_lcs src) -> forall d q, whole d -> foldM (ineq_linear MInteger src) l d = Ok q -> whole q) as G.
  { induction l as [|c l IH]; intros I d q D E; cbn [foldM] in E; [now injection E as <-|]. apply bind_ok in E. destruct E as (d' & E1 & E). apply (IH (fun x Hx => I x (or_intror Hx)) d'); [|exact E]. eapply whole_ineq; eauto. apply I. now left. }
  eapply G; [apply incl_refl|exact D1|exact H2].
Qed.

(** ** Integer variables *)
Lemma convert_int nm lb ub bits : integral lb -> integral ub -> convert_var nm lb ub = Ok bits -> ints bits.
Proof using.
  clear. intros [a ->] [b ->] H. destruct (Z.lt_ge_cases a b) as [L|L].
  - destruct (convert_var_exact nm a b L) as (bits' & E & _ & _ & F). rewrite E in H. injection H as <-. now apply Forall_map.
  - exfalso. unfold convert_var in H. apply bind_ok in H. destruct H as (z & H & _). unfold int_log2 in H. rewrite <- qz_sub in H. destruct (qltb_spec (qz (b - a)) 0); [discriminate H|]. destruct (qeqb_spec (qz (b - a)) 0) as [E|N]; [discriminate H|].
    apply Qcnot_lt_le in n. rewrite <- qz_0 in n, N. apply (proj1 (qz_le _ _)) in n. apply N. f_equal. lia.
Qed.
Lemma whole_bits bits : forall p q, declare_bits p bits = Ok q -> whole p -> whole q.
Proof using.
  unfold declare_bits. induction bits as [|b bits IH]; intros p q H W; cbn [foldM] in H; [now injection H as <-|]. apply bind_ok in H. destruct H as (p1 & H1 & H). apply (IH _ _ H). apply add_variable_inv in H1. destruct H1 as (-> & _). apply whole_var; cbn; auto using integral_0, integral_1.
Qed.
Definition int_table (tbl : conv_table) : Prop := forall i bits, dget Nat.eqb i tbl = Some bits -> ints bits.
Lemma whole_declare l : forall st st', foldM i2b_declare l st = Ok st' -> Forall (fun iv => integral (v_lb (snd iv)) /\ integral (v_ub (snd iv))) l -> whole (fst st) -> int_table (snd st) -> whole (fst st') /\ int_table (snd st').
Proof using.
  induction l as [|[i v] l IH]; intros st st' H F W T; cbn [foldM] in H; [now injection H as <-|]. apply bind_ok in H. destruct H as (s1 & H1 & H). inversion F as [|? ? Fv Fl]; subst. cbn [snd] in Fv. apply (IH _ _ H Fl); unfold i2b_declare in H1; cbn [fst snd] in H1.
  - destruct (v_type v); inv_ok; cbn [fst]; try (eapply whole_bits; eassumption); match goal with h : copy_var _ _ = Ok _ |- _ => apply copy_var_inv in h; destruct h as (-> & _) end; destruct (copyv_int v Fv); now apply whole_var.
  - destruct (v_type v); inv_ok; cbn [snd]; auto. intros j b. rewrite (dget_dset _ nat_eqb_sp). destruct (Nat.eqb_spec j i); [|apply T]. intros [= <-]. destruct Fv. eapply convert_int; [| |eassumption]; assumption.
Qed.
Section Sub.
Variables (src : qp) (conv : nat -> option (list (string * Qc))).
Hypothesis V : Forall (fun v => integral (v_lb v) /\ integral (v_ub v)) (p_vars src).
Hypothesis T : forall i bits, conv i = Some bits -> ints bits.
Lemma src_int i x : src_var src i = Ok x -> integral (v_lb x).
Proof using V. unfold src_var. destruct (nth_error (p_vars src) i) eqn:E; [|discriminate]. intros [= <-]. apply nth_error_In in E. rewrite Forall_forall in V. now apply V. Qed.
(** [R] is [P] for the objective and [integral] for the constraints *)
Section Values.
Variable R : Qc -> Prop.
Hypothesis R0 : R 0%Qc.
Hypothesis RA : forall a b, R a -> R b -> R (a + b)%Qc.
Hypothesis RM : forall a b, R a -> integral b -> R (a * b)%Qc.
Lemma linear_values d l c : i2b_linear src conv d = Ok (l, c) -> Forall (fun kv => R (snd kv)) d -> Forall (fun kv => R (snd kv)) l /\ R c.
Proof using V T R0 RA RM.
  unfold i2b_linear. intros H F. assert (forall st st', foldM (fun st kv => do i <- src_pos src (fst kv); do x <- src_var src i; match conv i with Some bits => Ok (fold_left (fun l b => dset String.eqb (fst b) (snd kv * snd b)%Qc l) bits (fst st), (snd st + snd kv * v_lb x)%Qc) | None => Ok (dset String.eqb (v_name x) (snd kv) (fst st), snd st) end) d st = Ok st' ->
    Forall (fun kv => R (snd kv)) (fst st) -> R (snd st) -> Forall (fun kv => R (snd kv)) (fst st') /\ R (snd st')) as G.
  { clear H. induction F as [|kv d Hk F IH]; intros st st' H A B; cbn [foldM] in H; [injection H as <-; auto|]. apply bind_ok in H. destruct H as (s1 & H1 & H). apply (IH _ _ H); clear IH H F; apply bind_ok in H1; destruct H1 as (i & _ & H1); apply bind_ok in H1; destruct H1 as (x & Hx & H1); apply src_int in Hx; destruct (conv i) as [bits|] eqn:Ec; injection H1 as <-; cbn [fst snd]; auto.
    - apply T in Ec. clear - Ec A Hk RM. revert A. generalize (fst st). induction Ec as [|b bits Hb Ec IH]; intros l A; cbn [fold_left]; [exact A|]. apply IH. apply (dset_Forall _ str_eqb_sp); auto. cbn. auto.
    - now apply (dset_Forall _ str_eqb_sp). }
  destruct (G ([], 0%Qc) (l, c) H) as [A B]; auto. constructor.
Qed.
Lemma term_values q l c kv q' l' c' : i2b_term src conv (q, l, c) kv = Ok (q', l', c') -> R (snd kv) -> Forall (fun kv => R (snd kv)) q -> Forall (fun kv => R (snd kv)) l -> R c ->
  Forall (fun kv => R (snd kv)) q' /\ Forall (fun kv => R (snd kv)) l' /\ R c'.
Proof using V T R0 RA RM.
  unfold i2b_term. intros H Hv Fq Fl Hc. apply bind_ok in H. destruct H as (i & _ & H). apply bind_ok in H. destruct H as (x & Hx & H). apply bind_ok in H. destruct H as (j & _ & H). apply bind_ok in H. destruct H as (y & Hy & H). apply src_int in Hx, Hy.
  assert (forall (f : string * Qc -> string * string) (g : string * Qc -> Qc) bits q0, ints bits -> (forall b, integral (snd b) -> R (g b)) -> Forall (fun kv => R (snd kv)) q0 -> Forall (fun kv => R (snd kv)) (fold_left (fun q b => dset str2_eqb (f b) (g b) q) bits q0)) as G1.
  { clear. intros f g bits q0 Fb Hg. revert q0. induction Fb as [|b bits Hb Fb IH]; intros q0 A; cbn [fold_left]; [exact A|]. apply IH. apply (dset_Forall _ str2_eqb_sp); [cbn; auto|exact A]. }
  assert (forall (v : Qc) (bits : list (string * Qc)) l0, R v -> Forall (fun kv => R (snd kv)) l0 -> Forall (fun kv => R (snd kv)) (fold_left (fun l (b : string * Qc) => dadd String.eqb (fst b) v l) bits l0)) as G2.
  { clear - R0 RA. intros v bits l0 Hv. revert l0. induction bits as [|b bits IH]; intros l0 A; cbn [fold_left]; [exact A|]. apply IH. now apply (dadd_P R R0 RA _ str_eqb_sp). }
  destruct (conv i) as [bx|] eqn:Ei, (conv j) as [by_|] eqn:Ej; injection H as <- <- <-; try apply T in Ei; try apply T in Ej.
  - split; [|split].
    + clear - Ei Ej Hv RM G1 Fq. revert q Fq. induction Ei as [|b bx Hb Ei IH]; intros q Fq; cbn [fold_left]; [exact Fq|]. apply IH. apply (G1 (fun b' => (fst b, fst b')) (fun b' => (snd kv * snd b * snd b')%Qc)); auto.
    + apply G2; auto.
    + auto.
  - split; [|split; [|exact Hc]]; [apply (G1 (fun b => (fst b, v_name y)) (fun b => (snd kv * snd b)%Qc)); auto|apply (dadd_P R R0 RA _ str_eqb_sp); auto].
  - split; [|split; [|exact Hc]]; [apply (G1 (fun b => (v_name x, fst b)) (fun b => (snd kv * snd b)%Qc)); auto|apply (dadd_P R R0 RA _ str_eqb_sp); auto].
  - split; [|split; [exact Fl|exact Hc]]. now apply (dset_Forall _ str2_eqb_sp).
Qed.
Lemma quadratic_values d q l c : i2b_quadratic src conv d = Ok (q, l, c) -> Forall (fun kv => R (snd kv)) d -> Forall (fun kv => R (snd kv)) q /\ Forall (fun kv => R (snd kv)) l /\ R c.
Proof using V T R0 RA RM.
  unfold i2b_quadratic. intros H F. assert (forall q0 l0 c0, foldM (i2b_term src conv) d (q0, l0, c0) = Ok (q, l, c) -> Forall (fun kv => R (snd kv)) q0 -> Forall (fun kv => R (snd kv)) l0 -> R c0 -> Forall (fun kv => R (snd kv)) q /\ Forall (fun kv => R (snd kv)) l /\ R c) as G; [|apply (G _ _ _ H); auto; constructor].
  clear H. induction F as [|kv d Hk F IH]; intros q0 l0 c0 H A B C; cbn [foldM] in H; [injection H as <- <- <-; auto|]. apply bind_ok in H. destruct H as ([[q1 l1] c1] & H1 & H). destruct (term_values _ _ _ _ _ _ _ H1 Hk A B C) as (A1 & B1 & C1). exact (IH _ _ _ H A1 B1 C1).
Qed.
Lemma merge_values lin ql : Forall (fun kv => R (snd kv)) lin -> Forall (fun kv => R (snd kv)) ql -> Forall (fun kv => R (snd kv)) (merge_linear lin ql).
Proof using R0 RA. unfold merge_linear. intros A B. revert lin A. induction B as [|kv ql Hk B IH]; intros lin A; cbn [fold_left]; [exact A|]. apply IH. now apply (dadd_P R R0 RA _ str_eqb_sp). Qed.
End Values.
Lemma whole_i2b_con dst c q : prog_wf src -> whole src -> In c (p_lcs src) -> i2b_lincon src conv dst c = Ok q -> whole dst -> whole q.
Proof using V T.
  intros W S I H D. unfold i2b_lincon in H. apply bind_ok in H. destruct H as (lin & Hl & H). apply bind_ok in H. destruct H as ([l k] & Hk & H). cbn [fst snd] in H. pose proof W as (_ & _ & _ & _ & (_ & _ & Wl & _) & _). destruct S as [_ _ _ _ SC _]. rewrite Forall_forall in SC, Wl. destruct (SC c I) as [Ci Cr].
  assert (ints lin) as Li by (apply (values_Forall integral) with (e := le_co (lc_lin c)); [apply (lin_names_dict (var_names src)); [now apply prog_wf_nodup|now apply Wl|exact Hl]|exact Ci]).
  destruct (linear_values integral integral_0 integral_add (fun a b => integral_mul a b) _ _ _ Hk Li) as [A B]. eapply whole_con; [exact H|exact A|now apply integral_sub|exact D].
Qed.
Lemma whole_substitute dst q : prog_wf src -> whole src -> i2b_substitute src conv dst = Ok q -> whole dst -> whole q.
Proof using V T P1 PA PM.
  intros W S H D. unfold i2b_substitute in H. apply bind_ok in H. destruct H as (lin & Hl & H). apply bind_ok in H. destruct H as ([l k] & Hk & H). apply bind_ok in H. destruct H as (quad & Hq & H). apply bind_ok in H. destruct H as ([[q2 l2] k2] & Hk2 & H). cbn [fst snd] in H. apply bind_ok in H. destruct H as (d1 & H1 & H). apply bind_ok in H. destruct H as (d2 & H2 & H).
  pose proof W as (_ & _ & _ & _ & (Wo & Wq & _) & _). pose proof S as [S1 S2 S3 S4 S5 S6]. rewrite S6 in H. cbn [foldM] in H. injection H as <-.
  assert (Forall (fun kv => P (snd kv)) lin) as Li by (apply values_Forall with (e := le_co (o_lin (p_obj src))); [apply (lin_names_dict (var_names src)); [now apply prog_wf_nodup|exact Wo|exact Hl]|exact S2]).
  assert (Forall (fun kv => P (snd kv)) quad) as Qi by (apply values_Forall with (e := qe_co (o_quad (p_obj src))); [apply (quad_names_dict (var_names src)); [now apply prog_wf_nodup|exact Wq|exact Hq]|exact S3]).
  destruct (linear_values P P0' PA P_mul _ _ _ Hk Li) as [A B]. destruct (quadratic_values P P0' PA P_mul _ _ _ _ Hk2 Qi) as (A2 & B2 & C2).
  assert (whole d1) as D1. { eapply whole_obj; [exact H1| | |exact A2|exact D]; [repeat apply PA; auto|apply (merge_values P P0' PA); auto]. }
  assert (forall l, incl l (p_lcs src) -> forall d q, whole d -> foldM (i2b_lincon src conv) l d = Ok q -> whole q) as G.
  { induction l0 as [|c l0 IH]; intros I d q' Dd E; cbn [foldM] in E; [now injection E as <-|]. apply bind_ok in E. destruct E as (d' & E1 & E). apply (IH (fun x Hx => I x (or_intror Hx)) d'); [|exact E]. eapply whole_i2b_con; eauto. apply I. now left. }
  eapply G; [apply incl_refl|exact D1|exact H2].
Qed.
End Sub.
Lemma whole_int_to_bin src q tbl : prog_wf src -> whole src -> int_to_bin src = Ok (q, tbl) -> whole q.
Proof using P1 PA PM.
  intros W S H. unfold int_to_bin in H. destruct (0 <? _); [|injection H as <- <-; exact S]. apply bind_ok in H. destruct H as (st & H1 & H). apply bind_ok in H. destruct H as (d & H2 & H). injection H as <- _. pose proof S as [_ _ _ S4 _ _].
  destruct (whole_declare _ _ _ H1) as [A B]; [| apply whole_new|intros i b E; discriminate E|].
  - apply Forall_forall. intros [i v] I. apply in_combine_r in I. rewrite Forall_forall in S4. now apply S4.
  - eapply whole_substitute; [exact S4| |exact W|exact S|exact H2|exact A]. intros i b E. exact (B i b E).
Qed.
(** ** Penalties *)
Lemma penalty_P p : whole p -> P (auto_penalty p).
Proof using P1 PA PM.
  intros [A B C D E F]. unfold auto_penalty. destruct (existsb _ _); [apply P_int, integral_qz|].
  assert (forall a, P a -> P (qabs a)) as Pa by (intros a Ha; unfold qabs; destruct (_ : bool); auto using P_opp).
  assert (forall l a, P a -> Forall P l -> P (fold_left (fun s a => (s + a)%Qc) l a)) as G. { induction l as [|b l IH]; intros a Ha Fl; cbn [fold_left]; [exact Ha|]. inversion Fl; subst. apply IH; auto. }
  apply G; [exact P1|]. apply Forall_app. split; apply Forall_map.
  - eapply Forall_impl; [|exact B]. cbn. auto.
  - unfold quad_to_dict. cbn. eapply Forall_impl; [|exact C]. cbn. auto.
Qed.
Lemma sense_int s : integral (sense_val s).
Proof using. clear. destruct s; cbn; auto using integral_1, integral_opp. Qed.
Lemma whole_penalize c src q : P c -> whole src -> penalize c src = Ok q -> whole q.
Proof using P1 PA PM.
  intros Pc S H. unfold penalize in H. apply bind_ok in H. destruct H as (d0 & H0 & H). apply bind_ok in H. destruct H as ([[off lin] quad] & H1 & H). pose proof S as [S1 S2 S3 S4 S5 S6].
  apply whole_copy in H0; [|exact S4|apply whole_new].
  assert (P off /\ Forall (fun kv => P (snd kv)) lin /\ Forall (fun kv => P (snd kv)) quad) as (A & B & C).
  { assert (forall l o0 l0 q0, Forall (fun c => ints (le_co (lc_lin c)) /\ integral (lc_rhs c)) l -> P o0 -> Forall (fun kv => P (snd kv)) l0 -> Forall (fun kv => P (snd kv)) q0 -> foldM (pen_con (sense_val (o_sense (p_obj src))) c) l (o0, l0, q0) = Ok (off, lin, quad) -> P off /\ Forall (fun kv => P (snd kv)) lin /\ Forall (fun kv => P (snd kv)) quad) as G.
    { induction l as [|k l IH]; intros o0 l0 q0 F A B C E; cbn [foldM] in E; [injection E as <- <- <-; auto|]. inversion F as [|? ? [Fk Fr] Fl]; subst. apply bind_ok in E. destruct E as ([[o1 l1] q1] & E1 & E). unfold pen_con in E1. destruct (lc_sense k); try discriminate E1. injection E1 as <- <- <-. unfold lin_to_dict in E.
      assert (P (sense_val (o_sense (p_obj src)) * c)%Qc) as Ps by (apply P_mul'; [apply sense_int|exact Pc]). apply (IH _ _ _ Fl) in E; [exact E| | |].
      - apply PA; [exact A|]. apply P_mul; [exact Ps|]. now apply integral_mul.
      - clear - Fk Fr B P1 PA PM Ps. revert l0 B. generalize (le_co (lc_lin k)) Fk. clear Fk. intros row Fk. induction Fk as [|jv row Hj Fk IH]; intros l0 B; cbn [fold_left]; [exact B|]. apply IH. apply (dadd_P P P0' PA _ nat_eqb_sp); [|exact B].
        apply P_mul; [|exact Fr]. apply P_mul; [|exact Hj]. apply P_mul; [exact Ps|]. apply integral_opp, integral_qz.
      - clear - Fk C P1 PA PM Ps. assert (forall row', ints row' -> forall q0, Forall (fun kv => P (snd kv)) q0 -> Forall (fun kv => P (snd kv)) (fold_left (fun q jv => fold_left (fun q kw => dadd nat2_eqb (fst jv, fst kw) (sense_val (o_sense (p_obj src)) * c * snd jv * snd kw)%Qc q) (le_co (lc_lin k)) q) row' q0)) as G2; [|apply G2; auto].
        clear q0 C. intros row' F'. induction F' as [|jv row' Hj F' IH]; intros q0 C; cbn [fold_left]; [exact C|]. apply IH. revert q0 C. generalize (le_co (lc_lin k)) Fk. intros row Fr. induction Fr as [|kw row Hw Fr IH2]; intros q0 C; cbn [fold_left]; [exact C|]. apply IH2. apply (dadd_P P P0' PA _ nat2_eqb_sp); [|exact C]. apply P_mul; [|exact Hw]. now apply P_mul. }
    eapply G; [exact S5|exact S1|exact S2|exact S3|exact H1]. }
  destruct H0 as [A1 B1 C1 D1 E1 F1]. destruct (set_objective_cases d0 (o_sense (p_obj src)) off (by_index lin) (by_index2 quad)) as [[e X]|(o & Eo & X)]; rewrite X in H; try discriminate. injection H as <-. unfold obj_make in Eo. apply bind_ok in Eo. destruct Eo as (l & El & Eo). apply bind_ok in Eo. destruct Eo as (q & Eq & Eo). injection Eo as <-.
  constructor; cbn; auto.
  - cbn in El. apply (lin_put_values P) in El; [tauto|split; constructor|reflexivity|now apply (by_name_P P (fun k => KI (Z.of_nat k)))|constructor].
  - cbn in Eq. apply bind_ok in Eq. destruct Eq as (co & Eq & Eo). injection Eo as <-. apply (triangle_P P P0' PA).
    assert (forall env n l co0 co1, foldM (quad_put_raw env n) l co0 = Ok co1 -> Forall (fun kv => P (snd kv)) l -> Forall (fun kv => P (snd kv)) co0 -> Forall (fun kv => P (snd kv)) co1) as G.
    { clear. induction l as [|kv l IH]; intros co0 co1 H Fl F0; cbn [foldM] in H; [injection H as <-; auto|]. apply bind_ok in H. destruct H as (co2 & H2 & H). inversion Fl; subst. eapply IH; eauto. unfold quad_put_raw in H2. inv_ok. now apply (dok_put_Forall _ nat2_eqb_sp). }
    eapply G; [exact Eq| |constructor]. now apply (by_name_P P (fun k : nat * nat => (KI (Z.of_nat (fst k)), KI (Z.of_nat (snd k))))).
Qed.
Lemma whole_qubo pen p r : prog_wf p -> whole_src p -> match pen with Some c => P c | None => True end -> to_qubo pen p = Ok r -> whole (r_qubo r).
Proof using P1 PA PM.
  intros W S Pp H. destruct (qubo_inv pen p r H) as (_ & _ & H1 & H2 & H3). destruct (qubo_wf pen p r H) as (W1 & W2 & _). apply (whole_ineqs _ _ W S) in H1. apply (whole_int_to_bin _ _ _ W1 H1) in H2. eapply whole_penalize; [|exact H2|exact H3]. unfold used_penalty. destruct pen; [exact Pp|now apply penalty_P].
Qed.
End Module.
