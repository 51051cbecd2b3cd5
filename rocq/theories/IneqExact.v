(** * Exactly which solutions survive the introduction of slack variables *)
From Verif Require Export IneqProps.
Local Open Scope nat_scope.

(** The solutions of [src] that have a partner among the points of [dst]. *)
Definition lifted (dst : qp) (sv : list variable) (x : list Qc) : Prop :=
  exists t, Forall2 in_range sv t /\ Forall2 has_type sv t /\ cons_hold dst (x ++ t).

Lemma lifted_step mode src dst dst' sv vs D i s rhs f g rhs' :
  ieinv mode src dst sv D -> slacked mode src (length sv) i s rhs f g rhs' vs ->
  (forall y, cons_hold dst' y <-> cons_hold dst y /\ g y = rhs') ->
  forall x, in_bounds src x -> lifted dst' (sv ++ vs) x <-> lifted dst sv x /\ holds s (f x) rhs /\ (s <> EQ -> i = true -> integral (f x)).
Proof.
  intros I S C x B. pose proof (ieinv_nv _ _ _ _ _ I) as NV. pose proof (ie_fit _ _ _ _ _ I) as FT.
  assert (length x = num_vars src) as Lx by (apply Forall2_length in B; unfold num_vars; congruence).
  split.
  - intros (t & R & T & H). apply C in H. destruct H as [H1 H2].
    apply Forall2_app_inv_l in R. destruct R as (t1 & t2 & R1 & R2 & ->). pose proof (Forall2_length _ _ _ R1) as Lt.
    apply Forall2_app_inv_l in T. destruct T as (u1 & u2 & T1 & T2 & EU). pose proof (Forall2_length _ _ _ T1) as Lu.
    assert (t1 = u1 /\ t2 = u2) as [<- <-] by (apply app_inj_length; [congruence|exact EU]).
    rewrite app_assoc in H1. apply cons_hold_app in H1; auto; [|rewrite app_length; lia]. split; [exists t1; auto|].
    destruct S as [Es Er G|lo hi Hs Er Hi Hb Hu G|lo hi v Hs Er Hi Hb Hlb Hub Hty G].
    + assert (t2 = []) as -> by (inversion R2; auto). rewrite app_nil_r in H2. rewrite G in H2 by auto. rewrite Es. split; [now rewrite H2, Er|congruence].
    + assert (t2 = []) as -> by (inversion R2; auto). rewrite app_nil_r in H2. rewrite G in H2 by auto. rewrite Er in H2.
      split; [apply (slack_sound i s rhs (f x) 0 Hs); [qlra|]; rewrite H2; ring|].
      intros _ Ei. rewrite H2. now apply slack_rhs_integral.
    + assert (exists a, t2 = [a] /\ in_range v a) as (a & -> & Ra) by (inversion R2 as [|? a ? ? Ra R3]; inversion R3; subst; eauto).
      assert (has_type v a) as Ta by (inversion T2; auto).
      rewrite app_assoc in H2. rewrite G in H2 by auto. rewrite Er in H2.
      split; [apply (slack_sound i s rhs (f x) a Hs); auto; destruct Ra as [Ra _]; now rewrite Hlb in Ra|].
      intros _ Ei. pose proof (slack_rhs_integral i s rhs Hs Ei) as K. rewrite <- H2 in K.
      unfold has_type in Ta. rewrite Hty, Ei in Ta.
      replace (f x) with ((f x + slack_sign s * a) - slack_sign s * a)%Qc by ring. apply integral_sub; [exact K|].
      apply integral_mul; [|exact Ta]. destruct s; simpl; [apply integral_1| |]; apply integral_opp, integral_1.
  - intros ((t & R1 & R2 & H) & Hx & Hi'). pose proof (Forall2_length _ _ _ R1) as Lt.
    destruct S as [Es Er G|lo hi Hs Er Hi Hb Hu G|lo hi v Hs Er Hi Hb Hlb Hub Hty G].
    + exists t. rewrite app_nil_r. split; auto. split; auto. apply C. split; auto. rewrite G by auto. subst. exact Hx.
    + exists t. rewrite app_nil_r. split; auto. split; auto. apply C. split; auto. rewrite G by auto.
      destruct (Hb x B) as [B1 B2].
      destruct (slack_complete i s rhs (f x) lo hi Hs (Hi' Hs) B1 B2 Hx) as (P1 & P2 & P3 & _). rewrite <- Er in *.
      set (a := slack_val s rhs' (f x)) in *. assert (a = 0%Qc) as Ha by qlra. rewrite Ha in P3. rewrite <- P3. ring.
    + destruct (Hb x B) as [B1 B2].
      destruct (slack_complete i s rhs (f x) lo hi Hs (Hi' Hs) B1 B2 Hx) as (P1 & P2 & P3 & P4). rewrite <- Er in *.
      exists (t ++ [slack_val s rhs' (f x)]). split; [|split].
      * apply Forall2_app; auto. constructor; auto. unfold in_range. rewrite Hlb, Hub. auto.
      * apply Forall2_app; auto. constructor; auto. unfold has_type. rewrite Hty. destruct i; auto.
      * rewrite app_assoc. apply C. split; [apply cons_hold_app; auto; rewrite app_length; lia|]. rewrite G by auto. exact P3.
Qed.

(** What an inequality with whole coefficients asks for. *)
Definition lc_whole (mode : slack_mode) (c : lincon) (x : list Qc) : Prop :=
  lc_sense c <> EQ -> mode <> MContinuous -> int_lin (lc_lin c) -> integral (lc_at c x).
Definition qc_whole (mode : slack_mode) (c : quadcon) (x : list Qc) : Prop :=
  qc_sense c <> EQ -> mode <> MContinuous -> int_lin (qc_lin c) -> int_quad (qc_quad c) -> integral (qc_at c x).

Lemma linear_lifts mode src cs : forall dst sv D dst', prog_wf src ->
  Forall (fun c => lc_name c <> EmptyString) cs -> Forall (fun c => lin_wf (lc_lin c)) cs ->
  ieinv mode src dst sv D -> foldM (ineq_linear mode src) cs dst = Ok dst' ->
  exists vs D', ieinv mode src dst' (sv ++ vs) D' /\ forall x, in_bounds src x -> lifted dst' (sv ++ vs) x <->
    lifted dst sv x /\ Forall (fun c => holds (lc_sense c) (lc_at c x) (lc_rhs c)) cs /\ Forall (fun c => lc_whole mode c x) cs.
Proof.
  induction cs as [|c cs IH]; intros dst sv D dst' W N F I H; cbn [foldM] in H.
  - injection H as <-. exists [], D. rewrite app_nil_r. split; auto. intros x _. split; [auto|tauto].
  - apply bind_ok in H. destruct H as (d1 & H1 & H2). inversion N; inversion F; subst.
    destruct (linear_step _ _ _ _ _ _ _ W H3 H7 I H1) as (vs0 & I0 & _).
    pose proof (ieinv_names _ _ _ _ _ I) as V.
    destruct (ineq_linear_shape mode src W dst sv c d1 (ie_exact _ _ _ _ _ I) V H3 H7 H1) as (i & vs & e & rhs' & E1 & X & We & De & S & K & _).
    destruct (add_vars_fields dst vs) as (A1 & A2 & A3 & A4).
    assert (vs = vs0) as -> .
    { pose proof (ie_vars _ _ _ _ _ I0) as V0. rewrite E1 in V0. simpl in V0. rewrite A1, (ie_vars _ _ _ _ _ I), <- app_assoc in V0. now apply app_inv_head, app_inv_head in V0. }
    assert (forall y, cons_hold d1 y <-> cons_hold dst y /\ lin_at e y = rhs') as C by (intro y; rewrite E1, cons_hold_add_lc; reflexivity).
    pose proof (lifted_step _ _ _ _ _ _ _ _ _ _ _ _ _ I S C) as L.
    destruct (IH _ _ _ _ W H4 H8 I0 H2) as (vs2 & D' & I2 & K2). exists (vs0 ++ vs2), D'. rewrite app_assoc. split; auto.
    intros x B. rewrite (K2 x B), (L x B), !Forall_cons_iff. unfold lc_whole. tauto.
Qed.
Lemma quadratic_lifts mode src cs : forall dst sv D dst', prog_wf src ->
  Forall (fun c => qc_name c <> EmptyString) cs -> Forall (fun c => lin_wf (qc_lin c) /\ quad_wf (qc_quad c)) cs ->
  ieinv mode src dst sv D -> foldM (ineq_quadratic mode src) cs dst = Ok dst' ->
  exists vs D', ieinv mode src dst' (sv ++ vs) D' /\ forall x, in_bounds src x -> lifted dst' (sv ++ vs) x <->
    lifted dst sv x /\ Forall (fun c => holds (qc_sense c) (qc_at c x) (qc_rhs c)) cs /\ Forall (fun c => qc_whole mode c x) cs.
Proof.
  induction cs as [|c cs IH]; intros dst sv D dst' W N F I H; cbn [foldM] in H.
  - injection H as <-. exists [], D. rewrite app_nil_r. split; auto. intros x _. split; [auto|tauto].
  - apply bind_ok in H. destruct H as (d1 & H1 & H2). inversion N; inversion F; subst. destruct H7 as [W1 W2].
    destruct (quadratic_step _ _ _ _ _ _ _ W H3 W1 W2 I H1) as (vs0 & I0).
    pose proof (ieinv_names _ _ _ _ _ I) as V.
    destruct (ineq_quadratic_shape mode src W dst sv c d1 (ie_exact _ _ _ _ _ I) V H3 W1 W2 H1) as (i & vs & e & q & rhs' & E1 & X & We & Wq' & De & Dq & S & K).
    destruct (add_vars_fields dst vs) as (A1 & A2 & A3 & A4).
    assert (vs = vs0) as -> .
    { pose proof (ie_vars _ _ _ _ _ I0) as V0. rewrite E1 in V0. simpl in V0. rewrite A1, (ie_vars _ _ _ _ _ I), <- app_assoc in V0. now apply app_inv_head, app_inv_head in V0. }
    assert (forall y, cons_hold d1 y <-> cons_hold dst y /\ (lin_at e y + quad_at q y)%Qc = rhs') as C by (intro y; rewrite E1, cons_hold_add_qc; reflexivity).
    pose proof (lifted_step _ _ _ _ _ _ _ _ _ _ _ _ _ I S C) as L.
    destruct (IH _ _ _ _ W H4 H8 I0 H2) as (vs2 & D' & I2 & K2). exists (vs0 ++ vs2), D'. rewrite app_assoc. split; auto.
    intros x B. rewrite (K2 x B), (L x B), !Forall_cons_iff. unfold qc_whole. tauto.
Qed.

Lemma ineq_lifts mode src dst : prog_wf src -> ineq_to_eq mode src = Ok dst ->
  exists sv D, ieinv mode src dst sv D /\ forall x, in_bounds src x ->
    lifted dst sv x <-> cons_hold src x /\ Forall (fun c => lc_whole mode c x) (p_lcs src) /\ Forall (fun c => qc_whole mode c x) (p_qcs src).
Proof.
  intros W H. unfold ineq_to_eq in H.
  apply bind_ok in H. destruct H as (d0 & Hc & H). apply bind_ok in H. destruct H as (lin & Hl & H).
  apply bind_ok in H. destruct H as (quad & Hq & H). apply bind_ok in H. destruct H as (d1 & Ho & H).
  apply bind_ok in H. destruct H as (d2 & H2 & H3).
  destruct (ineq_start mode src _ _ _ _ W Hc Hl Hq Ho) as (I & Z1 & Z2).
  pose proof W as (_ & _ & _ & _ & (_ & _ & W3 & W4) & N1 & N2).
  destruct (linear_lifts _ _ _ _ _ _ _ W N1 W3 I H2) as (vs & D2 & I2 & K2).
  destruct (quadratic_lifts _ _ _ _ _ _ _ W N2 W4 I2 H3) as (vs2 & D3 & I3 & K3).
  exists ((([] : list variable) ++ vs) ++ vs2), D3. split; auto. intros x B. rewrite (K3 x B), (K2 x B).
  assert (lifted d1 [] x) as L0 by (exists []; split; [constructor|]; split; [constructor|]; split; unfold lcs_hold, qcs_hold; rewrite ?Z1, ?Z2; constructor).
  unfold cons_hold, lcs_hold, qcs_hold. tauto.
Qed.

Theorem ineq_exact mode p q x : prog_wf p -> ineq_to_eq mode p = Ok q -> feasible p x ->
  (exists y, feasible q y /\ ineq_interpret p q y = Ok x) <->
  Forall (fun c => lc_whole mode c x) (p_lcs p) /\ Forall (fun c => qc_whole mode c x) (p_qcs p).
Proof.
  intros W H (B & T & C1 & C2). destruct (ineq_lifts mode p q W H) as (sv & D & I & K). specialize (K x B).
  assert (length x = num_vars p) as Lx by (apply Forall2_length in B; unfold num_vars; congruence).
  pose proof (ieinv_nv _ _ _ _ _ I) as NV. split.
  - intros (y & (B2 & T2 & H2) & E). unfold in_bounds, typed in B2, T2. rewrite (ie_vars _ _ _ _ _ I) in B2, T2.
    pose proof (Forall2_length _ _ _ B2) as Ly. rewrite app_length, map_length in Ly.
    apply Forall2_app_inv_l in B2. destruct B2 as (x1 & t1 & R1 & R2 & ->).
    apply Forall2_app_inv_l in T2. destruct T2 as (x2 & t2 & S1 & S2 & EU).
    pose proof (Forall2_length _ _ _ R1) as L1. pose proof (Forall2_length _ _ _ S1) as L2. rewrite map_length in L1, L2.
    assert (x1 = x2 /\ t1 = t2) as [<- <-] by (apply app_inj_length; [congruence|exact EU]).
    rewrite (ineq_interpret_prefix mode p q W H x1 t1) in E; [|now symmetry|rewrite <- Ly, NV; reflexivity]. injection E as ->.
    apply K. exists t1. auto.
  - intro G. destruct (proj2 K) as (t & R & T2 & H2); [split; [split; assumption|exact G]|].
    pose proof (Forall2_length _ _ _ R) as Lt.
    exists (x ++ t). split.
    + split; [|split; [|exact H2]]; unfold in_bounds, typed; rewrite (ie_vars _ _ _ _ _ I).
      * apply Forall2_app; auto. now apply copy_in_bounds.
      * apply Forall2_app; auto. now apply copy_typed.
    + apply (ineq_interpret_prefix mode p q W H); [assumption|]. rewrite app_length, NV. lia.
Qed.

Lemma whole_row_iff e : lin_wf e -> int_lin e <-> whole_row e.
Proof.
  intros [N _]. unfold int_lin, whole_row, coef1, dgetq. rewrite Forall_forall. split.
  - intros H i. destruct (dget Nat.eqb i (le_co e)) as [v|] eqn:E; [|apply integral_0]. apply (dget_in _ nat_eqb_sp) in E. exact (H _ E).
  - intros H [i v] I. specialize (H i). now rewrite (in_dget _ nat_eqb_sp _ _ _ N I) in H.
Qed.
Lemma whole_square_iff e : quad_wf e -> int_quad e <-> whole_square e.
Proof.
  intros [N _]. unfold int_quad, whole_square, coef2, mget, dgetq. rewrite Forall_forall. split.
  - intros H i j. destruct (dget nat2_eqb (i, j) (qe_co e)) as [v|] eqn:E; [|apply integral_0]. apply (dget_in _ nat2_eqb_sp) in E. exact (H _ E).
  - intros H [[i j] v] I. specialize (H i j). now rewrite (in_dget _ nat2_eqb_sp _ _ _ N I) in H.
Qed.
Theorem ineq_survives mode p q x : prog_wf p -> ineq_to_eq mode p = Ok q -> feasible p x ->
  (exists y, feasible q y /\ ineq_interpret p q y = Ok x) <->
  mode = MContinuous \/
  (forall c, In c (p_lcs p) -> lc_sense c <> EQ -> whole_row (lc_lin c) -> integral (lc_at c x)) /\
  (forall c, In c (p_qcs p) -> qc_sense c <> EQ -> whole_row (qc_lin c) -> whole_square (qc_quad c) -> integral (qc_at c x)).
Proof.
  intros W H F. rewrite (ineq_exact mode p q x W H F). pose proof W as (_ & _ & _ & _ & (_ & _ & W3 & W4) & _).
  rewrite Forall_forall in W3, W4. unfold lc_whole, qc_whole. rewrite !Forall_forall. split.
  - intros [A B]. assert (mode = MContinuous \/ mode <> MContinuous) as [M|M] by (destruct mode; auto; right; discriminate); [now left|right].
    split; intros c I; [intros S R|intros S R Q]; [apply A|apply B]; auto.
    + apply whole_row_iff; auto.
    + apply whole_row_iff; auto. now apply W4.
    + apply whole_square_iff; auto. now apply W4.
  - intros [M|[A B]]; [split; intros; congruence|]. split; intros c I; [intros S M R|intros S M R Q]; [apply A|apply B]; auto.
    + apply whole_row_iff; auto.
    + apply whole_row_iff; auto. now apply W4.
    + apply whole_square_iff; auto. now apply W4.
Qed.

(** The bounds of binary variables are all that is lost. *)
Lemma ineq_freed mode p q y : prog_wf p -> ineq_to_eq mode p = Ok q -> feasible q y ->
  exists x, ineq_interpret p q y = Ok x /\ feasible (freed_program p) x /\ obj_at (p_obj q) y = obj_at (p_obj p) x.
Proof.
  intros W H (B & T & C1 & C2). destruct (ineq_to_eq_inv mode p q W H) as (sv & I & _).
  unfold in_bounds, typed in B, T. rewrite (ie_vars _ _ _ _ _ I) in B, T.
  apply Forall2_app_inv_l in B. destruct B as (x & t & B1 & B2 & ->).
  apply Forall2_app_inv_l in T. destruct T as (x' & t' & T1 & T2 & E).
  assert (length x = num_vars p) as Lx by (apply Forall2_length in B1; rewrite map_length in B1; symmetry; exact B1).
  assert (x = x' /\ t = t') as [<- <-].
  { apply Forall2_length in B1, T1. apply app_inj_length; auto. congruence. }
  pose proof (Forall2_length _ _ _ B2) as Lt.
  exists x. split; [|split].
  - apply (ineq_interpret_prefix mode p q W H); auto. rewrite app_length, (ieinv_nv _ _ _ _ _ I). lia.
  - destruct (ie_sound _ _ _ _ _ I x t Lx B2 (conj C1 C2)) as [K1 K2].
    split; [exact B1|]. split; [exact T1|]. split; assumption.
  - apply (ie_obj _ _ _ _ _ I); auto.
Qed.
