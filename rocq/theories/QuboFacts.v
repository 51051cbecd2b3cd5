(** * The whole conversion to a QUBO *)
From Verif Require Export ConvMore PenProps.
Local Open Scope nat_scope.

Lemma plain_open p : Forall plain (p_vars p) -> binary_open p.
Proof.
  unfold binary_open. intro P. rewrite Forall_forall in *. intros v Hv Ty. destruct (P v Hv Ty) as [-> ->]. split; qlra.
Qed.
Lemma plain_int_range p : Forall plain (p_vars p) -> int_bounds p -> discrete p -> Forall int_range (p_vars p).
Proof.
  unfold int_bounds, discrete. intros P I D. rewrite Forall_forall in *. intros v Hv. unfold int_range. destruct (v_type v) eqn:Ty.
  - now apply D in Hv.
  - destruct (P v Hv Ty) as [-> ->]. split; [apply integral_0|apply integral_1].
  - now apply I.
Qed.
Lemma count_type_0 ty p : count_type ty p = 0 <-> Forall (fun v => v_type v <> ty) (p_vars p).
Proof.
  unfold count_type. assert (forall a b, vartype_eqb a b = true <-> a = b) as E by (intros [] []; simpl; split; congruence).
  induction (p_vars p) as [|v l IH]; simpl; [split; auto|].
  rewrite Forall_cons_iff, <- IH. destruct (vartype_eqb (v_type v) ty) eqn:T; simpl.
  - apply E in T. split; [discriminate|]. tauto.
  - split; [|tauto]. intro H. split; auto. intro X. apply E in X. congruence.
Qed.
Lemma any_float_iff {K} (d : list (K * Qc)) : any_float d = false <-> Forall (fun kv => integral (snd kv)) d.
Proof.
  unfold any_float. induction d as [|a d IH]; simpl; [split; auto|]. rewrite Forall_cons_iff, orb_false_iff, negb_false_iff, is_integer_spec, IH. tauto.
Qed.
Lemma qubo_compatible_iff p : qubo_compatible p = true <-> discrete p /\ p_qcs p = [] /\ Forall (fun c => int_lin (lc_lin c)) (p_lcs p).
Proof.
  unfold qubo_compatible. rewrite !andb_true_iff, !negb_true_iff, !Nat.eqb_eq, count_type_0.
  assert (length (p_qcs p) = 0 <-> p_qcs p = []) as -> by (destruct (p_qcs p); simpl; split; congruence).
  assert (existsb (fun c => any_float (lin_to_dict (lc_lin c))) (p_lcs p) = false <-> Forall (fun c => int_lin (lc_lin c)) (p_lcs p)) as ->.
  { induction (p_lcs p) as [|c l IH]; simpl; [split; auto|]. rewrite orb_false_iff, Forall_cons_iff, IH. unfold int_lin, lin_to_dict. rewrite any_float_iff. tauto. }
  split; [tauto|]. intros (A & B & C). rewrite B. simpl. tauto.
Qed.

(** ** Slack variables of the integer mode *)
Lemma linear_constraint_vars p lin s r nm q : ok_state (linear_constraint p lin s r nm) = Ok q -> p_vars q = p_vars p.
Proof.
  unfold linear_constraint. destruct (con_name _ _ _ _); [|discriminate]. cbv zeta.
  destruct (bind (sense_convert s) _); [|discriminate]. cbn [ok_state]. intros [= <-]. reflexivity.
Qed.
Lemma ineq_discrete_step src dst c q : discrete dst -> ineq_linear MInteger src dst c = Ok q -> discrete q.
Proof.
  intros D H. unfold ineq_linear in H. apply bind_ok in H. destruct H as (l & _ & H).
  assert (forall s, slack_linear true src dst l s (lc_rhs c) (lc_name c) = Ok q -> discrete q) as G.
  { clear H. intros s H. unfold slack_linear in H. destruct (true && any_float l); [discriminate|]. apply bind_ok in H. destruct H as (b & _ & H).
    cbv zeta in H. destruct (qltb _ _).
    - apply bind_ok in H. destruct H as (d1 & H1 & H2). apply linear_constraint_vars in H2. apply add_slack_inv in H1. destruct H1 as [-> _].
      unfold discrete. rewrite H2. simpl. apply Forall_app. split; [exact D|]. constructor; [discriminate|constructor].
    - apply linear_constraint_vars in H. unfold discrete. now rewrite H. }
  destruct (lc_sense c); eauto. apply linear_constraint_vars in H. unfold discrete. now rewrite H.
Qed.
Lemma ineq_discrete p q : discrete p -> p_qcs p = [] -> ineq_to_eq MInteger p = Ok q -> discrete q.
Proof.
  intros D Q H. unfold ineq_to_eq in H. rewrite Q in H.
  apply bind_ok in H. destruct H as (d0 & Hc & H). apply bind_ok in H. destruct H as (lin & Hl & H).
  apply bind_ok in H. destruct H as (quad & Hq & H). apply bind_ok in H. destruct H as (d1 & Ho & H).
  apply bind_ok in H. destruct H as (d2 & H2 & H3). injection H3 as <-.
  apply copy_vars_inv in Hc; [|apply idx_exact_new]. destruct Hc as (_ & V & _).
  apply set_objective_inv in Ho. destruct Ho as (e & e2 & _ & _ & ->).
  assert (discrete (set_obj (mkObj (o_const (p_obj p)) e e2 (o_sense (p_obj p))) d0)) as D1.
  { unfold discrete in *. cbn [set_obj p_vars]. rewrite V. simpl. apply Forall_map. rewrite Forall_forall in *. intros v Hv. rewrite copyv_type. auto. }
  revert D1 H2. generalize (set_obj (mkObj (o_const (p_obj p)) e e2 (o_sense (p_obj p))) d0). clear.
  induction (p_lcs p) as [|c l IH]; intros d D H; cbn [foldM] in H; [now injection H as <-|].
  apply bind_ok in H. destruct H as (d' & H1 & H). eapply IH; [|exact H]. eapply ineq_discrete_step; eauto.
Qed.

(** ** The sense under IntegerToBinary *)
Lemma linear_constraint_obj p lin s r nm q : ok_state (linear_constraint p lin s r nm) = Ok q -> p_obj q = p_obj p /\ p_qcs q = p_qcs p.
Proof.
  unfold linear_constraint. destruct (con_name _ _ _ _); [|discriminate]. cbv zeta.
  destruct (bind (sense_convert s) _); [|discriminate]. cbn [ok_state]. intros [= <-]. split; reflexivity.
Qed.
Lemma quadratic_constraint_obj p lin quad s r nm q : ok_state (quadratic_constraint p lin quad s r nm) = Ok q -> p_obj q = p_obj p.
Proof.
  unfold quadratic_constraint. destruct (con_name _ _ _ _); [|discriminate]. cbv zeta.
  destruct (bind (sense_convert s) _); [|discriminate]. cbn [ok_state]. intros [= <-]. reflexivity.
Qed.
Lemma foldM_keep {A} (f : qp -> A -> result qp) {B} (g : qp -> B) l : (forall p a q, f p a = Ok q -> g q = g p) ->
  forall p q, foldM f l p = Ok q -> g q = g p.
Proof.
  intro H. induction l as [|a l IH]; intros p q E; cbn [foldM] in E; [now injection E as <-|].
  apply bind_ok in E. destruct E as (r & E1 & E2). rewrite (IH _ _ E2). eauto.
Qed.
Lemma i2b_sense p q tbl : int_to_bin p = Ok (q, tbl) -> o_sense (p_obj q) = o_sense (p_obj p).
Proof.
  unfold int_to_bin. destruct (0 <? count_type INTEGER p); [|now intros [= <- _]].
  intro H. apply bind_ok in H. destruct H as (st & _ & H). apply bind_ok in H. destruct H as (d & H & E). injection E as <- _.
  unfold i2b_substitute in H. apply bind_ok in H. destruct H as (d1 & _ & H). apply bind_ok in H. destruct H as (lc & _ & H).
  apply bind_ok in H. destruct H as (d2 & _ & H). apply bind_ok in H. destruct H as ([[q0 ql] qc] & _ & H).
  apply bind_ok in H. destruct H as (d3 & H1 & H). apply bind_ok in H. destruct H as (d4 & H2 & H).
  apply (foldM_keep _ p_obj) in H; [rewrite H; clear H|].
  2: { intros p' a q' E. unfold i2b_quadcon in E. apply bind_ok in E. destruct E as (x1 & _ & E). apply bind_ok in E. destruct E as (x2 & _ & E).
    apply bind_ok in E. destruct E as (x3 & _ & E). apply bind_ok in E. destruct E as ([[x4 x5] x6] & _ & E). eapply quadratic_constraint_obj; eauto. }
  apply (foldM_keep _ p_obj) in H2; [rewrite H2; clear H2|].
  2: { intros p' a q' E. unfold i2b_lincon in E. apply bind_ok in E. destruct E as (x1 & _ & E). apply bind_ok in E. destruct E as (x2 & _ & E).
    eapply linear_constraint_obj; eauto. }
  apply set_objective_inv in H1. destruct H1 as (e & e2 & _ & _ & ->). reflexivity.
Qed.

(** ** Two programs with corresponding points *)
Definition onto (p q : qp) (dec : list Qc -> result (list Qc)) : Prop :=
  o_sense (p_obj q) = o_sense (p_obj p) /\
  (forall y, feasible q y -> exists x, dec y = Ok x /\ feasible p x /\ obj_at (p_obj q) y = obj_at (p_obj p) x) /\
  (forall x, feasible p x -> exists y, feasible q y /\ dec y = Ok x /\ obj_at (p_obj q) y = obj_at (p_obj p) x).
Lemma onto_optimal p q dec : onto p q dec ->
  (forall y, optimal q y -> exists x, dec y = Ok x /\ optimal p x /\ obj_at (p_obj q) y = obj_at (p_obj p) x) /\
  (forall x, optimal p x -> exists y, optimal q y /\ dec y = Ok x /\ obj_at (p_obj q) y = obj_at (p_obj p) x).
Proof.
  intros (S & A & B). split.
  - intros y [Fy Oy]. destruct (A y Fy) as (x & D & Fx & E). exists x. split; auto. split; auto. split; auto.
    intros z Fz. destruct (B z Fz) as (w & Fw & _ & E2). rewrite <- E, <- E2, <- S. auto.
  - intros x [Fx Ox]. destruct (B x Fx) as (y & Fy & D & E). exists y. split; auto. split; auto.
    intros z Fz. destruct (A z Fz) as (w & _ & Fw & E2). rewrite E, E2, S. auto.
Qed.
Lemma onto_compose p1 p2 p3 f g : onto p1 p2 f -> onto p2 p3 g -> onto p1 p3 (fun y => do x <- g y; f x).
Proof.
  intros (S & A & B) (S' & A' & B'). split; [congruence|]. split.
  - intros y Fy. destruct (A' y Fy) as (x & D & Fx & E). destruct (A x Fx) as (z & D2 & Fz & E2). exists z. rewrite D. simpl. split; auto. split; auto. congruence.
  - intros x Fx. destruct (B x Fx) as (y & Fy & D & E). destruct (B' y Fy) as (z & Fz & D2 & E2). exists z. split; auto. rewrite D2. simpl. split; auto. congruence.
Qed.

Section Qubo.
Variables (pen : option Qc) (p : qp) (r : qubo_run).
Hypothesis W : prog_wf p.
Hypothesis H : to_qubo pen p = Ok r.

Definition used_penalty : Qc := match pen with Some c => c | None => auto_penalty (r_bin r) end.
Lemma qubo_inv : qubo_compatible p = true /\ r_src r = p /\ ineq_to_eq MInteger p = Ok (r_eq r) /\ int_to_bin (r_eq r) = Ok (r_bin r, r_conv r) /\
  penalize used_penalty (r_bin r) = Ok (r_qubo r).
Proof using H.
  pose proof H as E. unfold to_qubo in E. destruct (qubo_compatible p); [|discriminate]. split; auto.
  apply bind_ok in E. destruct E as (p1 & H1 & H2). apply bind_ok in H2. destruct H2 as ([p2 tbl] & H2 & H3). apply bind_ok in H3. destruct H3 as (p3 & H3 & H4).
  cbn [fst snd] in *. injection H4 as H4. unfold used_penalty. rewrite <- H4. cbn [r_src r_eq r_bin r_conv r_qubo]. repeat (split; [first [reflexivity|assumption]|]). assumption.
Qed.
Lemma qubo_wf : prog_wf (r_eq r) /\ prog_wf (r_bin r) /\ prog_wf (r_qubo r).
Proof using H.
  destruct qubo_inv as (_ & _ & H1 & H2 & H3). assert (prog_wf (r_eq r)) as W1 by (eapply ineq_to_eq_wf; eauto).
  split; auto. split; [eapply int_to_bin_wf; eauto|eapply penalize_wf; eauto].
Qed.
Lemma qubo_all_binary : discrete (r_eq r) /\ all_binary (r_bin r).
Proof using H.
  destruct qubo_inv as (C & _ & H1 & H2 & H3). apply qubo_compatible_iff in C. destruct C as (D & Q & _).
  assert (discrete (r_eq r)) as D1 by (eapply ineq_discrete; eauto). split; auto.
  exact (proj2 (i2b_no_integer _ _ _ (proj1 qubo_wf) H2) D1).
Qed.
Lemma qubo_shape : Forall (fun v => v_type v = BINARY /\ v_lb v = 0%Qc /\ v_ub v = 1%Qc) (p_vars (r_qubo r)) /\
  p_lcs (r_qubo r) = [] /\ p_qcs (r_qubo r) = [] /\ o_sense (p_obj (r_qubo r)) = o_sense (p_obj p).
Proof using W H.
  destruct qubo_inv as (_ & _ & H1 & H2 & H3). destruct qubo_wf as (W1 & W2 & W3). destruct qubo_all_binary as [D1 B].
  destruct (penalize_spec _ _ _ W2 H3) as (V & L & Q & S & _). split; [|split; [assumption|split; [assumption|]]].
  - rewrite V. apply Forall_map. unfold all_binary in B. rewrite Forall_forall in *. intros v Hv. apply B in Hv. unfold copyv. rewrite Hv. simpl. auto.
  - rewrite S, (i2b_sense _ _ _ H2). eapply ineq_shape; eauto.
Qed.

Hypothesis P : Forall plain (p_vars p).
Hypothesis IB : int_bounds p.
Hypothesis SF : products_safe p (o_quad (p_obj p)).

(** Slack variables get integral bounds when the equality constraints have integral right-hand sides. *)
Lemma eq_rhs x : feasible p x -> Forall (fun c => lc_sense c = EQ -> int_lin (lc_lin c) /\ integral (lc_rhs c)) (p_lcs p).
Proof using W H P IB.
  intros (B & T & C & _). destruct qubo_inv as (K & _). apply qubo_compatible_iff in K. destruct K as (D & _ & I).
  pose proof W as (_ & _ & _ & _ & (_ & _ & W3 & _) & _). unfold lcs_hold in C. rewrite Forall_forall in *. intros c Hc E. split; auto.
  specialize (C c Hc). rewrite E in C. simpl in C. rewrite <- C. unfold lc_at, lin_at. apply sumof_integral. intros i _. apply integral_mul; [|eapply typed_integral; eauto; apply Forall_forall; auto].
  unfold coef1, dgetq. destruct (dget Nat.eqb i (le_co (lc_lin c))) as [v|] eqn:G; [|apply integral_0].
  apply (dget_in _ nat_eqb_sp) in G. specialize (I c Hc). unfold int_lin in I. rewrite Forall_forall in I. apply (I _ G).
Qed.

Hypothesis F : exists x, feasible p x.
Lemma qubo_eq_data : int_bounds (r_eq r) /\ binary_open (r_eq r) /\ safe (r_eq r) /\ int_rows (r_eq r) /\ p_qcs (r_eq r) = [].
Proof using W H P IB SF F.
  destruct qubo_inv as (K & _ & H1 & H2 & H3). apply qubo_compatible_iff in K. destruct K as (D & Q & I). destruct F as (x & Fx).
  destruct (ineq_to_eq_inv _ _ _ W H1) as (sv & J & ID). destruct (ID eq_refl (eq_rhs x Fx) Q (plain_int_range _ P IB D)) as [D1 D2 D3].
  pose proof (ie_vars _ _ _ _ _ J) as V. rewrite (map_copyv_plain _ P) in V. split; [|split; [|split; [|split; assumption]]].
  - unfold int_bounds. rewrite V. apply Forall_app. split; [exact IB|]. rewrite Forall_forall in *. intros v Hv _. now apply D2.
  - unfold binary_open. rewrite V. apply Forall_app. split; [now apply plain_open|]. pose proof (ie_sv _ _ _ _ _ J) as Z. rewrite Forall_forall in *.
    intros v Hv Ty. now destruct (Z v Hv).
  - split; [|rewrite D3; constructor]. intros i j w vi vj Hin Ni Nj Ti Tj.
    destruct (ie_quad _ _ _ _ _ J i j w Hin) as (Li & Lj & w' & Hw). rewrite V in Ni, Nj. unfold num_vars in Li, Lj.
    rewrite nth_error_app1 in Ni, Nj by assumption. destruct Hw as [Hw|Hw].
    + eapply SF; eauto.
    + destruct (SF j i w' vj vi Hw Nj Ni Tj Ti). auto.
Qed.
Lemma i2b_open q tbl p1 : prog_wf p1 -> int_to_bin p1 = Ok (q, tbl) -> binary_open p1 -> binary_open q.
Proof using.
  clear. intros W H O. destruct (int_to_bin_inv p1 q tbl W H) as [(-> & -> & _)|I]; auto. destruct (ib_tracks _ _ _ I) as [_ V].
  unfold binary_open. rewrite V. apply Forall_flat_map, Forall_forall. intros v _. unfold block. destruct (is_int v).
  - apply Forall_map, Forall_forall. intros b _ _. simpl. split; qlra.
  - constructor; [|constructor]. unfold copyv. destruct (v_type v) eqn:Ty; simpl; intro E; try congruence. split; qlra.
Qed.
Lemma qubo_bin_data : binary_open (r_bin r) /\ int_rows (r_bin r) /\ p_qcs (r_bin r) = [].
Proof using W H P IB SF F.
  destruct qubo_inv as (_ & _ & H1 & H2 & H3). destruct qubo_wf as (W1 & W2 & W3). destruct qubo_eq_data as (B & O & S & R & Q).
  split; [exact (i2b_open _ _ _ W1 H2 O)|]. split; [exact (i2b_int_rows _ _ _ W1 H2 S R B)|].
  destruct (i2b_interpret_ok _ _ _ W1 H2 (repeat 0%Qc (num_vars (r_bin r)))) as (x & E & _); [apply repeat_length|].
  destruct (i2b_decode _ _ _ W1 H2 _ _ S (repeat_length _ _) E) as (_ & _ & _ & D). rewrite Q in D. now inversion D.
Qed.
Lemma qubo_onto : onto p (r_bin r) (fun y => do x <- i2b_interpret (r_eq r) (conv_of (r_conv r)) (r_bin r) y; ineq_interpret p (r_eq r) x).
Proof using W H P IB SF F.
  destruct qubo_inv as (K & _ & H1 & H2 & H3). apply qubo_compatible_iff in K. destruct K as (D & Q & I).
  destruct qubo_wf as (W1 & W2 & W3). destruct qubo_eq_data as (B & O & S & R & Q1).
  apply (onto_compose p (r_eq r) (r_bin r)).
  - split; [eapply ineq_shape; eauto|]. split; intros; [eapply ineq_sound; eauto; now apply plain_open|eapply ineq_complete; eauto].
  - split; [eapply i2b_sense; eauto|]. split; intros; [eapply (i2b_sound _ _ _ W1 H2); eauto|eapply (i2b_complete _ _ _ W1 H2); eauto].
Qed.
Lemma qubo_interpret_eq y : length y = num_vars (r_qubo r) ->
  qubo_interpret r y = (do x <- i2b_interpret (r_eq r) (conv_of (r_conv r)) (r_bin r) y; ineq_interpret p (r_eq r) x).
Proof using W H.
  intro L. destruct qubo_inv as (_ & E & H1 & H2 & H3). destruct qubo_wf as (W1 & W2 & W3). destruct (penalize_spec _ _ _ W2 H3) as (V & _).
  unfold qubo_interpret, pen_interpret. rewrite E. assert (length y = num_vars (r_bin r)) as -> by (rewrite L; unfold num_vars; now rewrite V, map_length).
  now rewrite Nat.eqb_refl.
Qed.
Lemma feas_len q y : feasible q y -> length y = num_vars q.
Proof using. intros (B & _). symmetry. exact (Forall2_length _ _ _ B). Qed.

(** Every feasible point is represented, whatever the penalty. *)
Lemma qubo_represents x : feasible p x -> exists y, feasible (r_qubo r) y /\ qubo_interpret r y = Ok x /\ obj_at (p_obj (r_qubo r)) y = obj_at (p_obj p) x.
Proof using W H P IB SF F.
  intro Fx. destruct qubo_inv as (_ & _ & H1 & H2 & H3). destruct qubo_wf as (W1 & W2 & W3). destruct qubo_bin_data as (O & R & Q).
  destruct qubo_onto as (_ & _ & C). destruct (C x Fx) as (y & Fy & D & E). exists y.
  assert (feasible (r_qubo r) y) as Fq by (apply (pen_feasible_iff _ _ _ W2 H3 Q O y); assumption). split; auto. split.
  - rewrite qubo_interpret_eq; auto. now apply feas_len.
  - rewrite (pen_value_eq _ _ _ W2 H3 y Fy). exact E.
Qed.
Lemma qubo_exact : match pen with Some c => (weight (p_obj (r_bin r)) < c)%Qc | None => True end ->
  (forall y, optimal (r_qubo r) y -> exists x, qubo_interpret r y = Ok x /\ optimal p x /\ obj_at (p_obj (r_qubo r)) y = obj_at (p_obj p) x) /\
  (forall x, optimal p x -> exists y, optimal (r_qubo r) y /\ qubo_interpret r y = Ok x /\ obj_at (p_obj (r_qubo r)) y = obj_at (p_obj p) x).
Proof using W H P IB SF F.
  intro Pen. destruct qubo_inv as (_ & _ & H1 & H2 & H3). destruct qubo_wf as (W1 & W2 & W3). destruct qubo_bin_data as (O & R & Q).
  destruct qubo_all_binary as [_ B]. pose proof qubo_onto as T.
  assert (weight (p_obj (r_bin r)) < used_penalty)%Qc as Big by (unfold used_penalty; destruct pen; [exact Pen|now apply auto_penalty_large]).
  assert (exists x, feasible (r_bin r) x) as F2. { destruct F as (x & Fx). destruct T as (_ & _ & C). destruct (C x Fx) as (y & Fy & _). eauto. }
  pose proof (pen_exact _ _ _ W2 H3 B R Big Q O F2) as X. destruct (onto_optimal _ _ _ T) as [T1 T2]. split.
  - intros y Oy. pose proof Oy as Oy'. apply X in Oy. destruct (T1 y Oy) as (x & D & Ox & E). exists x. split; [|split; auto].
    + rewrite qubo_interpret_eq; auto. apply feas_len. apply Oy'.
    + rewrite (pen_value_eq _ _ _ W2 H3 y (proj1 Oy)). exact E.
  - intros x Ox. destruct (T2 x Ox) as (y & Oy & D & E). pose proof Oy as Oy'. apply X in Oy. exists y. split; auto. split.
    + rewrite qubo_interpret_eq; auto. apply feas_len. apply Oy.
    + rewrite (pen_value_eq _ _ _ W2 H3 y (proj1 Oy')). exact E.
Qed.
End Qubo.
