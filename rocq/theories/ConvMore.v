(** * Shape and variables of converted programs *)
From Verif Require Export IntBinProps FeasFacts.
Local Open Scope nat_scope.

(** ** Comparing computed coefficients *)
Fixpoint co_eqb (l m : list (nat * Qc)) : bool :=
  match l, m with
  | [], [] => true
  | (i, a) :: l, (j, b) :: m => Nat.eqb i j && qeqb a b && co_eqb l m
  | _, _ => false
  end.
Lemma co_eqb_eq l : forall m, co_eqb l m = true -> l = m.
Proof.
  induction l as [|[i a] l IH]; intros [|[j b] m] H; simpl in H; try discriminate; auto.
  apply andb_prop in H. destruct H as [H H3]. apply andb_prop in H. destruct H as [H1 H2].
  apply Nat.eqb_eq in H1. destruct (qeqb_spec a b); [|discriminate]. subst. f_equal. auto.
Qed.
Lemma is_ok_ex {A} (r : result A) : is_ok r = true -> exists a, r = Ok a.
Proof. destruct r; [eauto|discriminate]. Qed.

(** ** Deciding membership, for concrete cases *)
Fixpoint qs_eqb (l m : list Qc) : bool :=
  match l, m with [], [] => true | a :: l, b :: m => qeqb a b && qs_eqb l m | _, _ => false end.
Lemma qs_eqb_eq l : forall m, qs_eqb l m = true <-> l = m.
Proof.
  induction l as [|a l IH]; intros [|b m]; simpl; split; intro H; try discriminate; auto.
  - apply andb_prop in H. destruct H as [H1 H2]. destruct (qeqb_spec a b); [|discriminate]. subst. f_equal. now apply IH.
  - injection H as -> ->. destruct (qeqb_spec b b); [|congruence]. now apply IH.
Qed.
Definition res_qs (r : result (list Qc)) (l : list Qc) : bool := match r with Ok x => qs_eqb x l | Err _ => false end.
Lemma res_qs_eq r l : res_qs r l = true -> r = Ok l.
Proof. destruct r; simpl; [|discriminate]. intro H. apply qs_eqb_eq in H. now subst. Qed.
Definition fit_b (v : variable) (a : Qc) : bool :=
  qleb (v_lb v) a && qleb a (v_ub v) &&
  match v_type v with CONTINUOUS => true | BINARY => qeqb a 0 || qeqb a 1 | INTEGER => is_integer a end.
Lemma fit_b_spec v a : fit_b v a = true <-> in_range v a /\ has_type v a.
Proof.
  unfold fit_b, in_range, has_type. rewrite !andb_true_iff.
  destruct (qleb_spec (v_lb v) a), (qleb_spec a (v_ub v)); destruct (v_type v);
  rewrite ?orb_true_iff, ?is_integer_spec; destruct (qeqb_spec a 0), (qeqb_spec a 1); intuition (try discriminate; auto).
Qed.
Fixpoint fits_b (vs : list variable) (y : list Qc) : bool :=
  match vs, y with [], [] => true | v :: vs, a :: y => fit_b v a && fits_b vs y | _, _ => false end.
Lemma fits_b_spec vs : forall y, fits_b vs y = true <-> Forall2 in_range vs y /\ Forall2 has_type vs y.
Proof.
  induction vs as [|v vs IH]; intros [|a y]; simpl.
  - split; [split; constructor|auto].
  - split; [discriminate|intros [H _]; inversion H].
  - split; [discriminate|intros [H _]; inversion H].
  - rewrite andb_true_iff, fit_b_spec, IH. split; [intros [[? ?] [? ?]]; split; constructor; auto|intros [A B]; inversion A; inversion B; subst; tauto].
Qed.
Definition holds_b (s : csense) (l r : Qc) : bool := match s with LE => qleb l r | GE => qleb r l | EQ => qeqb l r end.
Lemma holds_b_spec s l r : holds_b s l r = true <-> holds s l r.
Proof. destruct s; simpl; [destruct (qleb_spec l r)|destruct (qleb_spec r l)|destruct (qeqb_spec l r)]; intuition congruence. Qed.
Definition feas_b (p : qp) (y : list Qc) : bool :=
  fits_b (p_vars p) y && forallb (fun c => holds_b (lc_sense c) (lc_at c y) (lc_rhs c)) (p_lcs p)
  && forallb (fun c => holds_b (qc_sense c) (qc_at c y) (qc_rhs c)) (p_qcs p).
Lemma feas_b_spec p y : feas_b p y = true <-> feasible p y.
Proof.
  unfold feas_b, feasible, in_bounds, typed, lcs_hold, qcs_hold. rewrite !andb_true_iff, fits_b_spec, !forallb_forall, !Forall_forall.
  setoid_rewrite holds_b_spec. tauto.
Qed.
Lemma feas_b_false p y : feas_b p y = false -> ~ feasible p y.
Proof. rewrite <- feas_b_spec. congruence. Qed.
Lemma qeqb_false a b : qeqb a b = false -> a <> b.
Proof. destruct (qeqb_spec a b); [discriminate|auto]. Qed.

Definition narrow_b (v : variable) : bool := qeqb (v_ub v - v_lb v) 1 || qeqb (v_ub v - v_lb v) (qz 2).
Definition products_safe_b (p : qp) (e : quadexpr) : bool :=
  forallb (fun kv => match nth_error (p_vars p) (fst (fst kv)), nth_error (p_vars p) (snd (fst kv)) with
    | Some vi, Some vj => negb (is_int vi && is_int vj) || (qeqb (v_lb vj) 0 || narrow_b vi) && (qeqb (v_lb vi) 0 || narrow_b vj)
    | _, _ => true end) (qe_co e).
Lemma products_safe_b_ok p e : products_safe_b p e = true -> products_safe p e.
Proof.
  unfold products_safe_b. rewrite forallb_forall. intros H i j w vi vj Hin Ei Ej Ti Tj. specialize (H _ Hin). cbn [fst snd] in H. rewrite Ei, Ej in H.
  unfold is_int in H. rewrite Ti, Tj in H. simpl in H. apply andb_prop in H.
  unfold narrow_b, narrow in *. rewrite !orb_true_iff in H.
  destruct (qeqb_spec (v_lb vj) 0), (qeqb_spec (v_lb vi) 0), (qeqb_spec (v_ub vi - v_lb vi) 1), (qeqb_spec (v_ub vi - v_lb vi) (qz 2)),
    (qeqb_spec (v_ub vj - v_lb vj) 1), (qeqb_spec (v_ub vj - v_lb vj) (qz 2)); intuition discriminate.
Qed.
Definition safe_b (p : qp) : bool := products_safe_b p (o_quad (p_obj p)) && forallb (fun c => products_safe_b p (qc_quad c)) (p_qcs p).
Lemma safe_b_ok p : safe_b p = true -> safe p.
Proof.
  unfold safe_b, safe. intro H. apply andb_prop in H. destruct H as [H1 H2]. split; [now apply products_safe_b_ok|].
  rewrite forallb_forall in H2. apply Forall_forall. intros c Hc. apply products_safe_b_ok. auto.
Qed.

Definition value_error {A} (r : result A) : bool := match r with Err ValueError => true | _ => false end.
Lemma value_error_eq {A} (r : result A) : value_error r = true -> r = Err ValueError.
Proof. destruct r as [|[]]; simpl; congruence. Qed.

(** ** Expressions of the converted program have at least as many columns as the source *)
Definition wide (n : nat) (p : qp) : Prop :=
  n <= num_vars p /\ (le_dim (o_lin (p_obj p)) = n /\ qe_dim (o_quad (p_obj p)) = n) /\
  Forall (fun c => n <= le_dim (lc_lin c)) (p_lcs p) /\ Forall (fun c => n <= le_dim (qc_lin c) /\ n <= qe_dim (qc_quad c)) (p_qcs p).
Lemma ineq_wide mode src q : prog_wf src -> ineq_to_eq mode src = Ok q -> wide (num_vars src) q.
Proof.
  intros W H. pose proof W as (_ & _ & _ & _ & (_ & _ & W3 & W4) & N1 & N2). unfold ineq_to_eq in H.
  apply bind_ok in H. destruct H as (d0 & H0 & H). apply copy_vars_inv in H0; [|apply idx_exact_new].
  destruct H0 as (X0 & V0 & L0 & _ & Q0 & _). simpl in V0, L0, Q0.
  apply bind_ok in H. destruct H as (lin & _ & H). apply bind_ok in H. destruct H as (quad & _ & H).
  apply bind_ok in H. destruct H as (d1 & H1 & H). apply set_objective_inv in H1. destruct H1 as (e & e2 & E1 & E2 & ->).
  apply bind_ok in H. destruct H as (d2 & H2 & H3).
  assert (num_vars d0 = num_vars src) as NV by (unfold num_vars; now rewrite V0, map_length).
  set (names := var_names src).
  set (st := fun d => idx_exact d /\ (exists sv, var_names d = names ++ map v_name sv) /\ wide (num_vars src) d).
  assert (forall cs d d', Forall (fun c => lc_name c <> EmptyString) cs -> Forall (fun c => lin_wf (lc_lin c)) cs -> st d ->
    foldM (ineq_linear mode src) cs d = Ok d' -> st d') as L.
  { clear -W. induction cs as [|c cs IH]; intros d d' N F I H; cbn [foldM] in H; [now injection H as <-|].
    apply bind_ok in H. destruct H as (d1 & H1 & H2). inversion N as [|? ? Na Nb]; inversion F as [|? ? Fa Fb]; subst. eapply IH; [exact Nb|exact Fb| |exact H2].
    destruct I as (X & (sv & V) & (A & B & C & D)).
    destruct (ineq_linear_shape mode src W d sv c d1 X V Na Fa H1) as (i0 & vs & e & rhs' & -> & X' & We & De & _).
    destruct (add_vars_fields d vs) as (A1 & A2 & A3 & A4). split; auto. split.
    - exists (sv ++ vs). unfold var_names in *. simpl. rewrite A1, !map_app, V, app_assoc. reflexivity.
    - split; [unfold num_vars in *; simpl; rewrite A1, app_length; lia|]. simpl. rewrite A2, A3, A4. split; auto. split; auto.
      apply Forall_app. split; auto. constructor; auto. simpl. lia. }
  assert (forall cs d d', Forall (fun c => qc_name c <> EmptyString) cs -> Forall (fun c => lin_wf (qc_lin c) /\ quad_wf (qc_quad c)) cs -> st d ->
    foldM (ineq_quadratic mode src) cs d = Ok d' -> st d') as Q.
  { clear -W. induction cs as [|c cs IH]; intros d d' N F I H; cbn [foldM] in H; [now injection H as <-|].
    apply bind_ok in H. destruct H as (d1 & H1 & H2). inversion N as [|? ? Na Nb]; inversion F as [|? ? [Fa Fa'] Fb]; subst. eapply IH; [exact Nb|exact Fb| |exact H2].
    destruct I as (X & (sv & V) & (A & B & C & D)).
    destruct (ineq_quadratic_shape mode src W d sv c d1 X V Na Fa Fa' H1) as (i0 & vs & e & e2 & rhs' & -> & X' & We & We' & De & De' & _).
    destruct (add_vars_fields d vs) as (A1 & A2 & A3 & A4). split; auto. split.
    - exists (sv ++ vs). unfold var_names in *. simpl. rewrite A1, !map_app, V, app_assoc. reflexivity.
    - split; [unfold num_vars in *; simpl; rewrite A1, app_length; lia|]. simpl. rewrite A2, A3, A4. split; auto. split; auto.
      apply Forall_app. split; auto. constructor; auto. simpl. lia. }
  assert (st (set_obj (mkObj (o_const (p_obj src)) e e2 (o_sense (p_obj src))) d0)) as I1.
  { split; [destruct X0; now constructor|]. split.
    - exists []. unfold var_names. simpl. rewrite V0, map_map, app_nil_r. unfold names, var_names. apply map_ext. apply copyv_name.
    - unfold wide. cbn [set_obj p_obj p_lcs p_qcs o_lin o_quad]. rewrite L0, Q0. split; [unfold num_vars in *; simpl; lia|]. split; [|split; constructor].
      destruct (names_exact d0 X0) as [X2 X3]. 
      assert (le_dim e = num_vars d0) as D1 by (apply (lin_make_dict _ _ _ E1)).
      apply quad_make_spec in E2. destruct E2 as (_ & _ & _ & D2 & _). simpl in D2. lia. }
  apply (Q _ _ _ N2 W4 (L _ _ _ N1 W3 I1 H2) H3).
Qed.
Lemma ineq_no_slack_shapes mode src q : prog_wf src -> ineq_to_eq mode src = Ok q -> num_vars q = num_vars src -> shapes (num_vars q) q.
Proof.
  intros W H E. destruct (ineq_wide _ _ _ W H) as (_ & (A & B) & C & D). destruct (ineq_to_eq_inv mode src q W H) as (sv & I & _).
  destruct (ie_objfit _ _ _ _ _ I) as ((F1 & F2) & F3 & F4). destruct (ie_fit _ _ _ _ _ I) as [G1 G2]. rewrite E in *.
  split; [split; [auto|lia]|]. split; [split; [auto|lia]|]. rewrite Forall_forall in C, D, G1, G2. split; apply Forall_forall.
  - intros c Hc. specialize (C c Hc). destruct (G1 c Hc). split; [auto|lia].
  - intros c Hc. destruct (D c Hc). destruct (G2 c Hc) as ((? & ?) & ? & ?). split; split; auto; lia.
Qed.

(** ** Variables *)
Lemma copyv_plain v : plain v -> copyv v = v.
Proof. unfold plain, copyv. destruct v as [n l u []]; simpl; auto. intro H. destruct (H eq_refl) as [-> ->]. reflexivity. Qed.
Lemma map_copyv_plain l : Forall plain l -> map copyv l = l.
Proof. induction 1; simpl; auto. rewrite copyv_plain by assumption. congruence. Qed.
