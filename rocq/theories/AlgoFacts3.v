(** * Facts about MinimumEigenOptimizer *)
From Verif Require Export AlgoFacts2.
Local Open Scope nat_scope.

(** ** The QUBO of a conversion *)
Lemma penalize_shaped pen p q : prog_wf p -> penalize pen p = Ok q -> obj_shaped q.
Proof.
  intros W H. pose proof (penalize_wf _ _ _ H) as Wq. unfold penalize in H. apply bind_ok in H. destruct H as (d0 & H0 & H1).
  apply bind_ok in H1. destruct H1 as ([[o l] k] & Hst & H1). apply set_objective_inv in H1. destruct H1 as (e & e2 & E1 & E2 & ->).
  destruct Wq as (_ & _ & _ & _ & (W1 & W2 & _) & _). unfold obj_shaped, lin_shape, quad_shape. change (num_vars (set_obj (mkObj o e e2 (o_sense (p_obj p))) d0)) with (num_vars d0). cbn [set_obj p_obj o_lin o_quad] in *.
  split; split; auto.
  - unfold by_index in E1. simpl in E1. rewrite lin_put_fold in E1. apply bind_ok in E1. destruct E1 as (co & _ & [= <-]). reflexivity.
  - unfold by_index2 in E2. simpl in E2. rewrite quad_put_fold in E2. apply bind_ok in E2. destruct E2 as (co & _ & [= <-]). reflexivity.
Qed.

Section Default.
Variables (pen : option Qc) (p : qp) (r : qubo_run).
Hypothesis W : prog_wf p.
Hypothesis H : to_qubo pen p = Ok r.
Lemma qubo_obj_shaped : obj_shaped (r_qubo r).
Proof using W H. destruct (qubo_inv pen p r H) as (_ & _ & _ & _ & H3). destruct (qubo_wf pen p r H) as (_ & W2 & _). eapply penalize_shaped; eauto. Qed.
Lemma qubo_interpret_total y : length y = num_vars (r_qubo r) -> exists x, qubo_interpret r y = Ok x /\ length x = num_vars p.
Proof using W H.
  intro L. destruct (qubo_inv pen p r H) as (_ & _ & H1 & H2 & H3). destruct (qubo_wf pen p r H) as (W1 & W2 & W3). rewrite (qubo_interpret_eq pen p r W H y L).
  destruct (penalize_spec _ _ _ W2 H3) as (V & _). assert (length y = num_vars (r_bin r)) as L2 by (rewrite L; unfold num_vars; now rewrite V, map_length).
  destruct (i2b_interpret_ok _ _ _ W1 H2 y L2) as (x & E & Lx). rewrite E. cbn [bind].
  destruct (ineq_to_eq_inv _ p _ W H1) as (sv & I & _). pose proof (ieinv_names _ _ _ _ _ I) as N. apply (f_equal (@length string)) in N. rewrite app_length, !names_length in N.
  exists (firstn (num_vars p) x). rewrite <- (firstn_skipn (num_vars p) x) at 1. assert (length (firstn (num_vars p) x) = num_vars p) as Lf by (rewrite firstn_length; lia).
  split; auto. apply (ineq_interpret_prefix _ _ _ W H1); auto. now rewrite firstn_skipn.
Qed.
Lemma qubo_unconstrained : unconstrained_binary (r_qubo r) /\ o_sense (p_obj (r_qubo r)) = o_sense (p_obj p).
Proof using W H.
  destruct (qubo_shape pen p r W H) as (B & L & Q & S). split; auto. split; auto. eapply Forall_impl; [|exact B]. now intros a (T & _).
Qed.
Lemma qubo_feasible_bits y : feasible (r_qubo r) y <-> bits (num_vars (r_qubo r)) y.
Proof using W H.
  destruct (qubo_shape pen p r W H) as (B & L & Q & S). split.
  - intro F. split; [now apply feas_len|]. destruct F as (_ & T & _). unfold typed in T. clear -T B. induction T as [|v a vs y Ta T IH]; constructor; inversion B as [|? ? (Tv & _) B']; subst; auto.
    unfold has_type in Ta. now rewrite Tv in Ta.
  - intros [Ly Fy]. assert (in_bounds (r_qubo r) y /\ typed (r_qubo r) y) as [A1 A2].
    { unfold in_bounds, typed. unfold num_vars in Ly. clear -B Ly Fy. revert y Ly Fy. induction B as [|v vs (Tv & Lv & Uv) B IH]; intros [|a y] Ly Fy; simpl in Ly; try lia; [split; constructor|].
      inversion Fy as [|? ? Ha Fy']; subst. destruct (IH y) as [I1 I2]; auto. split; constructor; auto.
      - unfold in_range. rewrite Lv, Uv. destruct Ha as [-> | ->]; split; qlra.
      - unfold has_type. now rewrite Tv. }
    split; auto. split; auto. split; [unfold lcs_hold; rewrite L|unfold qcs_hold; rewrite Q]; constructor.
Qed.
End Default.

(** ** The best raw sample *)
Lemma raw_sorted s l : StronglySorted (fun a b => at_least s (s_fval a) (s_fval b)) (sort_by (raw_lt s) l).
Proof.
  apply sort_sorted.
  - intros a b c. rewrite <- !sense_le. intros. eapply Qcle_trans; eauto.
  - intros a b E. rewrite <- sense_le. unfold raw_lt in E. destruct (qltb_spec (sense_val s * s_fval a) (sense_val s * s_fval b)); [|discriminate]. now apply Qclt_le_weak.
  - intros a b E. rewrite <- sense_le. unfold raw_lt in E. destruct (qltb_spec (sense_val s * s_fval b) (sense_val s * s_fval a)) as [|N]; [discriminate|]. now apply Qcnot_lt_le.
Qed.
Lemma at_least_refl s a : at_least s a a.
Proof. destruct s; simpl; apply Qcle_refl. Qed.
Lemma raw_first s l a l' : sort_by (raw_lt s) l = a :: l' -> In a l /\ forall b, In b l -> at_least s (s_fval a) (s_fval b).
Proof.
  intro E. pose proof (raw_sorted s l) as S. pose proof (sort_perm (raw_lt s) l) as P. rewrite E in S, P. inversion S as [|? ? _ F]; subst. split.
  - eapply Permutation_in; [exact P|now left].
  - intros b Hb. apply (Permutation_in _ (Permutation_sym P)) in Hb. destruct Hb as [<-|Hb]; [apply at_least_refl|]. rewrite Forall_forall in F. auto.
Qed.
Lemma merge_total fs raw : Forall (fun s => exists y, decodes fs (s_x s) y) raw -> exists d, merge_samples fs raw = Ok d.
Proof.
  unfold merge_samples. intro F. generalize (@nil (list Qc * Qc)). induction F as [|s l (y & D) F IH]; intro d; cbn [foldM]; [eauto|].
  apply decodes_iff in D. rewrite D. cbn [bind]. apply IH.
Qed.
Lemma samples_total p fs raw : shapes (num_vars p) p -> Forall (fun s => exists y, decodes fs (s_x s) y /\ length y = num_vars p) raw -> exists l, interpret_samples p fs raw = Ok l.
Proof.
  intros S F. destruct (merge_total fs raw) as [d M]; [eapply Forall_impl; [|exact F]; firstorder|]. unfold interpret_samples. rewrite M. cbn [bind].
  assert (Forall (fun xp : list Qc * Qc => length (fst xp) = num_vars p) d) as Ld.
  { destruct (merge_spec _ _ _ M) as (_ & _ & _ & E). apply Forall_forall. intros [y v] Hy. destruct (E _ _ Hy) as (m & P & N & _). cbn [fst].
    assert (forall P l m, picks P l m -> forall a : sample, In a m -> In a l /\ P a) as PI.
    { clear. induction 1 as [|a l m Pa K IH|a l m Na K IH]; intros b Hb; [destruct Hb|destruct Hb as [<-|Hb]; [split; [now left|auto]|destruct (IH b Hb); split; [now right|auto]]|destruct (IH b Hb); split; [now right|auto]]. }
    destruct m as [|a m]; [congruence|]. destruct (PI _ _ _ P a) as [Ha Da]; [now left|]. rewrite Forall_forall in F. destruct (F a Ha) as (y' & D' & L'). now rewrite (decodes_fun _ _ _ _ Da D'). }
  clear M F. assert (exists l, mapM (fun xp => do f <- obj_eval (env_of p) (p_obj p) (XList (fst xp)); do st <- feas_status p (fst xp); Ok (mkSample (fst xp) f (snd xp) st)) d = Ok l) as [l E].
  { induction Ld as [|[y v] d Ly Ld [l IH]]; cbn [mapM]; [eauto|]. cbn [fst snd] in *. rewrite shapes_obj by auto. cbn [bind]. destruct (feas_status_spec p y S Ly) as (st & Es & _). rewrite Es. cbn [bind]. rewrite IH. cbn [bind]. eauto. }
  rewrite E. cbn [bind]. eauto.
Qed.

Section Internal.
Variables (solver : eigensolver) (op : qop) (off : Qc) (q p : qp) (fs : list interp) (e : eigenstate).
Hypothesis Wp : prog_wf p.
Hypothesis Hn : op_n op = num_vars q.
Hypothesis Pos : 0 < num_vars q.
Hypothesis Sq : obj_shaped q.
Hypothesis Se : sized_state (num_vars q) e.
Hypothesis Hs : solver op = Ok (Some e).
Lemma internal_unfold : exists l, eigenvector_to_solutions e q MIN_PROB = Ok l /\
  solve_internal solver op off q p fs =
    match sort_by (raw_lt (o_sense (p_obj q))) l with
    | [] => Err IndexError
    | s :: l' => do samples <- interpret_samples p fs (s :: l'); do r <- interpret p fs samples (s_x s); Ok (mkMeo r (Some (s :: l')))
    end.
Proof using Hn Pos Sq Se Hs.
  destruct (solutions_spec e q MIN_PROB Pos Sq Se) as (l & E & _). exists l. split; auto. unfold solve_internal. rewrite Hn.
  replace (0 <? num_vars q) with true by (symmetry; now apply Nat.ltb_lt). rewrite Hs. cbn [bind]. rewrite E. cbn [bind]. cbv zeta.
  destruct (sort_by (raw_lt (o_sense (p_obj q))) l); reflexivity.
Qed.
Lemma internal_best m : solve_internal solver op off q p fs = Ok m ->
  exists x y, best_kept q e x /\ bits (num_vars q) x /\ decodes fs x y /\ length y = num_vars p /\ r_x (m_res m) = Some y /\ r_fval (m_res m) = Some (obj_at (p_obj p) y) /\ status_at p y (r_status (m_res m)).
Proof using Wp Hn Pos Sq Se Hs.
  intro M. destruct internal_unfold as (l & El & E). rewrite E in M. clear E. destruct (solutions_spec e q MIN_PROB Pos Sq Se) as (l0 & E0 & A & B).
  assert (l0 = l) by congruence. subst l0. destruct (sort_by (raw_lt (o_sense (p_obj q))) l) as [|s l'] eqn:Es; [discriminate M|].
  apply bind_ok in M. destruct M as (samples & M1 & M). apply bind_ok in M. destruct M as (r & M2 & [= <-]). cbn [m_res].
  destruct (raw_first _ _ _ _ Es) as [Hin Hbest]. destruct (A s Hin) as (O & T & V & _ & Bx). destruct (interpret_spec _ _ _ _ _ Wp M2) as (y & D & L & X & _ & F & St & _).
  exists (s_x s), y. split; [|auto 10]. exists (s_prob s). split; [split; auto|]. intros x' pr' [O' T']. destruct (B x' pr' O' T') as (s' & Hs' & <- & <-).
  destruct (A s' Hs') as (_ & _ & V' & _). rewrite <- V, <- V'. auto.
Qed.
Lemma internal_total : shapes (num_vars p) p -> (forall x, bits (num_vars q) x -> exists y, decodes fs x y /\ length y = num_vars p) ->
  (exists x pr, kept q e x pr) -> exists m, solve_internal solver op off q p fs = Ok m.
Proof using Wp Hn Pos Sq Se Hs.
  intros S D (x & pr & O & T). destruct internal_unfold as (l & El & E). rewrite E. clear E. destruct (solutions_spec e q MIN_PROB Pos Sq Se) as (l0 & E0 & A & B).
  assert (l0 = l) by congruence. subst l0. destruct (B x pr O T) as (s0 & Hs0 & _ & _). pose proof (sort_perm (raw_lt (o_sense (p_obj q))) l) as P.
  destruct (sort_by (raw_lt (o_sense (p_obj q))) l) as [|s l'] eqn:Es; [apply Permutation_nil in P; subst l; destruct Hs0|].
  assert (forall a, In a (s :: l') -> bits (num_vars q) (s_x a)) as Bt by (intros a Ha; apply A; eapply Permutation_in; eauto).
  destruct (samples_total p fs (s :: l') S) as [samples ->]; [apply Forall_forall; auto|]. cbn [bind].
  destruct (D (s_x s)) as (y & Dy & Ly); [apply Bt; now left|]. destruct (interpret_total p fs samples _ _ S Dy Ly) as [r ->]. cbn [bind]. eauto.
Qed.
Lemma internal_none : (forall x pr, ~ kept q e x pr) -> solve_internal solver op off q p fs = Err IndexError.
Proof using Hn Pos Sq Se Hs.
  intro N. destruct internal_unfold as (l & El & E). rewrite E. clear E. destruct (solutions_spec e q MIN_PROB Pos Sq Se) as (l0 & E0 & A & B).
  assert (l0 = l) by congruence. subst l0. destruct l as [|s l]; [reflexivity|]. exfalso. destruct (A s) as (O & T & _); [now left|]. eapply N; split; eauto.
Qed.
End Internal.
Lemma to_ising_n p op off : prog_wf p -> to_ising p = Ok (op, off) -> op_n op = num_vars p.
Proof. intros W H. apply to_ising_inv in H; [|apply W]. destruct H as (_ & _ & _ & l & D). now rewrite (id_op p op off l D). Qed.

(** A basis state of lowest energy minimises the objective (in the direction of its sense), if coefficients are not too fine *)
Lemma ground_best q op off g x : prog_wf q -> to_ising q = Ok (op, off) -> on_grid g q -> (4 / qz 100000000 < g)%Qc -> ground (num_vars q) op x ->
  forall y, bits (num_vars q) y -> at_least (o_sense (p_obj q)) (obj_at (p_obj q) x) (obj_at (p_obj q) y).
Proof.
  intros W E G Hg [Bx Gx] y By. destruct (nonempty_or_const q (proj1 (proj2 (proj2 (proj2 (proj2 W)))))) as [N|C]; [|rewrite !C; apply at_least_refl].
  assert (exprs_wf q) as X by apply W. assert (qz 4 * ATOL < g)%Qc as Hg'.
  { exact Hg. }
  pose proof (to_ising_exact q op off g x X E N G Hg' Bx) as E1. pose proof (to_ising_exact q op off g y X E N G Hg' By) as E2. specialize (Gx y By).
  destruct (o_sense (p_obj q)); simpl in *; qlra.
Qed.

Section Solve.
Variables (solver : eigensolver) (pen : option Qc) (p : qp) (r : qubo_run) (e : eigenstate).
Hypothesis W : prog_wf p.
Hypothesis H : to_qubo pen p = Ok r.
Hypothesis Pos : 0 < num_vars (r_qubo r).
Hypothesis Se : sized_state (num_vars (r_qubo r)) e.
Hypothesis Hs : forall op off, to_ising (r_qubo r) = Ok (op, off) -> solver op = Ok (Some e).
Lemma default_ising : exists op off, to_ising (r_qubo r) = Ok (op, off) /\ op_n op = num_vars (r_qubo r) /\ solver op = Ok (Some e) /\
  min_eigen_solve solver (default_converters pen) p = solve_internal solver op off (r_qubo r) p [qubo_interpret r].
Proof using W H Hs Pos.
  destruct (qubo_wf pen p r H) as (_ & _ & W3). destruct (qubo_unconstrained pen p r W H) as [U _]. pose proof (qubo_obj_shaped pen p r W H) as ((_ & D1) & (_ & D2)).
  destruct (to_ising_ok (r_qubo r) (proj1 (proj2 (proj2 (proj2 (proj2 W3))))) U) as (op & off & E); [split; lia|].
  exists op, off. split; auto. split; [eapply to_ising_n; eauto|]. split; [eauto|]. unfold min_eigen_solve. destruct (qubo_inv pen p r H) as (K & _). rewrite K.
  unfold convert_all, default_converters, qubo_converter. cbn [foldM fst snd]. rewrite H. cbn [bind fst snd app]. rewrite E. reflexivity.
Qed.
Lemma default_best m : min_eigen_solve solver (default_converters pen) p = Ok m ->
  exists x y, best_kept (r_qubo r) e x /\ bits (num_vars (r_qubo r)) x /\ qubo_interpret r x = Ok y /\ r_x (m_res m) = Some y /\ r_fval (m_res m) = Some (obj_at (p_obj p) y) /\ status_at p y (r_status (m_res m)).
Proof using W H Hs Pos Se.
  destruct default_ising as (op & off & E & N & S & ->). intro M.
  destruct (internal_best _ _ _ _ _ _ e W N Pos (qubo_obj_shaped pen p r W H) Se S m M) as (x & y & B & Bx & (z & D & Q) & _ & X & F & St). cbn [decodes] in D. subst z. exists x, y. auto 10.
Qed.
Lemma default_total : shapes (num_vars p) p -> (exists x pr, kept (r_qubo r) e x pr) -> exists m, min_eigen_solve solver (default_converters pen) p = Ok m.
Proof using W H Hs Pos Se.
  intros S K. destruct default_ising as (op & off & E & N & Sv & ->). eapply internal_total; eauto; [eapply qubo_obj_shaped; eauto|].
  intros x [Lx _]. destruct (qubo_interpret_total pen p r W H x Lx) as (y & Q & L). exists y. split; auto. exists x. split; [reflexivity|auto].
Qed.
Lemma default_none : (forall x pr, ~ kept (r_qubo r) e x pr) -> min_eigen_solve solver (default_converters pen) p = Err IndexError.
Proof using W H Hs Pos Se. intro K. destruct default_ising as (op & off & E & N & Sv & ->). eapply internal_none; eauto. eapply qubo_obj_shaped; eauto. Qed.
Lemma default_optimal g m : Forall plain (p_vars p) -> int_bounds p -> products_safe p (o_quad (p_obj p)) -> (exists x, feasible p x) ->
  match pen with Some c => (weight (p_obj (r_bin r)) < c)%Qc | None => True end -> on_grid g (r_qubo r) -> (4 / qz 100000000 < g)%Qc ->
  (exists op off x pr, to_ising (r_qubo r) = Ok (op, off) /\ kept (r_qubo r) e x pr /\ ground (num_vars (r_qubo r)) op x) ->
  shapes (num_vars p) p -> min_eigen_solve solver (default_converters pen) p = Ok m ->
  exists y, r_x (m_res m) = Some y /\ optimal p y /\ r_fval (m_res m) = Some (obj_at (p_obj p) y) /\ r_status (m_res m) = SUCCESS.
Proof using W H Hs Pos Se.
  intros P IB SF F Pen G Hg (op & off & x0 & pr0 & E & K0 & G0) S M. destruct (qubo_wf pen p r H) as (_ & _ & W3).
  destruct (default_best m M) as (x & y & (pr & _ & B) & Bx & Q & X & Fv & St).
  assert (optimal (r_qubo r) x) as O.
  { split; [now apply (qubo_feasible_bits pen p r W H)|]. intros z Fz. apply (qubo_feasible_bits pen p r W H) in Fz.
    pose proof (ground_best _ _ _ _ _ W3 E G Hg G0 z Fz) as A. specialize (B _ _ K0). destruct (o_sense (p_obj (r_qubo r))); simpl in *; qlra. }
  destruct (qubo_exact pen p r W H P IB SF F Pen) as [T _]. destruct (T x O) as (y' & Q' & Op & _). rewrite Q in Q'. injection Q' as <-.
  exists y. split; auto. split; auto. split; auto. destruct St as [[St _]|[_ N]]; auto. exfalso. apply N. destruct Op as [Fy _].
  pose proof (feasible_is_feasible p y S Fy) as I. apply (is_feasible_spec p y S) in I; auto. symmetry. exact (Forall2_length _ _ _ (proj1 Fy)).
Qed.
End Solve.
