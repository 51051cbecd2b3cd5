From Verif Require Export SpecCplex DocFacts3 AlgoFacts3 AdmmFacts8 SolveFacts.
From Verif Require Import ConvMore.
Local Open Scope nat_scope.

Lemma trivial_spec s rhs : (holds s 0 rhs -> export_trivial s rhs = Ok []) /\ (~ holds s 0 rhs -> export_trivial s rhs = Err DOcplexException).
Proof.
  unfold export_trivial. destruct s; cbn [holds]; [destruct (qleb_spec 0 rhs)|destruct (qleb_spec rhs 0)|destruct (qeqb_spec 0 rhs)]; split; intro H; auto; exfalso; try tauto; qlra.
Qed.
Lemma holds_dec s a b : holds s a b \/ ~ holds s a b.
Proof. destruct s; cbn [holds]; [destruct (qleb_spec a b)|destruct (qleb_spec b a)|destruct (qeqb_spec a b)]; auto; right; intro; qlra. Qed.
Lemma holds_zero s : holds s 0 0.
Proof. destruct s; cbn; auto; apply Qcle_refl. Qed.
Lemma void_lin l x : le_co l = [] -> lin_at l x = 0%Qc.
Proof. intro E. unfold lin_at. apply sumof_zero. intros i _. unfold coef1, dgetq. rewrite E. cbn. ring. Qed.
Lemma void_quad q x : qe_co q = [] -> quad_at q x = 0%Qc.
Proof. intro E. unfold quad_at. apply sumof_zero. intros i _. apply sumof_zero. intros j _. unfold coef2, mget, dgetq. rewrite E. cbn. ring. Qed.

Lemma export_lincon_inv n c : lin_wf (lc_lin c) -> le_dim (lc_lin c) <= n ->
  match export_lincon c with
  | Ok ds => forall x, length x = n -> (Forall (dcon_holds x) ds <-> holds (lc_sense c) (lc_at c x) (lc_rhs c))
  | Err e => e = DOcplexException /\ le_co (lc_lin c) = [] /\ void_false (lc_sense c) (lc_rhs c)
  end /\ (le_co (lc_lin c) = [] -> void_false (lc_sense c) (lc_rhs c) -> exists e, export_lincon c = Err e).
Proof.
  intros W D. unfold export_lincon. destruct (le_co (lc_lin c)) as [|kv co] eqn:Ec.
  - assert (forall x, lc_at c x = 0%Qc) as Z by (intro x; now apply void_lin). destruct (qeqb_spec (lc_rhs c) 0) as [E|E].
    + split; [|intros _ V; exfalso; apply V; rewrite E; apply holds_zero]. intros x _. rewrite Z, E. split; [intros _; apply holds_zero|constructor].
    + destruct (trivial_spec (lc_sense c) (lc_rhs c)) as [T1 T2]. destruct (holds_dec (lc_sense c) 0 (lc_rhs c)) as [H|H].
      * rewrite (T1 H). split; [|intros _ V; now apply V in H]. intros x _. rewrite Z. split; [auto|constructor].
      * rewrite (T2 H). split; [auto|eauto].
  - split; [|discriminate]. intros x Hx. destruct (export_expr_spec n 0 (lc_lin c) [] W D (Forall_nil _)) as (_ & _ & _ & V). specialize (V x Hx). rewrite dsum_nil in V.
    assert (forall P : Prop, (Forall (dcon_holds x) [DLinear (Some (lc_name c)) (lc_sense c) (export_expr 0 (lc_lin c) []) (d_num (lc_rhs c))] <-> P) <-> (holds (lc_sense c) (lc_at c x) (lc_rhs c) <-> P)) as G.
    { intro P. assert (Forall (dcon_holds x) [DLinear (Some (lc_name c)) (lc_sense c) (export_expr 0 (lc_lin c) []) (d_num (lc_rhs c))] <-> holds (lc_sense c) (lc_at c x) (lc_rhs c)) as K; [|tauto].
      unfold lc_at. replace (lin_at (lc_lin c) x) with (0 + lin_at (lc_lin c) x + 0)%Qc by ring. rewrite <- V. rewrite <- (dval_num (lc_rhs c) x) at 2. split; [intro F; inversion F; subst; assumption|intro H; constructor; [exact H|constructor]]. }
    apply G. tauto.
Qed.
Lemma export_quadcon_inv n c : lin_wf (qc_lin c) -> quad_wf (qc_quad c) -> le_dim (qc_lin c) <= n -> qe_dim (qc_quad c) <= n ->
  match export_quadcon c with
  | Ok ds => forall x, length x = n -> (Forall (dcon_holds x) ds <-> holds (qc_sense c) (qc_at c x) (qc_rhs c))
  | Err e => e = DOcplexException /\ le_co (qc_lin c) = [] /\ qe_co (qc_quad c) = [] /\ void_false (qc_sense c) (qc_rhs c)
  end /\ (le_co (qc_lin c) = [] -> qe_co (qc_quad c) = [] -> void_false (qc_sense c) (qc_rhs c) -> exists e, export_quadcon c = Err e).
Proof.
  intros W W' D D'. assert (forall x q, length x = n -> (q = [] -> qe_co (qc_quad c) = []) -> (q <> [] -> q = quad_to_dict false (qc_quad c)) -> dval (export_expr 0 (qc_lin c) q) x = qc_at c x) as V.
  { intros x q Hx Q1 Q2. destruct q as [|kv q].
    - destruct (export_expr_spec n 0 (qc_lin c) [] W D (Forall_nil _)) as (_ & _ & _ & V). rewrite (V x Hx), dsum_nil. unfold qc_at. rewrite (void_quad (qc_quad c)) by auto. ring.
    - rewrite Q2 by discriminate. destruct (export_expr_spec n 0 (qc_lin c) (quad_to_dict false (qc_quad c)) W D (DocFacts3.quad_range n (qc_quad c) W' D')) as (_ & _ & _ & V).
      rewrite (V x Hx). unfold qc_at. cbn [quad_to_dict quad_entries]. rewrite (quad_entries_in (qc_quad c) x); [unfold quad_to_dict, quad_entries; ring|apply W'|]. rewrite Hx. apply DocFacts3.quad_range; assumption. }
  assert (forall x s nm e, length x = n -> dval e x = qc_at c x -> (Forall (dcon_holds x) [DQuadratic nm s e (d_num (qc_rhs c))] <-> holds s (qc_at c x) (qc_rhs c)) /\ (Forall (dcon_holds x) [DLinear nm s e (d_num (qc_rhs c))] <-> holds s (qc_at c x) (qc_rhs c))) as G.
  { intros x s nm e Hx E. rewrite <- E. rewrite <- (dval_num (qc_rhs c) x) at 2 4. split; (split; [intro F; inversion F; subst; assumption|intro H; constructor; [exact H|constructor]]). }
  unfold export_quadcon. destruct (le_co (qc_lin c)) as [|lv lco] eqn:El; destruct (qe_co (qc_quad c)) as [|kv co] eqn:Ec.
  - assert (forall x, qc_at c x = 0%Qc) as Z by (intro x; unfold qc_at; rewrite void_lin, void_quad by assumption; ring). destruct (qeqb_spec (qc_rhs c) 0) as [E|E].
    + split; [|intros _ _ H; exfalso; apply H; rewrite E; apply holds_zero]. intros x _. rewrite Z, E. split; [intros _; apply holds_zero|constructor].
    + destruct (trivial_spec (qc_sense c) (qc_rhs c)) as [T1 T2]. destruct (holds_dec (qc_sense c) 0 (qc_rhs c)) as [H|H].
      * rewrite (T1 H). split; [|intros _ _ K; now apply K in H]. intros x _. rewrite Z. split; [auto|constructor].
      * rewrite (T2 H). split; [auto|eauto].
  - split; [|discriminate]. intros x Hx. apply (G x (qc_sense c) (Some (qc_name c)) _ Hx). apply V; [exact Hx|intro K; unfold quad_to_dict, quad_entries in K; rewrite Ec in K; discriminate K|reflexivity].
  - split; [|discriminate]. intros x Hx. apply (G x (qc_sense c) (Some (qc_name c)) _ Hx). apply V; [exact Hx|auto|]. intro K. now contradiction K.
  - split; [|discriminate]. intros x Hx. apply (G x (qc_sense c) (Some (qc_name c)) _ Hx). apply V; [exact Hx|intro K; unfold quad_to_dict, quad_entries in K; rewrite Ec in K; discriminate K|reflexivity].
Qed.
Lemma mapM_con {T} (f : T -> result (list dcon)) (P : T -> Prop) (R : list Qc -> T -> Prop) n l : (forall a, In a l -> match f a with Ok ds => forall x, length x = n -> (Forall (dcon_holds x) ds <-> R x a) | Err e => e = DOcplexException /\ P a end /\ (P a -> exists e, f a = Err e)) ->
  match mapM f l with
  | Ok ds => (forall x, length x = n -> (Forall (dcon_holds x) (concat ds) <-> Forall (R x) l)) /\ forall a, In a l -> ~ P a
  | Err e => e = DOcplexException /\ exists a, In a l /\ P a
  end.
Proof.
  induction l as [|a l IH]; intro H; cbn [mapM]; [split; [intros; split; constructor|intros a []]|].
  destruct (H a (or_introl eq_refl)) as [A A']. destruct (f a) as [ds|e] eqn:E; cbn [bind].
  - assert (match mapM f l with Ok ds => (forall x, length x = n -> (Forall (dcon_holds x) (concat ds) <-> Forall (R x) l)) /\ forall a, In a l -> ~ P a | Err e => e = DOcplexException /\ exists a, In a l /\ P a end) as I by (apply IH; intros b Hb; apply H; now right).
    destruct (mapM f l) as [dss|e]; cbn [bind].
    + destruct I as [I1 I2]. split; [intros x Hx; cbn [concat]; rewrite Forall_app, (A x Hx), (I1 x Hx); split; [intros []; constructor; auto|intro F; inversion F; auto]|]. intros b [<-|Hb]; [|auto]. intro K. destruct (A' K). discriminate.
    + destruct I as [I1 (b & Hb & Pb)]. split; [exact I1|]. exists b. split; [now right|exact Pb].
  - destruct A as [A1 A2]. split; [exact A1|]. exists a. split; [now left|exact A2].
Qed.

Definition takes_rest (v : variable) (a : Qc) : Prop := has_type v a /\ (v_type v = BINARY \/ in_range v a).
Lemma export_takes v a : dvar_takes (export_var v) a <-> takes_rest v a.
Proof.
  unfold dvar_takes, export_var, takes_rest, has_type, in_range. destruct (v_type v) eqn:T; cbn; intuition (try discriminate; subst; auto); try (unfold Qcle; cbn; discriminate).
Qed.
Lemma export_spec p : prog_wf p -> exprs_small p ->
  match to_docplex p with
  | Ok m => (forall x, dsolution m x <-> loose p x) /\ (forall x, length x = num_vars p -> dval (dm_obj m) x = obj_at (p_obj p) x) /\ dm_sense m = o_sense (p_obj p) /\ dm_vars m = map export_var (p_vars p) /\ ~ never p
  | Err e => e = DOcplexException /\ never p
  end.
Proof.
  intros (Iv & Il & Iq & Bo & (Ew1 & Ew2 & Ew3 & Ew4) & (Nl & Nq)) (S1 & S2 & S3 & S4). unfold to_docplex. rewrite Forall_forall in Ew3, Ew4, S3, S4.
  pose proof (mapM_con export_lincon (fun c => le_co (lc_lin c) = [] /\ void_false (lc_sense c) (lc_rhs c)) (fun x c => holds (lc_sense c) (lc_at c x) (lc_rhs c)) (num_vars p) (p_lcs p)) as L.
  destruct (mapM export_lincon (p_lcs p)) as [ls|e]; cbn [bind]; cycle 1.
  { destruct L as [-> (c & Hc & A & B)]; [intros c Hc; destruct (export_lincon_inv (num_vars p) c) as [X Y]; auto; split; [exact X|intros []; auto]|]. split; [reflexivity|]. left. eauto. }
  destruct L as [L NL]; [intros c Hc; destruct (export_lincon_inv (num_vars p) c) as [X Y]; auto; split; [exact X|intros []; auto]|].
  pose proof (mapM_con export_quadcon (fun c => le_co (qc_lin c) = [] /\ qe_co (qc_quad c) = [] /\ void_false (qc_sense c) (qc_rhs c)) (fun x c => holds (qc_sense c) (qc_at c x) (qc_rhs c)) (num_vars p) (p_qcs p)) as Q.
  assert (forall c, In c (p_qcs p) -> match export_quadcon c with Ok ds => forall x, length x = num_vars p -> (Forall (dcon_holds x) ds <-> holds (qc_sense c) (qc_at c x) (qc_rhs c)) | Err e => e = DOcplexException /\ le_co (qc_lin c) = [] /\ qe_co (qc_quad c) = [] /\ void_false (qc_sense c) (qc_rhs c) end /\
    (le_co (qc_lin c) = [] /\ qe_co (qc_quad c) = [] /\ void_false (qc_sense c) (qc_rhs c) -> exists e, export_quadcon c = Err e)) as HQ.
  { intros c Hc. destruct (Ew4 c Hc), (S4 c Hc). destruct (export_quadcon_inv (num_vars p) c) as [X Y]; auto. split; [exact X|intros (? & ? & ?); auto]. }
  destruct (mapM export_quadcon (p_qcs p)) as [qs|e]; cbn [bind]; cycle 1.
  { destruct (Q HQ) as [-> (c & Hc & A & B)]. split; [reflexivity|]. right. exists c. tauto. }
  destruct (Q HQ) as [Q1 NQ]. cbn [dm_obj dm_sense dm_vars]. split; [|split; [|split; [reflexivity|split; [reflexivity|]]]].
  - intro x. unfold dsolution, loose. cbn [dm_vars dm_cons]. rewrite Forall2_map_l, Forall_app.
    assert (Forall2 (fun v a => dvar_takes (export_var v) a) (p_vars p) x <-> typed p x /\ Forall2 (fun v a => v_type v = BINARY \/ in_range v a) (p_vars p) x) as Vx.
    { unfold typed. rewrite !Forall2_at. split.
      - intros [Lx H]. split; (split; [exact Lx|]); intros i v Hv; apply H, export_takes in Hv; apply Hv.
      - intros [[Lx H] [_ H']]. split; [exact Lx|]. intros i v Hv. apply export_takes. split; auto. }
    split.
    + intros (A & B & C). assert (length x = num_vars p) as Lx by (symmetry; exact (IneqFacts.Forall2_length _ _ _ A)). rewrite (L x Lx) in B. rewrite (Q1 x Lx) in C. apply Vx in A. unfold lcs_hold, qcs_hold. tauto.
    + intros (A & B & C & D). assert (length x = num_vars p) as Lx by (symmetry; exact (IneqFacts.Forall2_length _ _ _ A)). rewrite (L x Lx), (Q1 x Lx). rewrite Vx. unfold lcs_hold, qcs_hold in *. tauto.
  - intros x Hx. destruct (export_expr_spec (num_vars p) (o_const (p_obj p)) (o_lin (p_obj p)) (quad_to_dict false (o_quad (p_obj p))) Ew1 S1 (DocFacts3.quad_range _ _ Ew2 S2)) as (_ & _ & _ & D). rewrite (D x Hx). unfold obj_at. cbn [quad_to_dict quad_entries].
    rewrite (quad_entries_in (o_quad (p_obj p)) x); [unfold quad_to_dict, quad_entries; ring|apply Ew2|]. rewrite Hx. apply DocFacts3.quad_range; assumption.
  - intros [(c & Hc & A & B)|(c & Hc & A & B & C)]; [now apply (NL c Hc)|now apply (NQ c Hc)].
Qed.

(** ** The answer *)
Lemma loose_feasible p x : loose p x -> (in_bounds p x <-> feasible p x).
Proof. intros (A & B & C & D). unfold feasible. tauto. Qed.
Lemma feasible_loose p x : feasible p x -> loose p x.
Proof. intros (A & B & C & D). split; [exact B|]. split; [exact C|]. split; [exact D|]. unfold in_bounds in A. apply Forall2_at in A. apply Forall2_at. destruct A as [L A]. split; [exact L|]. intros i v Hv. right. now apply A. Qed.
Lemma loose_plain p x : Forall plain (p_vars p) -> loose p x -> feasible p x.
Proof.
  intros P H. apply loose_feasible; [exact H|]. destruct H as (A & _ & _ & D). unfold in_bounds. apply Forall2_at. apply Forall2_at in D. destruct D as [L D]. split; [exact L|]. intros i v Hv. destruct (D i v Hv) as [T|R]; [|exact R].
  rewrite Forall_forall in P. destruct (P v (nth_error_In _ _ Hv) T) as [E1 E2]. unfold typed in A. apply Forall2_at in A. destruct A as [_ A]. specialize (A i v Hv). unfold has_type in A. rewrite T in A.
  unfold in_range. rewrite E1, E2. destruct A as [-> | ->]; split; (apply Qcle_refl || (unfold Qcle; cbn; discriminate)).
Qed.
Lemma holds_holds_close s a b : holds s a b -> holds_close s a b.
Proof. destruct s; cbn; auto. intros ->. now apply close_refl. Qed.
Lemma loose_status p x s : loose p x -> status_at p x s -> (s = SUCCESS /\ feasible p x) \/ (s = INFEASIBLE_ /\ ~ feasible p x).
Proof.
  intros H [[-> A]|[-> A]]; [left|right]; split; auto.
  - apply loose_feasible; [exact H|apply A].
  - intro F. apply A. destruct F as (B & _ & C & D). split; [exact B|]. split; [eapply Forall_impl; [|exact C]|eapply Forall_impl; [|exact D]]; intros c; apply holds_holds_close.
Qed.

Lemma cplex_answer cplex p r : prog_wf p -> exprs_small p -> shapes (num_vars p) p -> cplex_exact cplex -> cplex_solve cplex p = Ok r ->
  exists x, r = mkRes (Some x) (Some (obj_at (p_obj p) x)) (p_vars p) (Some (combine (var_names p) x)) (r_status r) (Some [mkSample x (obj_at (p_obj p) x) 1%Qc (r_status r)]) /\
    loose p x /\ (forall y, loose p y -> at_least (o_sense (p_obj p)) (obj_at (p_obj p) x) (obj_at (p_obj p) y)) /\
    ((r_status r = SUCCESS /\ feasible p x) \/ (r_status r = INFEASIBLE_ /\ ~ feasible p x)).
Proof.
  intros W E Sh X H. unfold cplex_solve in H. pose proof (export_spec p W E) as M. destruct (to_docplex p) as [m|]; [|discriminate H]. cbn [bind] in H. destruct M as (M1 & M2 & M3 & _).
  specialize (X m). destruct (cplex m) as [x f| |]; try discriminate H. destruct X as [[X1 X2] ->]. apply M1 in X1. assert (length x = num_vars p) as Lx by (symmetry; exact (IneqFacts.Forall2_length _ _ _ (proj1 X1))).
  destruct (feas_status_spec p x Sh Lx) as (st & Es & St). rewrite Es in H. cbn [bind] in H. unfold make_result in H. replace (length x =? length (p_vars p)) with true in H by (symmetry; now apply Nat.eqb_eq). cbn [bind] in H.
  rewrite (M2 x Lx), zip_dict_combine in H; [|now apply prog_wf_nodup|unfold var_names; now rewrite map_length]. injection H as <-. exists x. cbn [r_status]. split; [reflexivity|]. split; [exact X1|]. split; [|now apply loose_status].
  intros y Hy. assert (length y = num_vars p) as Ly by (symmetry; exact (IneqFacts.Forall2_length _ _ _ (proj1 Hy))). apply M1 in Hy. specialize (X2 y Hy). now rewrite M3, !M2 in X2 by assumption.
Qed.
Lemma cplex_fails cplex p e : prog_wf p -> exprs_small p -> shapes (num_vars p) p -> cplex_exact cplex -> cplex_solve cplex p = Err e ->
  (e = DOcplexException /\ never p) \/ (~ never p /\ exists m, to_docplex p = Ok m /\ ((e = QiskitOptimizationError /\ cplex m = CRaises) \/ (e = CplexSolverError /\ cplex m = CNothing /\ ~ exists x, loose p x /\ forall y, loose p y -> at_least (o_sense (p_obj p)) (obj_at (p_obj p) x) (obj_at (p_obj p) y)))).
Proof.
  intros W E Sh X H. unfold cplex_solve in H. pose proof (export_spec p W E) as M. destruct (to_docplex p) as [m|]; cbn [bind] in H; [|injection H as <-; left; exact M]. destruct M as (M1 & M2 & M3 & _ & N). right. split; [exact N|]. exists m. split; [reflexivity|].
  specialize (X m). destruct (cplex m) as [x f| |] eqn:C.
  - exfalso. destruct X as [[X1 X2] ->]. apply M1 in X1. assert (length x = num_vars p) as Lx by (symmetry; exact (IneqFacts.Forall2_length _ _ _ (proj1 X1))).
    destruct (feas_status_spec p x Sh Lx) as (st & Es & St). rewrite Es in H. cbn [bind] in H. unfold make_result in H. replace (length x =? length (p_vars p)) with true in H by (symmetry; now apply Nat.eqb_eq). discriminate H.
  - injection H as <-. left. auto.
  - injection H as <-. right. split; [reflexivity|]. split; [reflexivity|]. intros (x & Hx & B). apply (X x). split; [now apply M1|]. intros y Hy. apply M1 in Hy.
    assert (length x = num_vars p) as Lx by (symmetry; exact (IneqFacts.Forall2_length _ _ _ (proj1 Hx))). assert (length y = num_vars p) as Ly by (symmetry; exact (IneqFacts.Forall2_length _ _ _ (proj1 Hy))). rewrite M3, !M2 by assumption. now apply B.
Qed.
Lemma never_infeasible p x : never p -> ~ feasible p x.
Proof.
  intros [(c & Hc & E & V)|(c & Hc & E & E' & V)] (_ & _ & L & Q); apply V.
  - unfold lcs_hold in L. rewrite Forall_forall in L. specialize (L c Hc). unfold lc_at in L. now rewrite void_lin in L.
  - unfold qcs_hold in Q. rewrite Forall_forall in Q. specialize (Q c Hc). unfold qc_at in Q. rewrite void_lin, void_quad in Q by assumption. now replace (0 + 0)%Qc with 0%Qc in Q by ring.
Qed.

(** A solver for models with binary variables, by exhaustion. *)
Definition dcon_b (x : list Qc) (c : dcon) : bool := match c with DLinear _ s l r | DQuadratic _ s l r => holds_b s (dval l x) (dval r x) | DOtherCon => false end.
Lemma dcon_b_spec x c : dcon_b x c = true <-> dcon_holds x c.
Proof. destruct c; cbn; [apply holds_b_spec|apply holds_b_spec|easy]. Qed.
Definition at_least_b (s : objsense) (a b : Qc) : bool := match s with MINIMIZE => qleb a b | MAXIMIZE => qleb b a end.
Lemma at_least_b_spec s a b : if at_least_b s a b then at_least s a b else at_least s b a.
Proof. destruct s; cbn; [destruct (qleb_spec a b)|destruct (qleb_spec b a)]; auto; qlra. Qed.
Definition dbit (v : dvar) : bool := match dv_type v with DBinary => qleb (dv_lb v) 0 && qleb 1 (dv_ub v) | _ => false end.
Fixpoint pick (s : objsense) (f : list Qc -> Qc) (x : list Qc) (l : list (list Qc)) : list Qc :=
  match l with [] => x | y :: r => pick s f (if at_least_b s (f x) (f y) then x else y) r end.
Lemma pick_spec s f l : forall x, In (pick s f x l) (x :: l) /\ forall y, In y (x :: l) -> at_least s (f (pick s f x l)) (f y).
Proof.
  induction l as [|y l IH]; intro x; cbn [pick]; [split; [now left|intros z [->|[]]; apply at_least_refl]|]. pose proof (at_least_b_spec s (f x) (f y)) as A.
  destruct (at_least_b s (f x) (f y)).
  - destruct (IH x) as [I J]. split; [destruct I as [I|I]; [now left|right; now right]|]. intros z [->|[->|Hz]]; [apply J; now left| |apply J; now right]. eapply at_least_trans; [|exact A]. apply J. now left.
  - destruct (IH y) as [I J]. split; [now right|]. intros z [->|[->|Hz]]; [|apply J; now left|apply J; now right]. eapply at_least_trans; [|exact A]. apply J. now left.
Qed.
Definition search (m : dmodel) : cplex_outcome :=
  if forallb dbit (dm_vars m) then
    match filter (fun x => forallb (dcon_b x) (dm_cons m)) (all_bits (length (dm_vars m))) with
    | [] => CNothing
    | x :: l => let y := pick (dm_sense m) (dval (dm_obj m)) x l in CSolved y (dval (dm_obj m) y)
    end
  else CRaises.
Lemma all_bits_takes l x : Forall (fun v => dbit v = true) l -> (Forall2 dvar_takes l x <-> In x (all_bits (length l))).
Proof.
  intro B. revert x. induction B as [|v l Hv B IH]; intro x; cbn [length all_bits].
  - split; [intro F; inversion F; now left|intros [<-|[]]; constructor].
  - unfold dbit in Hv. destruct (dv_type v) eqn:T; try discriminate Hv. apply andb_prop in Hv as [H1 H2]. apply qleb_iff in H1, H2. rewrite in_app_iff, !in_map_iff. split.
    + intro F. inversion F as [|? a ? y F1 F2]; subst. apply IH in F2. unfold dvar_takes in F1. rewrite T in F1. destruct F1 as (_ & _ & [-> | ->]); [left|right]; exists y; auto.
    + intros [(y & <- & Hy)|(y & <- & Hy)]; apply IH in Hy; constructor; auto; unfold dvar_takes; rewrite T; (split; [|split; [|auto]]); auto; qlra.
Qed.
Lemma search_exact : cplex_exact search.
Proof.
  intro m. unfold search. destruct (forallb dbit (dm_vars m)) eqn:B; [|exact I]. rewrite forallb_forall in B. apply Forall_forall in B.
  assert (forall x, dsolution m x <-> In x (filter (fun x => forallb (dcon_b x) (dm_cons m)) (all_bits (length (dm_vars m))))) as D.
  { intro x. unfold dsolution. rewrite (all_bits_takes _ _ B), filter_In, forallb_forall, Forall_forall. setoid_rewrite dcon_b_spec. reflexivity. }
  destruct (filter _ _) as [|x l]; [intros x [Hx _]; now apply D in Hx|]. cbv zeta. destruct (pick_spec (dm_sense m) (dval (dm_obj m)) l x) as [I J]. split; [|reflexivity]. split; [now apply D|]. intros y Hy. apply J. now apply D.
Qed.
Lemma optimal_b p x : all_binary p -> feas_b p x = true ->
  forallb (fun y => at_least_b (o_sense (p_obj p)) (obj_at (p_obj p) x) (obj_at (p_obj p) y)) (filter (feas_b p) (all_bits (num_vars p))) = true -> optimal p x.
Proof.
  intros B F H. split; [now apply feas_b_spec|]. intros y Fy. rewrite forallb_forall in H. assert (In y (filter (feas_b p) (all_bits (num_vars p)))) as I by (apply filter_In; split; [apply all_bits_in, feasible_bits; assumption|now apply feas_b_spec]).
  specialize (H y I). pose proof (at_least_b_spec (o_sense (p_obj p)) (obj_at (p_obj p) x) (obj_at (p_obj p) y)) as A. now rewrite H in A.
Qed.
