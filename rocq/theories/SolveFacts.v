(** * Solving the applications through the QUBO: facts *)
From Verif Require Export SpecSolve AppFacts3.
From Verif Require Import NumFacts PyFacts ConvMore QuboFacts ConvTotal DocWf IsingFacts3 RecurFacts3.
Local Open Scope string_scope.
Local Open Scope list_scope.
Local Open Scope nat_scope.

(** ** Best points exist *)
Fixpoint all_bits (n : nat) : list (list Qc) := match n with 0 => [[]] | S n' => map (cons 0%Qc) (all_bits n') ++ map (cons 1%Qc) (all_bits n') end.
Lemma all_bits_in n : forall x, bits n x -> In x (all_bits n).
Proof.
  induction n as [|n IH]; intros x (L & F).
  - destruct x; [left; reflexivity|discriminate L].
  - destruct x as [|a x]; [discriminate L|]. inversion F as [|? ? Ha Fx]; subst. assert (In x (all_bits n)) as I by (apply IH; split; [cbn in L; lia|assumption]).
    cbn. apply in_or_app. destruct Ha as [-> | ->]; [left|right]; now apply in_map.
Qed.
Lemma at_least_refl s a : at_least s a a.
Proof. destruct s; apply Qcle_refl. Qed.
Lemma at_least_trans s a b c : at_least s a b -> at_least s b c -> at_least s a c.
Proof. destruct s; cbn; intros; eapply Qcle_trans; eassumption. Qed.
Lemma at_least_total s a b : at_least s a b \/ at_least s b a.
Proof. destruct s; cbn; destruct (Qclt_le_dec a b) as [H|H]; auto using Qclt_le_weak. Qed.
Lemma best_of {A} (f : A -> Qc) s l : l <> [] -> exists x, In x l /\ forall y, In y l -> at_least s (f x) (f y).
Proof.
  induction l as [|a l IH]; [congruence|]. intros _. destruct l as [|b l].
  - exists a. split; [left; reflexivity|]. intros y [-> |[]]. apply at_least_refl.
  - destruct IH as (x & I & H); [discriminate|]. destruct (at_least_total s (f a) (f x)) as [K|K].
    + exists a. split; [left; reflexivity|]. intros y [-> |Iy]; [apply at_least_refl|]. eapply at_least_trans; [exact K|]. now apply H.
    + exists x. split; [right; exact I|]. intros y [-> |Iy]; [exact K|]. now apply H.
Qed.
Lemma feasible_bits p x : all_binary p -> feasible p x -> bits (num_vars p) x.
Proof.
  intros B (_ & T & _). unfold typed in T. split; [symmetry; exact (Forall2_length _ _ _ T)|]. unfold all_binary in B.
  revert B. induction T as [|v a vs y Hv T IH]; intros B; constructor; [|apply IH; now inversion B]. inversion B as [|? ? Hb]; subst. unfold has_type in Hv. now rewrite Hb in Hv.
Qed.
Lemma optimal_exists p : all_binary p -> (exists x, feasible p x) -> exists x, optimal p x.
Proof.
  intros B (x0 & F0). destruct (best_of (obj_at (p_obj p)) (o_sense (p_obj p)) (filter (feas_b p) (all_bits (num_vars p)))) as (x & I & H).
  - intro E. assert (In x0 []) as []. rewrite <- E. apply filter_In. split; [apply all_bits_in, feasible_bits; assumption|now apply feas_b_spec].
  - exists x. apply filter_In in I. destruct I as [_ I]. split; [now apply feas_b_spec|]. intros y Fy. apply H, filter_In. split; [apply all_bits_in, feasible_bits; assumption|now apply feas_b_spec].
Qed.

(** ** Models that can be converted *)
Definition plain_name (s : string) : Prop := all_chars (fun c => negb (Ascii.eqb c "@")) s = true.
Definition int_de (n : nat) (e : dexpr) : Prop := forall x y, bits n x -> bits n y -> integral (dval e x - dval e y)%Qc.
Definition int_con (n : nat) (c : dcon) : Prop := match c with DLinear _ _ l r => int_de n l /\ int_de n r | _ => False end.
Lemma int_num n c : int_de n (d_num c).
Proof. intros x y _ _. rewrite !dval_num. replace (c - c)%Qc with 0%Qc by ring. apply integral_0. Qed.
Lemma bit_integral n x i : bits n x -> integral (at_ x i).
Proof. intros B. destruct (AppFacts.bits_at n x i B) as [-> | ->]; [apply integral_0|apply integral_1]. Qed.
Lemma int_var n i : int_de n (d_var i).
Proof. intros x y Bx By. rewrite !dval_var. apply integral_sub; eapply bit_integral; eassumption. Qed.
Lemma int_add n a b : int_de n a -> int_de n b -> int_de n (d_add a b).
Proof. intros A B x y Bx By. rewrite !dval_add. replace (dval a x + dval b x - (dval a y + dval b y))%Qc with ((dval a x - dval a y) + (dval b x - dval b y))%Qc by ring. apply integral_add; auto. Qed.
Lemma int_scale n c a : integral c -> int_de n a -> int_de n (d_scale c a).
Proof. intros C A x y Bx By. rewrite !dval_scale. replace (c * dval a x - c * dval a y)%Qc with (c * (dval a x - dval a y))%Qc by ring. apply integral_mul; auto. Qed.
Lemma int_sum n l : Forall (int_de n) l -> int_de n (d_sum l).
Proof.
  intros F x y Bx By. rewrite !dval_sum_of. rewrite <- sumof_sub. apply sumof_integral. intros e I. rewrite Forall_forall in F. now apply F.
Qed.
Lemma zero_bits n : bits n (repeat 0%Qc n).
Proof. split; [apply repeat_length|]. apply Forall_forall. intros a I. apply repeat_spec in I. auto. Qed.
Lemma unit_bits n i : i < n -> bits n (unit_at n i).
Proof. intros H. split; [apply unit_length|]. apply Forall_forall. intros a I. destruct (In_nth _ _ 0%Qc I) as (k & _ & <-). change (nth k (unit_at n i) 0%Qc) with (at_ (unit_at n i) k). rewrite unit_get by assumption. destruct (k =? i); auto. Qed.
Lemma lin_at_zero e n : lin_at e (repeat 0%Qc n) = 0%Qc.
Proof. unfold lin_at. rewrite repeat_length. apply sumof_zero. intros i _. unfold at_. rewrite nth_repeat. ring. Qed.

Definition ready_app (p : qp) : Prop := prog_wf p /\ dims_fit p /\ no_at p /\ all_binary p /\ Forall plain (p_vars p) /\ qubo_compatible p = true.
Lemma shapes_fit p : shapes (num_vars p) p -> dims_fit p.
Proof.
  intros ((_ & A) & (_ & B) & C & D). split; [lia|]. split; [lia|]. split; (eapply Forall_impl; [|eassumption]); cbn; [intros c (_ & E)|intros c ((_ & E) & _ & F)]; lia.
Qed.
Lemma model_ready name names s obj cons p : NoDup names -> ~ In EmptyString names -> Forall plain_name names -> de_wf (length names) obj -> Forall (app_con (length names)) cons ->
  Forall (int_con (length names)) cons -> binary_model name names s obj cons = Ok p -> ready_app p.
Proof.
  intros N Em Pn Wo Wc Ic E. unfold binary_model in E. set (m := mkDM _ _ _ _ _) in E.
  assert (length (dm_vars m) = length names) as Ln by (cbn; apply map_length).
  assert (dmodel_wf m) as W. { split; [rewrite Ln; exact Wo|]. split; [rewrite Ln; cbn; eapply Forall_impl; [|exact Wc]; apply app_con_wf|]. cbn. apply Forall_map, Forall_forall. discriminate. }
  assert (Forall dplain (dm_vars m)) as P. { cbn. apply Forall_map, Forall_forall. intros t _ _. cbn. auto. }
  destruct (app_linear _ _ Wc) as (Fl & Fq). destruct (from_docplex_ready _ _ E) as (Wp & Sh). destruct (import_faithful m p W P E) as (_ & Pv & _ & _ & _ & Qc').
  destruct (from_docplex_spec m p W E) as (_ & _ & _ & _ & _ & _ & _ & _ & _ & _ & _ & Lc & _). rewrite Ln in Lc. cbn [dm_cons dm_vars m] in Lc, Qc', Pv. rewrite Fl in Lc. rewrite Fq in Qc'.
  pose proof (same_binary _ _ Pv) as (Ev & Eb). split; [exact Wp|]. split; [now apply shapes_fit|]. split.
  { unfold no_at. apply Forall_forall. intros v I. rewrite Forall_forall in Pn. apply Pn. rewrite <- Ev. now apply in_map. }
  split; [exact Eb|]. split.
  { clear - Pv. revert Pv. generalize (p_vars p). induction names as [|nm l IH]; intros vs H; inversion H as [|? v ? vs' (_ & _ & A & B) H']; subst; constructor; [|now apply IH]. intros _. cbn in A, B. auto. }
  apply qubo_compatible_iff. split; [unfold discrete; eapply Forall_impl; [|exact Eb]; cbn; intros v -> ; discriminate|]. split; [now inversion Qc'|].
  clear - Lc Ic. revert Ic. induction Lc as [|d c ds cs M F IH]; intros Ic; [constructor|]. inversion Ic as [|? ? Id Ir']; subst. constructor; [|now apply IH]. clear IH F Ic Ir'.
  destruct M as (_ & _ & _ & Wl & Dm & M). destruct d as [nm t l r| |]; try contradiction. destruct M as [_ M]. destruct Id as [Il Ir].
  apply (coef1_all integral); [assumption|]. intros k. destruct (Nat.lt_ge_cases k (length names)) as [Hk|Hk]; [|rewrite coef1_out by (auto; lia); apply integral_0]. rewrite <- (lin_at_unit (lc_lin c) (length names) k) by assumption.
  pose proof (M _ (unit_length (length names) k)) as M1. pose proof (M _ (repeat_length 0%Qc (length names))) as M0. unfold lc_at in M1, M0. rewrite lin_at_zero in M0.
  replace (lin_at (lc_lin c) (unit_at (length names) k)) with ((dval l (unit_at (length names) k) - dval l (repeat 0%Qc (length names))) - (dval r (unit_at (length names) k) - dval r (repeat 0%Qc (length names))))%Qc.
  - apply integral_sub; [apply Il|apply Ir]; try (now apply unit_bits); apply zero_bits.
  - set (a := lin_at _ _) in *. set (b := dval l (unit_at _ _)) in *. set (e := dval r (unit_at _ _)) in *. set (b0 := dval l (repeat _ _)) in *. set (e0 := dval r (repeat _ _)) in *. clearbody a b e b0 e0. qlra.
Qed.
Lemma ready_solved p (good : list Qc -> Prop) : ready_app p -> (exists x, feasible p x) -> (forall x, optimal p x -> good x) -> solved p good.
Proof.
  intros (W & D & N & B & P & C) F G. pose proof C as K. apply qubo_compatible_iff in K. destruct K as (_ & Q & _).
  assert (Forall (fun v => v_type v <> INTEGER) (p_vars p)) as NI by (eapply Forall_impl; [|exact B]; cbn; intros v -> ; discriminate). rewrite Forall_forall in NI.
  destruct (no_at_free p N) as (S1 & S2 & S3); [unfold quad_ineqs; rewrite Q; intros c _ []|]. destruct (to_qubo_total None p W D C S1) as [r E]; auto.
  { apply Forall_forall. intros v I T. now apply NI in I. }
  destruct (qubo_exact None p r W E P) as [A1 A2]; auto.
  { apply Forall_forall. intros v I T. now apply NI in I. }
  { intros i j w vi vj _ Ei _ T. apply nth_error_In in Ei. now apply NI in Ei. }
  exists r. split; [exact E|]. destruct (optimal_exists p B F) as (x & Ox). split; [destruct (A2 x Ox) as (y & Oy & _); eauto|]. intros y Oy. destruct (A1 y Oy) as (x' & I & O & _). eauto.
Qed.
(** A program that can be converted, has solutions, and whose best points are [good] *)
Definition answerable (p : qp) (good : list Qc -> Prop) : Prop := ready_app p /\ (exists x, feasible p x) /\ forall x, optimal p x -> good x.
Lemma answer_intro p (good : list Qc -> Prop) : ready_app p -> (exists x, feasible p x) -> (forall x, optimal p x -> good x) -> answerable p good.
Proof. intros A B C. split; auto. Qed.
Lemma answer_solved (m : result qp) (good : list Qc -> Prop) : (exists p, m = Ok p /\ answerable p good) -> exists p, m = Ok p /\ solved p good.
Proof. intros (p & E & A & B & C). exists p. split; [exact E|now apply ready_solved]. Qed.
