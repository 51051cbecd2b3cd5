(** * Models with whole coefficients and what the optimizers answer *)
From Verif Require Export SpecInt IntFacts SolveFacts3 AlgoFacts3 GroverFacts3.
From Verif Require Import NumFacts PyFacts DocWf DocFacts2 DocFacts3.
Local Open Scope string_scope.
Local Open Scope list_scope.
Local Open Scope nat_scope.

(** ** Multiples *)
Lemma multiple_add g a b : multiple g a -> multiple g b -> multiple g (a + b)%Qc.
Proof. intros [x ->] [y ->]. exists (x + y)%Z. rewrite qz_add. ring. Qed.
Lemma multiple_mul g a z : multiple g a -> multiple g (a * qz z)%Qc.
Proof. intros [x ->]. exists (x * z)%Z. rewrite qz_mul. ring. Qed.
Lemma multiple_one a : integral a <-> multiple 1 a.
Proof. split; intros [z ->]; exists z; ring. Qed.
Lemma multiple_refl g : multiple g g.
Proof. exists 1%Z. rewrite qz_1. ring. Qed.

Section Grid.
Variable g : Qc.
Hypothesis G : multiple g 1.
Lemma data_whole p : prog_wf p -> p_qcs p = [] -> whole_data g p -> whole_src (multiple g) p.
Proof using.
  intros W Q (A & (B & C) & D & E). pose proof W as (_ & _ & _ & _ & (Wo & Wq & Wl & _) & _). constructor; auto.
  - now apply coef1_all.
  - now apply coef2_all.
  - now apply Forall_forall.
  - apply Forall_forall. intros c I. rewrite Forall_forall in Wl. destruct (E c I) as [E1 E2]. split; [|exact E2]. apply (coef1_all integral); auto.
Qed.
Lemma whole_grid p : whole (multiple g) p -> multiple g (o_const (p_obj p)) /\ on_grid g p.
Proof using.
  intros [A B C _ _ _]. assert (multiple g 0) as Z by (exists 0%Z; rewrite qz_0; ring). split; [exact A|]. split; [apply (coef1_P _ Z); exact B|apply (coef2_P _ Z); exact C].
Qed.
Lemma qubo_grid pen p r : prog_wf p -> whole_src (multiple g) p -> match pen with Some c => multiple g c | None => True end -> to_qubo pen p = Ok r ->
  multiple g (o_const (p_obj (r_qubo r))) /\ on_grid g (r_qubo r).
Proof using G. intros W S Pp H. apply whole_grid. eapply (whole_qubo (multiple g) G (multiple_add g) (fun a z => multiple_mul g a z)); eauto. Qed.
End Grid.
Lemma grid_integer q : multiple 1 (o_const (p_obj q)) /\ on_grid 1 q -> integer_objective q.
Proof. intros (A & B & C). split; [now apply multiple_one|]. split; intros; apply multiple_one; [apply B|apply C]. Qed.

(** ** docplex expressions *)
Definition de_all (P : Qc -> Prop) (e : dexpr) : Prop := P (de_const e) /\ Forall (fun kv => P (snd kv)) (de_lin e) /\ Forall (fun kv => P (snd kv)) (de_quad e).
Section Exprs.
Variable P : Qc -> Prop.
Hypothesis P1 : P 1%Qc.
Hypothesis PA : forall a b, P a -> P b -> P (a + b)%Qc.
Hypothesis PM : forall a z, P a -> P (a * qz z)%Qc.
Let P0 : P 0%Qc := P0' P P1 PM.
Lemma all_num c : P c -> de_all P (d_num c).
Proof using. clear. intros H. split; [exact H|]. split; constructor. Qed.
Lemma all_var i : de_all P (d_var i).
Proof using P1 PM. split; [exact P0|]. split; repeat constructor. exact P1. Qed.
Lemma fold_P {K} (eqb : K -> K -> bool) (sp : forall a b, reflect (a = b) (eqb a b)) l : Forall (fun kv : K * Qc => P (snd kv)) l -> forall d, Forall (fun kv => P (snd kv)) d -> Forall (fun kv => P (snd kv)) (fold_left (fun d kv => dadd eqb (fst kv) (snd kv) d) l d).
Proof using P1 PA PM. induction 1 as [|kv l H F IH]; intros d D; cbn [fold_left]; [exact D|]. apply IH. now apply (dadd_P P P0 PA _ sp). Qed.
Lemma all_add a b : de_all P a -> de_all P b -> de_all P (d_add a b).
Proof using P1 PA PM. intros (A1 & A2 & A3) (B1 & B2 & B3). split; [cbn; auto|]. split; cbn; [apply (fold_P _ nat_eqb_sp)|apply (fold_P _ nat2_eqb_sp)]; auto. Qed.
Lemma all_sum l : Forall (de_all P) l -> de_all P (d_sum l).
Proof using P1 PA PM.
  unfold d_sum. pose proof (all_num 0%Qc P0) as Z. revert Z. generalize (d_num 0). intros e E F. revert e E. induction F as [|a l A F IH]; intros e E; cbn [fold_left]; [exact E|]. apply IH. now apply all_add.
Qed.
Lemma all_scale c a : P c -> de_all integral a -> de_all P (d_scale c a).
Proof using PM. intros C (A1 & A2 & A3). split; [cbn; now apply P_mul|]. split; cbn; apply Forall_map; (eapply Forall_impl; [|eassumption]); cbn; intros kv K; now apply P_mul. Qed.
Lemma all_scale' c a : integral c -> de_all P a -> de_all P (d_scale c a).
Proof using PM. intros C (A1 & A2 & A3). split; [cbn; now apply P_mul'|]. split; cbn; apply Forall_map; (eapply Forall_impl; [|eassumption]); cbn; intros kv K; now apply P_mul'. Qed.
Lemma all_sub a b : de_all P a -> de_all P b -> de_all P (d_sub a b).
Proof using P1 PA PM. intros A B. apply all_add; [exact A|]. apply all_scale'; [|exact B]. apply integral_opp, integral_1. Qed.
Lemma all_mul a b : de_all P a -> de_all integral b -> de_all P (d_mul a b).
Proof using P1 PA PM.
  intros (A1 & A2 & A3) (B1 & B2 & B3). split; [cbn; now apply P_mul|]. split; cbn.
  - apply (fold_P _ nat_eqb_sp); [|constructor]. apply Forall_app. split; apply Forall_map; (eapply Forall_impl; [|eassumption]); cbn; intros kv K; [now apply P_mul'|now apply P_mul].
  - apply (fold_P _ nat2_eqb_sp); [|constructor]. apply Forall_forall. intros kv I. apply in_flat_map in I as (ka & Ia & I). apply in_map_iff in I as (kb & <- & Ib). rewrite Forall_forall in A2, B2. cbn. apply P_mul; auto.
Qed.
Lemma all_vars {A} (f : A -> nat) l : de_all P (d_sum (map (fun a => d_var (f a)) l)).
Proof using P1 PA PM. apply all_sum, Forall_map, Forall_forall. intros a _. apply all_var. Qed.
Lemma all_sum_all n : de_all P (sum_all n).
Proof using P1 PA PM. apply (all_vars id). Qed.

(** ** Imported models *)
Lemma put_lin_P names l : Forall (fun kv => P (snd kv)) l -> forall d d', put_lin names l d = Ok d' -> Forall (fun kv => P (snd kv)) d -> Forall (fun kv => P (snd kv)) d'.
Proof using.
  clear. unfold put_lin. induction 1 as [|kv l H F IH]; intros d d' E D; cbn [foldM] in E; [now injection E as <-|]. apply bind_ok in E. destruct E as (d1 & E1 & E). inv_ok. apply (IH _ _ E). now apply (dset_Forall _ str_eqb_sp).
Qed.
Lemma put_quad_P names l : Forall (fun kv => P (snd kv)) l -> forall d d', put_quad names l d = Ok d' -> Forall (fun kv => P (snd kv)) d -> Forall (fun kv => P (snd kv)) d'.
Proof using.
  clear. unfold put_quad. induction 1 as [|kv l H F IH]; intros d d' E D; cbn [foldM] in E; [now injection E as <-|]. apply bind_ok in E. destruct E as (d1 & E1 & E). inv_ok. apply (IH _ _ E). now apply (dset_Forall _ str2_eqb_sp).
Qed.
Lemma import_obj names l : forall p q, foldM (import_lincon names) l p = Ok q -> p_obj q = p_obj p.
Proof using.
  clear. induction l as [|c l IH]; intros p q E; cbn [foldM] in E; [now injection E as <-|]. apply bind_ok in E. destruct E as (p1 & E1 & E). rewrite (IH _ _ E). destruct c; cbn in E1; [|now injection E1 as <-|discriminate E1].
  apply bind_ok in E1. destruct E1 as (d1 & _ & E1). apply bind_ok in E1. destruct E1 as (d2 & _ & E1). apply linear_constraint_any in E1. destruct E1 as (? & ? & ? & _ & _ & -> & _). reflexivity.
Qed.
Lemma import_obj2 names l : forall p q, foldM (import_quadcon names) l p = Ok q -> p_obj q = p_obj p.
Proof using.
  clear. induction l as [|c l IH]; intros p q E; cbn [foldM] in E; [now injection E as <-|]. apply bind_ok in E. destruct E as (p1 & E1 & E). rewrite (IH _ _ E). destruct c; cbn in E1; [now injection E1 as <-| |now injection E1 as <-].
  apply bind_ok in E1. destruct E1 as (d1 & _ & E1). apply bind_ok in E1. destruct E1 as (d2 & _ & E1). apply bind_ok in E1. destruct E1 as (d3 & _ & E1). apply bind_ok in E1. destruct E1 as (d4 & _ & E1). apply quadratic_constraint_any in E1. destruct E1 as (? & ? & ? & ? & _ & _ & _ & -> & _). reflexivity.
Qed.
Definition whole_rhs (c : dcon) : Prop := match c with DLinear _ s l r => s = EQ -> integral (de_const r - de_const l)%Qc | _ => True end.
Lemma model_whole name names s obj cons p : ready_app p -> de_wf (length names) obj -> Forall (app_con (length names)) cons -> de_all P obj -> Forall whole_rhs cons -> binary_model name names s obj cons = Ok p ->
  whole_src P p /\ shapes (num_vars p) p.
Proof using P1 PA PM.
  intros (Wp & _ & _ & Bn & Pl & K) Wo Wc (A1 & A2 & A3) Wr E. unfold binary_model in E. destruct (from_docplex_ready _ _ E) as (_ & Sh). split; [|exact Sh]. set (m := mkDM _ _ _ _ _) in E.
  assert (length (dm_vars m) = length names) as Ln by (cbn; apply map_length).
  assert (dmodel_wf m) as W. { split; [rewrite Ln; exact Wo|]. split; [rewrite Ln; cbn; eapply Forall_impl; [|exact Wc]; apply app_con_wf|]. cbn. apply Forall_map, Forall_forall. discriminate. }
  destruct (from_docplex_spec m p W E) as (_ & _ & _ & _ & _ & Oc & _ & _ & _ & _ & _ & Lc & _). rewrite Ln in Lc. cbn [dm_cons m] in Lc. destruct (app_linear _ _ Wc) as (Fl & _). rewrite Fl in Lc.
  apply qubo_compatible_iff in K. destruct K as (_ & Q & Ic).
  unfold from_docplex in E. apply bind_ok in E. destruct E as (st & _ & E). apply bind_ok in E. destruct E as (lin & El & E). apply bind_ok in E. destruct E as (quad & Eq & E). apply bind_ok in E. destruct E as (p1 & E1 & E). apply bind_ok in E. destruct E as (p2 & E2 & E3).
  apply import_obj in E2. apply import_obj2 in E3. apply put_lin_P in El; [|exact A2|constructor]. apply put_quad_P in Eq; [|exact A3|constructor]. destruct (set_objective_inv _ _ _ _ _ _ E1) as (e & e2 & H1 & H2 & H).
  destruct (lin_make_P P _ _ _ H1 El) as (_ & _ & G1). destruct (quad_make_P P P0 PA _ _ _ H2 Eq) as (_ & _ & G2). assert (p_obj p = mkObj (de_const obj) e e2 s) as Ob by (rewrite E3, E2, H; reflexivity). constructor; rewrite ?Ob; auto.
  - rewrite Forall_forall in Pl. unfold all_binary in Bn. rewrite Forall_forall in Bn. apply Forall_forall. intros v I. destruct (Pl v I (Bn v I)) as [-> ->]. auto using integral_0, integral_1.
  - clear - Lc Wr Ic. revert Wr Ic. induction Lc as [|d c ds cs M F IH]; intros Wr Ic; [constructor|]. inversion Wr; inversion Ic; subst. constructor; [|now apply IH]. split; [assumption|]. intros Es. destruct M as (_ & Se & _ & _ & _ & M). destruct d as [nm t l r| |]; try contradiction. destruct M as [-> _]. cbn in Se. cbn in H1. apply H1. congruence.
Qed.
Lemma simple_whole name n s obj cons p : ready_app p -> de_wf n obj -> Forall (app_con n) cons -> de_all P obj -> Forall whole_rhs cons -> binary_model name (map x_name (seq 0 n)) s obj cons = Ok p -> whole_src P p /\ shapes (num_vars p) p.
Proof using P1 PA PM. intros R A B C D. apply model_whole; rewrite ?x_names_length; auto. Qed.
End Exprs.

(** ** Answers *)
Lemma binary_ints p : all_binary p -> int_bounds p /\ products_safe p (o_quad (p_obj p)).
Proof.
  intros B. unfold all_binary in B. rewrite Forall_forall in B. split.
  - apply Forall_forall. intros v I T. rewrite (B v I) in T. discriminate T.
  - intros i j w vi vj _ Ei _ T. apply nth_error_In in Ei. rewrite (B _ Ei) in T. discriminate T.
Qed.
Lemma answer_eigen p good g : grid g -> answerable p good -> whole_src (multiple g) p /\ shapes (num_vars p) p -> eigen_solved p good.
Proof.
  intros (G & Hg) (R & F & O) (Wh & Sh). pose proof (ready_solved p good R F O) as (r & H & _). pose proof R as (W & _ & _ & B & P & _). destruct (binary_ints p B) as (IB & SF).
  destruct (qubo_wf None p r H) as (_ & _ & W3). destruct (qubo_unconstrained None p r W H) as [U _]. pose proof (qubo_obj_shaped None p r W H) as ((_ & D1) & (_ & D2)).
  destruct (to_ising_ok (r_qubo r) (proj1 (proj2 (proj2 (proj2 (proj2 W3))))) U) as (op & off & E); [split; lia|]. exists r, op, off. split; [exact H|]. split; [exact E|]. intros solver e x pr Pos Sv Se K Gr.
  destruct (qubo_grid g G None p r W Wh I H) as (_ & Og).
  assert (forall op0 off0, to_ising (r_qubo r) = Ok (op0, off0) -> solver op0 = Ok (Some e)) as Hs by (intros op0 off0 E0; rewrite E in E0; injection E0 as <- <-; exact Sv).
  destruct (default_total solver None p r e W H Pos Se Hs Sh) as [m M]; [eauto|]. destruct (default_optimal solver None p r e W H Pos Se Hs g m P IB SF F I Og Hg) as (y & X & Oy & Fv & St); [eauto 10|exact Sh|exact M|]. exists m, y. auto 10.
Qed.
Lemma answer_grover p good : answerable p good -> whole_src (multiple 1) p /\ shapes (num_vars p) p -> grover_solved p good.
Proof.
  intros (R & F & O) (Wh & Sh). pose proof (ready_solved p good R F O) as (r & H & _). pose proof R as (W & _ & _ & B & P & _). destruct (binary_ints p B) as (IB & SF).
  exists r. split; [exact H|]. intros nv ni root spin measure fuel p' g Pos Pv Sz Ho Rf E X. pose proof (grid_integer _ (qubo_grid 1 (multiple_refl 1) None p r W Wh I H)) as Io.
  destruct (grover_optimal _ _ _ _ _ _ _ _ _ W H Pos Pv Sz Ho Io Rf _ _ Sh P IB SF F I E X) as (y & Y & Oy & Fv & St). exists y. auto.
Qed.
