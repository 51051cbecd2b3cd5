(** * Every round of ADMM ends *)
From Verif Require Export SpecAdmmTotal LagrFacts3 AdmmFacts9.
From Verif Require Import ConvTotal CplexFacts AlgoFacts.
Local Open Scope nat_scope.

(** ** Exports *)
Lemma trivial_ok s b : ~ void_false s b -> exists ds, export_trivial s b = Ok ds.
Proof.
  unfold void_false, export_trivial. intro N. destruct s; cbn [holds] in N.
  - destruct (qleb_spec 0 b); [eauto|]. exfalso. apply N. intro. qlra.
  - destruct (qleb_spec b 0); [eauto|]. exfalso. apply N. intro. qlra.
  - destruct (qeqb_spec 0 b); [eauto|]. exfalso. apply N. assumption.
Qed.
Lemma lincon_ok c : ~ (le_co (lc_lin c) = [] /\ void_false (lc_sense c) (lc_rhs c)) -> exists ds, export_lincon c = Ok ds.
Proof. intro N. unfold export_lincon. destruct (le_co (lc_lin c)); [|eauto]. destruct (qeqb (lc_rhs c) 0); [eauto|]. apply trivial_ok. tauto. Qed.
Lemma quadcon_ok c : ~ (le_co (qc_lin c) = [] /\ qe_co (qc_quad c) = [] /\ void_false (qc_sense c) (qc_rhs c)) -> exists ds, export_quadcon c = Ok ds.
Proof. intro N. unfold export_quadcon. destruct (le_co (qc_lin c)), (qe_co (qc_quad c)); try (eauto; fail). destruct (qeqb (qc_rhs c) 0); [eauto|]. apply trivial_ok. tauto. Qed.
Lemma export_ok p : ~ never p -> exists m, to_docplex p = Ok m.
Proof.
  intro N. unfold to_docplex. destruct (mapM_total export_lincon (p_lcs p)) as (ls & ->). { intros c Hc. apply lincon_ok. intros [A B]. apply N. left. eauto. }
  cbn [bind]. destruct (mapM_total export_quadcon (p_qcs p)) as (qs & ->). { intros c Hc. apply quadcon_ok. intros (A & B & C). apply N. right. eauto. }
  cbn [bind]. eauto.
Qed.
Lemma never_sub p q : (forall c, In c (p_lcs q) -> In c (p_lcs p)) -> p_qcs q = p_qcs p -> ~ never p -> ~ never q.
Proof. intros L Q N [(c & Hc & A)|(c & Hc & A)]; apply N; [left; exists c; auto|right; exists c; rewrite <- Q; auto]. Qed.
Lemma never_free q : p_lcs q = [] -> p_qcs q = [] -> ~ never q.
Proof. intros L Q [(c & Hc & _)|(c & Hc & _)]; [rewrite L in Hc|rewrite Q in Hc]; destruct Hc. Qed.
Lemma never_holds p x : lcs_hold p x -> qcs_hold p x -> ~ never p.
Proof.
  intros A B. unfold lcs_hold, qcs_hold in *. rewrite Forall_forall in A, B. intros [(c & Hc & E & V)|(c & Hc & E & E2 & V)]; apply V.
  - specialize (A c Hc). replace 0%Qc with (lc_at c x); [exact A|]. unfold lc_at, lin_at. apply sumof_zero. intros i _. unfold coef1. rewrite E. cbn. ring.
  - specialize (B c Hc). replace 0%Qc with (qc_at c x); [exact B|]. unfold qc_at, lin_at, quad_at. rewrite !sumof_zero; [ring| |]; intros i _.
    + apply sumof_zero. intros j _. unfold coef2, mget. rewrite E2. cbn. ring.
    + unfold coef1. rewrite E. cbn. ring.
Qed.
Lemma logged_total solver k op : answers_all solver -> ~ never op -> exists x, logged_solve solver k op = Ok x /\ length x = num_vars op.
Proof.
  intros A N. destruct (A k op) as (x & E & L). exists x. split; [|exact L]. unfold logged_solve, sized_solve. rewrite E. cbn [bind]. rewrite L, Nat.eqb_refl. cbn [check bind]. destruct (export_ok op N) as (m & ->). reflexivity.
Qed.

(** ** The subproblems *)
Lemma step1_total pr d s : NoDup (var_names (a_op d)) -> exprs_wf (a_op d) -> represents d -> sized_blocks d s ->
  exists op1, step1_problem pr d s = Ok op1 /\ free_block (a_op d) (a_abs d) BINARY 0 1 op1.
Proof.
  intros N W R (L0 & Lz & Ly & Ll). destruct (step1_spec d W R) as (Sa & Ia & Ra).
  pose proof (represent_inv _ _ _ _ R) as (_ & _ & _ & _ & _ & _ & _ & _ & _ & Q0 & C0 & _ & _ & AB).
  assert (NoDup (a_abs d)) as Na by (now apply AdmmFacts.sorted_nodup). assert (forall i, In i (a_abs d) -> is_var BINARY (a_op d) i) as Ib by (intros i Hi; now apply Ia in Hi).
  assert (forall v, length v = length (a_bin d) -> np_take v (a_rel d) = Ok (coords v (a_rel d))) as Tk.
  { intros v Lv. apply np_take_total. rewrite Lv. clear - Ra. induction Ra as [|a j l m E R IH]; constructor; auto. now apply AdmmFacts7.some_lt in E. }
  assert (length (a_rel d) = length (a_abs d)) as Lr by (symmetry; eapply IneqFacts.Forall2_length; eassumption).
  assert (length (a_c0 d) = length (a_abs d)) as Lc by (apply np_take_ok in C0; destruct C0 as [-> _]; apply map_length).
  set (k := length (a_abs d)) in *. set (lz := coords (i_z s) (a_rel d)). set (ly := coords (i_y s) (a_rel d)). set (ll := coords (i_lam s) (a_rel d)).
  assert (length lz = k /\ length ly = k /\ length ll = k) as (Kz & Ky & Kl) by (unfold lz, ly, ll, coords; rewrite !map_length; auto).
  assert (length (vec_mat (a_b0 d) (a_a0 d) k) = k) as Kv by (unfold vec_mat; now rewrite map_length, seq_length).
  set (lin := arr_add (arr_add (arr_sub (a_c0 d) (arr_scale (ap_c pr) (vec_mat (a_b0 d) (a_a0 d) k))) (arr_scale (i_rho s) (arr_sub (arr_neg ly) lz))) ll).
  assert (length (arr_sub (a_c0 d) (arr_scale (ap_c pr) (vec_mat (a_b0 d) (a_a0 d) k))) = k) as K1 by (rewrite sub_length; rewrite ?scale_length; congruence).
  assert (length (arr_scale (i_rho s) (arr_sub (arr_neg ly) lz)) = k) as K2 by (rewrite scale_length, sub_length; rewrite ?neg_length; congruence).
  assert (length lin = k) as Kn by (unfold lin; rewrite !add_length; rewrite ?add_length; congruence).
  destruct (free_problem (a_op d) (a_abs d) BINARY 0 1 (fun i j => (cell (a_q0 d) i j + ap_c pr / qz 2 * cell (gram (a_a0 d) k) i j + i_rho s / qz 2 * eye i j)%Qc) lin) as (q & q' & E & E' & F & O); auto.
  - discriminate.
  - apply Forall_forall. intros i Hi. eapply is_var_lt; eauto.
  - exists q'. split; [|exact F]. unfold step1_problem. cbv zeta. fold k. unfold binary_var. rewrite E. cbn [bind]. rewrite (Tk _ Ly), (Tk _ Lz), (Tk _ Ll). cbn [bind]. exact E'.
Qed.
Lemma step2_total d s : shapes (num_vars (a_op d)) (a_op d) -> index_finds (map lc_name (p_lcs (a_op d))) (p_lidx (a_op d)) -> bits_reach (a_op d) -> represents d ->
  exists op2, step2_problem d s = Ok op2 /\ num_vars op2 = num_vars (a_op d) /\ (forall c, In c (p_lcs op2) -> In c (p_lcs (a_op d))) /\ p_qcs op2 = p_qcs (a_op d).
Proof.
  intros (Sh1 & Sh2 & Sh3 & _) X P R. destruct (represents_split d R) as [Sb Sc]. pose proof (beq_spec d) as Bq. pose proof (represent_inv _ _ _ _ R) as (_ & _ & _ & E1 & E2 & _).
  assert (map snd (combine (seq 0 (length (a_bin d))) (a_bin d)) = indices_of BINARY (a_op d)) as Ms. { rewrite Sb. generalize (indices_of BINARY (a_op d)). intro l. generalize 0. induction l; intro n; cbn; [reflexivity|]. now rewrite IHl. }
  destruct (step2_variables_ok s (combine (seq 0 (length (a_bin d))) (a_bin d))) with (q := a_op d) as (q1 & H1 & F1 & Nv & V1 & C1 & Q1); rewrite ?Ms.
  { apply indices_nodup. } { apply Sh1. } { apply Sh2. }
  { intros i Hi. apply indices_in in Hi. pose proof (is_var_lt _ _ _ Hi). split; [rewrite (proj2 Sh1); auto|]. split; [rewrite (proj2 Sh2); auto|]. destruct Hi as (v & Ev & Tv). exists v. split; auto. unfold bits_reach in P. rewrite Forall_forall in P. exact (P v (nth_error_In _ _ Ev) Tv). }
  destruct F1 as (A1 & A2 & A3 & A4 & _).
  destruct (remove_rows (a_beq d) q1) as (q2 & H2 & V2 & K2 & O2 & L2).
  { rewrite A2, A3. exact X. } { rewrite E2, E1. pose proof (index_finds_nodup _ _ X) as Nd. clear - Nd. induction (p_lcs (a_op d)) as [|c l IH]; [constructor|]. cbn in Nd. inversion Nd as [|? ? Nc Nd']; subst. cbn [filter]. destruct (csense_eqb (lc_sense c) EQ); auto. cbn [filter]. destruct (only_binary _ c); auto.
    cbn [map]. constructor; auto. intro K. apply Nc. apply in_map_iff in K. destruct K as (c' & Hc & K). rewrite <- Hc. apply in_map. apply filter_In in K. destruct K as [K _]. apply filter_In in K. apply K. }
  { intros c Hc. rewrite A2. apply (Bq c R) in Hc. apply Hc. }
  exists q2. split; [unfold step2_problem; rewrite H1; exact H2|]. split; [unfold num_vars in *; congruence|]. split; [|congruence]. intros c Hc. apply L2 in Hc. rewrite <- A2. apply Hc.
Qed.

(** ** Rounds *)
Record can_run (op : qp) : Prop := {
  cr_names : NoDup (var_names op);
  cr_wf : exprs_wf op;
  cr_shapes : shapes (num_vars op) op;
  cr_idx : index_finds (map lc_name (p_lcs op)) (p_lidx op);
  cr_bits : bits_reach op;
  cr_mixed : mixed_binary op;
  cr_never : ~ never op }.
Lemma free_block_vars op idx t lb ub q : free_block op idx t lb ub q -> num_vars q = length idx /\ ~ never q.
Proof. intros (V & L & Q & _). split; [unfold num_vars; rewrite V; apply map_length|now apply never_free]. Qed.
Section Run.
Variables (qubo cont : nat -> qp -> result (list Qc)) (norm : list Qc -> Qc) (late : nat -> bool) (pr : admm_params).
Hypothesis Aq : answers_all qubo.
Hypothesis Ac : answers_all cont.
Lemma x0_total d s k : can_run (a_op d) -> represents d -> sized_blocks d s -> exists x0, update_x0 qubo pr d s k = Ok x0.
Proof using Aq.
  intros C R Z. unfold update_x0. destruct (a_abs d) eqn:Ea; [eauto|]. destruct (step1_total pr d s (cr_names _ C) (cr_wf _ C) R Z) as (op1 & -> & F). cbn [bind].
  apply free_block_vars in F. destruct F as [_ F]. destruct (logged_total qubo k op1 Aq F) as (x & -> & _). cbn [bind]. eauto.
Qed.
Lemma y_total d s k : can_run (a_op d) -> represents d -> sized_blocks d s -> exists y, update_y cont pr d s k = Ok y.
Proof using Ac.
  intros C R Z. unfold update_y. destruct (ap_three pr); [|eauto]. destruct (a_bin d) eqn:Ea; [eauto|]. destruct (step3_lagr pr d s (cr_names _ C) R Z) as (op3 & -> & F & _). cbn [bind].
  apply free_block_vars in F. destruct F as [_ F]. destruct (logged_total cont k op3 Ac F) as (x & -> & _). eauto.
Qed.
Lemma round_total d s k : can_run (a_op d) -> represents d -> sized_blocks d s -> k <= length (i_zs s) -> exists s', admm_round qubo cont norm pr d s k = Ok s' /\ S k <= length (i_zs s').
Proof using Aq Ac.
  clear late. intros C R Z Lk. destruct (represents_split d R) as [Sb Sc]. unfold admm_round. destruct (x0_total d s k C R Z) as (x0 & E0). rewrite E0. cbn [bind]. cbv zeta.
  assert (length x0 = length (a_bin d)) as L0 by (eapply x0_length; [apply Z|exact E0]).
  destruct (step2_total d (set_x0 x0 s) (cr_shapes _ C) (cr_idx _ C) (cr_bits _ C) R) as (op2 & -> & V2 & S2 & Q2). cbn [bind].
  destruct (logged_total cont k op2 Ac) as (x1 & -> & L1). { eapply never_sub; eauto. apply (cr_never _ C). } cbn [bind].
  assert (forall t, Forall (fun i => i < length x1) (indices_of t (a_op d))) as In1. { intro t. apply Forall_forall. intros i Hi. apply indices_in, is_var_lt in Hi. congruence. }
  rewrite (np_take_total x1 (a_cont d)) by (rewrite Sc; apply In1). cbn [bind]. rewrite (np_take_total x1 (a_bin d)) by (rewrite Sb; apply In1). cbn [bind].
  set (u := coords x1 (a_cont d)). set (z := coords x1 (a_bin d)). assert (length u = length (a_cont d)) as Lu by apply map_length. assert (length z = length (a_bin d)) as Lz by apply map_length.
  set (s1 := set_uz u z (set_x0 x0 s)). assert (sized_blocks d s1) as Z1. { destruct Z as (Z0 & Z2 & Z3 & Z4). repeat split; auto. }
  destruct (y_total d s1 k C R Z1) as (y & Ey). rewrite Ey. cbn [bind].
  assert (length (revert d x0 u) = num_vars (a_op d)) as Lr by (apply (revert_joins d x0 u); auto; [now apply represents_split|apply (cr_mixed _ C)]).
  unfold eval_obj. rewrite (shapes_obj _ _ (cr_shapes _ C) Lr). cbn [bind]. rewrite (residual_total d _ (cr_shapes _ C) R Lr). cbn [bind].
  unfold residuals. cbn [set_y set_uz set_x0 i_zs i_zinit i_x0 i_z i_y i_rho s1].
  destruct k as [|k]; cbn [bind].
  - eexists. split; [reflexivity|]. cbn [save i_zs]. rewrite app_length. cbn. lia.
  - destruct (nth_error (i_zs s) k) as [zp|] eqn:En; [|apply nth_error_None in En; lia]. cbn [bind]. eexists. split; [reflexivity|]. cbn [save i_zs set_y set_uz set_x0 s1]. rewrite app_length. cbn [length]. lia.
Qed.
Lemma round_sized d s k s' : sized_blocks d s -> admm_round qubo cont norm pr d s k = Ok s' -> sized_blocks d s'.
Proof using.
  intros (L0 & Lz & Ly & Ll) H. apply round_inv in H. destruct H as [H1 (op2 & x1 & _ & _ & _ & _ & H2) H3 H4 _ _ _].
  pose proof (x0_length _ _ _ _ _ _ L0 H1) as L0'. pose proof (take_length _ _ _ H2) as Lz'. pose proof (y_length _ _ d (set_uz (i_u s') (i_z s') (set_x0 (i_x0 s') s)) _ _ Ly H3) as Ly'.
  assert (length (arr_sub (i_x0 s') (i_z s')) = length (a_bin d)) as E1 by (rewrite sub_length; congruence). assert (length (arr_sub (arr_sub (i_x0 s') (i_z s')) (i_y s')) = length (a_bin d)) as E2 by (rewrite sub_length; congruence).
  repeat split; auto. rewrite H4, add_length; rewrite ?scale_length; congruence.
Qed.
Lemma loop_total d : can_run (a_op d) -> represents d -> forall more k res s, sized_blocks d s -> k <= length (i_zs s) -> exists s', admm_loop qubo cont norm late pr more k res d s = Ok s'.
Proof using Aq Ac.
  intros C R. induction more as [|more IH]; intros k res s Z L; cbn [admm_loop]; [eauto|]. destruct (_ && _); [|eauto].
  destruct (round_total d s k C R Z L) as (s1 & E & L1). rewrite E. cbn [bind]. apply IH; [|exact L1]. eapply round_sized; eauto.
Qed.
Lemma start_total op : mixed_binary op -> exists s, start cont pr op (indices_of BINARY op) (indices_of CONTINUOUS op) = Ok s /\
  forall d, represent op (indices_of BINARY op) (indices_of CONTINUOUS op) = Ok d -> sized_blocks d s /\ i_res s = [].
Proof using Ac.
  intros M. unfold start. cbv zeta. destruct (ap_warm pr).
  - destruct (Ac 0 (relaxed op)) as (x & E & L). unfold sized_solve. rewrite E. cbn [bind]. rewrite L, Nat.eqb_refl. cbn [check bind].
    assert (num_vars (relaxed op) = num_vars op) as Nv by (unfold relaxed, num_vars; cbn; apply map_length).
    assert (forall t, Forall (fun i => i < length x) (indices_of t op)) as In1. { intro t. apply Forall_forall. intros i Hi. apply indices_in, is_var_lt in Hi. congruence. }
    rewrite !np_take_total by apply In1. cbn [bind fst snd]. eexists. split; [reflexivity|]. intros d D. split; [|reflexivity]. pose proof (represent_inv _ _ _ _ D) as (_ & Ab & _). unfold sized_blocks. cbn. rewrite Ab, repeat_length. unfold coords. rewrite map_length. auto.
  - cbn [bind fst snd]. eexists. split; [reflexivity|]. intros d D. split; [|reflexivity]. pose proof (represent_inv _ _ _ _ D) as (_ & Ab & _). unfold sized_blocks. cbn. rewrite Ab, repeat_length. auto.
Qed.
End Run.

(** ** The program of the rounds *)
Lemma int_to_bin_shapes p q tbl : prog_wf p -> shapes (num_vars p) p -> int_to_bin p = Ok (q, tbl) -> shapes (num_vars q) q.
Proof.
  intros W S E. pose proof (int_to_bin_wf _ _ _ W E) as (_ & _ & _ & _ & (W1 & W2 & W3 & W4) & _). unfold int_to_bin in E. destruct (0 <? count_type INTEGER p); [|injection E as <- <-; auto].
  apply bind_ok in E. destruct E as ([d0 t0] & E0 & E). apply bind_ok in E. destruct E as (q' & E1 & E). injection E as <- <-. cbn [fst snd] in *.
  unfold num_vars in E0. apply declare_inv in E0; [|apply idx_exact_new|reflexivity]. destruct E0 as (_ & _ & Z1 & Z2 & _). cbn [fst snd new_qp p_lcs p_qcs] in Z1, Z2.
  pose proof W as (_ & _ & _ & _ & _ & N1 & N2). rewrite Forall_forall in N1, N2.
  unfold i2b_substitute in E1. apply bind_ok in E1. destruct E1 as (d & _ & E1). apply bind_ok in E1. destruct E1 as (lc & _ & E1). apply bind_ok in E1. destruct E1 as (d2 & _ & E1).
  apply bind_ok in E1. destruct E1 as ([[qq ql] qk] & _ & E1). apply bind_ok in E1. destruct E1 as (o1 & Eo & E1). apply bind_ok in E1. destruct E1 as (l1 & El & Eq).
  set (P := fun x => le_dim (o_lin (p_obj x)) = num_vars x /\ qe_dim (o_quad (p_obj x)) = num_vars x /\ Forall (fun c => le_dim (lc_lin c) = num_vars x) (p_lcs x) /\ Forall (fun c => le_dim (qc_lin c) = num_vars x /\ qe_dim (qc_quad c) = num_vars x) (p_qcs x)).
  assert (P o1) as P0.
  { apply set_objective_inv in Eo. destruct Eo as (e & e2 & M1 & M2 & ->). apply lin_make_dim in M1. apply quad_make_dim in M2. cbn in M1, M2.
    unfold P. cbn. rewrite Z1, Z2. unfold num_vars in *. cbn. repeat split; try constructor; lia. }
  assert (P l1) as P1.
  { revert El. apply foldM_keep_inv; auto. intros x c y Hc Dx H. unfold i2b_lincon in H. apply bind_ok in H. destruct H as (? & _ & H). apply bind_ok in H. destruct H as (? & _ & H).
    apply linear_constraint_inv in H; [|auto]. destruct H as (sc & e & _ & M & -> & _). apply lin_make_dim in M. cbn in M.
    destruct Dx as (Q1 & Q2 & Q3 & Q4). unfold P, num_vars in *. cbn. repeat split; auto. apply Forall_app. split; auto. }
  assert (P q') as (Q1 & Q2 & Q3 & Q4).
  { revert Eq. apply foldM_keep_inv; auto. intros x c y Hc Dx H. unfold i2b_quadcon in H. apply bind_ok in H. destruct H as (? & _ & H). apply bind_ok in H. destruct H as (? & _ & H).
    apply bind_ok in H. destruct H as (? & _ & H). apply bind_ok in H. destruct H as ([[? ?] ?] & _ & H).
    apply quadratic_constraint_inv in H; [|auto]. destruct H as (sc & e & e2 & _ & M & M2 & -> & _). apply lin_make_dim in M. apply quad_make_dim in M2. cbn in M, M2.
    destruct Dx as (Q1 & Q2 & Q3 & Q4). unfold P, num_vars in *. cbn. repeat split; auto. apply Forall_app. split; auto. }
  rewrite Forall_forall in W3, W4, Q3, Q4. split; [split; assumption|]. split; [split; assumption|]. split; apply Forall_forall; intros c Hc; [split; auto|]. destruct (W4 c Hc), (Q4 c Hc). split; split; auto.
Qed.
Lemma int_to_bin_bits p q tbl : prog_wf p -> bits_reach p -> int_to_bin p = Ok (q, tbl) -> bits_reach q.
Proof.
  intros W B E. destruct (int_to_bin_inv p q tbl W E) as [(-> & _)|I]; [exact B|]. pose proof (ib_tracks _ _ _ I) as [_ V]. unfold bits_reach in *. rewrite V. rewrite Forall_forall in B. apply Forall_forall. intros v Hv T. apply in_flat_map in Hv. destruct Hv as (w & Hw & Hv).
  unfold block in Hv. destruct (is_int w).
  - apply in_map_iff in Hv. destruct Hv as (b & <- & _). discriminate.
  - destruct Hv as [<-|[]]. specialize (B w Hw). unfold copyv in *. destruct (v_type w) eqn:E2; cbn in T; [congruence|cbn; qlra|congruence].
Qed.
Lemma turn_total p : exists op, turn_to_minimization p = Ok op.
Proof. unfold turn_to_minimization. destruct (o_sense (p_obj p)); [eauto|]. cbn. eauto. Qed.
Lemma turn_index p op : turn_to_minimization p = Ok op -> p_lidx op = p_lidx p /\ p_vidx op = p_vidx p.
Proof. unfold turn_to_minimization. destruct (o_sense (p_obj p)); [intro H; injection H as <-; auto|]. cbn. intro H. injection H as <-. auto. Qed.
Lemma shapes_fit p : shapes (num_vars p) p -> dims_fit p.
Proof.
  intros ((_ & A) & (_ & B) & C & D). rewrite Forall_forall in C, D. repeat split; try lia; apply Forall_forall; intros c Hc.
  - destruct (C c Hc). lia.
  - destruct (D c Hc) as [[_ X] [_ Y]]. lia.
Qed.
Lemma solve_total qubo cont norm late pr p q tbl : prog_wf p -> shapes (num_vars p) p -> bits_reach p -> int_to_bin p = Ok (q, tbl) -> admm_compatible p = Ok true -> ~ never p -> ~ never q -> answers_all qubo -> answers_all cont ->
  0 < ap_maxiter pr -> (ap_tol pr < qz 100)%Qc -> late 0 = false -> exists r, admm_solve qubo cont norm late pr p = Ok r.
Proof.
  intros W S B I C Np Nq Aq Ac M0 T0 L0. unfold admm_solve. rewrite C. cbn [bind check]. destruct (export_ok p Np) as (m & ->). cbn [bind]. rewrite I. cbn [bind fst snd].
  destruct (turn_total q) as (op & T). rewrite T. cbn [bind]. pose proof (int_to_bin_wf _ _ _ W I) as Wq. destruct (turn_inv _ _ Wq T) as (Wo & Ev & El & Eq & _ & _ & Sh & _).
  assert (mixed_binary op) as M by (exact (mixed_of_i2b p q tbl op W I Ev)). assert (num_vars op = num_vars q) as Nv by (unfold num_vars; now rewrite Ev).
  assert (shapes (num_vars op) op) as So by (rewrite Nv; apply Sh; exact (int_to_bin_shapes p q tbl W S I)).
  assert (can_run op) as R.
  { constructor; auto; try apply Wo. - eapply index_finds_nodup, Wo. - unfold bits_reach. rewrite Ev. exact (int_to_bin_bits p q tbl W B I). - eapply never_sub; [|exact Eq|exact Nq]. intros c Hc. now rewrite <- El. }
  destruct (start_total cont pr Ac op M) as (s0 & Es & Z). rewrite Es. cbn [bind]. destruct (represent_total op So) as (d & Ed). rewrite Ed. cbn [bind]. destruct (Z d Ed) as [Z0 _]. destruct (represent_self _ _ Ed) as [Rd Eo]. subst op.
  destruct (loop_total qubo cont norm late pr Aq Ac d R Rd (ap_maxiter pr) 0 (qz 100) s0 Z0) as (s & Lp); [lia|]. rewrite Lp. cbn [bind].
  assert (saved pr d 0 s0) as S0 by (eapply start_saved; eauto).
  assert (exists k, 0 < k /\ saved pr d k s) as (k & Hk & Sv).
  { destruct (ap_maxiter pr) as [|more]; [lia|]. cbn [admm_loop] in Lp. rewrite L0 in Lp. apply qltb_iff in T0. rewrite T0 in Lp. cbn [andb negb] in Lp. apply bind_ok in Lp. destruct Lp as (s1 & R1 & Lp).
    assert (saved pr d 1 s1) as S1 by (eapply saved_step; eauto). destruct (loop_ind qubo cont norm late pr (saved pr d) d) with (more := more) (k := 1) (res := last (i_res s1) 0%Qc) (s := s1) (s' := s) as (k' & K & G); auto; [intros; eapply saved_step; eauto|]. exists k'. split; [lia|exact G]. }
  destruct Sv as (_ & L1 & L2 & L3 & Sv). destruct (argmin (i_merits s)) as [j|] eqn:Am; [|apply argmin_none in Am; rewrite Am in L1; cbn in L1; lia].
  apply argmin_spec in Am. destruct Am as [Hj _]. rewrite L1 in Hj. destruct (Sv j Hj) as (x & (Jx & _) & <- & _).
  destruct (i2b_interpret_ok p q tbl W I x) as (y & Ey & Ly); [congruence|].
  destruct (interpret_total p [i2b_interpret p (conv_of tbl) q] [] x y S) as (r & Er); auto; [cbn; eauto|]. unfold conv_of in Er. rewrite Er. cbn [bind]. eauto.
Qed.
Lemma no_round_error qubo cont norm late pr p q tbl : prog_wf p -> shapes (num_vars p) p -> int_to_bin p = Ok (q, tbl) -> admm_compatible p = Ok true -> ~ never p -> answers_all cont ->
  ap_maxiter pr = 0 \/ (qz 100 <= ap_tol pr)%Qc \/ late 0 = true -> admm_solve qubo cont norm late pr p = Err ValueError.
Proof.
  intros W S I C Np Ac H. unfold admm_solve. rewrite C. cbn [bind check]. destruct (export_ok p Np) as (m & ->). cbn [bind]. rewrite I. cbn [bind fst snd].
  destruct (turn_total q) as (op & T). rewrite T. cbn [bind]. pose proof (int_to_bin_wf _ _ _ W I) as Wq. destruct (turn_inv _ _ Wq T) as (Wo & Ev & El & Eq & _ & _ & Sh & _).
  assert (mixed_binary op) as M by (exact (mixed_of_i2b p q tbl op W I Ev)). assert (num_vars op = num_vars q) as Nv by (unfold num_vars; now rewrite Ev).
  assert (shapes (num_vars op) op) as So by (rewrite Nv; apply Sh; exact (int_to_bin_shapes p q tbl W S I)).
  destruct (start_total cont pr Ac op M) as (s0 & Es & _). rewrite Es. cbn [bind]. destruct (represent_total op So) as (d & Ed). rewrite Ed. cbn [bind].
  assert (admm_loop qubo cont norm late pr (ap_maxiter pr) 0 (qz 100) d s0 = Ok s0) as ->.
  { destruct (ap_maxiter pr) as [|m']; [reflexivity|]. cbn [admm_loop]. destruct H as [H|[H|H]]; [discriminate| |].
    - destruct (qltb_spec (ap_tol pr) (qz 100)) as [K|K]; [exfalso; qlra|]. reflexivity.
    - now rewrite H, andb_false_r. }
  cbn [bind]. unfold start in Es. apply bind_ok in Es. destruct Es as (xuz & _ & Es). injection Es as <-. reflexivity.
Qed.
Lemma never_raises qubo cont norm late pr p : prog_wf p -> shapes (num_vars p) p -> admm_compatible p = Ok true -> never p -> admm_solve qubo cont norm late pr p = Err DOcplexException.
Proof.
  intros W S C N. unfold admm_solve. rewrite C. cbn [bind check]. assert (exprs_small p) as Sm by (apply shapes_fit in S; exact S).
  pose proof (export_spec p W Sm) as X. destruct (to_docplex p); [exfalso; tauto|]. destruct X as [-> _]. reflexivity.
Qed.

(** ** Optimizers that fail *)
Section Blame.
Variables (qubo cont : nat -> qp -> result (list Qc)) (norm : list Qc -> Qc) (late : nat -> bool) (pr : admm_params).
Let blamed (e : exn) : Prop := at_fault qubo e \/ at_fault cont e.
(** The same outcome, or an error of an optimizer *)
Definition or_blame {A} (a b : result A) : Prop := a = b \/ exists e, a = Err e /\ blamed e.
(** An optimizer that answers zeros where the given one fails *)
Definition mended (f : nat -> qp -> result (list Qc)) (k : nat) (q : qp) : result (list Qc) :=
  match f k q with Ok x => if Nat.eqb (length x) (num_vars q) then Ok x else Ok (repeat 0%Qc (num_vars q)) | Err _ => Ok (repeat 0%Qc (num_vars q)) end.
Lemma mended_all f : answers_all (mended f).
Proof using.
  intros k q. unfold mended. destruct (f k q) as [x|]; [|eexists; split; [reflexivity|apply repeat_length]].
  destruct (Nat.eqb_spec (length x) (num_vars q)); eexists; split; [reflexivity|auto|reflexivity|apply repeat_length].
Qed.
Lemma blame_refl {A} (a : result A) : or_blame a a.
Proof using. now left. Qed.
Lemma blame_bind {A B} (a b : result A) (f g : A -> result B) : or_blame a b -> (forall x, or_blame (f x) (g x)) -> or_blame (bind a f) (bind b g).
Proof using.
  intros [->|(e & -> & He)] F; [|right; exists e; auto]. destruct b as [x|e]; [apply F|now left].
Qed.
Lemma blame_sized f k op : (forall e, at_fault f e -> blamed e) -> or_blame (sized_solve f k op) (sized_solve (mended f) k op).
Proof using.
  intro Hf. unfold sized_solve, mended. destruct (f k op) as [x|e] eqn:E; cbn [bind].
  - destruct (Nat.eqb_spec (length x) (num_vars op)) as [L|L]; [left; cbn [bind check]; rewrite L, Nat.eqb_refl; reflexivity|]. right. exists QiskitOptimizationError.
    cbn. split; auto. apply Hf. exists k, op. right. split; auto. exists x. auto.
  - right. exists e. split; auto. apply Hf. exists k, op. now left.
Qed.
Lemma blame_logged f k op : (forall e, at_fault f e -> blamed e) -> or_blame (logged_solve f k op) (logged_solve (mended f) k op).
Proof using. intro Hf. unfold logged_solve. apply blame_bind; [now apply blame_sized|]. intro x. apply blame_refl. Qed.
Lemma blame_qubo e : at_fault qubo e -> blamed e.
Proof using. now left. Qed.
Lemma blame_cont e : at_fault cont e -> blamed e.
Proof using. now right. Qed.
Lemma blame_round d s k : or_blame (admm_round qubo cont norm pr d s k) (admm_round (mended qubo) (mended cont) norm pr d s k).
Proof using.
  unfold admm_round. apply blame_bind.
  - unfold update_x0. destruct (a_abs d); [apply blame_refl|]. apply blame_bind; [apply blame_refl|]. intro op.
    apply blame_bind; [apply blame_logged, blame_qubo|]. intro x. apply blame_refl.
  - intro x0. cbv zeta. apply blame_bind; [apply blame_refl|]. intro op2. apply blame_bind; [apply blame_logged, blame_cont|]. intro x1.
    apply blame_bind; [apply blame_refl|]. intro u. apply blame_bind; [apply blame_refl|]. intro z. apply blame_bind; [|intro y; apply blame_refl].
    unfold update_y. destruct (ap_three pr); [|apply blame_refl]. destruct (a_bin d); [apply blame_refl|]. apply blame_bind; [apply blame_refl|].
    intro op3. apply blame_logged, blame_cont.
Qed.
Lemma blame_loop d : forall more k res s, or_blame (admm_loop qubo cont norm late pr more k res d s) (admm_loop (mended qubo) (mended cont) norm late pr more k res d s).
Proof using.
  induction more as [|more IH]; intros k res s; cbn [admm_loop]; [apply blame_refl|]. destruct (_ && _); [|apply blame_refl].
  apply blame_bind; [apply blame_round|]. intro s1. apply IH.
Qed.
Lemma blame_solve p : or_blame (admm_solve qubo cont norm late pr p) (admm_solve (mended qubo) (mended cont) norm late pr p).
Proof using.
  unfold admm_solve. apply blame_bind; [apply blame_refl|]. intro b. apply blame_bind; [apply blame_refl|]. intros _. apply blame_bind; [apply blame_refl|]. intros _.
  apply blame_bind; [apply blame_refl|]. intro qt. apply blame_bind; [apply blame_refl|]. intro op. cbv zeta. apply blame_bind.
  { unfold start. cbv zeta. apply blame_bind; [|intro x; apply blame_refl]. destruct (ap_warm pr); [|apply blame_refl].
    apply blame_bind; [apply blame_sized, blame_cont|]. intro x. apply blame_refl. }
  intro s. apply blame_bind; [apply blame_refl|]. intro d. apply blame_bind; [apply blame_loop|]. intro s1. apply blame_refl.
Qed.
End Blame.
