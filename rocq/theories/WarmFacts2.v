(** * Facts about the warm start optimizer *)
From Verif Require Export WarmFacts.
From Coq Require Import Permutation.
Local Open Scope string_scope.
Local Open Scope list_scope.
Local Open Scope nat_scope.

(** ** When the default converter changes nothing *)
Lemma bits_of_pos v : enc_ok v -> is_int v = true -> 0 < length (bits_of v).
Proof.
  intros E I. specialize (E I). unfold convert_var in E. cbv zeta in E. apply bind_ok in E. destruct E as (w & _ & E). injection E as <-. rewrite map_length, combine_length, seq_length, Nat.min_id. unfold enc_coeffs. rewrite app_length. cbn [length]. lia.
Qed.
Section Same.
Variables (pen : option Qc) (p : qp) (r : qubo_run).
Hypothesis W : prog_wf p.
Hypothesis B : all_binary p.
Hypothesis H : to_qubo pen p = Ok r.
Lemma qubo_bin_size : num_vars (r_qubo r) = num_vars (r_bin r).
Proof using W H. destruct (qubo_inv pen p r H) as (_ & _ & _ & _ & H3). destruct (qubo_wf pen p r H) as (_ & W2 & _). destruct (penalize_spec _ _ _ W2 H3) as (V & _). unfold num_vars. now rewrite V, map_length. Qed.
Lemma same_size_identity : num_vars (r_qubo r) = num_vars p -> forall x, length x = num_vars p -> qubo_interpret r x = Ok x.
Proof using W B H.
  intros Sz x L. destruct (qubo_inv pen p r H) as (_ & _ & H1 & H2 & H3). destruct (qubo_wf pen p r H) as (W1 & W2 & W3). rewrite (qubo_interpret_eq pen p r W H) by now rewrite Sz.
  destruct (ineq_to_eq_inv _ p _ W H1) as (sv & I & _). pose proof (ie_vars _ _ _ _ _ I) as V. pose proof (ieinv_nv _ _ _ _ _ I) as Nv. rewrite qubo_bin_size in Sz.
  assert (num_vars (r_eq r) <= num_vars (r_bin r)) as Le.
  { destruct (int_to_bin_inv _ _ _ W1 H2) as [(E & _)|J]; [rewrite E; lia|]. rewrite (tracks_length _ _ (ib_tracks _ _ _ J)). unfold num_vars. pose proof (ib_enc _ _ _ J) as En. clear -En. unfold xp_names. induction En as [|v l Ev F IH]; cbn [flat_map length]; auto. rewrite app_length, map_length.
    unfold xp at 1. destruct (is_int v) eqn:Iv; [pose proof (bits_of_pos v Ev Iv)|cbn [length]]; lia. }
  assert (sv = []) as ->. { destruct sv; auto. cbn [length] in Nv. lia. } rewrite app_nil_r in V. cbn [length] in Nv.
  assert (Forall (fun v => is_int v = false) (p_vars (r_eq r))) as NI. { rewrite V. apply Forall_map. eapply Forall_impl; [|exact B]. intros v Ev. unfold is_int, copyv. cbn beta in Ev. rewrite Ev. reflexivity. }
  assert (i2b_interpret (r_eq r) (conv_of (r_conv r)) (r_bin r) x = Ok x) as ->.
  { unfold int_to_bin in H2. assert (count_type INTEGER (r_eq r) = 0) as C0. { apply count_type_0. eapply Forall_impl; [|exact NI]. intros v Iv E. unfold is_int in Iv. rewrite E in Iv. discriminate. } rewrite C0 in H2. cbn [Nat.ltb Nat.leb] in H2. injection H2 as <- <-. apply i2b_id_interpret; auto. lia. }
  cbn [bind]. rewrite <- (app_nil_r x) at 1. apply (ineq_interpret_prefix _ _ _ W H1); auto. rewrite app_nil_r. lia.
Qed.
Lemma equalities_same_size : equalities p -> num_vars (r_qubo r) = num_vars p.
Proof using W B H.
  intro Eq. destruct (qubo_inv pen p r H) as (C & _ & H1 & H2 & H3). destruct (qubo_wf pen p r H) as (W1 & W2 & W3). rewrite qubo_bin_size. apply qubo_compatible_iff in C. destruct C as (_ & Q & _).
  assert (p_vars (r_eq r) = map copyv (p_vars p)) as V.
  { unfold ineq_to_eq in H1. apply bind_ok in H1. destruct H1 as (d0 & E0 & H1). apply bind_ok in H1. destruct H1 as (lin & E1 & H1). apply bind_ok in H1. destruct H1 as (quad & E2 & H1). apply bind_ok in H1. destruct H1 as (d1 & E3 & H1). apply bind_ok in H1. destruct H1 as (d2 & E4 & H1).
    destruct (ineq_start MInteger p _ _ _ _ W E0 E1 E2 E3) as (I & _). pose proof (ie_vars _ _ _ _ _ I) as V. rewrite app_nil_r in V. rewrite <- V, Q in *. injection H1 as <-. clear -Eq E4. unfold equalities in Eq.
    revert d1 E4. induction Eq as [|c l Ec Eq IH]; intros d1 E4; cbn [foldM] in E4; [congruence|]. apply bind_ok in E4. destruct E4 as (d3 & E4 & E5). rewrite (IH d3 E5).
    unfold ineq_linear in E4. apply bind_ok in E4. destruct E4 as (ln & _ & E4). rewrite Ec in E4. apply linear_constraint_vars in E4. exact E4. }
  destruct (int_to_bin_inv _ _ _ W1 H2) as [(-> & _)|J]; [unfold num_vars; now rewrite V, map_length|].
  rewrite (tracks_length _ _ (ib_tracks _ _ _ J)), V. unfold num_vars. clear -B. unfold xp_names. induction B as [|v l Ev F IH]; cbn [map flat_map]; auto. rewrite app_length, IH. unfold xp, is_int, copyv. rewrite Ev. reflexivity.
Qed.
(** Points of bits stand for points of bits. *)
Lemma Forall_firstn {A} (P : A -> Prop) n l : Forall P l -> Forall P (firstn n l).
Proof using. intro F. revert n. induction F; intros [|n]; cbn [firstn]; auto. Qed.
Lemma valof_bit names x s : Forall (fun a => a = 0%Qc \/ a = 1%Qc) x -> valof names x s = 0%Qc \/ valof names x s = 1%Qc.
Proof using. intro F. unfold valof, dgetq. destruct (dget String.eqb s (combine names x)) as [v|] eqn:E; [|now left]. apply (dget_in _ str_eqb_sp) in E. apply in_combine_r in E. rewrite Forall_forall in F. auto. Qed.
Lemma binary_bits x y : bits (num_vars (r_qubo r)) x -> qubo_interpret r x = Ok y -> bits (num_vars p) y.
Proof using W B H.
  intros [L F] E. destruct (qubo_inv pen p r H) as (_ & _ & H1 & H2 & H3). destruct (qubo_wf pen p r H) as (W1 & W2 & W3). rewrite (qubo_interpret_eq pen p r W H) in E by auto.
  destruct (ineq_to_eq_inv _ p _ W H1) as (sv & I & _). pose proof (ie_vars _ _ _ _ _ I) as V. pose proof (ieinv_nv _ _ _ _ _ I) as Nv. rewrite qubo_bin_size in L.
  destruct (i2b_interpret_ok (r_eq r) (r_bin r) (r_conv r) W1 H2 x L) as (z & Ez & Lz). assert (i2b_interpret (r_eq r) (conv_of (r_conv r)) (r_bin r) x = Ok z) as Ez' by exact Ez. rewrite Ez' in E. cbn [bind] in E.
  assert (Forall (fun a => a = 0%Qc \/ a = 1%Qc) (firstn (num_vars p) z)) as Fz.
  { destruct (int_to_bin_inv _ _ _ W1 H2) as [(Eb & Et & NI)|J].
    - rewrite Eb, Et in Ez. rewrite i2b_id_interpret in Ez; auto; [|rewrite <- Eb; auto]. injection Ez as <-. apply Forall_firstn. auto.
    - rewrite (i2b_interpret_spec (r_eq r) (conv_of (r_conv r)) W1) in Ez; [|apply J|apply J|apply J|rewrite L; now apply tracks_length, J]. injection Ez as <-. unfold decoded. rewrite V at 2. rewrite map_app, map_map.
      rewrite firstn_app, map_length. replace (num_vars p - length (p_vars p)) with 0 by (unfold num_vars; lia). cbn [firstn]. rewrite app_nil_r. apply Forall_firstn, Forall_map. eapply Forall_impl; [|exact B]. intros v Ev. cbn beta in Ev.
      unfold dec, xp, lbc, is_int, copyv. rewrite Ev. cbn [v_type v_name dsum fold_right fst snd map].
      match goal with |- ?a = _ \/ _ => assert (a = valof (xp_names (p_vars (r_eq r))) x (v_name v)) as -> by (unfold dsum; cbn; ring) end. apply valof_bit. auto. }
  assert (num_vars (r_eq r) = num_vars p + length sv) as Nv' by exact Nv. rewrite <- (firstn_skipn (num_vars p) z) in E. assert (length (firstn (num_vars p) z) = num_vars p) as Lf by (rewrite firstn_length; lia).
  rewrite (ineq_interpret_prefix _ _ _ W H1 (firstn (num_vars p) z) (skipn (num_vars p) z)) in E; auto; [|now rewrite firstn_skipn]. injection E as <-. split; auto.
Qed.
End Same.

(** ** One run of QAOA *)
Section Internal.
Variables (solver : eigensolver) (op : qop) (off : Qc) (q p : qp) (fs : list interp).
Hypothesis Wp : prog_wf p.
Hypothesis Hn : op_n op = num_vars q.
Hypothesis Pos : 0 < num_vars q.
Hypothesis Sq : obj_shaped q.
Hypothesis Sv : forall o, solver op = Ok o -> exists e, o = Some e /\ sized_state (num_vars q) e.
Lemma internal_samples m : solve_internal solver op off q p fs = Ok m -> exists raw l y, raw <> [] /\ (forall t, In t raw -> bits (num_vars q) (s_x t)) /\
  interpret_samples p fs raw = Ok l /\ l <> [] /\ r_samples (m_res m) = Some l /\ r_x (m_res m) = Some y /\ r_fval (m_res m) = Some (obj_at (p_obj p) y) /\ status_at p y (r_status (m_res m)) /\
  (forall e x f, solver op = Ok (Some e) -> kept q e x f -> exists t, In t raw /\ s_x t = x) /\
  exists t, In t raw /\ decodes fs (s_x t) y.
Proof using Wp Hn Pos Sq Sv.
  intro M. assert (exists e, solver op = Ok (Some e) /\ sized_state (num_vars q) e) as (e & Es & Se).
  { unfold solve_internal in M. rewrite Hn in M. replace (0 <? num_vars q) with true in M by (symmetry; now apply Nat.ltb_lt). apply bind_ok in M. destruct M as (raw & M & _). apply bind_ok in M. destruct M as (o & Eo & _). destruct (Sv o Eo) as (e & -> & Se). eauto. }
  destruct (internal_unfold solver op off q p fs e Hn Pos Sq Se Es) as (l & El & E). rewrite E in M. clear E. destruct (solutions_spec e q MIN_PROB Pos Sq Se) as (l0 & E0 & A & Bk). assert (l0 = l) by congruence. subst l0.
  pose proof (sort_perm (raw_lt (o_sense (p_obj q))) l) as P. destruct (sort_by (raw_lt (o_sense (p_obj q))) l) as [|s l'] eqn:Eq; [discriminate M|]. apply bind_ok in M. destruct M as (samples & M1 & M). apply bind_ok in M. destruct M as (r & M2 & [= <-]). cbn [m_res].
  destruct (interpret_spec _ _ _ _ _ Wp M2) as (y & D & L & X & _ & F & St & Z). exists (s :: l'), samples, y. split; [discriminate|]. split; [intros t Ht; apply A; eapply Permutation_in; eauto|]. split; auto.
  destruct (samples_mass p fs _ _ Wp M1) as (_ & _ & _ & Cov). destruct (Cov s (or_introl eq_refl)) as (s' & Hs' & _). assert (samples <> []) as Ns by (intros ->; destruct Hs'). split; auto.
  assert (r_samples r = Some samples) as Rs. { clear -M2 Ns. unfold interpret in M2. apply bind_ok in M2. destruct M2 as (y & _ & M2). apply bind_ok in M2. destruct M2 as (f & _ & M2). apply bind_ok in M2. destruct M2 as (st & _ & M2). unfold make_result in M2. apply bind_ok in M2. destruct M2 as (d & _ & M2). injection M2 as <-. cbn [r_samples]. destruct samples; [easy|reflexivity]. }
  split; auto. split; auto. split; auto. split; auto. split.
  { intros e' x f Es' [O T]. assert (e' = e) as -> by congruence. destruct (Bk x f O T) as (t & Ht & Ex & _). exists t. split; auto. eapply Permutation_in; [symmetry; exact P|auto]. }
  exists s. split; auto. now left.
Qed.
End Internal.

(** ** solve *)
Lemma picks_member {A} (P : A -> Prop) l m a : picks P l m -> In a m -> P a /\ In a l.
Proof. induction 1 as [|b l0 l Pb K IH|b l0 l Nb K IH]; intro I; [destruct I| |]; [destruct I as [<-|I]; [split; auto; now left|]|]; destruct (IH I); split; auto; now right. Qed.
Section Solve.
Variables (w : warm_opt) (p q : qp) (fs : list interp) (op : qop) (off : Qc) (pr : opt_result) (pres : list sample).
Hypothesis Wp : prog_wf p.
Hypothesis Wq : prog_wf q.
Hypothesis C : convert_all (w_convs w) p = Ok (q, fs).
Hypothesis Hi : to_ising q = Ok (op, off).
Hypothesis Sq : obj_shaped q.
Hypothesis Pos : 0 < num_vars q.
Hypothesis Kb : forall x y, bits (num_vars q) x -> decodes fs x y -> bits (num_vars p) y.
Hypothesis Ag : w_agg w = Some mean_aggregate.
Hypothesis Num : 2 <= w_num w.
Hypothesis Sv : forall iv o, w_qaoa w iv op = Ok o -> exists e, o = Some e /\ sized_state (num_vars q) e.
Hypothesis Pre : w_pre w (if w_relax w then relax_problem q else q) = Ok pr.
Hypothesis Ps : r_samples pr = Some pres.

Definition good_samples (l : list sample) : Prop := Forall (fun s => bits (num_vars p) (s_x s) /\ s_fval s = obj_at (p_obj p) (s_x s)) l.
Lemma run_good iv m : solve_internal (w_qaoa w iv) op off q p fs = Ok m ->
  exists l y, r_samples (m_res m) = Some l /\ l <> [] /\ good_samples l /\ NoDup (map s_x l) /\ r_x (m_res m) = Some y /\ r_fval (m_res m) = Some (obj_at (p_obj p) y) /\ status_at p y (r_status (m_res m)) /\ exists s, In s l /\ s_x s = y.
Proof using Wp Wq Hi Sq Pos Kb Sv.
  intro M.
  destruct (internal_samples (w_qaoa w iv) op off q p fs Wp (to_ising_n _ _ _ Wq Hi) Pos Sq (Sv iv) m M) as (raw & l & y & Nr & Br & I & Nl & Rs & X & F & St & _ & t & Ht & D). exists l, y.
  destruct (samples_mass p fs raw l Wp I) as (Nd & _ & Ms & Cov).
  split; auto. split; auto. split. { apply Forall_forall. intros s Hs. destruct (Ms s Hs) as (Fv & _ & _ & m0 & Pk & Nm & _). split; auto. destruct m0 as [|t0 m0]; [easy|]. destruct (picks_member _ _ _ t0 Pk (or_introl eq_refl)) as [D0 H0]. eauto. }
  split; auto. split; auto. split; auto. split; auto. destruct (Cov t Ht) as (s & Hs & Ds). exists s. split; auto. eapply decodes_fun; eauto.
Qed.
Lemma run_covers iv m e x f y l : solve_internal (w_qaoa w iv) op off q p fs = Ok m -> w_qaoa w iv op = Ok (Some e) -> kept q e x f -> decodes fs x y -> r_samples (m_res m) = Some l ->
  exists s, In s l /\ s_x s = y.
Proof using Wp Wq Hi Sq Pos Sv.
  intros M Ee K D L. destruct (internal_samples (w_qaoa w iv) op off q p fs Wp (to_ising_n _ _ _ Wq Hi) Pos Sq (Sv iv) m M) as (raw & l' & _ & _ & _ & I & _ & Rs & _ & _ & _ & Ck & _). assert (l' = l) as -> by congruence.
  destruct (samples_mass p fs raw l Wp I) as (_ & _ & _ & Cov). destruct (Ck e x f Ee K) as (t & Ht & Ex). destruct (Cov t Ht) as (s & Hs & Ds). exists s. split; auto. rewrite Ex in Ds. eapply decodes_fun; eauto.
Qed.
Lemma runs_cover results ls l0 s e x f y : mapM (fun s => solve_internal (w_qaoa w (initial_variables (w_eps w) (s_x s))) op off q p fs) l0 = Ok results -> samples_are (map m_res results) ls ->
  In s l0 -> w_qaoa w (initial_variables (w_eps w) (s_x s)) op = Ok (Some e) -> kept q e x f -> decodes fs x y -> exists t, In t (concat ls) /\ s_x t = y.
Proof using Wp Wq Hi Sq Pos Sv.
  intros E S I Ee K D. apply mapM_ok in E. revert ls S. induction E as [|s0 m l0 ms Em E IH]; intros ls S; [destruct I|]. inversion S as [|? l ? ls' Rl S']; subst. cbn [concat]. destruct I as [->|I].
  - destruct (run_covers _ _ _ _ _ _ _ Em Ee K D Rl) as (t & Ht & Ex). exists t. split; auto. apply in_or_app. now left.
  - destruct (IH I _ S') as (t & Ht & Ex). exists t. split; auto. apply in_or_app. now right.
Qed.
Lemma several_inv m : 2 <= length pres -> warm_solve w p = Ok m -> exists results out s l, mapM (fun s => solve_internal (w_qaoa w (initial_variables (w_eps w) (s_x s))) op off q p fs) (firstn (w_num w) pres) = Ok results /\
  mean_aggregate (map m_res results) = Ok out /\ sort_by (raw_lt (o_sense (p_obj q))) out = s :: l /\ exists r, interpret p fs (s :: l) (s_x s) = Ok r /\ m = mkMeo r None.
Proof using C Hi Ag Num Pre Ps.
  clear Pos. intros Lp M. unfold warm_solve in M. apply bind_ok in M. destruct M as (u & _ & M). rewrite C in M. cbn [bind fst snd] in M. cbv zeta in M. rewrite Pre in M. cbn [bind] in M. apply bind_ok in M. destruct M as (u' & _ & M). rewrite Ps in M. cbn [bind] in M. rewrite Hi in M. cbn [bind fst snd] in M.
  assert (firstn (Nat.min (w_num w) (length pres)) pres = firstn (w_num w) pres) as Ef. { destruct (Nat.le_gt_cases (w_num w) (length pres)); [now rewrite Nat.min_l|rewrite Nat.min_r, !firstn_all2 by lia; auto]. }
  rewrite Ef in M. apply bind_ok in M. destruct M as (results & E & M). exists results. pose proof (mapM_length _ _ _ E) as Lr. rewrite firstn_length in Lr. destruct results as [|r1 [|r2 rs]]; [cbn in Lr; lia|cbn in Lr; lia|]. rewrite Ag in M.
  apply bind_ok in M. destruct M as (out & E2 & M). exists out. destruct (sort_by (raw_lt (o_sense (p_obj q))) out) as [|s l] eqn:Es; [discriminate M|]. exists s, l. apply bind_ok in M. destruct M as (r & E3 & M). injection M as <-. split; [exact E|]. split; [exact E2|]. split; [reflexivity|]. exists r. split; [exact E3|reflexivity].
Qed.
Lemma runs_good (results : list meo_result) l0 : mapM (fun s => solve_internal (w_qaoa w (initial_variables (w_eps w) (s_x s))) op off q p fs) l0 = Ok results ->
  exists ls, samples_are (map m_res results) ls /\ Forall good_samples ls /\ Forall (fun l => l <> []) ls.
Proof using Wp Wq Hi Sq Pos Kb Sv.
  intro E. apply mapM_ok in E. induction E as [|s m l0 ms Em E IH]; [exists []; repeat constructor|]. destruct IH as (ls & S & G & N). destruct (run_good _ _ Em) as (l & y & Rs & Nl & Gl & _). exists (l :: ls). split; [constructor; auto|]. split; constructor; auto.
Qed.
Lemma several_valid m : num_vars q = num_vars p -> o_sense (p_obj q) = o_sense (p_obj p) -> keeps_bits fs (num_vars p) -> 2 <= length pres -> warm_solve w p = Ok m -> exists results ls l x,
  mapM (fun s => solve_internal (w_qaoa w (initial_variables (w_eps w) (s_x s))) op off q p fs) (firstn (w_num w) pres) = Ok results /\ samples_are (map m_res results) ls /\
  r_samples (m_res m) = Some l /\ r_x (m_res m) = Some x /\ (exists s, In s l /\ s_x s = x) /\ bits (num_vars p) x /\ r_fval (m_res m) = Some (obj_at (p_obj p) x) /\ status_at p x (r_status (m_res m)) /\
  NoDup (map s_x l) /\ (forall s, In s l -> bits (num_vars p) (s_x s) /\ s_fval s = obj_at (p_obj p) (s_x s) /\ at_least (o_sense (p_obj p)) (obj_at (p_obj p) x) (s_fval s)) /\
  (forall s, In s l -> exists m0, picks (fun t => s_x t = s_x s) (concat ls) m0 /\ m0 <> [] /\ s_prob s = (total_prob m0 / qn (length results))%Qc) /\
  (forall t, In t (concat ls) -> exists s, In s l /\ s_x s = s_x t).
Proof using All.
  intros Sz Sn Ki Lp M. destruct (several_inv m Lp M) as (results & out & s & l & E & E2 & Es & r & E3 & ->). destruct (runs_good _ _ E) as (ls & S & G & N). exists results, ls, (s :: l), (s_x s). split; auto. split; auto. cbn [m_res].
  assert (forall t, In t (concat ls) -> bits (num_vars p) (s_x t) /\ s_fval t = obj_at (p_obj p) (s_x t)) as Gt. { intros t Ht. apply in_concat in Ht. destruct Ht as (l1 & H1 & Ht). rewrite Forall_forall in G. specialize (G l1 H1). unfold good_samples in G. rewrite Forall_forall in G. auto. }
  destruct (aggregate_points _ ls S) as (out' & E2' & Nd & A & Cov). { eapply Forall_impl; [|exact G]. intros l1 G1. eapply Forall_impl; [|exact G1]. intros t [Bt _]. eapply bits_decimal; eauto. }
  rewrite map_length in A. assert (out' = out) as -> by congruence. pose proof (sort_perm (raw_lt (o_sense (p_obj q))) out) as P. rewrite Es in P. destruct (raw_first _ _ _ _ Es) as [Hin Hbest].
  assert (forall s', In s' out -> bits (num_vars p) (s_x s') /\ s_fval s' = obj_at (p_obj p) (s_x s')) as Go.
  { intros s' Hs'. destruct (A s' Hs') as (_ & m0 & Pk & _ & _ & t & Ht & Ft). destruct (picks_member _ _ _ t Pk Ht) as [Et Ht']. destruct (Gt t Ht') as [Bt Vt]. rewrite <- Et, <- Ft. auto. }
  destruct (Go s Hin) as [Bs Fs]. destruct (interpret_spec _ _ _ _ _ Wp E3) as (y & D & _ & X & _ & F & St & _ & Rs). assert (y = s_x s) as -> by (eapply decodes_fun; [exact D|now apply Ki]).
  split; [exact Rs|]. split; auto. split; [exists s; split; auto; now left|]. split; auto. split; auto. split; auto.
  split. { eapply Permutation_NoDup; [|exact Nd]. apply Permutation_map. now symmetry. }
  split. { intros s' Hs'. apply (Permutation_in _ P) in Hs'. destruct (Go s' Hs') as [B' F']. split; auto. split; auto. rewrite <- Fs, <- Sn. auto. }
  split. { intros s' Hs'. apply (Permutation_in _ P) in Hs'. destruct (A s' Hs') as (_ & m0 & Pk & Nm & Pr & _). eauto. }
  intros t Ht. destruct (Cov t Ht) as (s' & Hs' & Ex). exists s'. split; auto. apply (Permutation_in _ (Permutation_sym P)). auto.
Qed.
End Solve.
