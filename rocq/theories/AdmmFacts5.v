From Verif Require Export AdmmFacts4.
Local Open Scope nat_scope.

(** ** Variables that are never updated *)
Lemma rel_in d i j : exprs_wf (a_op d) -> represents d -> nth_error (a_bin d) j = Some i -> (In j (a_rel d) <-> In i (a_abs d)).
Proof.
  intros W R Hj. destruct (step1_spec d W R) as (_ & _ & F). pose proof (represents_split d R) as [Sb _].
  assert (NoDup (a_bin d)) as N by (rewrite Sb; apply indices_nodup). split.
  - intro K. revert K. induction F as [|a b l m H F IH]; intro K; simpl in K; [contradiction|]. destruct K as [->|K]; [left; congruence|right; auto].
  - intro K. revert K. induction F as [|a b l m H F IH]; intro K; simpl in K; [contradiction|]. destruct K as [->|K]; [left|right; auto]. apply (proj1 (NoDup_nth_error (a_bin d)) N); [apply nth_error_Some; congruence|congruence].
Qed.
Definition idle (d : admm_data) (x0 : list Qc) : Prop := forall j, ~ In j (a_rel d) -> at_ x0 j = 0%Qc.
Lemma at_repeat n j : at_ (repeat 0%Qc n) j = 0%Qc.
Proof. unfold at_. revert j. induction n as [|n IH]; intros [|j]; simpl; auto. Qed.
Lemma update_idle qubo pr d s k x0 : a_abs d <> [] \/ idle d (i_x0 s) -> update_x0 qubo pr d s k = Ok x0 -> idle d x0.
Proof.
  intros H E. unfold update_x0 in E. destruct (a_abs d) as [|a l] eqn:Ea.
  - injection E as <-. destruct H; [congruence|assumption].
  - apply bind_ok in E. destruct E as (op1 & _ & E). apply bind_ok in E. destruct E as (x & _ & E). injection E as <-. intros j Hj. rewrite put_out by auto. apply at_repeat.
Qed.
Lemma round_idle qubo cont norm pr d : forall k s s', Forall (idle d) (i_x0s s) /\ (a_abs d <> [] \/ idle d (i_x0 s)) -> admm_round qubo cont norm pr d s k = Ok s' ->
  Forall (idle d) (i_x0s s') /\ (a_abs d <> [] \/ idle d (i_x0 s')).
Proof.
  intros k s s' [F H] E. apply round_inv in E. destruct E as [A _ _ _ _ _ (B & _)]. pose proof (update_idle _ _ _ _ _ _ H A) as I. split; [rewrite B, Forall_app; auto|auto].
Qed.
Lemma joins_at p b c x i j : joins p b c x -> nth_error (indices_of BINARY p) j = Some i -> at_ x i = at_ b j.
Proof.
  intros (L & B & _) H. rewrite <- B, <- coords_indices by auto. unfold coords, at_ at 2. assert (j < length (indices_of BINARY p)) as Hj by (apply nth_error_Some; congruence).
  rewrite nth_indep with (d' := at_ x 0) by (rewrite map_length; auto). rewrite map_nth. f_equal. symmetry. now apply nth_error_nth.
Qed.
Lemma missed_zero qubo cont norm late pr p r d s i : prog_wf p -> admm_solve qubo cont norm late pr p = Ok (r, (d, s)) -> ap_warm pr = false \/ a_abs d <> [] ->
  is_var BINARY (a_op d) i -> ~ In i (a_abs d) -> forall j x, j < length (i_merits s) -> joins (a_op d) (nth j (i_x0s s) []) (nth j (i_us s) []) x -> at_ x i = 0%Qc.
Proof.
  intros W H Wm V N j x Hj J. apply solve_inv in H. destruct H as (q & tbl & s0 & k & _ & I & T & St & R & Lp & _).
  pose proof (int_to_bin_wf _ _ _ W I) as Wq. destruct (turn_inv _ _ Wq T) as (Wo & Ev & _).
  assert (mixed_binary (a_op d)) as M by exact (mixed_of_i2b p q tbl (a_op d) W I Ev).
  assert (exists k', k' <= ap_maxiter pr /\ (Forall (idle d) (i_x0s s) /\ (a_abs d <> [] \/ idle d (i_x0 s))) /\ saved pr d k' s) as (k' & _ & (F & _) & Sv).
  { destruct (loop_ind qubo cont norm late pr (fun k s => (Forall (idle d) (i_x0s s) /\ (a_abs d <> [] \/ idle d (i_x0 s))) /\ saved pr d k s) d) with (more := ap_maxiter pr) (k := 0) (res := qz 100) (s := s0) (s' := s) as (k' & K & G); auto.
    - intros k1 s1 s2 [G1 G2] E. split; [eapply round_idle; eauto|]. eapply saved_step; eauto. 
    - split; [|eapply start_saved; eauto]. unfold start in St. apply bind_ok in St. destruct St as (xuz & S1 & St). injection St as <-. cbn [i_x0s i_x0]. split; [constructor|].
      destruct (a_abs d) as [|a l] eqn:Ea; [right|left; discriminate]. destruct Wm as [Wm|Wm]; [|congruence]. rewrite Wm in S1. injection S1 as <-. cbn [fst]. intros j' _. apply at_repeat.
    - exists k'. split; [lia|]. exact G. }
  destruct Sv as (_ & L1 & L2 & _). destruct (In_nth_error (a_bin d) i) as (m & Hm); [rewrite (proj1 (represents_split d R)); now apply indices_in|].
  assert (at_ (nth j (i_x0s s) []) m = 0%Qc) as Z.
  { rewrite Forall_forall in F. apply F; [apply nth_In; lia|]. rewrite (rel_in d i m); auto. apply Wo. }
  rewrite <- Z. apply (joins_at _ _ _ _ _ _ J). rewrite <- (proj1 (represents_split d R)). exact Hm.
Qed.

(** ** The run reports an iterate of smallest merit *)
Lemma reported qubo cont norm late pr p r d s : prog_wf p -> admm_solve qubo cont norm late pr p = Ok (r, (d, s)) ->
  exists q tbl k x y, int_to_bin p = Ok (q, tbl) /\ k < length (i_merits s) /\ (forall j, j < length (i_merits s) -> (nth k (i_merits s) 0 <= nth j (i_merits s) 0)%Qc) /\
    joins q (nth k (i_x0s s) []) (nth k (i_us s) []) x /\ i2b_interpret p (conv_of tbl) q x = Ok y /\ length y = num_vars p /\
    r_x r = Some y /\ r_fval r = Some (obj_at (p_obj p) y) /\ status_at p y (r_status r).
Proof.
  intros W H. apply solve_inv in H. destruct H as (q & tbl & s0 & k & _ & I & T & St & R & Lp & Am & E).
  pose proof (int_to_bin_wf _ _ _ W I) as Wq. destruct (turn_inv _ _ Wq T) as (Wo & Ev & _). assert (mixed_binary (a_op d)) as M by exact (mixed_of_i2b p q tbl (a_op d) W I Ev).
  destruct (loop_ind qubo cont norm late pr (saved pr d) d) with (more := ap_maxiter pr) (k := 0) (res := qz 100) (s := s0) (s' := s) as (k' & K & G); auto; [intros; eapply saved_step; eauto|eapply start_saved; eauto|].
  apply argmin_spec in Am. destruct Am as [A1 A2]. destruct G as (_ & L1 & L2 & L3 & Sv). destruct (Sv k) as (x & J & Ex & _); [lia|]. rewrite <- Ex in E.
  apply interpret_spec in E; auto. destruct E as (y & D & L & Y1 & _ & Y2 & Y3 & _). simpl in D. destruct D as (z & -> & D).
  exists q, tbl, k, x, y. repeat (split; [assumption|]). split; [|auto]. destruct J as (J1 & J2 & J3). unfold joins, num_vars. rewrite <- Ev. auto.
Qed.
(** Every merit is the one of the decoded iterate in the original program. *)
Lemma merits qubo cont norm late pr p r d s : prog_wf p -> safe p -> admm_solve qubo cont norm late pr p = Ok (r, (d, s)) ->
  exists q tbl, int_to_bin p = Ok (q, tbl) /\ forall j, j < length (i_merits s) -> exists x y, joins q (nth j (i_x0s s) []) (nth j (i_us s) []) x /\
    i2b_interpret p (conv_of tbl) q x = Ok y /\ nth j (i_merits s) 0%Qc = merit (ap_mu_merit pr) p y.
Proof.
  intros W S H. apply solve_inv in H. destruct H as (q & tbl & s0 & k & _ & I & T & St & R & Lp & Am & E).
  pose proof (int_to_bin_wf _ _ _ W I) as Wq. destruct (turn_inv _ _ Wq T) as (Wo & Ev & El & Eq_ & _ & Eo & _). assert (mixed_binary (a_op d)) as M by exact (mixed_of_i2b p q tbl (a_op d) W I Ev).
  destruct (loop_ind qubo cont norm late pr (saved pr d) d) with (more := ap_maxiter pr) (k := 0) (res := qz 100) (s := s0) (s' := s) as (k' & K & G); auto; [intros; eapply saved_step; eauto|eapply start_saved; eauto|].
  destruct G as (_ & L1 & L2 & L3 & Sv). exists q, tbl. split; auto. intros j Hj. destruct (Sv j) as (x & (J1 & J2 & J3) & _ & Me); [lia|].
  assert (length x = num_vars q) as Lx by (rewrite J1; unfold num_vars; now rewrite Ev).
  destruct (i2b_interpret_ok p q tbl W I x Lx) as (y & D & Ly). exists x, y. split; [unfold joins; rewrite <- Ev; auto|]. split; auto.
  destruct (i2b_decode p q tbl W I x y S Lx D) as (D1 & D2 & D3 & D4). rewrite Me, Eo. unfold merit. rewrite D1, D2. f_equal. f_equal.
  rewrite <- (same_excess p q y x D3 D4). unfold excess. now rewrite El, Eq_.
Qed.
(** No round, no result *)
Lemma no_round qubo cont norm late pr p : ap_maxiter pr = 0 \/ (qz 100 <= ap_tol pr)%Qc \/ late 0 = true -> forall r, admm_solve qubo cont norm late pr p <> Ok r.
Proof.
  intros H [r [d s]] E. apply solve_inv in E. destruct E as (q & tbl & s0 & k & _ & _ & _ & St & _ & Lp & Am & _).
  assert (s = s0) as ->.
  { destruct (ap_maxiter pr) as [|m]; [simpl in Lp; congruence|]. cbn [admm_loop] in Lp. destruct H as [H|[H|H]]; [discriminate| |].
    - destruct (qltb_spec (ap_tol pr) (qz 100)) as [K|K]; [exfalso; qlra|]. simpl in Lp. congruence.
    - rewrite H, andb_false_r in Lp. congruence. }
  unfold start in St. apply bind_ok in St. destruct St as (xuz & _ & St). injection St as <-. discriminate.
Qed.
