(** * Optimal assignments of the QUBO, whatever the products *)
From Verif Require Export LostFacts.
Local Open Scope nat_scope.

Section Any.
Variables (pen : option Qc) (p : qp) (r : qubo_run).
Hypothesis W : prog_wf p.
Hypothesis H : to_qubo pen p = Ok r.
Hypothesis P : Forall plain (p_vars p).
Hypothesis IB : int_bounds p.
Hypothesis F : exists x, feasible p x.

Lemma eq_any : int_bounds (r_eq r) /\ binary_open (r_eq r) /\ int_rows (r_eq r) /\ p_qcs (r_eq r) = [].
Proof using W H P IB F.
  destruct (qubo_inv pen p r H) as (K & _ & H1 & H2 & H3). apply qubo_compatible_iff in K. destruct K as (D & Q & I). destruct F as (x & Fx).
  destruct (ineq_to_eq_inv _ _ _ W H1) as (sv & J & ID). destruct (ID eq_refl (eq_rhs pen p r W H P IB x Fx) Q (plain_int_range _ P IB D)) as [D1 D2 D3].
  pose proof (ie_vars _ _ _ _ _ J) as V. rewrite (map_copyv_plain _ P) in V. split; [|split; [|split; assumption]].
  - unfold int_bounds. rewrite V. apply Forall_app. split; [exact IB|]. rewrite Forall_forall in *. intros v Hv _. now apply D2.
  - unfold binary_open. rewrite V. apply Forall_app. split; [now apply plain_open|]. pose proof (ie_sv _ _ _ _ _ J) as Z. rewrite Forall_forall in *.
    intros v Hv Ty. now destruct (Z v Hv).
Qed.
Lemma bin_any : binary_open (r_bin r) /\ int_rows (r_bin r) /\ p_qcs (r_bin r) = [].
Proof using W H P IB F.
  destruct (qubo_inv pen p r H) as (_ & _ & H1 & H2 & H3). destruct (qubo_wf pen p r H) as (W1 & W2 & W3). destruct eq_any as (B & O & R & Q).
  split; [exact (i2b_open _ _ _ W1 H2 O)|]. split.
  - destruct (int_to_bin_inv _ _ _ W1 H2) as [(-> & _ & _)|I]; [exact R|]. destruct (ib_exact _ _ _ I) as (_ & _ & _ & _ & E). now apply E.
  - destruct (i2b_value _ _ _ W1 H2 (repeat 0%Qc (num_vars (r_bin r))) (repeat_length _ _)) as (x & _ & _ & _ & _ & _ & D). rewrite Q in D. now inversion D.
Qed.
Lemma bin_stands y : feasible (r_bin r) y -> exists z, bits_mean r y z.
Proof using W H P IB F.
  intro Fy. destruct (qubo_inv pen p r H) as (_ & _ & H1 & H2 & H3). destruct (qubo_wf pen p r H) as (W1 & W2 & W3). destruct eq_any as (B & O & R & Q). destruct bin_any as (O2 & R2 & Q2).
  destruct (i2b_value _ _ _ W1 H2 y (feas_len _ _ Fy)) as (z & E & Lz & _ & _ & Rw & _). exists z. split; [now apply (pen_feasible_iff _ _ _ W2 H3 Q2 O2)|]. split; [exact E|].
  destruct Fy as (Fb & Ft & Fl & _). destruct (i2b_decode_fits _ _ _ W1 H2 y z B O Fb Ft E) as [Zb Zt]. split; [exact Zb|]. split; [exact Zt|]. split; [exact (proj2 (same_row_holds _ _ _ _ Rw) Fl)|].
  unfold qcs_hold. rewrite Q. constructor.
Qed.
Lemma stands_bin y z : bits_mean r y z -> feasible (r_bin r) y.
Proof using W H P IB F.
  intros (Fq & E & (Zb & Zt & Zl & _)). destruct (qubo_inv pen p r H) as (_ & _ & H1 & H2 & H3). destruct (qubo_wf pen p r H) as (W1 & W2 & W3). destruct bin_any as (O2 & R2 & Q2).
  apply (pen_feasible_iff _ _ _ W2 H3 Q2 O2). split; [exact Fq|]. destruct (penalize_spec _ _ _ W2 H3) as (V & _ & _ & _ & EQs & _).
  assert (length y = num_vars (r_bin r)) as L by (rewrite (feas_len _ _ Fq); unfold num_vars; now rewrite V, map_length).
  destruct (i2b_value _ _ _ W1 H2 y L) as (z' & E' & _ & _ & _ & Rw & _). rewrite E in E'. injection E' as <-.
  apply (violation_zero _ _ EQs). exact (proj1 (same_row_holds _ _ _ _ Rw) Zl).
Qed.
Lemma stands_point y z : bits_mean r y z -> qubo_interpret r y = Ok (firstn (num_vars p) z) /\ feasible p (firstn (num_vars p) z) /\ obj_at (p_obj (r_bin r)) y = worth p r z y.
Proof using W H P IB F.
  intro St. pose proof (stands_bin _ _ St) as Fb. destruct St as (Fq & E & Fz). destruct (qubo_inv pen p r H) as (_ & _ & H1 & H2 & H3). destruct (qubo_wf pen p r H) as (W1 & W2 & W3).
  destruct (qubo_value pen p r W H y (feas_len _ _ Fq)) as (z' & E' & _ & I & V). rewrite E in E'. injection E' as <-. split; [exact I|].
  destruct (ineq_sound _ _ _ W H1 z (plain_open _ P) Fz) as (x & Ex & Fx & _).
  rewrite (qubo_interpret_eq pen p r W H y (feas_len _ _ Fq)), E in I. cbn [bind] in I. rewrite Ex in I. injection I as ->. split; [exact Fx|].
  destruct (i2b_value _ _ _ W1 H2 y (feas_len _ _ Fb)) as (z' & E' & _ & _ & _ & Rw & _). rewrite E in E'. injection E' as <-.
  destruct bin_any as (O2 & R2 & Q2). pose proof (proj1 (pen_feasible_iff _ _ _ W2 H3 Q2 O2 y) Fb) as [_ Vz]. rewrite (same_violation z y _ _ Rw) in Vz. rewrite Vz in V.
  rewrite (pen_value_eq _ _ _ W2 H3 y Fb) in V. rewrite V. unfold worth. ring.
Qed.
Lemma every_point x : feasible p x -> exists y z, bits_mean r y z /\ firstn (num_vars p) z = x.
Proof using W H P IB F.
  intro Fx. destruct (qubo_inv pen p r H) as (K & _ & H1 & H2 & H3). apply qubo_compatible_iff in K. destruct K as (D & _). destruct (qubo_wf pen p r H) as (W1 & W2 & W3). destruct eq_any as (B & O & R & Q). destruct bin_any as (O2 & R2 & Q2).
  destruct (ineq_complete _ _ _ W H1 x (or_intror D) Fx) as (z & Fz & Ez & _). destruct Fz as (Zb & Zt & Zl & Zq). destruct (i2b_encode _ _ _ W1 H2 z B Zb Zt) as (y & Yb & Yt & Ey).
  assert (length y = num_vars (r_bin r)) as L by (symmetry; exact (Forall2_length _ _ _ Yb)).
  destruct (i2b_value _ _ _ W1 H2 y L) as (z' & E' & _ & _ & _ & Rw & _). rewrite Ey in E'. injection E' as <-.
  assert (feasible (r_bin r) y) as Fy. { split; [exact Yb|]. split; [exact Yt|]. split; [exact (proj1 (same_row_holds _ _ _ _ Rw) Zl)|]. unfold qcs_hold. rewrite Q2. constructor. }
  destruct (bin_stands y Fy) as (z' & St). pose proof St as (Fq & E & Fz). rewrite Ey in E. injection E as <-. exists y, z. split; [exact St|].
  destruct (stands_point _ _ St) as (I & _). rewrite (qubo_interpret_eq pen p r W H y (feas_len _ _ Fq)), Ey in I. cbn [bind] in I. rewrite Ez in I. injection I as I. symmetry. exact I.
Qed.
Lemma optimal_any : match pen with Some c => (weight (p_obj (r_bin r)) < c)%Qc | None => True end ->
  forall y, optimal (r_qubo r) y <-> exists z, bits_mean r y z /\ forall y' z', bits_mean r y' z' -> at_least (o_sense (p_obj p)) (worth p r z y) (worth p r z' y').
Proof using W H P IB F.
  intros Pen y. destruct (qubo_inv pen p r H) as (_ & _ & H1 & H2 & H3). destruct (qubo_wf pen p r H) as (W1 & W2 & W3). destruct bin_any as (O2 & R2 & Q2). destruct (qubo_all_binary pen p r H) as [_ B].
  assert (weight (p_obj (r_bin r)) < used_penalty pen r)%Qc as Big by (unfold used_penalty; destruct pen; [exact Pen|now apply auto_penalty_large]).
  assert (exists x, feasible (r_bin r) x) as F2. { destruct F as (x & Fx). destruct (every_point x Fx) as (y' & z' & St & _). exists y'. exact (stands_bin _ _ St). }
  rewrite (pen_exact _ _ _ W2 H3 B R2 Big Q2 O2 F2 y).
  assert (o_sense (p_obj (r_bin r)) = o_sense (p_obj p)) as S. { rewrite (i2b_sense _ _ _ H2). eapply ineq_shape; eauto. }
  unfold optimal. rewrite S. split.
  - intros [Fy M]. destruct (bin_stands y Fy) as (z & St). exists z. split; [exact St|]. intros y' z' St'. destruct (stands_point _ _ St) as (_ & _ & <-). destruct (stands_point _ _ St') as (_ & _ & <-). apply M. exact (stands_bin _ _ St').
  - intros (z & St & M). split; [exact (stands_bin _ _ St)|]. intros y' Fy'. destruct (bin_stands y' Fy') as (z' & St'). destruct (stands_point _ _ St) as (_ & _ & ->). destruct (stands_point _ _ St') as (_ & _ & ->). exact (M y' z' St').
Qed.
End Any.
