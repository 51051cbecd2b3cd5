(** * Exact values after IntegerToBinary *)
From Verif Require Export SpecLost QuboFacts.
Local Open Scope nat_scope.

Lemma lost_none p q tbl e x y : Forall (fun v => is_int v = false) (p_vars p) -> lost p q tbl e x y = 0%Qc.
Proof.
  intro F. unfold lost. apply sumof_zero. intros [[i j] w] _. cbn [fst snd]. destruct (nth_error (p_vars p) i) as [vi|] eqn:E; [|reflexivity].
  destruct (nth_error (p_vars p) j) as [vj|]; [|reflexivity]. rewrite Forall_forall in F. apply nth_error_In, F in E. unfold is_int in E. destruct (v_type vi); congruence.
Qed.

Section Exact.
Variables (p q : qp) (tbl : conv_table).
Hypothesis W : prog_wf p.
Lemma lost_decoded (I : i2b_inv p q tbl) e y : lost p q tbl e (decoded p y) y = e_loss p e y.
Proof using W.
  pose proof (ib_conv _ _ _ I) as C. pose proof (tracks_names _ _ (ib_tracks _ _ _ I)) as N.
  assert (forall i v, nth_error (p_vars p) i = Some v -> v_type v = INTEGER -> (at_ (decoded p y) i - v_lb v - bits_set q tbl y i)%Qc = bit_gap (valof (xp_names (p_vars p)) y) v) as G.
  { intros i v E T. unfold bits_set. rewrite (C i v E), N. assert (is_int v = true) as Ti by (unfold is_int; now rewrite T). rewrite Ti.
    assert (at_ (decoded p y) i = dec (xp_names (p_vars p)) y v) as ->. { unfold at_, decoded. apply nth_error_nth. now rewrite nth_error_map, E. }
    unfold dec, bit_gap, lbc, xp. rewrite Ti. ring. }
  unfold lost, e_loss. apply sumof_ext. intros [[i j] w] _. cbn [fst snd].
  destruct (nth_error (p_vars p) i) as [vi|] eqn:Ei; [|reflexivity]. destruct (nth_error (p_vars p) j) as [vj|] eqn:Ej; [|reflexivity].
  assert (forall v, v_type v <> INTEGER -> is_int v = false) as K by (intros v Hv; unfold is_int; destruct (v_type v); congruence).
  assert (forall v, v_type v = INTEGER -> lbc v = v_lb v) as L by (intros v Hv; unfold lbc, is_int; now rewrite Hv).
  assert (forall v, v_type v <> INTEGER -> lbc v = 0%Qc) as L0 by (intros v Hv; unfold lbc; now rewrite K).
  destruct (v_type vi) eqn:Ti; [| |destruct (v_type vj) eqn:Tj].
  - rewrite (bit_gap_kept _ vi), (L0 vi) by (try apply K; congruence). ring.
  - rewrite (bit_gap_kept _ vi), (L0 vi) by (try apply K; congruence). ring.
  - rewrite (bit_gap_kept _ vj), (L0 vj) by (try apply K; congruence). ring.
  - rewrite (bit_gap_kept _ vj), (L0 vj) by (try apply K; congruence). ring.
  - rewrite (G i vi Ei Ti), (G j vj Ej Tj), (L vi Ti), (L vj Tj). reflexivity.
Qed.
Hypothesis H : int_to_bin p = Ok (q, tbl).
Lemma i2b_value y : length y = num_vars q -> exists x, i2b_interpret p (conv_of tbl) q y = Ok x /\ length x = num_vars p /\
  o_sense (p_obj q) = o_sense (p_obj p) /\ (obj_at (p_obj q) y = obj_at (p_obj p) x - lost p q tbl (o_quad (p_obj p)) x y)%Qc /\
  Forall2 (same_row x y) (p_lcs p) (p_lcs q) /\ Forall2 (row_less p q tbl x y) (p_qcs p) (p_qcs q).
Proof using W H.
  intro L. destruct (i2b_interpret_ok p q tbl W H y L) as (x & E & Lx). exists x. split; [exact E|]. split; [exact Lx|].
  destruct (int_to_bin_inv p q tbl W H) as [(-> & Et & F)|I].
  - rewrite Et in E. rewrite (i2b_id_interpret p W y F L) in E. injection E as <-. split; [reflexivity|]. split; [rewrite lost_none by exact F; ring|]. split; [apply same_row_refl|].
    generalize (p_qcs p). intro l. induction l as [|c l IH]; constructor; auto. split; [reflexivity|]. split; [reflexivity|]. rewrite lost_none by exact F. ring.
  - rewrite (i2b_interpret_spec p (conv_of tbl) W) in E; [|apply I|apply I|apply I|rewrite L; now apply tracks_length, I]. injection E as <-.
    destruct (ib_exact _ _ _ I) as (A & B & C & D & _). split; [exact A|]. rewrite (lost_decoded I). split; [exact (B y L)|]. split; [exact (C y L)|].
    specialize (D y L). induction D as [|c c' l l' (D1 & D2 & D3) _ IH]; constructor; [|exact IH]. split; [exact D1|]. split; [exact D2|]. rewrite (lost_decoded I). exact D3.
Qed.
End Exact.

Lemma same_violation x y cs cs' : Forall2 (same_row x y) cs cs' -> violation cs' y = violation cs x.
Proof.
  intro R. unfold violation, sumof. induction R as [|c c' cs cs' (_ & _ & E) _ IH]; [reflexivity|]. cbn [map fold_right]. rewrite IH.
  assert (lc_rhs c' - lc_at c' y = lc_rhs c - lc_at c x)%Qc as ->; [|reflexivity].
  replace (lc_rhs c' - lc_at c' y)%Qc with (- (lc_at c' y - lc_rhs c'))%Qc by ring. rewrite E. ring.
Qed.

(** ** The QUBO: value of every assignment *)
Section Qubo.
Variables (pen : option Qc) (p : qp) (r : qubo_run).
Hypothesis W : prog_wf p.
Hypothesis H : to_qubo pen p = Ok r.
Lemma qubo_value y : length y = num_vars (r_qubo r) -> exists z, i2b_interpret (r_eq r) (conv_of (r_conv r)) (r_bin r) y = Ok z /\ length z = num_vars (r_eq r) /\
  qubo_interpret r y = Ok (firstn (num_vars p) z) /\
  (obj_at (p_obj (r_qubo r)) y = obj_at (p_obj p) (firstn (num_vars p) z) - lost (r_eq r) (r_bin r) (r_conv r) (o_quad (p_obj (r_eq r))) z y
    + sense_val (o_sense (p_obj p)) * used_penalty pen r * violation (p_lcs (r_eq r)) z)%Qc.
Proof using W H.
  intro L. destruct (qubo_inv pen p r H) as (_ & _ & H1 & H2 & H3). destruct (qubo_wf pen p r H) as (W1 & W2 & W3).
  destruct (penalize_spec _ _ _ W2 H3) as (V & _ & _ & S & _ & _ & _ & P).
  assert (length y = num_vars (r_bin r)) as L2 by (rewrite L; unfold num_vars; now rewrite V, map_length).
  destruct (i2b_value _ _ _ W1 H2 y L2) as (z & E & Lz & S2 & O & R & _). exists z. split; [exact E|]. split; [exact Lz|].
  destruct (ineq_to_eq_inv MInteger p (r_eq r) W H1) as (sv & I & _). pose proof (ieinv_nv _ _ _ _ _ I) as NV.
  assert (length (firstn (num_vars p) z) = num_vars p) as Lf by (rewrite firstn_length; lia).
  assert (length (skipn (num_vars p) z) = length sv) as Ls by (rewrite skipn_length; lia).
  split.
  - rewrite (qubo_interpret_eq pen p r W H y L), E. cbn [bind]. rewrite <- (firstn_skipn (num_vars p) z) at 1. apply (ineq_interpret_prefix MInteger p (r_eq r) W H1); [exact Lf|]. now rewrite firstn_skipn.
  - rewrite (P y L2), O, S2, (ie_sense _ _ _ _ _ I), (same_violation z y _ _ R).
    rewrite <- (firstn_skipn (num_vars p) z) at 1. rewrite (ie_obj _ _ _ _ _ I) by assumption. reflexivity.
Qed.
End Qubo.
