(** * Facts about the Grover search *)
From Verif Require Export GroverFacts.
Local Open Scope nat_scope.

Section Search.
Variables (n_value n_iter : nat) (root : Qc -> Qc) (spin : nat -> nat -> nat) (measure : nat -> qp -> nat -> list bool * circuit_results).
Variables (q0 q1 : qp) (caller : option qp) (fs : list interp).
Notation n := (le_dim (o_lin (p_obj q1))).
Notation step := (search_step n_value n_iter root spin measure q0 q1 caller fs).
Notation search := (search n_value n_iter root spin measure q0 q1 caller fs).
Hypothesis Pos : 0 < n.
Hypothesis Pv : 0 < n_value.
Hypothesis Sized : sized_outcomes n n_value measure.

Lemma n_key_dim : n_key q1 = n.
Proof. unfold n_key, lin_to_array. now rewrite map_length, seq_length. Qed.
Definition out_at (it : nat) (s : gstate) : list bool := fst (measure it (shifted_to q1 (g_thr s)) (spin it (g_m s))).
Definition val_at (it : nat) (s : gstate) : Z := (twos (value_register n n_value (out_at it s)) + g_thr s)%Z.
Definition state_at (it : nat) (s : gstate) : eigenstate := circuit_state root n (snd (measure it (shifted_to q1 (g_thr s)) (spin it (g_m s)))).
Definition better (a : Z) (b : option Z) : Prop := match b with None => True | Some b => (a < b)%Z end.

Lemma register_length it s : length (value_register n n_value (out_at it s)) = n_value.
Proof using Sized Pos Pv. unfold value_register. rewrite firstn_length, skipn_length. specialize (Sized it (shifted_to q1 (g_thr s)) (spin it (g_m s))). unfold out_at. lia. Qed.
Lemma key_length it s : length (firstn n (out_at it s)) = n.
Proof using Sized Pos Pv. rewrite firstn_length. specialize (Sized it (shifted_to q1 (g_thr s)) (spin it (g_m s))). unfold out_at. lia. Qed.
Lemma reads it s : int2 (firstn n (out_at it s)) = Ok (magnitude (firstn n (out_at it s))) /\
  bin_to_int (firstn n_value (skipn n (out_at it s))) n_value = Ok (twos (value_register n n_value (out_at it s))).
Proof using Sized Pos Pv.
  split; [apply int2_spec; intro E; pose proof (key_length it s) as K; rewrite E in K; cbn in K; lia|]. apply bin_to_int_spec; auto. apply register_length.
Qed.
Lemma step_cases it s s' stop : step it s = Ok (s', stop) -> g_log s' = g_log s ++ [(out_at it s, val_at it s)] /\
  ((better (val_at it s) (g_val s) /\ stop = false /\ g_key s' = magnitude (firstn n (out_at it s)) /\ g_val s' = Some (val_at it s) /\ g_thr s' = val_at it s /\ g_loops s' = 0 /\
    exists l, eigenvector_to_solutions (state_at it s) q0 MIN_PROB = Ok l /\ g_raw s' = sort_by (raw_lt (o_sense (p_obj q1))) l /\
      interpret_samples (caller_at q1 caller (g_thr s)) fs (g_raw s') = Ok (g_samples s')) \/
   (exists b, g_val s = Some b /\ (b <= val_at it s)%Z /\ g_key s' = g_key s /\ g_val s' = g_val s /\ g_thr s' = g_thr s /\ g_loops s' = S (g_loops s) /\
    (n_iter <= S (g_loops s) -> stop = true) /\ g_raw s' = g_raw s /\ g_samples s' = g_samples s)).
Proof using Sized Pos Pv.
  unfold search_step. rewrite n_key_dim. fold (out_at it s). destruct (reads it s) as [R1 R2]. rewrite R1, R2. cbn [bind]. fold (val_at it s). intro E.
  destruct (match g_val s with None => true | Some best => (val_at it s <? best)%Z end) eqn:B.
  - apply bind_ok in E. destruct E as (l & El & E). apply bind_ok in E. destruct E as (sm & Es & E). injection E as <- <-. cbn [g_log g_key g_val g_thr g_loops g_raw g_samples]. split; auto. left.
    split. { unfold better. destruct (g_val s); auto. now apply Z.ltb_lt. }
    split; auto. split; auto. split; auto. split; auto. split; auto. exists l. auto.
  - destruct (g_val s) as [b|] eqn:Ev; [|discriminate B]. injection E as <- <-. cbn [g_log g_key g_val g_thr g_loops g_raw g_samples]. split; auto. right. exists b.
    split; auto. split; [now apply Z.ltb_ge|]. repeat (split; auto). intro L. apply Nat.leb_le in L. now rewrite L.
Qed.

(** The best value so far, with the outcome it was read from *)
Definition best_so_far (s : gstate) : Prop :=
  match g_val s with
  | None => g_log s = [] /\ g_thr s = 0%Z
  | Some v => g_thr s = v /\ (exists out, In (out, v) (g_log s) /\ g_key s = magnitude (firstn n out)) /\
      forall out w, In (out, w) (g_log s) -> (v <= w)%Z /\ n <= length out
  end.
Lemma step_best it s s' stop : best_so_far s -> step it s = Ok (s', stop) -> best_so_far s' /\ g_val s' <> None.
Proof using Sized Pos Pv.
  intros I E. apply step_cases in E. destruct E as [El E]. assert (n <= length (out_at it s)) as Lo. { pose proof (key_length it s) as K. rewrite firstn_length in K. lia. }
  unfold best_so_far in *. destruct E as [(B & _ & Ek & Ev & Et & _)|(b & Eb & Le & Ek & Ev & Et & _)]; rewrite Ev.
  - split; [|discriminate]. split; auto. split; [exists (out_at it s); rewrite El; split; auto; apply in_or_app; right; now left|].
    intros out w H. rewrite El in H. apply in_app_or in H. destruct H as [H|[H|[]]]; [|injection H as <- <-; split; auto; lia].
    destruct (g_val s) as [v|]; [|now rewrite (proj1 I) in H]. destruct I as (_ & _ & I). destruct (I _ _ H). cbn in B. split; auto; lia.
  - rewrite Eb in *. split; [|discriminate]. destruct I as (It & (out & Io & Ik) & I). split; [congruence|]. split; [exists out; rewrite El, Ek; split; auto; apply in_or_app; now left|].
    intros o w H. rewrite El in H. apply in_app_or in H. destruct H as [H|[H|[]]]; [auto|]. injection H as <- <-. auto.
Qed.
Lemma search_best fuel : forall it s s' res, best_so_far s -> search fuel it s = (s', res) -> best_so_far s' /\ (res = Ok tt -> g_val s' <> None).
Proof using Sized Pos Pv.
  induction fuel as [|fuel IH]; intros it s s' res I E; cbn [Grover.search] in E; [injection E as <- <-; split; [auto|discriminate]|].
  destruct (step it s) as [[s1 stop]|e] eqn:E1; [|injection E as <- <-; split; [auto|discriminate]]. destruct (step_best _ _ _ _ I E1) as [I1 N1].
  destruct stop; [injection E as <- <-; auto|eauto].
Qed.
Lemma start_best : best_so_far g_start. Proof. split; auto. Qed.
Lemma final_point_spec s out : n <= length out -> g_key s = magnitude (firstn n out) -> forall v, g_val s = Some v ->
  final_point q1 s = if (0 <=? v)%Z && qeqb (o_const (p_obj q1)) 0 then repeat 0%Qc n else key_point n out.
Proof using Pos.
  clear -Pos. intros L K v V. unfold final_point, final_key. rewrite V, n_key_dim. destruct (_ && _).
  - rewrite key_digits_zero by auto. clear. generalize n. intro k. induction k; cbn [repeat map]; auto. now f_equal.
  - assert (length (firstn n out) = n) as Lf by (rewrite firstn_length; lia). rewrite K. rewrite <- Lf at 1. rewrite key_digits_spec; [reflexivity|]. intro E. rewrite E in Lf. cbn in Lf. lia.
Qed.

(** ** Honest measurements *)
Hypothesis Honest : honest n n_value measure.
Hypothesis Int : forall x, bits n x -> integral (obj_at (p_obj q1) x).
Hypothesis Fits : forall x, bits n x -> (- half n_value <= obj_at (p_obj q1) x)%Qc /\ (obj_at (p_obj q1) x < half n_value)%Qc /\
  forall y, bits n y -> (obj_at (p_obj q1) x - obj_at (p_obj q1) y < half n_value)%Qc.
Definition true_values (s : gstate) : Prop := forall out v, In (out, v) (g_log s) -> qz v = obj_at (p_obj q1) (key_point n out).
Lemma shifted_at t x : obj_at (p_obj (shifted_to q1 t)) x = (obj_at (p_obj q1) x - qz t)%Qc.
Proof. unfold obj_at, shifted_to, set_constant. cbn [p_obj set_obj o_const o_lin o_quad]. ring. Qed.
Lemma step_true it s s' stop : best_so_far s -> true_values s -> step it s = Ok (s', stop) -> true_values s'.
Proof using Sized Pos Pv Honest Int Fits.
  intros I T E. apply step_cases in E. destruct E as [El _]. intros out v H. rewrite El in H. apply in_app_or in H. destruct H as [H|[H|[]]]; [auto|]. injection H as <- <-.
  assert (bits n (key_point n (out_at it s))) as B. { apply key_point_bits. pose proof (key_length it s) as K. rewrite firstn_length in K. lia. }
  destruct (Int _ B) as [z Ez]. assert (obj_at (p_obj (shifted_to q1 (g_thr s))) (key_point n (out_at it s)) = qz (z - g_thr s)) as Ez'. { rewrite shifted_at, Ez, <- qz_sub. reflexivity. }
  destruct (Honest _ _ _ _ Ez') as [c Hc]. fold (out_at it s) in Hc. unfold val_at. pose proof (register_length it s) as Lr.
  rewrite (twos_class _ (z - g_thr s)%Z c).
  - rewrite Ez. f_equal. lia.
  - intro N. rewrite N in Lr. cbn in Lr. lia.
  - now rewrite Lr.
  - rewrite Lr. destruct (Fits _ B) as (F1 & F2 & F3). rewrite Ez in F1, F2, F3. unfold half in *. unfold best_so_far in I. destruct (g_val s) as [b|] eqn:Eb.
    + destruct I as (It & (out & Io & _) & I). destruct (I _ _ Io) as [_ Lo]. pose proof (T _ _ Io) as Tv. pose proof (key_point_bits n out Lo) as B2. specialize (F3 _ B2). destruct (Fits _ B2) as (_ & _ & F4). specialize (F4 _ B).
      rewrite Ez in F4. rewrite <- Tv in F3, F4. rewrite <- qz_sub in F3, F4. rewrite qz_lt in F3, F4. rewrite It. lia.
    + destruct I as [_ It]. rewrite It, Z.sub_0_r. rewrite qz_lt in F2. rewrite <- qz_opp, qz_le in F1. lia.
Qed.
Lemma search_true fuel : forall it s s' res, best_so_far s -> true_values s -> search fuel it s = (s', res) -> true_values s'.
Proof using Sized Pos Pv Honest Int Fits.
  induction fuel as [|fuel IH]; intros it s s' res I T E; cbn [Grover.search] in E; [injection E as <- <-; auto|].
  destruct (step it s) as [[s1 stop]|e] eqn:E1; [|injection E as <- <-; auto]. destruct (step_best _ _ _ _ I E1) as [I1 _]. pose proof (step_true _ _ _ _ I T E1) as T1.
  destruct stop; [injection E as <- <-; auto|eauto].
Qed.
Lemma start_true : true_values g_start. Proof. intros ? ? []. Qed.

(** ** The end of the search *)
Hypothesis Steps : forall it s, exists r, step it s = Ok r.
Notation N := (Z.of_nat (Nat.max 1 n_iter)).
Notation H := (2 ^ (Z.of_nat n_value - 1))%Z.
Definition rank (s : gstate) : Z := match g_val s with None => (2 * H)%Z | Some v => (v + H)%Z end.
Lemma rank_nonneg s : best_so_far s -> true_values s -> (0 <= rank s)%Z.
Proof using Fits.
  clear -Fits. intros I T. unfold rank, best_so_far in *. destruct (g_val s) as [v|]; [|lia]. destruct I as (_ & (out & Io & _) & I). destruct (I _ _ Io) as [_ Lo]. specialize (T _ _ Io).
  destruct (Fits _ (key_point_bits n out Lo)) as (F1 & _). rewrite <- T in F1. unfold half in F1. rewrite <- qz_opp, qz_le in F1. lia.
Qed.
Lemma search_ends fuel : forall it s, best_so_far s -> true_values s -> g_loops s < Nat.max 1 n_iter ->
  (rank s * N + (N - Z.of_nat (g_loops s)) <= Z.of_nat fuel)%Z -> snd (search fuel it s) = Ok tt.
Proof using Sized Pos Pv Honest Int Fits Steps.
  induction fuel as [|fuel IH]; intros it s I T L F.
  - pose proof (rank_nonneg s I T). nia.
  - cbn [Grover.search]. destruct (Steps it s) as [[s' stop] E]. rewrite E. destruct stop; [reflexivity|]. destruct (step_best _ _ _ _ I E) as [I' _]. pose proof (step_true _ _ _ _ I T E) as T'.
    pose proof (rank_nonneg s' I' T') as R'. apply step_cases in E. destruct E as [El E]. apply IH; auto.
    + destruct E as [(_ & _ & _ & _ & _ & Lo & _)|(b & _ & _ & _ & _ & _ & Lo & St & _)]; [lia|]. destruct (Nat.le_gt_cases n_iter (S (g_loops s))) as [Li|Li]; [discriminate (St Li)|lia].
    + destruct E as [(B & _ & _ & Ev & _ & Lo & _)|(b & _ & _ & _ & Ev & _ & Lo & St & _)].
      * assert (rank s' + 1 <= rank s)%Z as R. { unfold rank in *. rewrite Ev in *. unfold better in B. destruct (g_val s) as [b|]; [lia|].
          assert (qz (val_at it s) = obj_at (p_obj q1) (key_point n (out_at it s))) as Tv. { apply T'. rewrite El. apply in_or_app. right. now left. }
          assert (n <= length (out_at it s)) as Lo'. { pose proof (key_length it s) as K. rewrite firstn_length in K. lia. }
          destruct (Fits _ (key_point_bits n _ Lo')) as (_ & F2 & _). rewrite <- Tv in F2. unfold half in F2. rewrite qz_lt in F2. lia. }
        rewrite Lo. nia.
      * unfold rank in *. rewrite Ev in *. rewrite Lo. lia.
Qed.
Lemma search_total fuel : (2 ^ n_value + 1) * Nat.max 1 n_iter <= fuel -> snd (search fuel 0 g_start) = Ok tt.
Proof using Sized Pos Pv Honest Int Fits Steps.
  intro F. apply search_ends; [apply start_best|apply start_true|cbn [g_start g_loops]; lia|]. unfold rank. cbn [g_start g_val g_loops]. apply Nat2Z.inj_le in F. rewrite Nat2Z.inj_mul, Nat2Z.inj_add, Nat2Z.inj_pow in F. change (Z.of_nat 2) with 2%Z in F. change (Z.of_nat 0) with 0%Z. change (Z.of_nat 1) with 1%Z in F.
  replace (2 * H)%Z with (2 ^ Z.of_nat n_value)%Z; [rewrite Z.mul_add_distr_r, Z.mul_1_l in F; lia|]. rewrite <- Z.pow_succ_r by lia. f_equal. lia.
Qed.
End Search.
