(** * Facts about the recursive optimizer: what becomes of the caller's problem without a conversion *)
From Verif Require Export RecurFacts6.
Local Open Scope nat_scope.

Lemma one_more_up i y : step_up i y (one_more i y).
Proof.
  unfold step_up, one_more. assert (length (map (fun ka => if Nat.eqb (fst ka) i then (snd ka + 1)%Qc else snd ka) (combine (seq 0 (length y)) y)) = length y) as L
    by (rewrite map_length, combine_length, seq_length; lia).
  split; [exact L|]. intros k Hk. unfold at_. rewrite (nth_indep _ 0%Qc ((fun ka : nat * Qc => if Nat.eqb (fst ka) i then (snd ka + 1)%Qc else snd ka) (0, 0%Qc))) by lia.
  rewrite (map_nth (fun ka : nat * Qc => if Nat.eqb (fst ka) i then (snd ka + 1)%Qc else snd ka)), combine_nth by apply seq_length. cbn [fst snd]. rewrite seq_nth by auto. cbn [plus].
  destruct (Nat.eqb k i); ring.
Qed.
Lemma shifted_moved p i p' : shifted p i p' -> quad_upper (o_quad (p_obj p)) -> i < num_vars p -> moved_up i p p'.
Proof.
  intros Sh U Hi. pose proof Sh as (e & E & _ & _ & C). unfold moved_up. rewrite E. split; [reflexivity|]. split; [reflexivity|]. split; [reflexivity|].
  intros g Hg Og x Lx. rewrite <- E, (shifted_value p i p' x (one_more i x) Sh U Hi Lx (one_more_up i x)).
  rewrite sumof_zero; [ring|]. intros k Hk. apply in_seq in Hk. rewrite E. cbn [p_obj set_obj o_lin]. rewrite C by lia. rewrite (cut_multiple g); [ring|exact Hg|].
  destruct Og as [O1 O2]. destruct (O1 k) as [z Hz]. unfold delta. destruct (Nat.eqb k i).
  - destruct (O2 i i) as [w Hw]. exists (z + 2 * w)%Z. rewrite Hz, Hw, qz_add, qz_mul. ring.
  - destruct (O2 (Nat.min i k) (Nat.max i k)) as [w Hw]. exists (z + w)%Z. rewrite Hz, Hw, qz_add. ring.
Qed.
Lemma subst_keeps kz s i j xi xj b t e : reduce_subst kz s i j xi xj b = (t, e) -> rs_orig t = rs_orig s /\ (e = Ok tt -> rs_same t = false).
Proof.
  unfold reduce_subst. destruct (substitute _ _ _ _) as [q|]; [destruct (p_status q)|]; intro H; injection H as <- <-; cbn; split; auto; discriminate.
Qed.
Lemma py_nth_lt {A} (l : list A) k a : py_nth l (Z.of_nat k) = Ok a -> k < length l.
Proof. intro H. apply nth_error_Some. rewrite (py_nth_some _ _ _ H). discriminate. Qed.

Section Keep.
Variables (kz : bool) (inner : nat -> qp -> result opt_result) (final : qp -> result opt_result) (min : nat) (p : qp).
Hypothesis Ob : obj_shaped p.
Hypothesis Up : quad_upper (o_quad (p_obj p)).
Hypothesis Fr : le_int (o_lin (p_obj p)) = false.

Definition fate (p' : qp) : Prop := (forall i, first_apart inner p i -> moved_up i p p') /\ ((forall i, ~ first_apart inner p i) -> p' = p).

Lemma round_fate t e : reduce_round kz (mkR p p true []) (inner 0 p) = (t, e) -> fate (rs_orig t) /\ (e = Ok tt -> rs_same t = false).
Proof.
  unfold reduce_round. cbn [rs_cur]. cbv zeta. intro H.
  assert (forall i, first_apart inner p i -> exists r m j vi vj, inner 0 p = Ok r /\ get_correlations r = Ok m /\ strongest m = Ok (i, j) /\
     py_nth (p_vars p) (Z.of_nat i) = Ok vi /\ py_nth (p_vars p) (Z.of_nat j) = Ok vj /\ qltb 0 (get2 m i j) = false /\ i < num_vars p) as Fa.
  { intros i (r & m & j & E1 & E2 & E3 & L1 & L2 & L3). unfold num_vars in *. destruct (nth_error (p_vars p) i) as [vi|] eqn:Ni; [|apply nth_error_None in Ni; lia].
    destruct (nth_error (p_vars p) j) as [vj|] eqn:Nj; [|apply nth_error_None in Nj; lia]. exists r, m, j, vi, vj. repeat split; auto.
    - apply (py_nth_in _ _ i); auto.
    - apply (py_nth_in _ _ j); auto.
    - destruct (qltb_spec 0 (get2 m i j)) as [Q|]; auto. exfalso. qlra. }
  destruct (inner 0 p) as [r|] eqn:Er; cbn [bind] in H.
  2:{ injection H as <- <-. split; [|discriminate]. split; auto. intros i F. destruct (Fa i F) as (? & ? & ? & ? & ? & A & _). discriminate A. }
  destruct (get_correlations r) as [m|] eqn:Em; cbn [bind] in H.
  2:{ injection H as <- <-. split; [|discriminate]. split; auto. intros i F. destruct (Fa i F) as (r' & ? & ? & ? & ? & A & B & _). injection A as <-. rewrite Em in B. discriminate B. }
  destruct (strongest m) as [[i j]|] eqn:Es; cbn [bind fst snd] in H.
  2:{ injection H as <- <-. split; [|discriminate]. split; auto. intros i F. destruct (Fa i F) as (r' & m' & ? & ? & ? & A & B & C & _). injection A as <-. rewrite Em in B. injection B as <-. rewrite Es in C. discriminate C. }
  assert (forall k, first_apart inner p k -> k = i /\ (exists vi, py_nth (p_vars p) (Z.of_nat i) = Ok vi) /\ (exists vj, py_nth (p_vars p) (Z.of_nat j) = Ok vj) /\ qltb 0 (get2 m i j) = false) as Fb.
  { intros k F. destruct (Fa k F) as (r' & m' & j' & vi & vj & A & B & C & D1 & D2 & D3 & _). injection A as <-. rewrite Em in B. injection B as <-. rewrite Es in C. injection C as <- <-. eauto 6. }
  destruct (py_nth (p_vars p) (Z.of_nat i)) as [vi|] eqn:Ei; cbn [bind] in H.
  2:{ injection H as <- <-. split; [|discriminate]. split; auto. intros k F. destruct (Fb k F) as (_ & [? A] & _). discriminate A. }
  destruct (py_nth (p_vars p) (Z.of_nat j)) as [vj|] eqn:Ej; cbn [bind] in H.
  2:{ injection H as <- <-. split; [|discriminate]. split; auto. intros k F. destruct (Fb k F) as (_ & _ & [? A] & _). discriminate A. }
  destruct (qltb 0 (get2 m i j)) eqn:Q.
  - apply subst_keeps in H. destruct H as [O S0]. cbn in O. split; [|exact S0]. rewrite O. split; auto. intros k F. destruct (Fb k F) as (_ & _ & _ & A). discriminate A.
  - pose proof (py_nth_lt _ _ _ Ei) as Li. pose proof (py_nth_lt _ _ _ Ej) as Lj. destruct (shift_spec p i Ob Fr Li) as (p1 & E1 & Sh). rewrite E1 in H.
    apply subst_keeps in H. destruct H as [O S0]. cbn in O. split; [|exact S0]. rewrite O. split.
    + intros k F. destruct (Fb k F) as (-> & _). now apply shifted_moved.
    + intro N. exfalso. apply (N i). exists r, m, j. repeat split; auto. destruct (qltb_spec 0 (get2 m i j)) as [|Q']; [discriminate Q|]. now apply Qcnot_lt_le.
Qed.
Lemma solve_fate : qubo_compatible p = true -> min < num_vars p -> fate (fst (recursive_solve kz inner final min [] p)).
Proof.
  intros Qc0 Lm. unfold recursive_solve. rewrite Qc0. cbn [convert_all foldM bind]. unfold convert_all. cbn [foldM].
  destruct (num_vars p) as [|n] eqn:En; [lia|]. cbn [reduce_loop rs_cur]. rewrite En. destruct (Nat.ltb_spec min (S n)) as [_|]; [|lia].
  destruct (reduce_round kz (mkR p p true []) (inner 0 p)) as [t e] eqn:E. destruct (round_fate t e E) as [F S0]. destruct e as [[]|e]; [|exact F].
  destruct (reduce_loop kz n inner min 1 t) as [s' e'] eqn:El. apply loop_keeps in El; [|auto]. destruct e'; cbn [fst]; now rewrite El.
Qed.
End Keep.
Lemma solve_idle kz inner final min p : qubo_compatible p = false \/ num_vars p <= min -> fst (recursive_solve kz inner final min [] p) = p.
Proof.
  intros [H|H]; unfold recursive_solve; [now rewrite H|]. destruct (qubo_compatible p); [|reflexivity]. unfold convert_all. cbn [foldM].
  assert ((min <? num_vars p) = false) as L by (apply Nat.ltb_ge; exact H). destruct (num_vars p) eqn:En; cbn [reduce_loop rs_cur]; rewrite En, L; reflexivity.
Qed.
