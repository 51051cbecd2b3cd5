(** * Facts about the Ising conversions: reduction, reading an operator *)
From Verif Require Export IsingFacts.
Local Open Scope list_scope.
Local Open Scope nat_scope.

(** ** Positions of flags *)
Definition flagged_from (s : nat) (z : list bool) : list nat :=
  map fst (filter (fun iz : nat * bool => snd iz) (combine (seq s (length z)) z)).
Lemma flagged_cons s b z : flagged_from s (b :: z) = (if b then [s] else []) ++ flagged_from (S s) z.
Proof. unfold flagged_from. simpl. destruct b; reflexivity. Qed.
Lemma flagged_from_in z : forall s i, In i (flagged_from s z) <-> s <= i /\ nth_error z (i - s) = Some true.
Proof.
  induction z as [|b z IH]; intros s i.
  - unfold flagged_from. simpl. split; [contradiction|]. intros [_ H]. destruct (i - s); discriminate H.
  - rewrite flagged_cons, in_app_iff, IH. split.
    + intros [H|[H1 H2]].
      * destruct b; [|contradiction]. destruct H as [<-|[]]. rewrite Nat.sub_diag. auto.
      * split; [lia|]. replace (i - s) with (S (i - S s)) by lia. exact H2.
    + intros [H1 H2]. destruct (Nat.eq_dec i s) as [->|N].
      * rewrite Nat.sub_diag in H2. simpl in H2. injection H2 as ->. simpl. auto.
      * right. split; [lia|]. replace (i - s) with (S (i - S s)) in H2 by lia. exact H2.
Qed.
Lemma flagged_in z i : In i (flagged z) <-> nth_error z i = Some true.
Proof. change (flagged z) with (flagged_from 0 z). rewrite flagged_from_in, Nat.sub_0_r. split; [tauto|auto with arith]. Qed.
Lemma flagged_from_length z : forall s, length (flagged_from s z) = length (filter (fun b : bool => b) z).
Proof. induction z as [|b z IH]; intro s; auto. rewrite flagged_cons, app_length, IH. destruct b; reflexivity. Qed.
Lemma flagged_length z : length (flagged z) = length (filter (fun b : bool => b) z).
Proof. apply flagged_from_length. Qed.
Lemma flagged_sorted2 z i j : flagged z = [i; j] -> i < j.
Proof.
  change (flagged z) with (flagged_from 0 z). generalize 0. induction z as [|b z IH]; intros s H; [discriminate H|].
  rewrite flagged_cons in H. destruct b; [|now apply IH in H]. simpl in H. injection H as -> H.
  assert (In j (flagged_from (S i) z)) as J by (rewrite H; simpl; auto). apply flagged_from_in in J. lia.
Qed.
Lemma nth_ext_bool (a b : list bool) : length a = length b -> (forall i, nth_error a i = Some true <-> nth_error b i = Some true) -> a = b.
Proof.
  revert b. induction a as [|u a IH]; intros [|v b] L H; simpl in L; try lia; auto. f_equal.
  - specialize (H 0). simpl in H. destruct u, v; auto; destruct H as [H1 H2]; [discriminate (H1 eq_refl)|discriminate (H2 eq_refl)].
  - apply IH; [lia|]. intro i. exact (H (S i)).
Qed.
Lemma flagged_inj a b : length a = length b -> flagged a = flagged b -> a = b.
Proof. intros L E. apply nth_ext_bool; auto. intro i. rewrite <- !flagged_in, E. tauto. Qed.
Lemma no_x_flags n z : length z = n -> existsb (fun b => b) z = false -> z = no_flags n.
Proof.
  intros <- H. induction z as [|b z IH]; auto. simpl in H. apply orb_false_iff in H. destruct H as [-> H]. simpl. unfold no_flags. simpl. f_equal. now apply IH.
Qed.
Lemma flagged_one n i : i < n -> flagged (update i true (no_flags n)) = [i].
Proof.
  intro H. assert (length (flagged (update i true (no_flags n))) = 1) as L.
  { rewrite flagged_length, count_set by now apply nth_no_flags. now rewrite no_flags_filter. }
  destruct (flagged _) as [|a [|b l]] eqn:E; try discriminate L. f_equal.
  assert (In i [a]) as [A|[]]; auto. rewrite <- E. apply flagged_in. rewrite nth_error_update, Nat.eqb_refl, no_flags_length.
  destruct (Nat.ltb_spec i n); [reflexivity|lia].
Qed.
(** A Z string with one or two factors and its positions *)
Definition code (p : pauli) : nat * nat := match flagged (fst p) with [i] => (i, i) | [i; j] => (i, j) | _ => (0, 0) end.
Lemma term_shape n p c : ising_term n (p, c) -> snd p = no_flags n /\ length (fst p) = n /\
  ((exists i, i < n /\ flagged (fst p) = [i]) \/ (exists i j, i < j /\ j < n /\ flagged (fst p) = [i; j])).
Proof.
  intros (H1 & H2 & H3 & H4). cbn [fst snd] in *. split; [now apply no_x_flags|]. split; auto. rewrite <- flagged_length in H4.
  assert (forall i, In i (flagged (fst p)) -> i < n) as B.
  { intros i Hi. apply flagged_in in Hi. rewrite <- H1. apply nth_error_Some. congruence. }
  destruct (flagged (fst p)) as [|i [|j [|k l]]] eqn:E; simpl in H4; try lia.
  - left. exists i. split; auto. apply B. simpl; auto.
  - right. exists i, j. split; [now apply (flagged_sorted2 (fst p))|]. split; auto. apply B. simpl; auto.
Qed.
Lemma code_inj n p c q d : ising_term n (p, c) -> ising_term n (q, d) -> code p = code q -> p = q.
Proof.
  intros H1 H2. apply term_shape in H1, H2. destruct H1 as (X1 & L1 & S1), H2 as (X2 & L2 & S2). intro E.
  rewrite (surjective_pairing p), (surjective_pairing q). f_equal; [|congruence]. apply flagged_inj; [congruence|].
  unfold code in E. destruct S1 as [(i & _ & S1)|(i & j & Hij & _ & S1)], S2 as [(k & _ & S2)|(k & l & Hkl & _ & S2)];
    rewrite S1, S2 in E |- *; injection E; intros; subst; auto; lia.
Qed.
Lemma code_range n p c : ising_term n (p, c) -> In (code p) (pairs n).
Proof.
  intro H. apply term_shape in H. destruct H as (_ & _ & [(i & H & E)|(i & j & H1 & H2 & E)]); unfold code; rewrite E; apply in_pairs; lia.
Qed.
Lemma pairs_length n : length (pairs n) = n * n.
Proof.
  unfold pairs. assert (forall l : list nat, length (flat_map (fun i : nat => map (fun j : nat => (i, j)) (seq 0 n)) l) = length l * n) as A.
  { induction l as [|a l IH]; auto. simpl. rewrite app_length, map_length, seq_length, IH. reflexivity. }
  rewrite A, seq_length. reflexivity.
Qed.
Lemma terms_count n l : good_terms n l -> NoDup (map fst l) -> length l <= n * n.
Proof.
  intros G N. rewrite <- pairs_length, <- (map_length fst), <- (map_length code). apply NoDup_incl_length.
  - clear -G N. induction l as [|[p c] l IH]; [constructor|]. inversion G; inversion N; subst. cbn [fst] in *. simpl. constructor; auto.
    intro H. apply in_map_iff in H. destruct H as (q & E & H). apply in_map_iff in H. destruct H as ([q' d] & E' & H). cbn [fst] in E'. subst q'.
    apply H5. apply in_map_iff. exists (q, d). split; auto. simpl. unfold good_terms in H2. rewrite Forall_forall in H2.
    exact (code_inj n q d p c (H2 _ H) H1 E).
  - intros c H. apply in_map_iff in H. destruct H as (q & <- & H). apply in_map_iff in H. destruct H as ([q' d] & <- & H).
    unfold good_terms in G. rewrite Forall_forall in G. exact (code_range n q' d (G _ H)).
Qed.

(** ** Reduction *)
Lemma zval_unit n z x : bits n x -> zval z x = 1%Qc \/ zval z x = (- (1))%Qc.
Proof.
  intros [_ F]. revert z. induction F as [|a x [-> | ->] F IH]; intros [|b z]; simpl; auto;
  destruct (IH z) as [-> | ->], b; [left|left|right|right|right|left|left|right]; rewrite ?qz_0; change (qz 2) with (1 + 1)%Qc; ring.
Qed.
Lemma diag_bound n p x : bits n x -> (qabs (pauli_diag p x) <= 1)%Qc.
Proof.
  intro B. unfold pauli_diag. destruct (existsb _ _); [apply qabs_bound; split; qlra|]. apply qabs_bound.
  destruct (zval_unit n (fst p) x B) as [-> | ->]; split; qlra.
Qed.
Definition keep (t : pauli * Qc) : bool := qltb ATOL (qabs (snd t)).
Lemma reduce_ev n l x : ev x (reduce_terms n l) = ev x (filter keep (merge_terms l)).
Proof. unfold reduce_terms, keep. destruct (filter _ _) as [|t r]; [|reflexivity]. unfold ev. cbn [sumof fst snd]. ring. Qed.
Lemma ATOL_pos : (0 < ATOL)%Qc. Proof. reflexivity. Qed.
Lemma reduce_bound n l x : good_terms n l -> bits n x -> (qabs (ev x (reduce_terms n l) - ev x l) <= ATOL * qn (n * n))%Qc.
Proof.
  intros G B. rewrite reduce_ev, <- (merge_ev x l).
  assert (good_terms n (merge_terms l)) as G' by (apply merge_terms_Forall; auto).
  set (m := merge_terms l) in *. unfold ev at 2. rewrite (sumof_split _ keep m).
  fold (ev x (filter keep m)). fold (ev x (filter (fun t => negb (keep t)) m)).
  replace (ev x (filter keep m) - (ev x (filter keep m) + ev x (filter (fun t => negb (keep t)) m)))%Qc with (- ev x (filter (fun t => negb (keep t)) m))%Qc by ring.
  rewrite qabs_opp. eapply Qcle_trans; [apply sumof_abs|].
  apply Qcle_trans with (sumof (fun _ => ATOL) (filter (fun t => negb (keep t)) m)).
  - apply sumof_le. intros [p c] Hin. apply filter_In in Hin. destruct Hin as [_ Hk]. unfold keep in Hk. cbn [fst snd] in *. apply negb_true_iff in Hk.
    rewrite qabs_mul. pose proof (diag_bound n p x B) as D. destruct (qltb_spec ATOL (qabs c)) as [?|K]; [discriminate Hk|]. pose proof (qabs_nonneg c). pose proof ATOL_pos.
    revert K H H0 D. generalize (qabs c) (qabs (pauli_diag p x)) ATOL. intros a d t K H H0 D. apply Qcle_trans with (a * 1)%Qc; [|qlra].
    rewrite Qcmult_comm, (Qcmult_comm a 1). apply Qcmult_le_compat_r; auto.
  - rewrite sumof_const. rewrite (Qcmult_comm ATOL). apply Qcmult_le_compat_r; [|apply Qclt_le_weak, ATOL_pos]. apply qn_le.
    apply Nat.le_trans with (length m); [|apply terms_count; [exact G'|apply merge_nodup]].
    clear. induction m as [|t m IH]; simpl; auto. destruct (negb (keep t)); simpl; lia.
Qed.
Lemma reduce_exact n l x g : (qz 4 * ATOL < g)%Qc -> grid_terms g l -> ev x (reduce_terms n l) = ev x l.
Proof.
  intros Hg G. rewrite reduce_ev, <- (merge_ev x l).
  assert (grid_terms g (merge_terms l)) as G'.
  { apply merge_terms_Forall; auto. intros p a b. simpl. apply multiple_add. }
  set (m := merge_terms l) in *. unfold ev. rewrite (sumof_split _ keep m).
  enough (sumof (fun t => snd t * pauli_diag (fst t) x) (filter (fun t => negb (keep t)) m) = 0)%Qc as -> by ring.
  apply sumof_zero. intros [p c] Hin. apply filter_In in Hin. destruct Hin as [Hin Hk]. unfold grid_terms in G'. rewrite Forall_forall in G'.
  apply G' in Hin. cbn [fst snd] in *. destruct Hin as [z ->]. unfold keep in Hk. cbn [snd] in Hk. apply negb_true_iff in Hk.
  destruct (Z.eq_dec z 0) as [->|Nz]; [rewrite qz_0; ring|]. exfalso.
  destruct (qltb_spec ATOL (qabs (qz z * (g / qz 4)))) as [?|K]; [discriminate Hk|].
  apply Qcnot_lt_le, qabs_bound in K. assert (ATOL < g / qz 4)%Qc as A.
  { clear -Hg. assert (0 < / qz 4)%Qc as P by reflexivity. apply (Qcmult_lt_compat_r _ _ _ P) in Hg. replace ATOL with (qz 4 * ATOL * / qz 4)%Qc by fld. exact Hg. }
  revert A K. generalize (g / qz 4)%Qc. intros h A K. pose proof ATOL_pos as P. destruct (Z_lt_le_dec z 0) as [Z|Z].
  - assert (qz z <= qz (-1))%Qc as Q by (apply qz_le; lia). destruct K as [K _].
    assert (qz z * h <= qz (-1) * h)%Qc as R by (apply Qcmult_le_compat_r; auto; apply Qclt_le_weak; now apply Qclt_trans with ATOL).
    change (qz (-1)) with (- (1))%Qc in R. qlra.
  - assert (qz 1 <= qz z)%Qc as Q by (apply qz_le; lia). destruct K as [_ K].
    assert (qz 1 * h <= qz z * h)%Qc as R by (apply Qcmult_le_compat_r; auto; apply Qclt_le_weak; now apply Qclt_trans with ATOL).
    rewrite qz_1 in R. qlra.
Qed.

(** ** to_ising *)
Lemma sense_sgn s : sgn_ok (sense_val s). Proof. destruct s; [left|right]; reflexivity. Qed.
Lemma sense_sign s : sense_val s = sign s. Proof. destruct s; reflexivity. Qed.
Record ising_data (p : qp) (op : qop) (off : Qc) (l : list (pauli * Qc)) : Prop := {
  id_op : op = mkOp (num_vars p) (finish_op (num_vars p) (fold_left sum_add l SZero));
  id_good : good_terms (num_vars p) l;
  id_grid : forall g, on_grid g p -> grid_terms g l;
  id_some : obj_nonempty p -> l <> [];
  id_value : forall x, bits (num_vars p) x -> (ev x l + off = sign (o_sense (p_obj p)) * obj_at (p_obj p) x)%Qc }.
Lemma dgetq_in_multiple {K} (eqb : K -> K -> bool) (sp : forall a b, reflect (a = b) (eqb a b)) g d :
  NoDup (map fst d) -> (forall k, exists z, dgetq eqb k d = (qz z * g)%Qc) -> Forall (fun kv : K * Qc => multiple g (snd kv)) d.
Proof.
  intros N H. apply Forall_forall. intros [k v] Hin. apply (in_dget _ sp) in Hin; auto. destruct (H k) as [z Hz]. exists z.
  unfold dgetq in Hz. rewrite Hin in Hz. exact Hz.
Qed.
Lemma dgetq_nz_in {K} (eqb : K -> K -> bool) k (d : list (K * Qc)) : dgetq eqb k d <> 0%Qc -> d <> [].
Proof. intros H ->. now apply H. Qed.
Lemma merge_nonempty l : l <> [] -> fold_left ising_merge l [] <> [].
Proof.
  destruct l as [|[[i j] v] l]; [congruence|]. intros _ E.
  destruct (merge_key_in (((i, j), v) :: l) [] i j v) as [H|H]; [simpl; auto| |]; rewrite E in H; contradiction.
Qed.
Lemma to_ising_inv p op off : exprs_wf p -> to_ising p = Ok (op, off) ->
  (count_type BINARY p <? num_vars p) = false /\ p_lcs p = [] /\ p_qcs p = [] /\ exists l, ising_data p op off l.
Proof.
  intros (W1 & W2 & _) H. unfold to_ising in H. destruct (count_type BINARY p <? num_vars p) eqn:E1; [discriminate H|].
  destruct (p_lcs p) as [|c1 l1] eqn:E2; [|discriminate H]. destruct (p_qcs p) as [|c2 l2] eqn:E3; [|discriminate H].
  split; auto. split; auto. split; auto. cbn [length Nat.eqb andb negb] in H. cbv zeta in H.
  apply bind_ok in H. destruct H as (st1 & H1 & H). apply bind_ok in H. destruct H as (st2 & H2 & H). injection H as <- <-.
  unfold lin_to_dict, quad_to_dict, quad_entries in *.
  apply lin_fold in H1. destruct H1 as (A1 & B1 & C1 & (m1 & D1 & L1) & V1). cbn [fst snd] in *.
  apply quad_fold in H2. destruct H2 as (A2 & B2 & C2 & (m2 & D2 & L2) & V2). exists (fst st2). constructor.
  - reflexivity.
  - apply B2, B1. constructor.
  - intros g [G1 G2]. apply C2; [apply sense_sgn| |apply C1; [apply sense_sgn| |constructor]].
    + apply merge_multiple; [|constructor]. apply (dgetq_in_multiple _ nat2_eqb_sp); [apply W2|]. intros [i j]. exact (G2 i j).
    + apply (dgetq_in_multiple _ nat_eqb_sp); [apply W1|]. exact G1.
  - intros N E. rewrite D2, D1 in E. apply app_eq_nil in E. destruct E as [E ->]. simpl in E. subst m1. simpl in L1.
    destruct N as [[i N]|(i & j & N)].
    + unfold coef1 in N. apply dgetq_nz_in in N. destruct (le_co (o_lin (p_obj p))); [congruence|discriminate L1].
    + unfold coef2, mget in N. apply dgetq_nz_in in N. apply merge_nonempty in N. now apply L2.
  - intros x X. rewrite V2 by assumption. pose proof X as [Lx _]. rewrite V1 by assumption. rewrite <- (sense_sign (o_sense (p_obj p))).
    rewrite merge_dsum by (intros; unfold xx; simpl; ring). rewrite dsum_nil. unfold ev, obj_at. cbn [sumof].
    rewrite (lin_entries_in (o_lin (p_obj p)) x), (quad_entries_in (o_quad (p_obj p)) x); [unfold xx; ring|apply W2| |apply W1|].
    + rewrite Lx. apply Forall_forall. intros [[i j] v] Hin. rewrite Forall_forall in A2. cbn [fst snd].
      destruct (merge_key_in _ [] i j v Hin) as [K|K]; apply in_map_iff in K; destruct K as ([[a b] w] & E & K); apply A2 in K; simpl in E, K; injection E as -> ->; lia.
    + now rewrite Lx.
Qed.
Lemma finish_good n l : l <> [] -> good_terms n l -> let t := finish_op n (fold_left sum_add l SZero) in
  t = [((no_flags n, no_flags n), 0%Qc)] \/ (good_terms n t /\ NoDup (map fst t)).
Proof.
  intros N G. pose proof (sum_fold_nz l SZero (or_introl N)) as Z.
  assert (good_terms n (sum_terms (fold_left sum_add l SZero))) as G' by (apply sum_fold_Forall; auto; constructor).
  cbv zeta. destruct (fold_left sum_add l SZero) as [|t|m]; [congruence| |]; simpl in *.
  - right. split; auto. constructor; [intros []|constructor].
  - unfold reduce_terms. fold keep. pose proof (merge_nodup m) as M. assert (good_terms n (merge_terms m)) as G2 by (apply merge_terms_Forall; auto).
    destruct (filter keep (merge_terms m)) as [|t r] eqn:E; auto. right. rewrite <- E. split.
    + unfold good_terms in *. rewrite Forall_forall in *. intros a Ha. apply filter_In in Ha. now apply G2.
    + clear -M. induction (merge_terms m) as [|t l IH]; simpl; [constructor|]. inversion M; subst. destruct (keep t); auto. simpl. constructor; auto.
      intro H. apply H1. apply in_map_iff in H. destruct H as (q & Eq & H). apply filter_In in H. apply in_map_iff. exists q. tauto.
Qed.
Lemma finish_bound n l x : l <> [] -> good_terms n l -> bits n x ->
  (qabs (ev x (finish_op n (fold_left sum_add l SZero)) - ev x l) <= ATOL * qn (n * n))%Qc.
Proof.
  intros N G B. pose proof (sum_fold_nz l SZero (or_introl N)) as Z. pose proof (sum_fold_ev x l SZero) as V.
  assert (good_terms n (sum_terms (fold_left sum_add l SZero))) as G' by (apply sum_fold_Forall; auto; constructor).
  replace (ev x (sum_terms SZero) + ev x l)%Qc with (ev x l) in V by (unfold ev at 2; simpl; ring). rewrite <- V.
  destruct (fold_left sum_add l SZero) as [|t|m]; [congruence| |]; simpl in *.
  - replace (ev x [t] - ev x [t])%Qc with 0%Qc by ring. change (qabs 0) with 0%Qc.
    apply Qcle_trans with (0 * qn (n * n))%Qc; [rewrite Qcmult_0_l; apply Qcle_refl|]. apply Qcmult_le_compat_r; [apply Qclt_le_weak, ATOL_pos|apply qn_nonneg].
  - now apply reduce_bound.
Qed.
Lemma finish_exact n l x g : l <> [] -> (qz 4 * ATOL < g)%Qc -> grid_terms g l -> ev x (finish_op n (fold_left sum_add l SZero)) = ev x l.
Proof.
  intros N Hg G. pose proof (sum_fold_nz l SZero (or_introl N)) as Z. pose proof (sum_fold_ev x l SZero) as V.
  assert (grid_terms g (sum_terms (fold_left sum_add l SZero))) as G' by (apply sum_fold_Forall; [intros p a b; simpl; apply multiple_add|auto|constructor]).
  replace (ev x (sum_terms SZero) + ev x l)%Qc with (ev x l) in V by (unfold ev at 2; simpl; ring). rewrite <- V.
  destruct (fold_left sum_add l SZero) as [|t|m]; [congruence|reflexivity|]. simpl in *. now apply (reduce_exact _ _ _ g).
Qed.
