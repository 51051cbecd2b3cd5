From Verif Require Export SpecLagr AdmmFacts7.
From Verif Require Import ConvTotal.
Local Open Scope nat_scope.

(** ** Programs without constraints *)
Lemma dense_objective q k f l : num_vars q = k -> length l = k -> exists q',
  (do q1 <- ok_state (step q (OObjQuad (QList false (tabulate k f)))); ok_state (step q1 (OObjLin (LList false l)))) = Ok q' /\
  p_vars q' = p_vars q /\ p_lcs q' = p_lcs q /\ p_qcs q' = p_qcs q /\ o_sense (p_obj q') = o_sense (p_obj q) /\
  forall x, length x = k -> obj_at (p_obj q') x = (o_const (p_obj q) + sumof (fun i => at_ l i * at_ x i) (seq 0 k) + sumof (fun i => sumof (fun j => f i j * at_ x i * at_ x j) (seq 0 k)) (seq 0 k))%Qc.
Proof.
  intros N L. cbn [step]. unfold on_objective. destruct (quad_make (env_of q) (QList false (tabulate k f))) as [e|err] eqn:E.
  - pose proof (quad_make_spec _ _ _ E) as (_ & _ & _ & D & _ & F). cbn [bind ok_state lin_make]. eexists. split; [reflexivity|]. cbn [p_vars set_obj p_lcs p_qcs p_obj o_sense o_const]. repeat (split; [reflexivity|]).
    assert (fst (raw_of (env_of q) (QList false (tabulate k f))) = k) as Dk by (unfold tabulate; cbn; now rewrite map_length, seq_length).
    intros x Lx. unfold obj_at. cbn [o_const o_lin o_quad]. f_equal; [f_equal|].
    + unfold lin_at. rewrite Lx. apply sumof_ext. intros i Hi. apply in_seq in Hi. f_equal. apply (lin_of_list_coef false l i).
    + unfold quad_at. rewrite Lx. rewrite Dk in D. specialize (F x). rewrite D in F. unfold form_at in F. rewrite F. apply sumof_ext. intros i Hi. apply sumof_ext. intros j Hj. apply in_seq in Hi, Hj. f_equal. f_equal.
      cbn. unfold tabulate. rewrite nth_indep with (d' := map (f 0) (seq 0 k)) by (rewrite map_length, seq_length; lia). rewrite (map_nth (fun i => map (f i) (seq 0 k))), seq_nth by lia.
      rewrite nth_indep with (d' := f i 0) by (rewrite map_length, seq_length; lia). rewrite map_nth, seq_nth by lia. reflexivity.
  - exfalso. cbn in E. assert (forallb (fun r => length r =? length (tabulate k f)) (tabulate k f) = true) as S; [|rewrite S in E; discriminate].
    apply forallb_forall. intros r Hr. unfold tabulate in *. apply in_map_iff in Hr. destruct Hr as (i & <- & _). rewrite !map_length. apply Nat.eqb_refl.
Qed.

Lemma sized_idx (ops : list variable) lb ub t (l : list nat) : (lb <= ub)%Qc -> NoDup (map v_name ops) -> NoDup l -> Forall (fun i => i < length ops) l -> forall q, idx_exact q ->
  (forall i v, In i l -> nth_error ops i = Some v -> ~ In (v_name v) (var_names q)) -> exists q',
  foldM (fun q i => match nth_error ops i with Some v => ok_state (add_variable q lb ub t (Some (v_name v))) | None => Err IndexError end) l q = Ok q' /\
  p_vars q' = p_vars q ++ map (fun i => mkVar (nth i (map v_name ops) ""%string) lb ub t) l /\ p_lcs q' = p_lcs q /\ p_qcs q' = p_qcs q /\ p_obj q' = p_obj q.
Proof.
  intros B N. induction l as [|i l IH]; intros Nl F q X Fr; cbn [foldM].
  - exists q. cbn [map]. rewrite app_nil_r. auto.
  - inversion Nl as [|? ? Ni Nl']; subst. inversion F as [|? ? Fi F']; subst. destruct (nth_error ops i) as [v|] eqn:E; [|apply nth_error_None in E; lia].
    assert (~ In (v_name v) (var_names q)) as Fv by (eapply Fr; [left; reflexivity|assumption]). rewrite add_variable_total by auto. cbn [bind].
    destruct (IH Nl' F' (add_var q (mkVar (v_name v) lb ub t))) as (q' & E' & V & L & Q & O).
    + apply add_var_exact; auto. cbn [v_name]. now apply exact_fresh.
    + intros j w Hj Ej. rewrite add_var_names. cbn [v_name]. intro K. apply in_app_or in K. destruct K as [K|[K|[]]]; [eapply Fr; [right; exact Hj|exact Ej|exact K]|].
      assert (i = j); [|subst; contradiction]. eapply (NoDup_nth_error (map v_name ops)); auto; [rewrite map_length; assumption|]. erewrite !map_nth_error by eassumption. now rewrite K.
    + exists q'. split; [exact E'|]. rewrite V, L, Q, O. cbn [add_var set_vars set_vidx p_vars p_lcs p_qcs p_obj]. split; auto. rewrite <- app_assoc. cbn [map app]. do 2 f_equal. f_equal.
      erewrite nth_error_nth; [reflexivity|]. now erewrite map_nth_error by eassumption.
Qed.
Lemma free_problem op idx t lb ub f l : (lb <= ub)%Qc -> NoDup (var_names op) -> NoDup idx -> Forall (fun i => i < num_vars op) idx -> length l = length idx -> exists q q',
  foldM (fun q i => match nth_error (p_vars op) i with Some v => ok_state (add_variable q lb ub t (Some (v_name v))) | None => Err IndexError end) idx (new_qp "") = Ok q /\
  (do q1 <- ok_state (step q (OObjQuad (QList false (tabulate (length idx) f)))); ok_state (step q1 (OObjLin (LList false l)))) = Ok q' /\ free_block op idx t lb ub q' /\
  forall x, length x = length idx -> obj_at (p_obj q') x = (sumof (fun i => at_ l i * at_ x i) (seq 0 (length idx)) + sumof (fun i => sumof (fun j => f i j * at_ x i * at_ x j) (seq 0 (length idx))) (seq 0 (length idx)))%Qc.
Proof.
  intros B N Ni F L. destruct (sized_idx (p_vars op) lb ub t idx B N Ni F (new_qp "")) as (q & E & V & Lc & Qc_ & O).
  - constructor; intros s i; split; intro H; cbn in H; try discriminate; destruct i; discriminate.
  - intros i v _ _ [].
  - destruct (dense_objective q (length idx) f l) as (q' & E' & V' & L' & Q' & S & Ob); auto. { unfold num_vars. rewrite V. cbn. apply map_length. }
    exists q, q'. split; [exact E|]. split; [exact E'|]. split; [split; [rewrite V', V; reflexivity|]; split; [rewrite L', Lc; reflexivity|]; split; [rewrite Q', Qc_; reflexivity|]; rewrite S, O; reflexivity|].
    intros x Lx. rewrite (Ob x Lx), O. change (o_const (p_obj (new_qp ""))) with 0%Qc. ring.
Qed.

(** ** Sums over the two kinds of variables *)
Lemma mixed_kinds op i : mixed_binary op -> i < num_vars op -> is_var BINARY op i \/ is_var CONTINUOUS op i.
Proof.
  intros M Hi. destruct (nth_error (p_vars op) i) as [v|] eqn:E; [|apply nth_error_None in E; unfold num_vars in Hi; lia]. unfold mixed_binary in M. rewrite Forall_forall in M. specialize (M v (nth_error_In _ _ E)).
  destruct (v_type v) eqn:Ty; [right; exists v; auto|left; exists v; auto|congruence].
Qed.
Lemma kinds_apart op i : is_var BINARY op i -> is_var CONTINUOUS op i -> False.
Proof. intros (v & A & B) (w & C & D). congruence. Qed.
Lemma sum_kinds op f : mixed_binary op -> sumof f (seq 0 (num_vars op)) = (sumof f (indices_of BINARY op) + sumof f (indices_of CONTINUOUS op))%Qc.
Proof.
  intro M. apply sum_two; try apply indices_nodup.
  - intros i Hi. apply indices_in in Hi. split; [eapply is_var_lt; eauto|]. intro K. apply indices_in in K. eapply kinds_apart; eauto.
  - intros i Hi. apply indices_in in Hi. eapply is_var_lt; eauto.
  - intros i Hi N1 N2. exfalso. destruct (mixed_kinds op i M Hi) as [K|K]; apply indices_in in K; contradiction.
Qed.
Definition block_sum (op : qp) (idx : list nat) (x : list Qc) : Qc :=
  (sumof (fun i => sumof (fun j => coef2 (o_quad (p_obj op)) i j * at_ x i * at_ x j) idx) idx + sumof (fun i => coef1 (o_lin (p_obj op)) i * at_ x i) idx)%Qc.
Lemma objective_kinds op x : mixed_binary op -> separable op -> length x = num_vars op ->
  obj_at (p_obj op) x = (o_const (p_obj op) + block_sum op (indices_of BINARY op) x + block_sum op (indices_of CONTINUOUS op) x)%Qc.
Proof.
  intros M Sep L. unfold obj_at, lin_at, quad_at, block_sum. rewrite L, !sum_kinds by assumption.
  rewrite (sumof_ext (fun i => sumof (fun j => coef2 (o_quad (p_obj op)) i j * at_ x i * at_ x j)%Qc (seq 0 (num_vars op))) (fun i => sumof (fun j => coef2 (o_quad (p_obj op)) i j * at_ x i * at_ x j)%Qc (indices_of BINARY op)) (indices_of BINARY op)).
  - rewrite (sumof_ext (fun i => sumof (fun j => coef2 (o_quad (p_obj op)) i j * at_ x i * at_ x j)%Qc (seq 0 (num_vars op))) (fun i => sumof (fun j => coef2 (o_quad (p_obj op)) i j * at_ x i * at_ x j)%Qc (indices_of CONTINUOUS op)) (indices_of CONTINUOUS op)); [ring|].
    intros i Hi. rewrite sum_kinds by assumption. rewrite (sumof_zero _ (indices_of BINARY op)); [ring|]. intros j Hj. apply indices_in in Hi, Hj. rewrite (proj2 (Sep j i Hj Hi)). ring.
  - intros i Hi. rewrite sum_kinds by assumption. rewrite (sumof_zero _ (indices_of CONTINUOUS op)); [ring|]. intros j Hj. apply indices_in in Hi, Hj. rewrite (proj1 (Sep i j Hi Hj)). ring.
Qed.
(** A sum over the binary variables whose terms vanish outside of step 1 *)
Lemma sum_sub (f : nat -> Qc) big sub : NoDup big -> NoDup sub -> (forall i, In i sub -> In i big) -> (forall i, In i big -> ~ In i sub -> f i = 0%Qc) -> sumof f big = sumof f sub.
Proof.
  intros Nb Ns I Z. rewrite (sumof_split f (mem sub)). rewrite (sumof_zero f (filter (fun i => negb (mem sub i)) big)).
  - rewrite Qcplus_0_r. apply sumof_perm, NoDup_Permutation; auto; [now apply NoDup_filter|]. intro i. rewrite filter_In. destruct (mem_spec sub i) as [K|K]; split; try tauto; try (intros [_ E]; discriminate). intros _. split; auto.
  - intros i Hi. apply filter_In in Hi. destruct Hi as [Hi E]. apply Z; auto. intro K. destruct (mem_spec sub i); [discriminate|contradiction].
Qed.
Lemma block_sub op big sub x : NoDup big -> NoDup sub -> (forall i, In i sub -> In i big) -> (forall i, In i big -> ~ In i sub -> at_ x i = 0%Qc) -> block_sum op big x = block_sum op sub x.
Proof.
  intros Nb Ns I Z. unfold block_sum. f_equal.
  - rewrite (sum_sub _ big sub) by (auto; intros i Hi K; apply sumof_zero; intros j _; rewrite (Z i Hi K); ring). apply sumof_ext. intros i _. apply sum_sub; auto. intros j Hj K. rewrite (Z j Hj K). ring.
  - apply sum_sub; auto. intros i Hi K. rewrite (Z i Hi K). ring.
Qed.

(** ** Arrays *)
Lemma at_sub a b i : length a = length b -> at_ (arr_sub a b) i = (at_ a i - at_ b i)%Qc.
Proof. revert b i. induction a as [|x a IH]; intros [|y b] [|i] L; try discriminate L; cbn in *; try ring. apply IH. lia. Qed.
Lemma at_add a b i : length a = length b -> at_ (arr_add a b) i = (at_ a i + at_ b i)%Qc.
Proof. revert b i. induction a as [|x a IH]; intros [|y b] [|i] L; try discriminate L; cbn in *; try ring. apply IH. lia. Qed.
Lemma at_scale c a i : at_ (arr_scale c a) i = (c * at_ a i)%Qc.
Proof. revert i. induction a as [|x a IH]; intros [|i]; cbn in *; try ring. apply IH. Qed.
Lemma at_neg a i : at_ (arr_neg a) i = (- at_ a i)%Qc.
Proof. unfold arr_neg. rewrite at_scale. ring. Qed.
Lemma sub_length a b : length a = length b -> length (arr_sub a b) = length a.
Proof. intro L. unfold arr_sub. rewrite map_length, combine_length. lia. Qed.
Lemma add_length a b : length a = length b -> length (arr_add a b) = length a.
Proof. intro L. unfold arr_add. rewrite map_length, combine_length. lia. Qed.
Lemma scale_length c a : length (arr_scale c a) = length a. Proof. apply map_length. Qed.
Lemma neg_length a : length (arr_neg a) = length a. Proof. apply map_length. Qed.
Lemma eye_sum n i (f : nat -> Qc) : i < n -> sumof (fun j => (eye i j * f j)%Qc) (seq 0 n) = f i.
Proof.
  intro Hi. rewrite <- (sumof_seq_pick f n i Hi). apply sumof_ext. intros j _. unfold eye. rewrite (Nat.eqb_sym j i). destruct (Nat.eqb i j); ring.
Qed.

(** ** Step 3 *)
Lemma step3_lagr pr d s : NoDup (var_names (a_op d)) -> represents d -> sized_blocks d s -> exists op3, step3_problem pr d s = Ok op3 /\
  free_block (a_op d) (indices_of BINARY (a_op d)) CONTINUOUS (- INFINITY)%Qc INFINITY op3 /\
  forall rows x, exists K, forall y, length y = length (a_bin d) ->
    lagrangian (a_op d) rows (i_rho s) (ap_c pr) (ap_beta pr) (i_lam s) (i_x0 s) (i_z s) y x = (obj_at (p_obj op3) y + K)%Qc.
Proof.
  intros N R (L0 & Lz & Ly & Ll). destruct (represents_split d R) as [Sb _].
  destruct (free_problem (a_op d) (a_bin d) CONTINUOUS (- INFINITY)%Qc INFINITY (fun i j => (ap_beta pr / qz 2 * eye i j + i_rho s / qz 2 * eye i j)%Qc)
    (arr_sub (arr_neg (i_lam s)) (arr_scale (i_rho s) (arr_sub (i_x0 s) (i_z s))))) as (q & q' & E & E' & F & O); auto.
  - discriminate.
  - rewrite Sb. apply indices_nodup.
  - rewrite Sb. apply Forall_forall. intros i Hi. apply indices_in in Hi. eapply is_var_lt; eauto.
  - rewrite sub_length; rewrite neg_length; [assumption|]. rewrite scale_length, sub_length by congruence. congruence.
  - exists q'. split; [unfold step3_problem; cbv zeta; unfold continuous_var; rewrite E; cbn [bind]; exact E'|]. split; [rewrite <- Sb; exact F|].
    intros rows x. eexists. intros y L. rewrite (O y L). unfold lagrangian. cbv zeta. rewrite L0.
    rewrite (sumof_ext (fun i => sumof _ _) (fun i => (ap_beta pr / qz 2 * (at_ y i * at_ y i) + i_rho s / qz 2 * (at_ y i * at_ y i))%Qc) (seq 0 (length (a_bin d)))).
    2: { intros i Hi. apply in_seq in Hi. rewrite (sumof_ext _ (fun j => (eye i j * ((ap_beta pr / qz 2 + i_rho s / qz 2) * at_ y i * at_ y j))%Qc)) by (intros; ring). rewrite eye_sum by lia. ring. }
    rewrite (sumof_ext (fun i => (at_ (arr_sub _ _) i * at_ y i)%Qc) (fun i => ((- at_ (i_lam s) i - i_rho s * (at_ (i_x0 s) i - at_ (i_z s) i)) * at_ y i)%Qc)).
    2: { intros i _. rewrite at_sub, at_neg, at_scale, at_sub; try congruence. rewrite neg_length, scale_length, sub_length; congruence. }
    rewrite (sumof_ext (fun i => (at_ (i_lam s) i * split_gap (i_x0 s) (i_z s) y i)%Qc) (fun i => (at_ (i_lam s) i * (at_ (i_x0 s) i - at_ (i_z s) i) - at_ (i_lam s) i * at_ y i)%Qc)) by (intros; unfold split_gap; ring).
    rewrite (sumof_ext (fun i => (split_gap (i_x0 s) (i_z s) y i * split_gap (i_x0 s) (i_z s) y i)%Qc)
      (fun i => ((at_ (i_x0 s) i - at_ (i_z s) i) * (at_ (i_x0 s) i - at_ (i_z s) i) + (at_ y i * at_ y i - qz 2 * ((at_ (i_x0 s) i - at_ (i_z s) i) * at_ y i)))%Qc)).
    2: { intros. unfold split_gap. change (qz 2) with (1 + 1)%Qc. ring. }
    rewrite !sumof_sub, !sumof_add, !sumof_sub, !sumof_scale.
    rewrite (sumof_ext (fun i => ((- at_ (i_lam s) i - i_rho s * (at_ (i_x0 s) i - at_ (i_z s) i)) * at_ y i)%Qc) (fun i => (- (at_ (i_lam s) i * at_ y i) - i_rho s * ((at_ (i_x0 s) i - at_ (i_z s) i) * at_ y i))%Qc)) by (intros; ring).
    rewrite !sumof_sub, !sumof_scale, sumof_opp.
    instantiate (1 := (obj_at (p_obj (a_op d)) x + ap_c pr / qz 2 * sumof (fun r => (lc_at r x - lc_rhs r) * (lc_at r x - lc_rhs r)) rows +
      sumof (fun i => at_ (i_lam s) i * (at_ (i_x0 s) i - at_ (i_z s) i)) (seq 0 (length (a_bin d))) +
      i_rho s / qz 2 * sumof (fun i => (at_ (i_x0 s) i - at_ (i_z s) i) * (at_ (i_x0 s) i - at_ (i_z s) i)) (seq 0 (length (a_bin d))))%Qc).
    assert (qz 2 <> 0%Qc) by discriminate. field. assumption.
Qed.

(** ** Step 1 *)
Lemma picks_filtered {A} (P : A -> Prop) (f : A -> bool) l : forall m, picks P l m -> (forall a, In a l -> (f a = true <-> P a)) -> m = filter f l.
Proof.
  intros m H. induction H as [|a l m Pa H IH|a l m Pa H IH]; intros E; cbn [filter]; [reflexivity| |].
  - rewrite (proj2 (E a (or_introl eq_refl)) Pa). f_equal. apply IH. intros. apply E. now right.
  - destruct (f a) eqn:Fa; [apply (E a (or_introl eq_refl)) in Fa; contradiction|]. apply IH. intros. apply E. now right.
Qed.
Lemma filter_both {A} (f g : A -> bool) l : filter f (filter g l) = filter (fun a => g a && f a) l.
Proof. induction l as [|a l IH]; [reflexivity|]. cbn [filter]. destruct (g a); cbn [filter andb]; [destruct (f a); now rewrite IH|exact IH]. Qed.
Lemma rows_beq d rows : represents d -> picks (binary_eq (a_op d)) (p_lcs (a_op d)) rows -> rows = a_beq d.
Proof.
  intros R H. pose proof (represent_inv _ _ _ _ R) as (_ & _ & _ & E1 & E2 & _). rewrite E2, E1, filter_both. eapply picks_filtered; [exact H|]. intros c Hc. unfold binary_eq. rewrite andb_true_iff, only_binary_spec.
  assert (csense_eqb (lc_sense c) EQ = true <-> lc_sense c = EQ) by (destruct (lc_sense c); cbn; split; congruence). tauto.
Qed.
(** A row times the chosen coordinates *)
Definition row_dot (k : nat) (r x : list Qc) : Qc := sumof (fun i => (nth i r 0 * at_ x i)%Qc) (seq 0 k).
Lemma tabulate_cell k f i j : i < k -> j < k -> cell (tabulate k f) i j = f i j.
Proof.
  intros Hi Hj. unfold cell, tabulate. rewrite nth_indep with (d' := map (f 0) (seq 0 k)) by (rewrite map_length, seq_length; lia). rewrite (map_nth (fun i => map (f i) (seq 0 k))), seq_nth by lia.
  rewrite nth_indep with (d' := f i 0) by (rewrite map_length, seq_length; lia). now rewrite map_nth, seq_nth by lia.
Qed.
Lemma gram_form k x m : sumof (fun i => sumof (fun j => (cell (gram m k) i j * at_ x i * at_ x j)%Qc) (seq 0 k)) (seq 0 k) = sumof (fun r => (row_dot k r x * row_dot k r x)%Qc) m.
Proof.
  rewrite (sumof_seq_ext _ (fun i => sumof (fun j => sumof (fun r => (nth i r 0 * at_ x i) * (nth j r 0 * at_ x j))%Qc m) (seq 0 k))).
  - rewrite (sumof_ext _ (fun i => sumof (fun r => (nth i r 0 * at_ x i) * row_dot k r x)%Qc m)).
    + rewrite sumof_swap. apply sumof_ext. intros r _. unfold row_dot at 2. now rewrite <- sumof_scale_r.
    + intros i _. rewrite sumof_swap. apply sumof_ext. intros r _. unfold row_dot. now rewrite sumof_scale.
  - intros i Hi. apply sumof_seq_ext. intros j Hj. change (gram m k) with (tabulate k (fun i j => np_sum (map (fun r => (nth i r 0 * nth j r 0)%Qc) m))). rewrite tabulate_cell by lia. rewrite np_sum_map, <- !sumof_scale_r.
    apply sumof_ext. intros r _. ring.
Qed.
Lemma vec_at v m k i : i < k -> at_ (vec_mat v m k) i = sumof (fun ar => (fst ar * nth i (snd ar) 0)%Qc) (combine v m).
Proof.
  intro Hi. unfold vec_mat, at_. set (F := fun j => np_sum (map (fun vr => (fst vr * nth j (snd vr) 0)%Qc) (combine v m))). rewrite nth_indep with (d' := F 0) by (rewrite map_length, seq_length; lia).
  rewrite map_nth, seq_nth by lia. unfold F. apply np_sum_map.
Qed.
Lemma vec_form v m k x : sumof (fun i => (at_ (vec_mat v m k) i * at_ x i)%Qc) (seq 0 k) = sumof (fun ar => (fst ar * row_dot k (snd ar) x)%Qc) (combine v m).
Proof.
  rewrite (sumof_seq_ext _ (fun i => sumof (fun ar => (fst ar * (nth i (snd ar) 0 * at_ x i))%Qc) (combine v m))).
  - rewrite sumof_swap. apply sumof_ext. intros ar _. unfold row_dot. now rewrite sumof_scale.
  - intros i Hi. rewrite vec_at by lia. rewrite <- sumof_scale_r. apply sumof_ext. intros. ring.
Qed.
Lemma combine_same {A B C} (f : A -> B) (g : A -> C) l : combine (map f l) (map g l) = map (fun a => (f a, g a)) l.
Proof. induction l; cbn; congruence. Qed.
(** The matrix and the right-hand sides together *)
Lemma penalty_form beq idx a0 b0 x : get_a0_b0 beq idx = Ok (a0, b0) -> length x = length idx ->
  (sumof (fun r => row_dot (length idx) r x * row_dot (length idx) r x) a0 = sumof (fun c => row_dot (length idx) (coords (lin_to_array (lc_lin c)) idx) x * row_dot (length idx) (coords (lin_to_array (lc_lin c)) idx) x) beq /\
  sumof (fun ar => fst ar * row_dot (length idx) (snd ar) x) (combine b0 a0) = sumof (fun c => lc_rhs c * row_dot (length idx) (coords (lin_to_array (lc_lin c)) idx) x) beq)%Qc.
Proof.
  intros H L. unfold get_a0_b0 in H. destruct beq as [|c beq].
  - injection H as <- <-. assert (row_dot (length idx) (repeat 0%Qc (length idx)) x = 0%Qc) as Z.
    { apply sumof_zero. intros i _. fold (at_ (repeat 0%Qc (length idx)) i). rewrite at_repeat. ring. }
    cbn [combine]. rewrite !sumof_cons, !sumof_nil. cbn [fst snd]. rewrite Z. split; ring.
  - apply bind_ok in H. destruct H as (m & Hm & H). injection H as <- <-.
    assert (m = map (fun c => coords (lin_to_array (lc_lin c)) idx) (c :: beq)) as ->.
    { apply mapM_ok in Hm. clear - Hm. induction Hm as [|a r l m E F IH]; [reflexivity|]. cbn [map]. f_equal; auto. apply np_take_ok in E. tauto. }
    split; [apply sumof_map|]. change (lc_rhs c :: map lc_rhs beq) with (map lc_rhs (c :: beq)). rewrite combine_same, sumof_map. reflexivity.
Qed.
Lemma coords_at x idx t : t < length idx -> at_ (coords x idx) t = at_ x (nth t idx 0).
Proof. intro Ht. unfold coords, at_ at 1. rewrite nth_indep with (d' := at_ x 0) by (rewrite map_length; auto). now rewrite map_nth. Qed.
Lemma stored_coef e i : coef1 e i <> 0%Qc -> exists v, In (i, v) (le_co e).
Proof.
  unfold coef1, dgetq. intro N. destruct (dget Nat.eqb i (le_co e)) as [v|] eqn:E; [|congruence]. exists v. now apply (dget_in _ nat_eqb_sp) in E.
Qed.
(** Rows of binary variables *)
Lemma row_kinds op c idx x m : mixed_binary op -> NoDup idx -> (forall i, In i idx -> is_var BINARY op i) -> binary_eq op c -> length x = num_vars op ->
  (forall i, is_var BINARY op i -> ~ In i idx -> at_ x i = 0%Qc) -> np_take (lin_to_array (lc_lin c)) idx = Ok m ->
  lc_at c x = row_dot (length idx) (coords (lin_to_array (lc_lin c)) idx) (coords x idx).
Proof.
  intros M N I (Hc & _ & F) L Z T. unfold lc_at, lin_at. rewrite L, sum_kinds by assumption. rewrite (sumof_zero _ (indices_of CONTINUOUS op)).
  - rewrite (sum_sub _ _ idx (indices_nodup _ _) N). 2: { intros i Hi. now apply indices_in, I. } 2: { intros i Hi K. apply indices_in in Hi. rewrite Z by assumption. ring. }
    rewrite Qcplus_0_r, (sum_list _ 0 idx). unfold row_dot. apply sumof_ext. intros t Ht. apply in_seq in Ht. fold (at_ (coords (lin_to_array (lc_lin c)) idx) t). rewrite !coords_at by lia. f_equal. symmetry. apply array_at.
    apply np_take_ok in T. destruct T as [_ T]. rewrite array_length in T. rewrite Forall_forall in T. apply T, nth_In. lia.
  - intros i Hi. apply indices_in in Hi. destruct (qeqb_spec (coef1 (lc_lin c) i) 0) as [E|E]; [rewrite E; ring|]. apply stored_coef in E. destruct E as (v & E). rewrite Forall_forall in F. specialize (F _ E). exfalso. eapply kinds_apart; eauto.
Qed.
(** Sums over the binary variables of step 1, by their positions *)
Lemma rel_sum (F : nat -> Qc -> Qc) bin abs rel x x0 : Forall2 (fun a j => nth_error bin j = Some a) abs rel -> NoDup abs -> (forall j i, nth_error bin j = Some i -> at_ x0 j = at_ x i /\ (In j rel \/ at_ x i = 0%Qc)) -> (forall j, F j 0%Qc = 0%Qc) ->
  sumof (fun j => F j (at_ x0 j)) (seq 0 (length bin)) = sumof (fun t => F (nth t rel 0) (at_ (coords x abs) t)) (seq 0 (length abs)).
Proof.
  intros R N J F0. rewrite (sum_sub _ _ rel).
  - rewrite (sum_list _ 0 rel), <- (IneqFacts.Forall2_length _ _ _ R). apply sumof_ext. intros t Ht. apply in_seq in Ht. f_equal. rewrite coords_at by lia.
    assert (nth_error bin (nth t rel 0) = Some (nth t abs 0)) as E. { assert (t < length abs) as Ha by lia. clear - R Ha. revert t Ha. induction R; intros [|t] Ha; cbn in *; try lia; auto. apply IHR. lia. }
    now destruct (J _ _ E).
  - apply seq_NoDup.
  - clear - R N. induction R as [|a j l m E R IH]; [constructor|]. inversion N as [|? ? Na N']; subst. constructor; auto. intro K. apply Na. clear - R K E. induction R as [|b i l m E' R IH]; [contradiction|]. destruct K as [->|K]; [left; congruence|right; auto].
  - intros j Hj. apply in_seq. clear - R Hj. induction R as [|a i l m E R IH]; [contradiction|]. destruct Hj as [->|Hj]; auto. apply some_lt in E. lia.
  - intros j Hj K. apply in_seq in Hj. destruct (nth_error bin j) as [i|] eqn:E; [|apply nth_error_None in E; lia]. destruct (J _ _ E) as [-> [H| ->]]; [contradiction|apply F0].
Qed.

Lemma step1_lagr pr d s : NoDup (var_names (a_op d)) -> exprs_wf (a_op d) -> quad_upper (o_quad (p_obj (a_op d))) -> mixed_binary (a_op d) -> separable (a_op d) -> represents d -> sized_blocks d s ->
  exists op1, step1_problem pr d s = Ok op1 /\ free_block (a_op d) (a_abs d) BINARY 0 1 op1 /\
  forall rows u, picks (binary_eq (a_op d)) (p_lcs (a_op d)) rows -> exists K, forall x0 x, joins (a_op d) x0 u x -> (forall i, is_var BINARY (a_op d) i -> ~ In i (a_abs d) -> at_ x i = 0%Qc) ->
    lagrangian (a_op d) rows (i_rho s) (ap_c pr) (ap_beta pr) (i_lam s) x0 (i_z s) (i_y s) x = (obj_at (p_obj op1) (coords x (a_abs d)) + K)%Qc.
Proof.
  intros N W U M Sep R (L0 & Lz & Ly & Ll). destruct (represents_split d R) as [Sb Sc]. destruct (step1_spec d W R) as (Sa & Ia & Ra).
  pose proof (represent_inv _ _ _ _ R) as (_ & _ & _ & _ & _ & _ & _ & _ & _ & Q0 & C0 & _ & _ & AB).
  assert (NoDup (a_abs d)) as Na by (now apply sorted_nodup). assert (forall i, In i (a_abs d) -> is_var BINARY (a_op d) i) as Ib by (intros i Hi; now apply Ia in Hi).
  assert (forall v, length v = length (a_bin d) -> np_take v (a_rel d) = Ok (coords v (a_rel d))) as Tk.
  { intros v Lv. apply np_take_total. rewrite Lv. clear - Ra. induction Ra as [|a j l m E R IH]; constructor; auto. now apply some_lt in E. }
  assert (length (a_rel d) = length (a_abs d)) as Lr by (symmetry; eapply IneqFacts.Forall2_length; eassumption).
  assert (length (a_c0 d) = length (a_abs d)) as Lc by (apply np_take_ok in C0; destruct C0 as [-> _]; apply map_length).
  set (k := length (a_abs d)) in *. set (lz := coords (i_z s) (a_rel d)). set (ly := coords (i_y s) (a_rel d)). set (ll := coords (i_lam s) (a_rel d)).
  assert (length lz = k /\ length ly = k /\ length ll = k) as (Kz & Ky & Kl) by (unfold lz, ly, ll, coords; rewrite !map_length; auto).
  assert (length (vec_mat (a_b0 d) (a_a0 d) k) = k) as Kv by (unfold vec_mat; now rewrite map_length, seq_length).
  set (lin := arr_add (arr_add (arr_sub (a_c0 d) (arr_scale (ap_c pr) (vec_mat (a_b0 d) (a_a0 d) k))) (arr_scale (i_rho s) (arr_sub (arr_neg ly) lz))) ll).
  assert (length (arr_sub (a_c0 d) (arr_scale (ap_c pr) (vec_mat (a_b0 d) (a_a0 d) k))) = k) as K1 by (rewrite sub_length; rewrite ?scale_length; congruence).
  assert (length (arr_scale (i_rho s) (arr_sub (arr_neg ly) lz)) = k) as K2 by (rewrite scale_length, sub_length; rewrite ?neg_length; congruence).
  assert (length lin = k) as Kn by (unfold lin; rewrite !add_length; rewrite ?add_length; congruence).
  destruct (free_problem (a_op d) (a_abs d) BINARY 0 1 (fun i j => (cell (a_q0 d) i j + ap_c pr / qz 2 * cell (gram (a_a0 d) k) i j + i_rho s / qz 2 * eye i j)%Qc) lin) as (q & q' & E & E' & F & O); auto.
  - discriminate.
  - apply Forall_forall. intros i Hi. eapply is_var_lt; eauto.
  - exists q'. split; [|split; [exact F|]].
    { unfold step1_problem. cbv zeta. fold k. unfold binary_var. rewrite E. cbn [bind]. rewrite (Tk _ Ly), (Tk _ Lz), (Tk _ Ll). cbn [bind]. exact E'. }
    intros rows u P. apply rows_beq in P; auto. subst rows. eexists. intros x0 x J Z. pose proof J as (Jx & Jb & _).
    assert (length (coords x (a_abs d)) = k) as Kx by apply map_length. set (b := coords x (a_abs d)) in *. rewrite (O b Kx). clear O.
    assert (length x0 = length (a_bin d)) as L0' by (rewrite <- Jb, Sb; now apply part_length).
    assert (coords x (a_cont d) = u) as Ju. { rewrite Sc. destruct J as (_ & _ & <-). unfold indices_of. now apply (coords_part CONTINUOUS (p_vars (a_op d)) 0 x []). }
    pose proof (represent_inv _ _ _ _ R) as (_ & _ & _ & _ & _ & _ & _ & _ & _ & _ & _ & Q1 & C1 & _).
    assert (obj_at (p_obj (a_op d)) x = (o_const (p_obj (a_op d)) + form (a_q0 d) (a_c0 d) b + form (a_q1 d) (a_c1 d) u)%Qc) as Ob.
    { rewrite objective_kinds by assumption. rewrite <- Ju. unfold b. rewrite Sc, (block_form (a_op d) (a_abs d)), (block_form (a_op d) (indices_of CONTINUOUS (a_op d))) by (auto; apply idx_sorted).
      rewrite (block_sub (a_op d) (indices_of BINARY (a_op d)) (a_abs d) x (indices_nodup _ _) Na); [reflexivity| |]; intros i Hi; [now apply indices_in, Ib|]. intro K. apply Z; auto. now apply indices_in. }
    assert (forall j i, nth_error (a_bin d) j = Some i -> at_ x0 j = at_ x i /\ (In j (a_rel d) \/ at_ x i = 0%Qc)) as Jr.
    { intros j i Hj. split; [symmetry; eapply joins_at; [exact J|now rewrite <- Sb]|]. destruct (mem_spec (a_rel d) j) as [K|K]; [auto|right]. apply Z; [|now rewrite <- (rel_in d i j W R Hj)]. apply indices_in. rewrite <- Sb. eapply nth_error_In; eauto. }
    assert (sumof (fun c => (lc_at c x - lc_rhs c) * (lc_at c x - lc_rhs c))%Qc (a_beq d) =
      (sumof (fun r => row_dot k r b * row_dot k r b) (a_a0 d) - qz 2 * sumof (fun ar => fst ar * row_dot k (snd ar) b) (combine (a_b0 d) (a_a0 d)) + sumof (fun c => lc_rhs c * lc_rhs c) (a_beq d))%Qc) as Pn.
    { destruct (penalty_form _ _ _ _ b AB Kx) as [P1 P2]. fold k in P1, P2. rewrite P1, P2, <- sumof_scale, <- sumof_sub, <- sumof_add. apply sumof_ext. intros c Hc.
      assert (exists m, np_take (lin_to_array (lc_lin c)) (a_abs d) = Ok m) as (m & Tm).
      { unfold get_a0_b0 in AB. destruct (a_beq d) as [|c0 l] eqn:Eb; [contradiction|]. apply bind_ok in AB. destruct AB as (m & Hm & _). apply mapM_ok in Hm. clear - Hm Hc. induction Hm as [|a r l' m' E F IH]; [contradiction|]. destruct Hc as [->|Hc]; [exists r; exact E|auto]. }
      rewrite (row_kinds (a_op d) c (a_abs d) x m) by (auto; now apply (beq_spec d)). fold k b. change (qz 2) with (1 + 1)%Qc. ring. }
    unfold lagrangian. cbv zeta. rewrite Ob, Pn, L0'.
    rewrite (sumof_ext (fun i => (at_ (i_lam s) i * split_gap x0 (i_z s) (i_y s) i)%Qc) (fun i => (at_ (i_lam s) i * at_ x0 i - at_ (i_lam s) i * (at_ (i_z s) i + at_ (i_y s) i))%Qc)) by (intros; unfold split_gap; ring).
    rewrite (sumof_ext (fun i => (split_gap x0 (i_z s) (i_y s) i * split_gap x0 (i_z s) (i_y s) i)%Qc)
      (fun i => (at_ x0 i * at_ x0 i - qz 2 * ((at_ (i_z s) i + at_ (i_y s) i) * at_ x0 i) + (at_ (i_z s) i + at_ (i_y s) i) * (at_ (i_z s) i + at_ (i_y s) i))%Qc)).
    2: { intros. unfold split_gap. change (qz 2) with (1 + 1)%Qc. ring. }
    rewrite !sumof_add, !sumof_sub, sumof_scale.
    rewrite (rel_sum (fun j v => at_ (i_lam s) j * v)%Qc (a_bin d) (a_abs d) (a_rel d) x x0 Ra Na Jr) by (intros; ring).
    rewrite (rel_sum (fun j v => v * v)%Qc (a_bin d) (a_abs d) (a_rel d) x x0 Ra Na Jr) by (intros; ring).
    rewrite (rel_sum (fun j v => (at_ (i_z s) j + at_ (i_y s) j) * v)%Qc (a_bin d) (a_abs d) (a_rel d) x x0 Ra Na Jr) by (intros; ring).
    fold k b.
    rewrite (sumof_ext (fun i => (at_ lin i * at_ b i)%Qc) (fun i => (at_ (a_c0 d) i * at_ b i - ap_c pr * (at_ (vec_mat (a_b0 d) (a_a0 d) k) i * at_ b i) - i_rho s * ((at_ (i_z s) (nth i (a_rel d) 0%nat) + at_ (i_y s) (nth i (a_rel d) 0%nat)) * at_ b i) + at_ (i_lam s) (nth i (a_rel d) 0%nat) * at_ b i)%Qc)).
    2: { intros t Ht. apply in_seq in Ht. unfold lin. rewrite at_add by (rewrite add_length; congruence). rewrite at_add by congruence. rewrite at_sub by (rewrite scale_length; congruence). rewrite !at_scale. rewrite at_sub by (rewrite neg_length; congruence). rewrite at_neg. unfold ly, lz, ll. rewrite !coords_at by lia. ring. }
    rewrite !sumof_add, !sumof_sub, !sumof_scale, vec_form.
    rewrite (sumof_ext (fun i => sumof _ _) (fun i => (sumof (fun j => cell (a_q0 d) i j * at_ b i * at_ b j) (seq 0 k) + ap_c pr / qz 2 * sumof (fun j => cell (gram (a_a0 d) k) i j * at_ b i * at_ b j) (seq 0 k) + i_rho s / qz 2 * (at_ b i * at_ b i))%Qc) (seq 0 k)).
    2: { intros i Hi. apply in_seq in Hi. rewrite <- (eye_sum k i (fun j => (at_ b i * at_ b j)%Qc)) by lia. rewrite <- !sumof_scale, <- !sumof_add. apply sumof_ext. intros. ring. }
    rewrite !sumof_add, !sumof_scale, gram_form.
    unfold form at 1. rewrite Kx. fold (cell (a_q0 d)).
    instantiate (1 := (o_const (p_obj (a_op d)) + form (a_q1 d) (a_c1 d) u + ap_c pr / qz 2 * sumof (fun c => lc_rhs c * lc_rhs c) (a_beq d) + ap_beta pr / qz 2 * sumof (fun i => at_ (i_y s) i * at_ (i_y s) i) (seq 0 (length (a_bin d))) -
      sumof (fun i => at_ (i_lam s) i * (at_ (i_z s) i + at_ (i_y s) i)) (seq 0 (length (a_bin d))) +
      i_rho s / qz 2 * sumof (fun i => (at_ (i_z s) i + at_ (i_y s) i) * (at_ (i_z s) i + at_ (i_y s) i)) (seq 0 (length (a_bin d))))%Qc).
    unfold cell. assert (qz 2 <> 0%Qc) by discriminate. field. assumption.
Qed.
