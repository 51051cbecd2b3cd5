From Verif Require Export SpecAdmm AlgoFacts GoemansFacts ConvMore ConvWf DocWf.
Local Open Scope nat_scope.

(** ** Indices and parts *)
Definition idx_from (t : vartype) (k : nat) (vars : list variable) : list nat :=
  map fst (filter (fun iv => vartype_eqb (v_type (snd iv)) t) (combine (seq k (length vars)) vars)).
Lemma vartype_eqb_sp a b : reflect (a = b) (vartype_eqb a b).
Proof. destruct a, b; simpl; constructor; congruence. Qed.
Lemma idx_cons t k v vars : idx_from t k (v :: vars) = if vartype_eqb (v_type v) t then k :: idx_from t (S k) vars else idx_from t (S k) vars.
Proof. unfold idx_from. cbn [length seq combine filter snd map]. destruct (vartype_eqb (v_type v) t); reflexivity. Qed.
Lemma indices_idx t p : indices_of t p = idx_from t 0 (p_vars p).
Proof. reflexivity. Qed.
Lemma idx_in t vars : forall k i, In i (idx_from t k vars) <-> k <= i /\ exists v, nth_error vars (i - k) = Some v /\ v_type v = t.
Proof.
  induction vars as [|v vars IH]; intros k i.
  - simpl. split; [intros []|]. intros (_ & v & H & _). destruct (i - k); discriminate.
  - rewrite idx_cons. assert (In i (idx_from t (S k) vars) <-> k < i /\ exists v, nth_error vars (i - S k) = Some v /\ v_type v = t) as E by (rewrite IH; split; intros [A B]; split; auto; lia).
    destruct (vartype_eqb_sp (v_type v) t) as [T|T]; simpl In; rewrite E; clear E; split.
    + intros [->|[A (w & B & C)]]; [split; [lia|]; exists v; rewrite Nat.sub_diag; auto|]. split; [lia|]. exists w. split; auto. replace (i - k) with (S (i - S k)) by lia. exact B.
    + intros [A (w & B & C)]. destruct (Nat.eq_dec k i) as [->|N]; [now left|right]. split; [lia|]. exists w. split; auto. replace (i - k) with (S (i - S k)) in B by lia. exact B.
    + intros [A (w & B & C)]. split; [lia|]. exists w. split; auto. replace (i - k) with (S (i - S k)) by lia. exact B.
    + intros [A (w & B & C)]. destruct (Nat.eq_dec k i) as [->|N]; [rewrite Nat.sub_diag in B; simpl in B; congruence|]. split; [lia|]. exists w. split; auto. replace (i - k) with (S (i - S k)) in B by lia. exact B.
Qed.
Lemma indices_in t p i : In i (indices_of t p) <-> is_var t p i.
Proof. rewrite indices_idx, idx_in, Nat.sub_0_r. unfold is_var. split; [intros [_ A]; exact A|intro A; split; [lia|exact A]]. Qed.
Lemma idx_sorted t vars : forall k, StronglySorted lt (idx_from t k vars).
Proof.
  induction vars as [|v vars IH]; intro k; [constructor|]. rewrite idx_cons. destruct (vartype_eqb (v_type v) t); auto. constructor; auto.
  apply Forall_forall. intros i Hi. apply idx_in in Hi. lia.
Qed.
Lemma sorted_nodup l : StronglySorted lt l -> NoDup l.
Proof. induction 1 as [|a l S IH F]; constructor; auto. intro H. rewrite Forall_forall in F. specialize (F a H). lia. Qed.
Lemma indices_nodup t p : NoDup (indices_of t p).
Proof. apply sorted_nodup, idx_sorted. Qed.
Lemma is_var_lt t p i : is_var t p i -> i < num_vars p.
Proof. intros (v & H & _). apply nth_error_Some. congruence. Qed.

Lemma np_take_ok x idx b : np_take x idx = Ok b <-> b = coords x idx /\ Forall (fun i => i < length x) idx.
Proof.
  unfold np_take, coords. revert b. induction idx as [|i idx IH]; intro b; cbn [mapM map].
  - split; [intro E; injection E as <-; auto|intros [-> _]; reflexivity].
  - destruct (nth_error x i) eqn:E.
    + assert (i < length x) as Hi by (apply nth_error_Some; congruence). assert (at_ x i = q) as Hq by (unfold at_; now apply nth_error_nth).
      cbn [bind]. split.
      * intro H. apply bind_ok in H. destruct H as (b' & H & H'). apply IH in H. destruct H as [-> F]. injection H' as <-. split; [now rewrite Hq|constructor; auto].
      * intros [-> F]. inversion F; subst. rewrite (proj2 (IH _) (conj eq_refl H2)). reflexivity.
    + split; [discriminate|]. intros [_ F]. inversion F; subst. apply nth_error_None in E. lia.
Qed.
Lemma np_take_total x idx : Forall (fun i => i < length x) idx -> np_take x idx = Ok (coords x idx).
Proof. intro F. now apply np_take_ok. Qed.

Lemma coords_part t vars : forall k x pre, length pre = k -> length x = length vars -> coords (pre ++ x) (idx_from t k vars) = part t vars x.
Proof.
  induction vars as [|v vars IH]; intros k x pre Hp Hx; destruct x as [|a x]; try discriminate; [reflexivity|].
  rewrite idx_cons. cbn [part]. specialize (IH (S k) x (pre ++ [a])). rewrite <- app_assoc in IH. cbn [app] in IH.
  assert (coords (pre ++ a :: x) (idx_from t (S k) vars) = part t vars x) as E by (apply IH; [rewrite app_length; simpl; lia|simpl in Hx; lia]).
  destruct (vartype_eqb (v_type v) t); auto. cbn [coords map]. unfold coords in E. rewrite E. f_equal. unfold at_. rewrite app_nth2 by lia. now replace (k - length pre) with 0 by lia.
Qed.
Lemma coords_indices t p x : length x = num_vars p -> coords x (indices_of t p) = part t (p_vars p) x.
Proof. intro L. rewrite indices_idx. apply (coords_part t (p_vars p) 0 x []); auto. Qed.
Lemma part_length t p x : length x = num_vars p -> length (part t (p_vars p) x) = length (indices_of t p).
Proof. intro L. rewrite <- coords_indices by auto. unfold coords. apply map_length. Qed.
Lemma part_inj vars : Forall (fun v => v_type v <> INTEGER) vars -> forall x y, length x = length vars -> length y = length vars ->
  part BINARY vars x = part BINARY vars y -> part CONTINUOUS vars x = part CONTINUOUS vars y -> x = y.
Proof.
  induction 1 as [|v vars T F IH]; intros x y Lx Ly E1 E2; destruct x as [|a x]; destruct y as [|b y]; try discriminate; auto.
  simpl in *. destruct (v_type v); simpl in *; try congruence; try (injection E1; intros; f_equal; auto; fail); injection E2; intros; f_equal; auto.
Qed.
Lemma joins_fun p b c x y : mixed_binary p -> joins p b c x -> joins p b c y -> x = y.
Proof. intros M (A & B & C) (A' & B' & C'). apply (part_inj (p_vars p)); auto; congruence. Qed.

(** ** put *)
Lemma put_length idx : forall x v, length (np_put x idx v) = length x.
Proof. unfold np_put. induction idx as [|i idx IH]; intros x [|a v]; cbn [combine fold_left]; auto. rewrite IH. apply update_length. Qed.
Lemma at_update i j a x : at_ (update i a x) j = if Nat.eqb i j && Nat.ltb i (length x) then a else at_ x j.
Proof.
  destruct (Nat.ltb_spec i (length x)) as [H|H].
  - unfold at_. rewrite nth_update by auto. destruct (Nat.eqb i j); reflexivity.
  - rewrite andb_false_r. f_equal. clear j. revert i H. induction x as [|b x IH]; intros [|i] H; simpl in *; auto; [lia|]. f_equal. apply IH. lia.
Qed.
Lemma put_out idx : forall x v i, ~ In i idx -> at_ (np_put x idx v) i = at_ x i.
Proof.
  unfold np_put. induction idx as [|j idx IH]; intros x [|a v] i N; cbn [combine fold_left]; auto. rewrite IH by (intro; apply N; now right).
  cbn [fst snd]. rewrite at_update. destruct (Nat.eqb_spec j i) as [->|]; [exfalso; apply N; now left|reflexivity].
Qed.
Lemma put_in idx : forall x v, NoDup idx -> length v = length idx -> Forall (fun i => i < length x) idx -> coords (np_put x idx v) idx = v.
Proof.
  induction idx as [|j idx IH]; intros x [|a v] N L F; try discriminate; [reflexivity|].
  inversion N; subst. inversion F; subst. change (np_put x (j :: idx) (a :: v)) with (np_put (update j a x) idx v). cbn [coords map]. f_equal.
  - rewrite put_out by auto. rewrite at_update, Nat.eqb_refl. destruct (Nat.ltb_spec j (length x)); [reflexivity|lia].
  - apply IH; auto. rewrite update_length. exact H4.
Qed.
Lemma coords_put_out idx x v idx' : (forall i, In i idx' -> ~ In i idx) -> coords (np_put x idx v) idx' = coords x idx'.
Proof. intro D. apply map_ext_in. intros i Hi. apply put_out. auto. Qed.

(** ** revert *)
Definition split_at (d : admm_data) : Prop := a_bin d = indices_of BINARY (a_op d) /\ a_cont d = indices_of CONTINUOUS (a_op d).
Lemma idx_count vars : forall k, Forall (fun v => v_type v <> INTEGER) vars -> length (idx_from BINARY k vars) + length (idx_from CONTINUOUS k vars) = length vars.
Proof.
  induction vars as [|v vars IH]; intros k F; [reflexivity|]. inversion F; subst. rewrite !idx_cons. specialize (IH (S k) H2). destruct (v_type v); simpl; try congruence; lia.
Qed.
Lemma indices_count p : mixed_binary p -> length (indices_of BINARY p) + length (indices_of CONTINUOUS p) = num_vars p.
Proof. intro M. apply (idx_count (p_vars p) 0 M). Qed.
Lemma revert_joins d b c : split_at d -> mixed_binary (a_op d) -> length b = length (a_bin d) -> length c = length (a_cont d) -> joins (a_op d) b c (revert d b c).
Proof.
  intros [A B] M Lb Lc. pose proof (indices_count _ M) as N. rewrite <- A, <- B in N.
  assert (length (revert d b c) = num_vars (a_op d)) as L by (unfold revert; rewrite !put_length, repeat_length; exact N).
  split; auto. rewrite <- !coords_indices by auto. rewrite <- A, <- B. unfold revert. rewrite N. split.
  - rewrite coords_put_out. + apply put_in; auto; [rewrite A; apply indices_nodup|]. rewrite repeat_length, A. apply Forall_forall. intros i Hi. now apply indices_in, is_var_lt in Hi.
    + intros i Hi Hj. rewrite A in Hi. rewrite B in Hj. apply indices_in in Hi, Hj. destruct Hi as (v & H1 & H2), Hj as (w & H3 & H4). congruence.
  - apply put_in; auto; [rewrite B; apply indices_nodup|]. rewrite put_length, repeat_length, B. apply Forall_forall. intros i Hi. now apply indices_in, is_var_lt in Hi.
Qed.
Lemma revert_part d x : split_at d -> mixed_binary (a_op d) -> length x = num_vars (a_op d) -> revert d (part BINARY (p_vars (a_op d)) x) (part CONTINUOUS (p_vars (a_op d)) x) = x.
Proof.
  intros S M L. apply (joins_fun (a_op d) (part BINARY (p_vars (a_op d)) x) (part CONTINUOUS (p_vars (a_op d)) x)); auto; [|split; auto].
  destruct S as [A B]. apply revert_joins; auto; [split; auto| |]; rewrite ?A, ?B; now apply part_length.
Qed.
