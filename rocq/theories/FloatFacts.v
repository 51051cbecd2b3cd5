(** * Facts about evaluation with floats *)
From Verif Require Export FloatEval SpecFloats FeasFacts.
Local Open Scope nat_scope.

(** ** Powers *)
Lemma power_ge1 w n : (1 <= w)%Qc -> (1 <= power w n)%Qc.
Proof. intro H. induction n as [|n IH]; simpl; [apply Qcle_refl|]. qnra. Qed.
Lemma power_mono w n m : (1 <= w)%Qc -> n <= m -> (power w n <= power w m)%Qc.
Proof.
  intros H L. induction L as [|m L IH]; [apply Qcle_refl|]. simpl. pose proof (power_ge1 w m H). qnra.
Qed.
Lemma spread_mono u n m a b : (0 <= u)%Qc -> n <= m -> (0 <= a)%Qc -> (a <= b)%Qc -> (spread u n a <= spread u m b)%Qc.
Proof.
  intros U L A B. unfold spread. assert (1 <= 1 + u)%Qc as W by qlra. pose proof (power_ge1 (1 + u) n W). pose proof (power_mono (1 + u) n m W L).
  generalize dependent (power (1 + u) n). generalize dependent (power (1 + u) m). intros pm pn H1 H2. qnra.
Qed.
Lemma spread_nonneg u n a : (0 <= u)%Qc -> (0 <= a)%Qc -> (0 <= spread u n a)%Qc.
Proof.
  intros U A. unfold spread. assert (1 <= 1 + u)%Qc as W by qlra. pose proof (power_ge1 (1 + u) n W). generalize dependent (power (1 + u) n). intros. qnra.
Qed.
Lemma spread_add u n a b : (spread u n a + spread u n b)%Qc = spread u n (a + b).
Proof. unfold spread. ring. Qed.
Lemma spread_0 u n : spread u n 0 = 0%Qc.
Proof. unfold spread. ring. Qed.

Section Err.
Variable rnd : Qc -> Qc.
Variable u : Qc.
Hypothesis U : (0 <= u)%Qc.
Hypothesis R : rel_error u rnd.

(** One more rounding *)
Lemma round_more n v a m : (qabs (v - a) <= spread u n m)%Qc -> (qabs a <= m)%Qc -> (qabs (rnd v - a) <= spread u (S n) m)%Qc.
Proof.
  intros H A. pose proof (R v) as E. unfold spread in *. simpl. assert (1 <= 1 + u)%Qc as W by qlra. pose proof (power_ge1 (1 + u) n W) as P. set (w := power (1 + u) n) in *. clearbody w.
  assert (qabs v <= w * m)%Qc as V.
  { pose proof (qabs_triangle a (v - a)) as T. replace (a + (v - a))%Qc with v in T by ring. qlra. }
  pose proof (qabs_triangle (rnd v - v) (v - a)) as T. replace (rnd v - v + (v - a))%Qc with (rnd v - a)%Qc in T by ring.
  assert (u * qabs v <= u * (w * m))%Qc by (rewrite (Qcmult_comm u), (Qcmult_comm u); now apply Qcmult_le_compat_r). 
  assert (((1 + u) * w - 1) * m = u * (w * m) + (w - 1) * m)%Qc as -> by ring. qlra.
Qed.
Lemma round_one a : (qabs (rnd a - a) <= spread u 1 (qabs a))%Qc.
Proof. pose proof (R a). unfold spread. simpl. replace (((1 + u) * 1 - 1) * qabs a)%Qc with (u * qabs a)%Qc by ring. assumption. Qed.

(** What a sum in any order is off by: every item is (computed, exact, size). *)
Definition item := (Qc * Qc * Qc)%type.
Definition computed (i : item) : Qc := fst (fst i).
Definition exact (i : item) : Qc := snd (fst i).
Definition size (i : item) : Qc := snd i.
Definition good (k : nat) (i : item) : Prop := (qabs (computed i - exact i) <= spread u k (size i))%Qc /\ (qabs (exact i) <= size i)%Qc.
Lemma size_nonneg k i : good k i -> (0 <= size i)%Qc.
Proof. intros [_ H]. pose proof (qabs_nonneg (exact i)). qlra. Qed.
Lemma sizes_nonneg k l : Forall (good k) l -> (0 <= sumof size l)%Qc.
Proof. intro H. apply sumof_nonneg. intros i Hi. rewrite Forall_forall in H. eapply size_nonneg; eauto. Qed.
Lemma exact_size k l : Forall (good k) l -> (qabs (sumof exact l) <= sumof size l)%Qc.
Proof.
  intro H. eapply Qcle_trans; [apply sumof_abs|]. apply sumof_le. intros i Hi. rewrite Forall_forall in H. now apply H.
Qed.
Lemma sum_error k l v : float_sum rnd l v -> forall its, l = map computed its -> Forall (good k) its ->
  (qabs (v - sumof exact its) <= spread u (k + length its - 1) (sumof size its))%Qc.
Proof.
  induction 1 as [|a|l l1 l2 a b N1 N2 P S1 IH1 S2 IH2]; intros its E G.
  - destruct its; [|discriminate]. simpl. rewrite spread_0. apply qabs_bound. split; qlra.
  - destruct its as [|i [|]]; try discriminate. injection E as ->. inversion G as [|? ? [G1 G2] _]; subst. simpl. replace (k + 1 - 1) with k by lia.
    replace (exact i + 0)%Qc with (exact i) by ring. replace (size i + 0)%Qc with (size i) by ring. exact G1.
  - subst l. apply Permutation_sym, Permutation_map_inv in P. destruct P as (its' & E & P). symmetry in E. apply map_eq_app in E. destruct E as (i1 & i2 & -> & <- & <-).
    assert (Forall (good k) (i1 ++ i2)) as G' by (eapply Permutation_Forall; eauto). apply Forall_app in G'. destruct G' as [G1 G2].
    specialize (IH1 i1 eq_refl G1). specialize (IH2 i2 eq_refl G2).
    rewrite (sumof_perm exact _ _ P), (sumof_perm size _ _ P), (Permutation_length P), !sumof_app, app_length.
    assert (1 <= length i1) as L1 by (destruct i1; [now destruct N1|simpl; lia]). assert (1 <= length i2) as L2 by (destruct i2; [now destruct N2|simpl; lia]).
    pose proof (sizes_nonneg _ _ G1) as Z1. pose proof (sizes_nonneg _ _ G2) as Z2.
    set (m := k + length i1 + length i2 - 2).
    assert (qabs (a - sumof exact i1) <= spread u m (sumof size i1))%Qc as B1 by (eapply Qcle_trans; [exact IH1|]; apply spread_mono; auto; [unfold m; lia|apply Qcle_refl]).
    assert (qabs (b - sumof exact i2) <= spread u m (sumof size i2))%Qc as B2 by (eapply Qcle_trans; [exact IH2|]; apply spread_mono; auto; [unfold m; lia|apply Qcle_refl]).
    replace (k + (length i1 + length i2) - 1) with (S m) by (unfold m; lia). apply round_more.
    + rewrite <- spread_add. pose proof (qabs_triangle (a - sumof exact i1) (b - sumof exact i2)) as T.
      replace (a - sumof exact i1 + (b - sumof exact i2))%Qc with (a + b - (sumof exact i1 + sumof exact i2))%Qc in T by ring. qlra.
    + pose proof (exact_size _ _ G1). pose proof (exact_size _ _ G2). pose proof (qabs_triangle (sumof exact i1) (sumof exact i2)). qlra.
Qed.

(** A coefficient times a coordinate *)
Lemma term_error c x : (qabs (rnd (rnd c * x) - c * x) <= spread u 2 (qabs (c * x)))%Qc.
Proof.
  apply round_more; [|apply Qcle_refl]. replace (rnd c * x - c * x)%Qc with ((rnd c - c) * x)%Qc by ring. rewrite !qabs_mul.
  pose proof (round_one c) as H. pose proof (qabs_nonneg x). unfold spread in *. simpl in *.
  replace (((1 + u) * 1 - 1) * (qabs c * qabs x))%Qc with (((1 + u) * 1 - 1) * qabs c * qabs x)%Qc by ring. now apply Qcmult_le_compat_r.
Qed.

(** ** Linear expressions *)
Lemma float_lin_entries e x v : float_lin rnd e x v ->
  (qabs (v - sumof (fun kc => snd kc * at_ x (fst kc))%Qc (le_co e)) <= spread u (steps_lin e) (sumof (fun kc => qabs (snd kc * at_ x (fst kc)))%Qc (le_co e)))%Qc.
Proof.
  intro H. set (its := map (fun kc => ((rnd (rnd (snd kc) * at_ x (fst kc)), snd kc * at_ x (fst kc)), qabs (snd kc * at_ x (fst kc)))%Qc : item) (le_co e)).
  pose proof (sum_error 2 _ _ H its) as E. unfold its in E. rewrite !sumof_map, map_length, !map_map in E. unfold exact, size, computed in E. simpl fst in E. simpl snd in E.
  eapply Qcle_trans; [apply E; [reflexivity|]|].
  - apply Forall_forall. intros i Hi. apply in_map_iff in Hi. destruct Hi as (kc & <- & _). split; simpl; [apply term_error|apply Qcle_refl].
  - apply spread_mono; auto; [unfold steps_lin; lia| |apply Qcle_refl]. apply sumof_nonneg. intros; apply qabs_nonneg.
Qed.

(** ** Quadratic expressions *)
Definition in_col (j : nat) (kc : (nat * nat) * Qc) : bool := Nat.eqb (snd (fst kc)) j.
Definition col_exact (e : quadexpr) (x : list Qc) (j : nat) : Qc := sumof (fun kc => snd kc * at_ x (fst (fst kc)))%Qc (filter (in_col j) (qe_co e)).
Definition col_size (e : quadexpr) (x : list Qc) (j : nat) : Qc := sumof (fun kc => qabs (snd kc * at_ x (fst (fst kc))))%Qc (filter (in_col j) (qe_co e)).
Lemma col_exact_size e x j : (qabs (col_exact e x j) <= col_size e x j)%Qc.
Proof. apply sumof_abs. Qed.
Lemma filter_length {A} (f : A -> bool) l : length (filter f l) <= length l.
Proof. induction l as [|a l IH]; simpl; [lia|]. destruct (f a); simpl; lia. Qed.
Lemma column_error e x j v : float_column rnd e x j v -> (qabs (v - col_exact e x j) <= spread u (length (qe_co e) + 1) (col_size e x j))%Qc.
Proof.
  intro H. set (its := map (fun kc => ((rnd (rnd (snd kc) * at_ x (fst (fst kc))), snd kc * at_ x (fst (fst kc))), qabs (snd kc * at_ x (fst (fst kc))))%Qc : item) (filter (in_col j) (qe_co e))).
  pose proof (sum_error 2 _ _ H its) as E. unfold its in E. rewrite !sumof_map, map_length, !map_map in E. unfold exact, size, computed in E. simpl fst in E. simpl snd in E.
  eapply Qcle_trans; [apply E; [reflexivity|]|].
  - apply Forall_forall. intros i Hi. apply in_map_iff in Hi. destruct Hi as (kc & <- & _). split; simpl; [apply term_error|apply Qcle_refl].
  - pose proof (filter_length (in_col j) (qe_co e)). apply spread_mono; auto; [lia| |apply Qcle_refl]. apply sumof_nonneg. intros; apply qabs_nonneg.
Qed.
Lemma float_quad_columns e x v : float_quad rnd e x v ->
  (qabs (v - sumof (fun j => col_exact e x j * at_ x j)%Qc (seq 0 (qe_dim e))) <= spread u (steps_quad e) (sumof (fun j => col_size e x j * qabs (at_ x j))%Qc (seq 0 (qe_dim e))))%Qc.
Proof.
  intros (r & Hr & H). set (its := map (fun j => ((rnd (nth j r 0 * at_ x j), col_exact e x j * at_ x j), col_size e x j * qabs (at_ x j))%Qc : item) (seq 0 (qe_dim e))).
  pose proof (sum_error (length (qe_co e) + 2) _ _ H its) as E. unfold its in E. rewrite !sumof_map, map_length, !map_map, seq_length in E. unfold exact, size, computed in E. simpl fst in E. simpl snd in E.
  eapply Qcle_trans; [apply E; [reflexivity|]|].
  - apply Forall_forall. intros i Hi. apply in_map_iff in Hi. destruct Hi as (j & <- & Hj). apply in_seq in Hj.
    assert (qabs (col_exact e x j * at_ x j) <= col_size e x j * qabs (at_ x j))%Qc as B.
    { rewrite qabs_mul. apply Qcmult_le_compat_r; [apply col_exact_size|apply qabs_nonneg]. }
    split; unfold computed, exact, size; simpl fst; simpl snd; [|exact B].
    replace (length (qe_co e) + 2) with (S (length (qe_co e) + 1)) by lia. apply round_more; [|exact B].
    replace (nth j r 0 * at_ x j - col_exact e x j * at_ x j)%Qc with ((nth j r 0 - col_exact e x j) * at_ x j)%Qc by ring. rewrite qabs_mul.
    pose proof (column_error e x j _ (Hr j ltac:(lia))) as C. unfold spread in *.
    replace ((power (1 + u) (length (qe_co e) + 1) - 1) * (col_size e x j * qabs (at_ x j)))%Qc with ((power (1 + u) (length (qe_co e) + 1) - 1) * col_size e x j * qabs (at_ x j))%Qc by ring.
    apply Qcmult_le_compat_r; [exact C|apply qabs_nonneg].
  - apply spread_mono; auto; [unfold steps_quad; lia| |apply Qcle_refl]. apply sumof_nonneg. intros j _.
    assert (0 <= col_size e x j)%Qc by (apply sumof_nonneg; intros; apply qabs_nonneg). pose proof (qabs_nonneg (at_ x j)). qnra.
Qed.
End Err.

(** ** Sums over stored entries *)
Lemma dgetq_map {K} (eqb : K -> K -> bool) (f : Qc -> Qc) k d : f 0%Qc = 0%Qc -> dgetq eqb k (map (fun kc => (fst kc, f (snd kc))) d) = f (dgetq eqb k d).
Proof.
  intro Z. unfold dgetq. induction d as [|[k' c] d IH]; simpl; [auto|]. destruct (eqb k k'); auto.
Qed.
(** Sums of a function of the coefficient and the position *)
Lemma lin_sum (f : Qc -> Qc) (g : nat -> Qc) e (x : list Qc) : f 0%Qc = 0%Qc -> lin_wf e -> le_dim e <= length x ->
  sumof (fun kc => f (snd kc) * g (fst kc))%Qc (le_co e) = sumof (fun i => f (coef1 e i) * g i)%Qc (seq 0 (length x)).
Proof.
  intros Z [W1 W2] L. pose proof (dsum_keys _ nat_eqb_sp g (map (fun kc => (fst kc, f (snd kc))) (le_co e)) (seq 0 (length x))) as D.
  unfold dsum in D. rewrite sumof_map in D. simpl in D. rewrite D.
  - apply sumof_ext. intros i _. unfold coef1. now rewrite dgetq_map.
  - now rewrite map_map.
  - apply seq_NoDup.
  - rewrite map_map. simpl. intros k Hk. apply in_map_iff in Hk. destruct Hk as (kc & <- & Hin). rewrite Forall_forall in W2. apply W2 in Hin. apply in_seq. lia.
Qed.
Lemma quad_sum (f : Qc -> Qc) (g : nat -> nat -> Qc) e (x : list Qc) : f 0%Qc = 0%Qc -> quad_wf e -> qe_dim e <= length x ->
  sumof (fun kc => f (snd kc) * g (fst (fst kc)) (snd (fst kc)))%Qc (qe_co e) = sumof (fun i => sumof (fun j => f (coef2 e i j) * g i j)%Qc (seq 0 (length x))) (seq 0 (length x)).
Proof.
  intros Z [W1 W2] L. pose proof (dsum_keys _ nat2_eqb_sp (fun ij => g (fst ij) (snd ij)) (map (fun kc => (fst kc, f (snd kc))) (qe_co e)) (pairs (length x))) as D.
  unfold dsum in D. rewrite sumof_map in D. simpl in D. rewrite D.
  - rewrite sumof_pairs. apply sumof_ext. intros i _. apply sumof_ext. intros j _. unfold coef2, mget. now rewrite dgetq_map.
  - now rewrite map_map.
  - apply pairs_nodup.
  - rewrite map_map. simpl. intros [i j] Hk. apply in_map_iff in Hk. destruct Hk as (kc & E & Hin). rewrite Forall_forall in W2. apply W2 in Hin. apply in_pairs. rewrite E in Hin. simpl in Hin. lia.
Qed.
Lemma columns_sum (h : (nat * nat) * Qc -> Qc) (co : list ((nat * nat) * Qc)) n : Forall (fun kc => snd (fst kc) < n) co ->
  sumof (fun j => sumof h (filter (in_col j) co)) (seq 0 n) = sumof h co.
Proof.
  intro W. induction W as [|kc co H W IH]; simpl; [apply sumof_zero; auto|]. rewrite <- IH.
  rewrite <- (sumof_seq_pick (fun _ => h kc) n (snd (fst kc)) H). rewrite <- sumof_add. apply sumof_ext. intros j _. unfold in_col at 1.
  rewrite Nat.eqb_sym. destruct (Nat.eqb j (snd (fst kc))); simpl; ring.
Qed.
Lemma columns_scaled (h : (nat * nat) * Qc -> Qc) (g : nat -> Qc) co n : Forall (fun kc => snd (fst kc) < n) co ->
  sumof (fun j => sumof h (filter (in_col j) co) * g j)%Qc (seq 0 n) = sumof (fun kc => h kc * g (snd (fst kc)))%Qc co.
Proof.
  intro W. rewrite <- (columns_sum (fun kc => h kc * g (snd (fst kc)))%Qc co n W). apply sumof_ext. intros j _. rewrite <- sumof_scale_r.
  apply sumof_ext. intros kc Hin. apply filter_In in Hin. destruct Hin as [_ E]. apply Nat.eqb_eq in E. now rewrite E.
Qed.
