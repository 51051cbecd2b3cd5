(** * Floats: error bounds, whole numbers, doubles *)
From Verif Require Export FloatFacts.
Local Open Scope nat_scope.

Lemma qabs_zero : qabs 0 = 0%Qc. Proof. reflexivity. Qed.
Lemma mag_lin_entries e x : lin_wf e -> le_dim e <= length x -> sumof (fun kc => qabs (snd kc * at_ x (fst kc)))%Qc (le_co e) = mag_lin e x.
Proof.
  intros W L. transitivity (sumof (fun kc => qabs (snd kc) * qabs (at_ x (fst kc)))%Qc (le_co e)); [apply sumof_ext; intros; apply qabs_mul|].
  rewrite (lin_sum qabs (fun i => qabs (at_ x i)) e x qabs_zero W L). apply sumof_ext. intros. symmetry. apply qabs_mul.
Qed.
Lemma lin_at_entries e x : lin_wf e -> le_dim e <= length x -> sumof (fun kc => snd kc * at_ x (fst kc))%Qc (le_co e) = lin_at e x.
Proof. intros W L. exact (lin_sum (fun c => c) (at_ x) e x eq_refl W L). Qed.
Lemma col_lt e : quad_wf e -> Forall (fun kc => snd (fst kc) < qe_dim e) (qe_co e).
Proof. intros [_ W]. eapply Forall_impl; [|exact W]. simpl. tauto. Qed.
Lemma quad_at_columns e x : quad_wf e -> qe_dim e <= length x -> sumof (fun j => col_exact e x j * at_ x j)%Qc (seq 0 (qe_dim e)) = quad_at e x.
Proof.
  intros W L. unfold col_exact. rewrite (columns_scaled _ (at_ x) _ _ (col_lt e W)).
  transitivity (sumof (fun kc => snd kc * (at_ x (fst (fst kc)) * at_ x (snd (fst kc))))%Qc (qe_co e)); [apply sumof_ext; intros; ring|].
  rewrite (quad_sum (fun c => c) (fun i j => at_ x i * at_ x j)%Qc e x eq_refl W L). apply sumof_ext. intros i _. apply sumof_ext. intros j _. ring.
Qed.
Lemma mag_quad_columns e x : quad_wf e -> qe_dim e <= length x -> sumof (fun j => col_size e x j * qabs (at_ x j))%Qc (seq 0 (qe_dim e)) = mag_quad e x.
Proof.
  intros W L. unfold col_size. rewrite (columns_scaled _ (fun j => qabs (at_ x j)) _ _ (col_lt e W)).
  transitivity (sumof (fun kc => qabs (snd kc) * (qabs (at_ x (fst (fst kc))) * qabs (at_ x (snd (fst kc)))))%Qc (qe_co e)); [apply sumof_ext; intros; rewrite qabs_mul; ring|].
  rewrite (quad_sum qabs (fun i j => qabs (at_ x i) * qabs (at_ x j))%Qc e x qabs_zero W L). apply sumof_ext. intros i _. apply sumof_ext. intros j _. rewrite !qabs_mul. ring.
Qed.
Lemma mag_lin_nonneg e x : (0 <= mag_lin e x)%Qc.
Proof. apply sumof_nonneg. intros; apply qabs_nonneg. Qed.
Lemma mag_quad_nonneg e x : (0 <= mag_quad e x)%Qc.
Proof. apply sumof_nonneg. intros; apply sumof_nonneg. intros; apply qabs_nonneg. Qed.
Lemma lin_at_mag e x : (qabs (lin_at e x) <= mag_lin e x)%Qc.
Proof. apply sumof_abs. Qed.
Lemma quad_at_mag e x : (qabs (quad_at e x) <= mag_quad e x)%Qc.
Proof. eapply Qcle_trans; [apply sumof_abs|]. apply sumof_le. intros. apply sumof_abs. Qed.

Section Err.
Variable rnd : Qc -> Qc.
Variable u : Qc.
Hypothesis U : (0 <= u)%Qc.
Hypothesis R : rel_error u rnd.
Lemma lin_error e x v : lin_wf e -> le_dim e <= length x -> float_lin rnd e x v -> (qabs (v - lin_at e x) <= spread u (steps_lin e) (mag_lin e x))%Qc.
Proof. intros W L H. pose proof (float_lin_entries rnd u U R e x v H) as E. now rewrite lin_at_entries, mag_lin_entries in E. Qed.
Lemma quad_error e x v : quad_wf e -> qe_dim e <= length x -> float_quad rnd e x v -> (qabs (v - quad_at e x) <= spread u (steps_quad e) (mag_quad e x))%Qc.
Proof. intros W L H. pose proof (float_quad_columns rnd u U R e x v H) as E. now rewrite quad_at_columns, mag_quad_columns in E. Qed.
Lemma pair_error l q x a b : lin_wf l -> le_dim l <= length x -> quad_wf q -> qe_dim q <= length x -> float_lin rnd l x a -> float_quad rnd q x b ->
  (qabs (a + b - (lin_at l x + quad_at q x)) <= spread u (steps_lin l + steps_quad q) (mag_lin l x + mag_quad q x))%Qc.
Proof.
  intros W1 L1 W2 L2 H1 H2. pose proof (lin_error _ _ _ W1 L1 H1) as A. pose proof (quad_error _ _ _ W2 L2 H2) as B.
  rewrite <- spread_add. pose proof (qabs_triangle (a - lin_at l x) (b - quad_at q x)) as T. replace (a - lin_at l x + (b - quad_at q x))%Qc with (a + b - (lin_at l x + quad_at q x))%Qc in T by ring.
  pose proof (spread_mono u (steps_lin l) (steps_lin l + steps_quad q) _ _ U ltac:(lia) (mag_lin_nonneg l x) (Qcle_refl _)).
  pose proof (spread_mono u (steps_quad q) (steps_lin l + steps_quad q) _ _ U ltac:(lia) (mag_quad_nonneg q x) (Qcle_refl _)). qlra.
Qed.
Lemma lhs_error n p c x v : shapes n p -> In c (all_cons p) -> length x = n -> float_lhs rnd c x v -> (qabs (v - any_at c x) <= spread u (steps c) (mag c x))%Qc.
Proof.
  intros (_ & _ & S1 & S2) Hc Hx H. unfold all_cons in Hc. apply in_app_iff in Hc. destruct Hc as [Hc|Hc]; apply in_map_iff in Hc; destruct Hc as (c' & <- & Hc).
  - rewrite Forall_forall in S1. destruct (S1 _ Hc) as (W & D). apply lin_error; auto. lia.
  - rewrite Forall_forall in S2. destruct (S2 _ Hc) as ((W1 & D1) & (W2 & D2)). destruct H as (a & b & A & B & ->). simpl. apply (round_more rnd u U R).
    + apply pair_error; auto; lia.
    + unfold qc_at. pose proof (lin_at_mag (qc_lin c') x). pose proof (quad_at_mag (qc_quad c') x). pose proof (qabs_triangle (lin_at (qc_lin c') x) (quad_at (qc_quad c') x)). qlra.
Qed.
Lemma obj_error n p x v : shapes n p -> length x = n -> float_obj rnd (p_obj p) x v ->
  (qabs (v - obj_at (p_obj p) x) <= spread u (S (S (S (steps_lin (o_lin (p_obj p)) + steps_quad (o_quad (p_obj p)))))) (qabs (o_const (p_obj p)) + mag_lin (o_lin (p_obj p)) x + mag_quad (o_quad (p_obj p)) x))%Qc.
Proof.
  intros ((W1 & D1) & (W2 & D2) & _) Hx (a & b & A & B & ->). set (o := p_obj p) in *.
  pose proof (lin_error _ x _ W1 ltac:(lia) A) as EA. pose proof (quad_error _ x _ W2 ltac:(lia) B) as EB.
  set (k := steps_lin (o_lin o) + steps_quad (o_quad o)) in *.
  pose proof (mag_lin_nonneg (o_lin o) x) as N1. pose proof (mag_quad_nonneg (o_quad o) x) as N2. pose proof (qabs_nonneg (o_const o)) as N3.
  pose proof (lin_at_mag (o_lin o) x) as M1. pose proof (quad_at_mag (o_quad o) x) as M2.
  assert (qabs (rnd (o_const o) + a - (o_const o + lin_at (o_lin o) x)) <= spread u (S k) (qabs (o_const o) + mag_lin (o_lin o) x))%Qc as E1.
  { rewrite <- spread_add. pose proof (round_one rnd u R (o_const o)) as C.
    pose proof (spread_mono u 1 (S k) _ _ U ltac:(lia) N3 (Qcle_refl _)). pose proof (spread_mono u (steps_lin (o_lin o)) (S k) _ _ U ltac:(unfold k; lia) N1 (Qcle_refl _)).
    pose proof (qabs_triangle (rnd (o_const o) - o_const o) (a - lin_at (o_lin o) x)) as T.
    replace (rnd (o_const o) - o_const o + (a - lin_at (o_lin o) x))%Qc with (rnd (o_const o) + a - (o_const o + lin_at (o_lin o) x))%Qc in T by ring. qlra. }
  assert (qabs (o_const o + lin_at (o_lin o) x) <= qabs (o_const o) + mag_lin (o_lin o) x)%Qc as B1 by (pose proof (qabs_triangle (o_const o) (lin_at (o_lin o) x)); qlra).
  pose proof (round_more rnd u U R _ _ _ _ E1 B1) as E2.
  apply (round_more rnd u U R).
  - rewrite <- spread_add. pose proof (spread_mono u (steps_quad (o_quad o)) (S (S k)) _ _ U ltac:(unfold k; lia) N2 (Qcle_refl _)).
    set (s := rnd (rnd (o_const o) + a)) in *.
    pose proof (qabs_triangle (s - (o_const o + lin_at (o_lin o) x)) (b - quad_at (o_quad o) x)) as T.
    replace (s - (o_const o + lin_at (o_lin o) x) + (b - quad_at (o_quad o) x))%Qc with (s + b - obj_at o x)%Qc in T by (unfold obj_at; ring). qlra.
  - unfold obj_at. pose proof (qabs_triangle (o_const o + lin_at (o_lin o) x) (quad_at (o_quad o) x)). pose proof (qabs_triangle (o_const o) (lin_at (o_lin o) x)). qlra.
Qed.
End Err.

(** ** Whole numbers *)
Lemma raised_ge1 a : (1 <= raised a)%Qc. Proof. apply qmax_l. Qed.
Lemma raised_ge a : (qabs a <= raised a)%Qc. Proof. apply qmax_r. Qed.
Lemma top_lin_entries e x : lin_wf e -> le_dim e <= length x -> sumof (fun kc => qabs (snd kc) * raised (at_ x (fst kc)))%Qc (le_co e) = top_lin e x.
Proof. intros W L. apply (lin_sum qabs (fun i => raised (at_ x i)) e x qabs_zero W L). Qed.
Lemma top_quad_entries e x : quad_wf e -> qe_dim e <= length x ->
  sumof (fun kc => qabs (snd kc) * raised (at_ x (fst (fst kc))) * raised (at_ x (snd (fst kc))))%Qc (qe_co e) = top_quad e x.
Proof.
  intros W L. transitivity (sumof (fun kc => qabs (snd kc) * (raised (at_ x (fst (fst kc))) * raised (at_ x (snd (fst kc)))))%Qc (qe_co e)); [apply sumof_ext; intros; ring|].
  rewrite (quad_sum qabs (fun i j => raised (at_ x i) * raised (at_ x j))%Qc e x qabs_zero W L). apply sumof_ext. intros i _. apply sumof_ext. intros j _. ring.
Qed.
Lemma entry1 e k c : lin_wf e -> In (k, c) (le_co e) -> c = coef1 e k.
Proof. intros [W _] H. unfold coef1, dgetq. now rewrite (in_dget _ nat_eqb_sp k c _ W H). Qed.
Lemma entry2 e i j c : quad_wf e -> In ((i, j), c) (qe_co e) -> c = coef2 e i j.
Proof. intros [W _] H. unfold coef2, mget, dgetq. now rewrite (in_dget _ nat2_eqb_sp (i, j) c _ W H). Qed.

Section Whole.
Variable rnd : Qc -> Qc.
Variable n : Qc.
Hypothesis K : keeps_whole n rnd.
Lemma keeps a : integral a -> (qabs a <= n)%Qc -> rnd a = a.
Proof. intros [z ->] H. now apply K. Qed.
Lemma sum_whole l v : float_sum rnd l v -> Forall integral l -> (sumof qabs l <= n)%Qc -> v = sumof (fun a => a) l.
Proof.
  induction 1 as [|a|l l1 l2 a b N1 N2 P S1 IH1 S2 IH2]; intros I B; [reflexivity|simpl; ring|].
  rewrite (sumof_perm qabs _ _ P), sumof_app in B. rewrite (sumof_perm (fun a => a) _ _ P), sumof_app.
  assert (Forall integral (l1 ++ l2)) as I' by (eapply Permutation_Forall; eauto). apply Forall_app in I'. destruct I' as [I1 I2].
  assert (0 <= sumof qabs l1)%Qc by (apply sumof_nonneg; intros; apply qabs_nonneg). assert (0 <= sumof qabs l2)%Qc by (apply sumof_nonneg; intros; apply qabs_nonneg).
  rewrite IH1, IH2 by (auto; qlra). apply keeps.
  - apply integral_add; apply sumof_integral; intros c Hc; [rewrite Forall_forall in I1; auto|rewrite Forall_forall in I2; auto].
  - pose proof (qabs_triangle (sumof (fun a => a) l1) (sumof (fun a => a) l2)). pose proof (sumof_abs (fun a => a) l1). pose proof (sumof_abs (fun a => a) l2). simpl in *.
    change (fun a : Qc => qabs a) with qabs in *. qlra.
Qed.
Lemma product_whole c a t : integral c -> integral a -> (qabs c * raised a <= t)%Qc -> (t <= n)%Qc -> rnd (rnd c * a) = (c * a)%Qc /\ (qabs (c * a) <= qabs c * raised a)%Qc.
Proof.
  intros C A B T. pose proof (raised_ge1 a) as R1. pose proof (raised_ge a) as R2. pose proof (qabs_nonneg c) as C0. pose proof (qabs_nonneg a) as A0.
  assert (qabs c <= qabs c * raised a)%Qc as B1 by qnra. assert (qabs (c * a) <= qabs c * raised a)%Qc as B2 by (rewrite qabs_mul; qnra).
  rewrite (keeps c) by (auto; qlra). split; auto. apply keeps; [now apply integral_mul|]. qlra.
Qed.
Lemma lin_whole e x v : lin_wf e -> le_dim e <= length x -> whole_lin e -> Forall integral x -> (top_lin e x <= n)%Qc -> float_lin rnd e x v -> v = lin_at e x /\ integral v /\ (qabs v <= top_lin e x)%Qc.
Proof.
  intros W L C X T H. unfold float_lin in H.
  assert (forall a, integral (at_ x a)) as X' by (intro a; unfold at_; destruct (nth_in_or_default a x 0%Qc) as [Hin|E]; [rewrite Forall_forall in X; auto|rewrite E; apply integral_0]).
  assert (forall kc, In kc (le_co e) -> integral (snd kc) /\ rnd (rnd (snd kc) * nth (fst kc) x 0)%Qc = (snd kc * at_ x (fst kc))%Qc /\ (qabs (snd kc * at_ x (fst kc)) <= qabs (snd kc) * raised (at_ x (fst kc)))%Qc) as F.
  { intros [k c] Hin. simpl. assert (integral c) as Ic by (rewrite (entry1 e k c W Hin); apply C). split; [exact Ic|]. apply (product_whole c (at_ x k) (top_lin e x)); auto.
    rewrite <- (top_lin_entries e x W L). apply (sumof_term_le (fun kc => qabs (snd kc) * raised (at_ x (fst kc)))%Qc (le_co e) (k, c)); auto.
    intros b _. pose proof (qabs_nonneg (snd b)). pose proof (raised_ge1 (at_ x (fst b))). qnra. }
  assert (map (fun kc => rnd (rnd (snd kc) * nth (fst kc) x 0)%Qc) (le_co e) = map (fun kc => snd kc * at_ x (fst kc))%Qc (le_co e)) as E by (apply map_ext_in; intros kc Hin; now apply F).
  rewrite E in H. assert (sumof qabs (map (fun kc => snd kc * at_ x (fst kc))%Qc (le_co e)) <= top_lin e x)%Qc as B.
  { rewrite sumof_map, <- (top_lin_entries e x W L). apply sumof_le. intros kc Hin. now apply F. }
  assert (Forall integral (map (fun kc => snd kc * at_ x (fst kc))%Qc (le_co e))) as I.
  { apply Forall_forall. intros a Ha. apply in_map_iff in Ha. destruct Ha as (kc & <- & Hin). apply integral_mul; [now apply F|apply X']. }
  apply sum_whole in H; auto; [|qlra]. rewrite H. split; [|split].
  - rewrite sumof_map. now apply lin_at_entries.
  - apply sumof_integral. intros a Ha. rewrite Forall_forall in I. auto.
  - eapply Qcle_trans; [apply sumof_abs|]. exact B.
Qed.
Lemma quad_whole e x v : quad_wf e -> qe_dim e <= length x -> whole_quad e -> Forall integral x -> (top_quad e x <= n)%Qc -> float_quad rnd e x v -> v = quad_at e x /\ integral v /\ (qabs v <= top_quad e x)%Qc.
Proof.
  intros W L C X T (r & Hr & H).
  assert (forall a, integral (at_ x a)) as X' by (intro a; unfold at_; destruct (nth_in_or_default a x 0%Qc) as [Hin|E]; [rewrite Forall_forall in X; auto|rewrite E; apply integral_0]).
  set (h := fun kc : (nat * nat) * Qc => (qabs (snd kc) * raised (at_ x (fst (fst kc))))%Qc).
  assert (forall kc, 0 <= h kc)%Qc as Hh by (intro kc; unfold h; pose proof (qabs_nonneg (snd kc)); pose proof (raised_ge1 (at_ x (fst (fst kc)))); qnra).
  set (g := fun j => sumof h (filter (in_col j) (qe_co e))).
  assert (forall j, 0 <= g j)%Qc as Hg by (intro j; apply sumof_nonneg; auto).
  assert (sumof (fun j => g j * raised (at_ x j))%Qc (seq 0 (qe_dim e)) = top_quad e x) as G.
  { unfold g. rewrite (columns_scaled h (fun j => raised (at_ x j)) _ _ (col_lt e W)). unfold h. rewrite <- (top_quad_entries e x W L). apply sumof_ext. intros; ring. }
  assert (forall j, j < qe_dim e -> (g j * raised (at_ x j) <= top_quad e x)%Qc) as G1.
  { intros j Hj. rewrite <- G. apply (sumof_term_le (fun j => g j * raised (at_ x j))%Qc); [|apply in_seq; lia]. intros i _. pose proof (raised_ge1 (at_ x i)). specialize (Hg i). qnra. }
  assert (forall kc, In kc (qe_co e) -> integral (snd kc)) as Ic by (intros [[i j] c] Hin; simpl; rewrite (entry2 e i j c W Hin); apply C).
  assert (forall j, j < qe_dim e -> nth j r 0%Qc = col_exact e x j /\ integral (col_exact e x j) /\ (qabs (col_exact e x j) <= g j)%Qc) as Col.
  { intros j Hj. specialize (Hr j Hj). unfold float_column in Hr. specialize (G1 j Hj). pose proof (raised_ge1 (at_ x j)) as R1. pose proof (Hg j) as Gj.
    assert (g j <= top_quad e x)%Qc as G2 by qnra.
    assert (forall kc, In kc (filter (in_col j) (qe_co e)) -> rnd (rnd (snd kc) * nth (fst (fst kc)) x 0)%Qc = (snd kc * at_ x (fst (fst kc)))%Qc /\ (qabs (snd kc * at_ x (fst (fst kc))) <= h kc)%Qc) as F.
    { intros kc Hin. apply (product_whole (snd kc) (at_ x (fst (fst kc))) (g j)); [apply Ic; now apply filter_In in Hin|apply X'| |qlra].
      apply (sumof_term_le h (filter (in_col j) (qe_co e)) kc); auto. }
    assert (map (fun kc => rnd (rnd (snd kc) * nth (fst (fst kc)) x 0)%Qc) (filter (in_col j) (qe_co e)) = map (fun kc => snd kc * at_ x (fst (fst kc)))%Qc (filter (in_col j) (qe_co e))) as E by (apply map_ext_in; intros kc Hin; now apply F).
    change (fun kc : nat * nat * Qc => snd (fst kc) =? j) with (in_col j) in Hr. rewrite E in Hr.
    assert (sumof qabs (map (fun kc => snd kc * at_ x (fst (fst kc)))%Qc (filter (in_col j) (qe_co e))) <= g j)%Qc as B by (rewrite sumof_map; apply sumof_le; intros kc Hin; now apply F).
    assert (Forall integral (map (fun kc => snd kc * at_ x (fst (fst kc)))%Qc (filter (in_col j) (qe_co e)))) as I.
    { apply Forall_forall. intros a Ha. apply in_map_iff in Ha. destruct Ha as (kc & <- & Hin). apply integral_mul; [apply Ic; now apply filter_In in Hin|apply X']. }
    apply sum_whole in Hr; auto; [|qlra]. rewrite sumof_map in Hr. change (nth j r 0%Qc = col_exact e x j) in Hr. split; [exact Hr|]. split.
    - unfold col_exact. apply sumof_integral. intros kc Hin. apply integral_mul; [apply Ic; now apply filter_In in Hin|apply X'].
    - rewrite sumof_map in B. eapply Qcle_trans; [apply col_exact_size|]. exact B. }
  assert (forall j, In j (seq 0 (qe_dim e)) -> rnd (nth j r 0 * nth j x 0)%Qc = (col_exact e x j * at_ x j)%Qc /\ (qabs (col_exact e x j * at_ x j) <= g j * raised (at_ x j))%Qc) as F2.
  { intros j Hj. apply in_seq in Hj. destruct (Col j ltac:(lia)) as (E & I & B). rewrite E. specialize (G1 j ltac:(lia)).
    assert (qabs (col_exact e x j * at_ x j) <= g j * raised (at_ x j))%Qc as B2.
    { rewrite qabs_mul. pose proof (raised_ge (at_ x j)). pose proof (qabs_nonneg (at_ x j)). pose proof (qabs_nonneg (col_exact e x j)). pose proof (Hg j). qnra. }
    split; [|exact B2]. change (nth j x 0%Qc) with (at_ x j). apply keeps; [now apply integral_mul|]. qlra. }
  rewrite (map_ext_in _ (fun j => col_exact e x j * at_ x j)%Qc) in H by (intros j Hj; now apply F2).
  assert (sumof qabs (map (fun j => col_exact e x j * at_ x j)%Qc (seq 0 (qe_dim e))) <= top_quad e x)%Qc as B by (rewrite sumof_map, <- G; apply sumof_le; intros j Hj; now apply F2).
  assert (Forall integral (map (fun j => col_exact e x j * at_ x j)%Qc (seq 0 (qe_dim e)))) as I.
  { apply Forall_forall. intros a Ha. apply in_map_iff in Ha. destruct Ha as (j & <- & Hj). apply in_seq in Hj. apply integral_mul; [apply Col; lia|apply X']. }
  apply sum_whole in H; auto; [|qlra]. rewrite H. split; [|split].
  - rewrite sumof_map. now apply quad_at_columns.
  - apply sumof_integral. intros a Ha. rewrite Forall_forall in I. auto.
  - eapply Qcle_trans; [apply sumof_abs|]. exact B.
Qed.
Lemma top_quad_nonneg e x : (0 <= top_quad e x)%Qc.
Proof. apply sumof_nonneg. intros i _. apply sumof_nonneg. intros j _. pose proof (qabs_nonneg (coef2 e i j)). pose proof (raised_ge1 (at_ x i)). pose proof (raised_ge1 (at_ x j)). assert (0 <= qabs (coef2 e i j) * raised (at_ x i))%Qc by qnra. qnra. Qed.
Lemma top_lin_nonneg e x : (0 <= top_lin e x)%Qc.
Proof. apply sumof_nonneg. intros i _. pose proof (qabs_nonneg (coef1 e i)). pose proof (raised_ge1 (at_ x i)). qnra. Qed.
Lemma lhs_whole m p c x v : shapes m p -> In c (all_cons p) -> length x = m -> whole_con c -> Forall integral x -> (top c x <= n)%Qc -> float_lhs rnd c x v ->
  v = any_at c x /\ integral v /\ (qabs v <= top c x)%Qc.
Proof.
  intros (_ & _ & S1 & S2) Hc Hx [_ C] X T H. unfold all_cons in Hc. apply in_app_iff in Hc. destruct Hc as [Hc|Hc]; apply in_map_iff in Hc; destruct Hc as (c' & <- & Hc).
  - rewrite Forall_forall in S1. destruct (S1 _ Hc) as (W & D). apply lin_whole; auto. lia.
  - rewrite Forall_forall in S2. destruct (S2 _ Hc) as ((W1 & D1) & (W2 & D2)). destruct C as [C1 C2]. destruct H as (a & b & A & B & ->). simpl in T |- *.
    pose proof (top_lin_nonneg (qc_lin c') x). pose proof (top_quad_nonneg (qc_quad c') x).
    apply lin_whole in A; auto; [|lia|qlra]. apply quad_whole in B; auto; [|lia|qlra]. destruct A as (-> & IA & BA), B as (-> & IB & BB).
    pose proof (qabs_triangle (lin_at (qc_lin c') x) (quad_at (qc_quad c') x)). assert (integral (lin_at (qc_lin c') x + quad_at (qc_quad c') x)%Qc) by now apply integral_add.
    rewrite keeps; auto; [|qlra]. split; [reflexivity|]. split; auto. qlra.
Qed.
Lemma obj_whole m p x v : shapes m p -> length x = m -> integral (o_const (p_obj p)) -> whole_lin (o_lin (p_obj p)) -> whole_quad (o_quad (p_obj p)) -> Forall integral x ->
  (qabs (o_const (p_obj p)) + top_lin (o_lin (p_obj p)) x + top_quad (o_quad (p_obj p)) x <= n)%Qc -> float_obj rnd (p_obj p) x v -> v = obj_at (p_obj p) x.
Proof.
  intros ((W1 & D1) & (W2 & D2) & _) Hx C0 C1 C2 X T (a & b & A & B & ->). set (o := p_obj p) in *.
  pose proof (top_lin_nonneg (o_lin o) x). pose proof (top_quad_nonneg (o_quad o) x). pose proof (qabs_nonneg (o_const o)).
  apply lin_whole in A; auto; [|lia|qlra]. apply quad_whole in B; auto; [|lia|qlra]. destruct A as (-> & IA & BA), B as (-> & IB & BB).
  pose proof (qabs_triangle (o_const o) (lin_at (o_lin o) x)). pose proof (qabs_triangle (o_const o + lin_at (o_lin o) x) (quad_at (o_quad o) x)).
  rewrite (keeps (o_const o)) by (auto; qlra). rewrite (keeps (o_const o + lin_at (o_lin o) x)) by (try (now apply integral_add); qlra).
  apply keeps; [repeat apply integral_add; auto|unfold obj_at; qlra].
Qed.
End Whole.
