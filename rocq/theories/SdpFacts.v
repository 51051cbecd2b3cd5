(** * Facts on the semidefinite program *)
From Verif Require Export SpecSdp GoemansFacts3.
Local Open Scope list_scope.
Local Open Scope nat_scope.

Lemma nth_map_in {A B} (f : A -> B) l i d d' : i < length l -> nth i (map f l) d = f (nth i l d').
Proof. intro L. rewrite (nth_indep _ d (f d')) by (now rewrite map_length). apply map_nth. Qed.
Lemma nth_combine {A B} (l : list A) (m : list B) i a b : i < length l -> length l = length m -> nth i (combine l m) (a, b) = (nth i l a, nth i m b).
Proof. intros L E. now apply combine_nth. Qed.
(** Sums over matrices *)
Lemma sumof_nth {A} (F : A -> Qc) l d : sumof F l = sumof (fun i => F (nth i l d)) (seq 0 (length l)).
Proof.
  induction l as [|a l IH]; [reflexivity|]. cbn [length seq sumof nth]. f_equal. rewrite IH, sumof_seq_shift. reflexivity.
Qed.
Lemma sdp_objective_sum n adj x : square n adj -> square n x -> sdp_objective adj x = sumof (fun i => sumof (fun j => (cell2 adj i j * (1 - cell2 x i j))%Qc) (seq 0 n)) (seq 0 n).
Proof.
  intros [La Fa] [Lx Fx]. unfold sdp_objective. rewrite np_sum_map, (sumof_nth _ _ ([], [])). rewrite combine_length, La, Lx, Nat.min_id. apply sumof_seq_ext. intros i [_ Hi]. cbn in Hi.
  rewrite nth_combine by lia. cbn [fst snd]. rewrite np_sum_map, (sumof_nth _ _ (0, 0)%Qc). rewrite combine_length.
  assert (length (nth i adj []) = n) as L1 by (apply (proj1 (Forall_forall _ _) Fa), nth_In; lia). assert (length (nth i x []) = n) as L2 by (apply (proj1 (Forall_forall _ _) Fx), nth_In; lia).
  rewrite L1, L2, Nat.min_id. apply sumof_seq_ext. intros j [_ Hj]. cbn in Hj. rewrite nth_combine by lia. reflexivity.
Qed.
Lemma adjacency_square p : square (qe_dim (o_quad (p_obj p))) (adjacency p).
Proof. unfold square, adjacency. rewrite map_length, seq_length. split; [reflexivity|]. apply Forall_map, Forall_forall. intros i _. now rewrite map_length, seq_length. Qed.
Lemma adjacency_cell p i j : i < qe_dim (o_quad (p_obj p)) -> j < qe_dim (o_quad (p_obj p)) ->
  cell2 (adjacency p) i j = ((- coef2 (o_quad (p_obj p)) i j + - coef2 (o_quad (p_obj p)) j i) / qz 2)%Qc.
Proof.
  intros Hi Hj. unfold cell2, adjacency. rewrite (nth_map_in _ _ _ _ 0) by (now rewrite seq_length). rewrite (nth_map_in _ _ _ _ 0) by (now rewrite seq_length). rewrite !seq_nth by assumption. reflexivity.
Qed.
(** Cuts as points *)
Lemma cut_matrix_square x : square (length x) (cut_matrix x).
Proof. unfold square, cut_matrix. rewrite map_length. split; [reflexivity|]. apply Forall_map, Forall_forall. intros a _. apply map_length. Qed.
Lemma cut_matrix_cell x i j : i < length x -> j < length x -> cell2 (cut_matrix x) i j = if qeqb (at_ x i) (at_ x j) then 1%Qc else (- (1))%Qc.
Proof. intros Hi Hj. unfold cell2, cut_matrix. rewrite (nth_map_in _ _ _ _ 0%Qc) by assumption. now rewrite (nth_map_in _ _ _ _ 0%Qc) by assumption. Qed.
Definition spin_of (a : Qc) : Qc := (qz 2 * a - 1)%Qc.
Lemma bits_at n x i : bits n x -> i < n -> at_ x i = 0%Qc \/ at_ x i = 1%Qc.
Proof. intros [L F] H. apply (proj1 (Forall_forall _ _) F). unfold at_. apply nth_In. lia. Qed.
Lemma cut_matrix_spin n x i j : bits n x -> i < n -> j < n -> cell2 (cut_matrix x) i j = (spin_of (at_ x i) * spin_of (at_ x j))%Qc.
Proof.
  intros B Hi Hj. rewrite cut_matrix_cell by (destruct B; lia). destruct (bits_at _ _ _ B Hi) as [-> | ->]; destruct (bits_at _ _ _ B Hj) as [-> | ->]; apply Qc_is_canon; reflexivity.
Qed.
Lemma cut_matrix_psd n x : bits n x -> positive_semidefinite n (cut_matrix x).
Proof.
  intro B. split.
  - intros i j Hi Hj. rewrite !(cut_matrix_spin n) by assumption. ring.
  - intros v L. assert (form n (cut_matrix x) v = (sumof (fun i => at_ v i * spin_of (at_ x i)) (seq 0 n) * sumof (fun i => at_ v i * spin_of (at_ x i)) (seq 0 n)))%Qc as ->.
    { unfold form. rewrite sumof_mul. apply sumof_seq_ext. intros i [_ Hi]. apply sumof_seq_ext. intros j [_ Hj]. rewrite (cut_matrix_spin n) by assumption. ring. }
    generalize (sumof (fun i => at_ v i * spin_of (at_ x i))%Qc (seq 0 n)). intro a. destruct (Qclt_le_dec a 0); qnra.
Qed.
Lemma cut_matrix_point p x : length x = qe_dim (o_quad (p_obj p)) -> bits (qe_dim (o_quad (p_obj p))) x -> sdp_point (adjacency p) (cut_matrix x).
Proof.
  intros L B. unfold sdp_point. rewrite (proj1 (adjacency_square p)). split; [rewrite <- L; apply cut_matrix_square|]. split; [now apply cut_matrix_psd|].
  unfold sdp_diagonal. rewrite (proj1 (adjacency_square p)). apply forallb_forall. intros i I. apply in_seq in I. rewrite cut_matrix_cell by lia. rewrite qeqb_refl. reflexivity.
Qed.
Lemma cut_matrix_value p x : bits (qe_dim (o_quad (p_obj p))) x -> sdp_objective (adjacency p) (cut_matrix x) = (qz 4 * max_cut_value x (adjacency p))%Qc.
Proof.
  intro B. set (n := qe_dim (o_quad (p_obj p))) in *. assert (L : length x = n) by apply B.
  rewrite (sdp_objective_sum n); [|apply adjacency_square|rewrite <- L; apply cut_matrix_square]. rewrite adj_value by exact L. rewrite L.
  set (w := fun i j => ((- coef2 (o_quad (p_obj p)) i j + - coef2 (o_quad (p_obj p)) j i) / qz 2)%Qc).
  assert (S : forall i j, w i j = w j i) by (intros; unfold w; f_equal; ring).
  transitivity (sumof (fun i => sumof (fun j => w i j * (qz 2 * (at_ x i * (1 - at_ x j)) + qz 2 * (at_ x j * (1 - at_ x i))))%Qc (seq 0 n)) (seq 0 n)).
  - apply sumof_seq_ext. intros i [_ Hi]. apply sumof_seq_ext. intros j [_ Hj]. rewrite adjacency_cell by (cbn in *; assumption). fold (w i j). f_equal. rewrite cut_matrix_cell by (cbn in *; lia).
    destruct (bits_at _ _ _ B Hi) as [-> | ->]; destruct (bits_at _ _ _ B Hj) as [-> | ->]; apply Qc_is_canon; reflexivity.
  - set (T := sumof (fun i => sumof (fun j => (w i j * (at_ x i * (1 - at_ x j)))%Qc) (seq 0 n)) (seq 0 n)).
    match goal with |- _ = (qz 4 * ?X)%Qc => change X with T end.
    assert (T = sumof (fun i => sumof (fun j => (w i j * (at_ x j * (1 - at_ x i)))%Qc) (seq 0 n)) (seq 0 n)) as T2.
    { unfold T. rewrite sumof_swap. apply sumof_seq_ext. intros i _. apply sumof_seq_ext. intros j _. rewrite (S j i). reflexivity. }
    transitivity (qz 2 * T + qz 2 * T)%Qc; [|replace (qz 4) with (qz 2 + qz 2)%Qc by (apply Qc_is_canon; reflexivity); ring].
    rewrite T2 at 2. unfold T. rewrite <- !sumof_scale, <- sumof_add. apply sumof_seq_ext. intros i _. rewrite <- !sumof_scale, <- sumof_add. apply sumof_seq_ext. intros j _. ring.
Qed.
(** Regularisation *)
Lemma add_diag_square n c m : square n m -> square n (add_diag c m).
Proof.
  intros [L F]. split; [now rewrite add_diag_length|]. unfold add_diag. apply Forall_map, Forall_forall. intros [i r] I. cbn [fst snd]. rewrite map_length, combine_length, seq_length, Nat.min_id.
  apply in_combine_r in I. exact (proj1 (Forall_forall _ _) F r I).
Qed.
Lemma add_diag_cell n c m i j : square n m -> i < n -> j < n -> cell2 (add_diag c m) i j = (cell2 m i j + (if Nat.eqb i j then c else 0))%Qc.
Proof.
  intros [L F] Hi Hj. unfold cell2, add_diag. assert (length (nth i m []) = n) as Li by (apply (proj1 (Forall_forall _ _) F), nth_In; lia).
  rewrite (nth_map_in _ _ _ _ (0, [])) by (rewrite combine_length, seq_length; lia). rewrite nth_combine by (rewrite seq_length; lia). rewrite seq_nth by lia. cbn [fst snd plus].
  rewrite (nth_map_in _ _ _ _ (0, 0%Qc)) by (rewrite combine_length, seq_length; lia). rewrite nth_combine by (rewrite seq_length; lia). rewrite seq_nth by lia. cbn [fst snd plus]. destruct (i =? j); ring.
Qed.
Lemma add_diag_form n c m v : square n m -> form n (add_diag c m) v = (form n m v + c * norm2 n v)%Qc.
Proof.
  intro S. unfold form, norm2. rewrite <- sumof_scale, <- sumof_add. apply sumof_seq_ext. intros i [_ Hi]. cbn in Hi.
  transitivity (sumof (fun j => at_ v i * cell2 m i j * at_ v j + (if Nat.eqb i j then c * (at_ v i * at_ v j) else 0))%Qc (seq 0 n)).
  - apply sumof_seq_ext. intros j [_ Hj]. rewrite (add_diag_cell n) by assumption. destruct (i =? j); ring.
  - rewrite sumof_add. f_equal. rewrite (sumof_ext _ (fun j => if Nat.eqb j i then (c * (at_ v i * at_ v j))%Qc else 0%Qc)) by (intros; now rewrite Nat.eqb_sym). now rewrite sumof_seq_pick.
Qed.
Lemma form_norm_pos n m e v : eigen_bound n m e -> length v = n -> (0 < e)%Qc -> (0 < norm2 n v)%Qc -> (0 < form n m v)%Qc.
Proof. intros E L P N. specialize (E v L). assert (0 < e * norm2 n v)%Qc by qnra. eapply Qclt_le_trans; eassumption. Qed.

(** ** Points of the program *)
Definition pair_vec (n i j : nat) (c : Qc) : list Qc := map (fun k => ((if Nat.eqb k i then 1 else 0) + c * (if Nat.eqb k j then 1 else 0))%Qc) (seq 0 n).
Lemma pair_vec_at n i j c k : k < n -> at_ (pair_vec n i j c) k = ((if Nat.eqb k i then 1 else 0) + c * (if Nat.eqb k j then 1 else 0))%Qc.
Proof. intro H. unfold at_, pair_vec. rewrite (nth_map_in _ _ _ _ 0) by now rewrite seq_length. rewrite seq_nth by assumption. reflexivity. Qed.
Lemma pair_sum n i j c (f : nat -> Qc) : i < n -> j < n -> sumof (fun k => (f k * at_ (pair_vec n i j c) k)%Qc) (seq 0 n) = (f i + c * f j)%Qc.
Proof.
  intros Hi Hj. transitivity (sumof (fun k => ((if Nat.eqb k i then f k else 0) + c * (if Nat.eqb k j then f k else 0))%Qc) (seq 0 n)).
  - apply sumof_ext. intros k I. apply in_seq in I. rewrite pair_vec_at by lia. destruct (k =? i), (k =? j); ring.
  - rewrite sumof_add, sumof_scale, (sumof_seq_pick f n i Hi), (sumof_seq_pick f n j Hj). reflexivity.
Qed.
Lemma pair_form n m i j c : i < n -> j < n -> form n m (pair_vec n i j c) = (cell2 m i i + c * cell2 m i j + c * cell2 m j i + c * c * cell2 m j j)%Qc.
Proof.
  intros Hi Hj. unfold form. erewrite sumof_ext.
  2: { intros a _. rewrite (pair_sum n i j c (fun b => (at_ (pair_vec n i j c) a * cell2 m a b)%Qc)) by assumption.
       instantiate (1 := fun a => ((cell2 m a i + c * cell2 m a j) * at_ (pair_vec n i j c) a)%Qc). cbv beta. ring. }
  rewrite (pair_sum n i j c (fun a => (cell2 m a i + c * cell2 m a j)%Qc)) by assumption. ring.
Qed.
Lemma diagonal_cell adj x i : sdp_diagonal adj x = true -> i < length adj -> cell2 x i i = 1%Qc.
Proof. intros H I. unfold sdp_diagonal in H. rewrite forallb_forall in H. apply qeqb_iff, H, in_seq. lia. Qed.
Lemma point_bounded adj x i j : sdp_point adj x -> i < length adj -> j < length adj -> (- (1) <= cell2 x i j /\ cell2 x i j <= 1)%Qc.
Proof.
  intros (_ & [Sy Ps] & D) Hi Hj. assert (forall c, length (pair_vec (length adj) i j c) = length adj) as L by (intro; unfold pair_vec; rewrite map_length; apply seq_length).
  pose proof (Ps _ (L 1%Qc)) as P. pose proof (Ps _ (L (- (1))%Qc)) as Q. rewrite pair_form in P, Q by assumption. rewrite (diagonal_cell _ _ i D Hi), (diagonal_cell _ _ j D Hj), <- (Sy i j Hi Hj) in P, Q.
  set (a := cell2 x i j) in *. clearbody a. split; qlra.
Qed.
Lemma outer_cell v i j : i < length v -> j < length v -> cell2 (outer v) i j = (at_ v i * at_ v j)%Qc.
Proof. intros Hi Hj. unfold cell2, outer. rewrite (nth_map_in _ _ _ _ 0%Qc) by assumption. rewrite (nth_map_in _ _ _ _ 0%Qc) by assumption. reflexivity. Qed.
Lemma square_one (a : Qc) : (a * a = 1)%Qc -> a = 1%Qc \/ a = (- (1))%Qc.
Proof. intro H. assert ((a - 1) * (a + 1) = 0)%Qc as E by (replace ((a - 1) * (a + 1))%Qc with (a * a - 1)%Qc by ring; rewrite H; ring). apply Qcmult_integral in E. destruct E as [E|E]; [left|right]; qlra. Qed.
Lemma rank_one_cut adj v : length v = length adj -> sdp_point adj (outer v) -> exists x, bits (length adj) x /\ outer v = cut_matrix x.
Proof.
  intros L (_ & _ & D). set (f := fun a => if qeqb a 1 then 0%Qc else 1%Qc). exists (map f v).
  assert (Forall (fun a => a = 1%Qc \/ a = (- (1))%Qc) v) as F. { apply Forall_forall. intros a I. destruct (In_nth _ _ 0%Qc I) as (k & Hk & <-). apply square_one. change (nth k v 0%Qc) with (at_ v k). rewrite <- outer_cell by assumption. apply (diagonal_cell adj); [assumption|congruence]. }
  split; [split; [rewrite map_length; assumption|]; apply Forall_map, Forall_forall; intros a _; unfold f; destruct (qeqb a 1); auto|].
  unfold outer, cut_matrix. rewrite map_map. apply map_ext_in. intros a Ia. rewrite map_map. apply map_ext_in. intros b Ib. rewrite Forall_forall in F.
  destruct (F a Ia) as [-> | ->], (F b Ib) as [-> | ->]; apply Qc_is_canon; reflexivity.
Qed.
