(** * Travelling salesman *)
From Verif Require Export AppFacts2.
From Verif Require Import IntBinFacts.
Local Open Scope string_scope.
Local Open Scope list_scope.
Local Open Scope nat_scope.

(** ** Blocks of equal length *)
Lemma flat_nth {A} (f : nat -> list A) n d : (forall i, length (f i) = n) -> forall m s i k, i < m -> k < n ->
  nth (i * n + k) (flat_map f (seq s m)) d = nth k (f (s + i)) d.
Proof.
  intros H. induction m as [|m IH]; intros s i k Hi Hk; [lia|]. cbn [seq flat_map]. destruct i as [|i].
  - rewrite app_nth1 by (rewrite H; cbn; lia). rewrite Nat.add_0_r. reflexivity.
  - rewrite app_nth2 by (rewrite H; cbn; lia). rewrite H. replace (S i * n + k - n) with (i * n + k) by (cbn; lia).
    rewrite IH by lia. f_equal. f_equal. lia.
Qed.
Lemma flat_length {A} (f : nat -> list A) n : (forall i, length (f i) = n) -> forall m s, length (flat_map f (seq s m)) = m * n.
Proof. intros H. induction m as [|m IH]; intros s; cbn; [reflexivity|]. rewrite app_length, H, IH. reflexivity. Qed.
Lemma block_index n q : 0 < n -> q < n * n -> exists i k, i < n /\ k < n /\ q = i * n + k.
Proof.
  intros Hn Hq. exists (q / n), (q mod n). split; [apply Nat.div_lt_upper_bound; lia|]. split; [apply Nat.mod_upper_bound; lia|].
  rewrite (Nat.div_mod q n) at 1 by lia. lia.
Qed.
Lemma block_lt n i k : i < n -> k < n -> i * n + k < n * n.
Proof. intros Hi Hk. assert (i * n + n <= n * n) by (replace (i * n + n) with (S i * n) by (cbn; lia); apply Nat.mul_le_mono_r; lia). lia. Qed.

Lemma matrix_length n l : length (perm_matrix n l) = n * n.
Proof. unfold perm_matrix. apply flat_length. intros i. rewrite map_length, seq_length. reflexivity. Qed.
Lemma matrix_at n l i k : i < n -> k < n -> at_ (perm_matrix n l) (i * n + k) = if Nat.eqb (nth k l n) i then 1%Qc else 0%Qc.
Proof.
  intros Hi Hk. unfold at_, perm_matrix. rewrite (flat_nth _ n); [|intros; rewrite map_length, seq_length; reflexivity|exact Hi|exact Hk].
  cbn [plus]. rewrite (nth_indep _ 0%Qc (if Nat.eqb (nth 0 l n) i then 1%Qc else 0%Qc)) by (rewrite map_length, seq_length; exact Hk).
  rewrite (map_nth (fun k => if Nat.eqb (nth k l n) i then 1%Qc else 0%Qc)), seq_nth by exact Hk. reflexivity.
Qed.
Lemma matrix_bits n l : bits (n * n) (perm_matrix n l).
Proof.
  split; [apply matrix_length|]. unfold perm_matrix. apply Forall_forall. intros a H. apply in_flat_map in H as (i & _ & H). apply in_map_iff in H as (k & <- & _).
  destruct (Nat.eqb _ _); auto.
Qed.

Lemma list_nths {A} (d : A) l : map (fun k => nth k l d) (seq 0 (length l)) = l.
Proof.
  apply (nth_ext _ _ (nth 0 l d) d); [rewrite map_length, seq_length; reflexivity|]. rewrite map_length, seq_length. intros k H.
  rewrite (map_nth (fun k => nth k l d)), seq_nth by exact H. reflexivity.
Qed.

(** ** Sums of zeros and ones *)
Lemma sum_one {A} (f : A -> Qc) l : NoDup l -> (forall a, In a l -> f a = 0 \/ f a = 1)%Qc -> sumof f l = 1%Qc ->
  exists a, In a l /\ f a = 1%Qc /\ forall b, In b l -> b <> a -> f b = 0%Qc.
Proof.
  induction l as [|a l IH]; intros N Z E; [vm_compute in E; discriminate E|]. inversion N as [|? ? N1 N2]; subst. rewrite sumof_cons in E. destruct (Z a (or_introl eq_refl)) as [Ea|Ea].
  - destruct IH as (b & Ib & Eb & Hb); [exact N2|intros; apply Z; right; assumption|rewrite Ea in E; rewrite <- E; ring|].
    exists b. split; [right; exact Ib|]. split; [exact Eb|]. intros c [<-|Ic] Nc; [exact Ea|apply Hb; assumption].
  - exists a. split; [left; reflexivity|]. split; [exact Ea|]. intros b [<-|Ib] Nb; [contradiction|]. refine (sumof_nonneg_0 f l _ _ b Ib).
    + intros c Ic. destruct (Z c (or_intror Ic)) as [->| ->]; qlra.
    + rewrite Ea in E. qlra.
Qed.
Lemma pick_sum (f : nat -> Qc) n a : a < n -> sumof (fun i => if Nat.eqb a i then f i else 0%Qc) (seq 0 n) = f a.
Proof. intros H. rewrite <- (sumof_seq_pick f n a H). apply sumof_ext. intros i _. rewrite Nat.eqb_sym. reflexivity. Qed.

(** ** Permutations and matrices *)
Section Tour.
Variable n : nat.
Hypothesis n_pos : 0 < n.
Definition row_sum (x : list Qc) i := sumof (fun k => at_ x (i * n + k)) (seq 0 n).
Definition col_sum (x : list Qc) k := sumof (fun i => at_ x (i * n + k)) (seq 0 n).
Lemma perm_lt l k : Permutation l (seq 0 n) -> k < n -> nth k l n < n.
Proof using. clear n_pos.
  intros P H. assert (length l = n) as E by (rewrite (Permutation_length P); apply seq_length).
  assert (In (nth k l n) (seq 0 n)) as I. { apply (Permutation_in _ P). apply nth_In. lia. } apply in_seq in I. lia.
Qed.
Lemma matrix_rows l : Permutation l (seq 0 n) -> forall i, i < n -> row_sum (perm_matrix n l) i = 1%Qc /\ col_sum (perm_matrix n l) i = 1%Qc.
Proof using. clear n_pos.
  intros P i Hi. assert (length l = n) as E by (rewrite (Permutation_length P); apply seq_length). split.
  - unfold row_sum. rewrite (sumof_ext _ (fun k => if Nat.eqb (nth k l n) i then 1 else 0)%Qc).
    2:{ intros k Ik. apply in_seq in Ik. apply matrix_at; lia. }
    rewrite <- (sumof_map (fun k => nth k l n) (fun a => if Nat.eqb a i then 1 else 0)%Qc).
    assert (map (fun k => nth k l n) (seq 0 n) = l) as ->. { replace (seq 0 n) with (seq 0 (length l)) by (rewrite E; reflexivity). apply list_nths. }
    rewrite (sumof_perm _ _ _ P). apply (sumof_seq_pick (fun _ => 1%Qc) n i Hi).
  - unfold col_sum. rewrite (sumof_ext _ (fun j => if Nat.eqb (nth i l n) j then 1 else 0)%Qc).
    2:{ intros j Ij. apply in_seq in Ij. apply matrix_at; lia. }
    apply (pick_sum (fun _ => 1%Qc)). apply perm_lt; assumption.
Qed.
Lemma matrix_unique x : bits (n * n) x -> (forall i, i < n -> row_sum x i = 1%Qc) -> (forall k, k < n -> col_sum x k = 1%Qc) ->
  exists l, Permutation l (seq 0 n) /\ x = perm_matrix n l.
Proof using n_pos.
  intros B R C.
  assert (exists l, length l = n /\ forall k, k < n -> nth k l n < n /\ at_ x (nth k l n * n + k) = 1%Qc /\ forall i, i < n -> i <> nth k l n -> at_ x (i * n + k) = 0%Qc) as (l & El & Hl).
  { assert (forall m, m <= n -> exists l, length l = m /\ forall k, k < m -> nth k l n < n /\ at_ x (nth k l n * n + k) = 1%Qc /\ forall i, i < n -> i <> nth k l n -> at_ x (i * n + k) = 0%Qc) as G.
    { induction m as [|m IH]; intros Hm; [exists []; split; [reflexivity|]; intros; lia|]. destruct IH as (l & El & Hl); [lia|].
      destruct (sum_one (fun i => at_ x (i * n + m)) (seq 0 n) (seq_NoDup _ _) ltac:(intros; apply (bits_at (n * n)); exact B) (C m ltac:(lia))) as (a & Ia & Ea & Ha).
      apply in_seq in Ia. exists (l ++ [a]). split; [rewrite app_length; cbn; lia|]. intros k Hk. destruct (Nat.eq_dec k m) as [->|Nk].
      - rewrite app_nth2, El, Nat.sub_diag by lia. cbn [nth]. split; [lia|]. split; [exact Ea|]. intros i Hi Ni. apply Ha; [apply in_seq; lia|exact Ni].
      - rewrite app_nth1 by lia. apply Hl. lia. }
    destruct (G n (le_n _)) as (l & El & Hl). eauto. }
  assert (NoDup l) as N.
  { apply (NoDup_nth l n). intros k k' Hk Hk' E. rewrite El in Hk, Hk'. destruct (Hl k Hk) as (A1 & A2 & _). destruct (Hl k' Hk') as (B1 & B2 & _). rewrite <- E in B2.
    destruct (sum_one (fun k => at_ x (nth k' l n * n + k)) (seq 0 n) (seq_NoDup _ _) ltac:(intros; apply (bits_at (n * n)); exact B) (R _ B1)) as (a & _ & _ & Ha).
    rewrite <- E in Ha. destruct (Nat.eq_dec k a) as [->|Na]; [destruct (Nat.eq_dec k' a) as [->|Na']; [reflexivity|]|].
    - rewrite (Ha k') in B2; [discriminate B2|apply in_seq; lia|exact Na'].
    - rewrite (Ha k) in A2; [discriminate A2|apply in_seq; lia|exact Na]. }
  exists l. split.
  - apply NoDup_Permutation_bis; [exact N|rewrite seq_length; lia|]. intros a Ia. destruct (In_nth l a n Ia) as (k & Hk & <-). rewrite El in Hk. apply in_seq. destruct (Hl k Hk). lia.
  - apply (nth_ext _ _ 0%Qc 0%Qc); [rewrite matrix_length; apply B|]. destruct B as (Lx & _). rewrite Lx. intros q Hq.
    destruct (block_index n q n_pos Hq) as (i & k & Hi & Hk & ->). change (at_ x (i * n + k) = at_ (perm_matrix n l) (i * n + k)). rewrite matrix_at by assumption.
    destruct (Hl k Hk) as (_ & H1 & H0). destruct (Nat.eqb_spec (nth k l n) i) as [<-|Ni]; [exact H1|]. apply H0; [exact Hi|congruence].
Qed.

(** The decoded tour *)
Lemma matrix_interpret l : Permutation l (seq 0 n) -> tsp_interpret (perm_matrix n l) = map One l.
Proof using n_pos.
  intros P. assert (length l = n) as E by (rewrite (Permutation_length P); apply seq_length).
  unfold tsp_interpret. rewrite matrix_length, Nat.sqrt_square. transitivity (map One (map (fun k => nth k l n) (seq 0 (length l)))); [|rewrite list_nths; reflexivity].
  rewrite E, map_map. apply map_ext_in. intros k Ik. apply in_seq in Ik.
  assert (nth k l n < n) as L by (apply perm_lt; [exact P|lia]).
  assert (filter (fun i => negb (qeqb (nth (i * n + k) (perm_matrix n l) 0%Qc) 0)) (seq 0 n) = [nth k l n]) as ->; [|reflexivity].
  assert (forall m s, s <= nth k l n < s + m -> s + m <= n -> filter (fun i => negb (qeqb (nth (i * n + k) (perm_matrix n l) 0%Qc) 0)) (seq s m) = [nth k l n]) as G; [|apply G; lia].
  assert (forall m s, (nth k l n < s \/ s + m <= nth k l n) -> s + m <= n -> filter (fun i => negb (qeqb (nth (i * n + k) (perm_matrix n l) 0%Qc) 0)) (seq s m) = []) as G0.
  { intros m s H Hn. apply filter_none, Forall_forall. intros i Ii. apply in_seq in Ii. pose proof (matrix_at n l i k ltac:(lia) ltac:(lia)) as M. unfold at_ in M. rewrite M.
    destruct (Nat.eqb_spec (nth k l n) i); [lia|reflexivity]. }
  induction m as [|m IH]; intros s H Hn; [lia|]. cbn [seq filter]. pose proof (matrix_at n l s k ltac:(lia) ltac:(lia)) as M. unfold at_ in M. rewrite M.
  destruct (Nat.eqb_spec (nth k l n) s) as [Es|Ns].
  - change (qeqb 1 0) with false. cbn [negb]. rewrite (G0 m (S s)) by lia. rewrite Es. reflexivity.
  - change (qeqb 0 0) with true. cbn [negb]. apply IH; lia.
Qed.

(** The length of the tour *)
Variable w : nat -> nat -> Qc.
Lemma path_sum l : forall d, path_length w l = sumof (fun k => w (nth k l d) (nth (S k) l d)) (seq 0 (length l - 1)).
Proof using. clear n_pos.
  induction l as [|a [|b l] IH]; intros d; [reflexivity|reflexivity|]. cbn [length]. rewrite Nat.sub_succ, Nat.sub_0_r. cbn [seq]. rewrite sumof_cons, sumof_seq_shift.
  change (path_length w (a :: b :: l)) with (w a b + path_length w (b :: l))%Qc. rewrite (IH d). cbn [length]. rewrite Nat.sub_succ, Nat.sub_0_r. reflexivity.
Qed.
Lemma last_nth {A} (l : list A) : forall a d e, last (a :: l) d = nth (length l) (a :: l) e.
Proof using. clear n_pos. induction l as [|b l IH]; intros a d e; [reflexivity|]. exact (IH b d e). Qed.
Lemma value_sum l : length l = n -> tsp_value l w = Ok (sumof (fun k => w (nth k l n) (nth ((k + 1) mod n) l n)) (seq 0 n)).
Proof using n_pos.
  intros E. destruct l as [|a l]; [cbn in E; lia|]. unfold tsp_value. f_equal. rewrite (path_sum (a :: l) n). destruct n as [|m] eqn:En; [lia|].
  rewrite E, Nat.sub_succ, Nat.sub_0_r, sumof_seq_S_r. cbn [plus].
  f_equal.
  - apply sumof_ext. intros k Ik. apply in_seq in Ik. rewrite Nat.mod_small by lia. rewrite Nat.add_1_r. reflexivity.
  - rewrite Nat.add_1_r, Nat.mod_same by lia. rewrite (last_nth l a a (S m)). replace (length l) with m by (cbn in E; lia). reflexivity.
Qed.
End Tour.

(** ** The program *)
Definition triple_expr (n : nat) (w : nat -> nat -> Qc) (t : nat * nat * nat) : dexpr :=
  let '(i, j, k) := t in d_mul (d_scale (w i j) (d_var (i * n + k))) (d_var (j * n + (k + 1) mod n)).
Lemma weight_of_spec g w i j : complete g w -> i < g_n g -> j < g_n g -> i <> j -> weight_of g i j = Ok (w i j).
Proof.
  intros (_ & J & W & S & _) Hi Hj N. unfold weight_of. destruct (find (same_edge i j) (g_edges g)) as [[[a b] o]|] eqn:F.
  - apply find_some in F as (I & E). pose proof (W _ I) as Wo. cbn [fst snd] in Wo. subst o. unfold same_edge in E. cbn [fst snd] in E.
    apply orb_prop in E as [E|E]; apply andb_prop in E as (E1 & E2); apply Nat.eqb_eq in E1, E2; subst; [reflexivity|]. rewrite (S j i). reflexivity.
  - exfalso. pose proof (J i j Hi Hj N) as H. apply joined_iff in H. apply existsb_exists in H as (e & I & H). rewrite (find_none _ _ F e I) in H. discriminate H.
Qed.
Lemma triples_in n i j k : In (i, j, k) (tsp_triples n) <-> i < n /\ j < n /\ k < n /\ i <> j.
Proof.
  unfold tsp_triples. rewrite in_flat_map. setoid_rewrite in_flat_map. split.
  - intros (a & Ia & b & Ib & H). apply in_seq in Ia, Ib. destruct (Nat.eqb_spec a b); [destruct H|]. apply in_map_iff in H as (c & E & Ic). injection E as -> -> ->. apply in_seq in Ic. lia.
  - intros (Hi & Hj & Hk & N). exists i. split; [apply in_seq; lia|]. exists j. split; [apply in_seq; lia|]. destruct (Nat.eqb_spec i j); [contradiction|].
    apply in_map_iff. exists k. split; [reflexivity|apply in_seq; lia].
Qed.
Lemma mapM_all {A B} (f : A -> result B) (h : A -> B) l : (forall a, In a l -> f a = Ok (h a)) -> mapM f l = Ok (map h l).
Proof. induction l as [|a l IH]; intros H; cbn; [reflexivity|]. rewrite (H a (or_introl eq_refl)). cbn [bind]. rewrite IH by (intros; apply H; right; assumption). reflexivity. Qed.
Lemma NoDup_flat {A B} (f : A -> list B) l : NoDup l -> (forall a, In a l -> NoDup (f a)) ->
  (forall a b c, In a l -> In b l -> In c (f a) -> In c (f b) -> a = b) -> NoDup (flat_map f l).
Proof.
  induction l as [|a l IH]; intros N H D; cbn; [constructor|]. inversion N as [|? ? N1 N2]; subst. apply NoDup_app_intro.
  - apply H. left; reflexivity.
  - apply IH; [exact N2|intros; apply H; right; assumption|]. intros b c e Ib Ic. apply D; right; assumption.
  - intros c Ic Ic'. apply in_flat_map in Ic' as (b & Ib & Ic'). apply N1. rewrite (D a b c (or_introl eq_refl) (or_intror Ib) Ic Ic'). exact Ib.
Qed.
Lemma tsp_names_nodup n : NoDup (tsp_names n).
Proof.
  unfold tsp_names. apply NoDup_flat; [apply seq_NoDup| |].
  - intros i _. apply FinFun.Injective_map_NoDup; [|apply seq_NoDup]. intros j k E. apply x_name2_inj in E. apply E.
  - intros i j s _ _ H K. apply in_map_iff in H as (k & <- & _). apply in_map_iff in K as (l & E & _). apply x_name2_inj in E as (-> & _). reflexivity.
Qed.
Lemma tsp_names_full n : ~ In EmptyString (tsp_names n).
Proof. unfold tsp_names. intros H. apply in_flat_map in H as (i & _ & H). apply in_map_iff in H as (k & H & _). discriminate H. Qed.
Lemma tsp_names_length n : length (tsp_names n) = n * n.
Proof. apply flat_length. intros i. rewrite map_length, seq_length. reflexivity. Qed.

Lemma tour_objective n w l : 0 < n -> Permutation l (seq 0 n) -> (forall i, w i i = 0%Qc) ->
  sumof (fun t => dval (triple_expr n w t) (perm_matrix n l)) (tsp_triples n) = sumof (fun k => w (nth k l n) (nth ((k + 1) mod n) l n)) (seq 0 n).
Proof.
  intros Hn P Z. unfold tsp_triples. rewrite sumof_flat_map.
  assert (forall i j k, i < n -> j < n -> k < n -> dval (triple_expr n w (i, j, k)) (perm_matrix n l) =
            (if Nat.eqb (nth k l n) i then if Nat.eqb (nth ((k + 1) mod n) l n) j then w i j else 0 else 0)%Qc) as V.
  { intros i j k Hi Hj Hk. assert ((k + 1) mod n < n) as Hk' by (apply Nat.mod_upper_bound; lia). unfold triple_expr.
    rewrite dval_mul, dval_scale, !dval_var by reflexivity. rewrite !matrix_at by assumption. destruct (Nat.eqb _ _); [destruct (Nat.eqb _ _)|]; ring. }
  transitivity (sumof (fun i => sumof (fun j => sumof (fun k => if Nat.eqb (nth k l n) i then if Nat.eqb (nth ((k + 1) mod n) l n) j then w i j else 0 else 0)%Qc (seq 0 n)) (seq 0 n)) (seq 0 n)).
  - apply sumof_ext. intros i Ii. apply in_seq in Ii. rewrite sumof_flat_map. apply sumof_ext. intros j Ij. apply in_seq in Ij. destruct (Nat.eqb_spec i j) as [<-|N].
    + symmetry. apply sumof_zero. intros k _. destruct (Nat.eqb _ _); [destruct (Nat.eqb _ _)|]; auto.
    + rewrite sumof_map. apply sumof_ext. intros k Ik. apply in_seq in Ik. apply V; lia.
  - rewrite (sumof_ext _ (fun i => sumof (fun k => sumof (fun j => if Nat.eqb (nth k l n) i then if Nat.eqb (nth ((k + 1) mod n) l n) j then w i j else 0 else 0)%Qc (seq 0 n)) (seq 0 n))) by (intros; apply sumof_swap).
    rewrite sumof_swap. apply sumof_ext. intros k Ik. apply in_seq in Ik. assert ((k + 1) mod n < n) as Hk' by (apply Nat.mod_upper_bound; lia).
    rewrite (sumof_ext _ (fun i => if Nat.eqb (nth k l n) i then w i (nth ((k + 1) mod n) l n) else 0)%Qc).
    + apply (pick_sum (fun i => w i (nth ((k + 1) mod n) l n))). apply perm_lt; [exact P|lia].
    + intros i _. destruct (Nat.eqb _ _); [|apply sumof_zero; reflexivity]. apply (pick_sum (fun j => w i j)). apply perm_lt; assumption.
Qed.

Lemma tsp_spec g w : complete g w -> 0 < g_n g -> exists p, tsp_program g = Ok p /\ binary_program p (g_n g * g_n g) MINIMIZE /\
  (forall x, feasible p x <-> exists l, Permutation l (seq 0 (g_n g)) /\ x = perm_matrix (g_n g) l) /\
  forall l, Permutation l (seq 0 (g_n g)) -> tsp_interpret (perm_matrix (g_n g) l) = map One l /\
    tsp_value l w = Ok (obj_at (p_obj p) (perm_matrix (g_n g) l)).
Proof.
  intros C Hn. set (n := g_n g) in *. unfold tsp_program. fold n.
  rewrite (mapM_all (tsp_term g) (triple_expr n w)).
  2:{ intros [[i j] k] I. apply triples_in in I as (Hi & Hj & Hk & N). unfold tsp_term. rewrite (weight_of_spec g w i j C Hi Hj N). reflexivity. }
  cbn [bind].
  edestruct (binary_model_spec "TSP" (tsp_names n) MINIMIZE (d_sum (map (triple_expr n w) (tsp_triples n)))
    (map (fun i => DLinear None EQ (d_sum (map (fun k => d_var (i * n + k)) (seq 0 n))) (d_num 1)) (seq 0 n) ++
     map (fun k => DLinear None EQ (d_sum (map (fun i => d_var (i * n + k)) (seq 0 n))) (d_num 1)) (seq 0 n)) (tsp_names_nodup n) (tsp_names_full n))
    as (p & E & _ & V & B & S & L & Q & O & F); rewrite ?tsp_names_length in *.
  - apply de_wf_sum, Forall_map, Forall_forall. intros [[i j] k] I. apply triples_in in I as (Hi & Hj & Hk & N). unfold triple_expr.
    apply de_wf_mul; [apply de_wf_scale|]; apply de_wf_var; apply block_lt; auto. apply Nat.mod_upper_bound. lia.
  - apply Forall_app. split; apply Forall_map, Forall_forall; intros i Ii; apply in_seq in Ii; apply num_con;
      try (apply linear_sum, Forall_map, Forall_forall; reflexivity); apply de_wf_sum, Forall_map, Forall_forall; intros k Ik; apply in_seq in Ik; apply de_wf_var, block_lt; lia.
  - exists p. split; [exact E|]. split.
    { split; [|auto]. unfold num_vars. rewrite <- (map_length v_name). change (map v_name (p_vars p)) with (var_names p). rewrite V. apply tsp_names_length. }
    split.
    + intros x. rewrite F, Forall_app, !Forall_map_iff, !Forall_forall.
      assert (forall i, dcon_holds x (DLinear None EQ (d_sum (map (fun k => d_var (i * n + k)) (seq 0 n))) (d_num 1)) <-> row_sum n x i = 1%Qc) as HR.
      { intros i. cbn [dcon_holds]. rewrite dval_sum_of, sumof_map, dval_num. unfold row_sum. rewrite (sumof_ext _ (fun k => at_ x (i * n + k))) by (intros; apply dval_var). reflexivity. }
      assert (forall k, dcon_holds x (DLinear None EQ (d_sum (map (fun i => d_var (i * n + k)) (seq 0 n))) (d_num 1)) <-> col_sum n x k = 1%Qc) as HC.
      { intros k. cbn [dcon_holds]. rewrite dval_sum_of, sumof_map, dval_num. unfold col_sum. rewrite (sumof_ext _ (fun i => at_ x (i * n + k))) by (intros; apply dval_var). reflexivity. }
      split.
      * intros (Bx & R & K). apply matrix_unique; [exact Hn|exact Bx| |]; intros i Hi; [apply HR, R|apply HC, K]; apply in_seq; lia.
      * intros (l & P & ->). split; [apply matrix_bits|]. split; intros i Ii; apply in_seq in Ii; [apply HR|apply HC]; apply (matrix_rows n l P i); lia.
    + intros l P. split; [apply matrix_interpret; assumption|]. rewrite (O _ (matrix_bits n l)), dval_sum_of, sumof_map.
      rewrite (tour_objective n w l Hn P) by apply C. apply value_sum; [exact Hn|]. rewrite (Permutation_length P). apply seq_length.
Qed.
