(** * Facts about outcomes, correlations and MinimumEigenOptimizer *)
From Verif Require Export AlgoFacts.
Local Open Scope nat_scope.

(** ** Binary digits *)
Lemma bin_lsb_nth fuel : forall i, i < fuel -> forall k, nth k (bin_lsb fuel i) false = Nat.testbit i k.
Proof.
  induction fuel as [|fuel IH]; intros i Hi k; [lia|]. cbn [bin_lsb]. destruct (Nat.ltb_spec i 2) as [L|L].
  - destruct k as [|k]; [reflexivity|]. cbn [nth]. destruct k; cbn [nth]; symmetry; (destruct i as [|[|i]]; [apply Nat.bits_0|apply Nat.bits_above_log2; change (Nat.log2 1) with 0; lia|lia]).
  - destruct k as [|k]; [reflexivity|]. cbn [nth]. rewrite IH.
    + change (Nat.testbit i (S k)) with (Nat.testbit (Nat.div2 i) k). now rewrite Nat.div2_div.
    + apply Nat.lt_le_trans with i; [apply Nat.div_lt; lia|lia].
Qed.
Lemma bin_lsb_length fuel : forall i n, i < fuel -> 0 < n -> i < 2 ^ n -> length (bin_lsb fuel i) <= n.
Proof.
  induction fuel as [|fuel IH]; intros i n Hi Hn H; [lia|]. cbn [bin_lsb]. destruct (Nat.ltb_spec i 2) as [L|L]; [simpl; lia|].
  destruct n as [|n]; [lia|]. destruct n as [|n]; [simpl in H; lia|]. cbn [length]. apply le_n_S. apply IH; [|lia|].
  - apply Nat.lt_le_trans with i; [apply Nat.div_lt; lia|lia].
  - apply Nat.div_lt_upper_bound; [lia|]. rewrite Nat.pow_succ_r' in H. exact H.
Qed.
Lemma bitstr_spec n i : 0 < n -> i < 2 ^ n -> bitstr n i = map (Nat.testbit i) (seq 0 n).
Proof.
  intros Hn Hi. unfold bitstr. cbv zeta. pose proof (bin_lsb_length (S i) i n (Nat.lt_succ_diag_r i) Hn Hi) as L.
  apply (nth_ext _ _ false false).
  - rewrite app_length, repeat_length, map_length, seq_length. lia.
  - intros k Hk. rewrite app_length, repeat_length in Hk. assert (k < n) as Kn by lia.
    assert (nth k (map (Nat.testbit i) (seq 0 n)) false = Nat.testbit i k) as ->.
    { apply nth_error_nth. rewrite nth_error_map. rewrite (nth_error_nth' (seq 0 n) 0) by (rewrite seq_length; lia). rewrite seq_nth by lia. reflexivity. }
    rewrite <- (bin_lsb_nth (S i) i (Nat.lt_succ_diag_r i) k).
    destruct (Nat.lt_ge_cases k (length (bin_lsb (S i) i))) as [C|C]; [now rewrite app_nth1|]. rewrite app_nth2 by auto.
    rewrite (nth_overflow (bin_lsb _ _)) by auto.
    destruct (nth_in_or_default (k - length (bin_lsb (S i) i)) (repeat false (n - length (bin_lsb (S i) i))) false) as [I|I]; [apply repeat_spec in I; exact I|exact I].
Qed.
Lemma basis_bits n i : map bit_q (map (Nat.testbit i) (seq 0 n)) = basis_point n i.
Proof. unfold basis_point. rewrite map_map. reflexivity. Qed.

(** ** Outcomes *)
Lemma shaped_eval q x : obj_shaped q -> length x = num_vars q -> obj_eval (env_of q) (p_obj q) (XList x) = Ok (obj_at (p_obj q) x).
Proof.
  intros ((W1 & D1) & (W2 & D2)) L. unfold obj_eval. rewrite lin_eval_list by auto. rewrite D1, L, Nat.eqb_refl. simpl bind.
  rewrite quad_eval_list by auto. rewrite D2, L, Nat.eqb_refl. reflexivity.
Qed.
Definition to_sample (q : qp) (bp : list bool * Qc) : sample :=
  mkSample (map digit_q (fst bp)) (obj_at (p_obj q) (map digit_q (fst bp))) (snd bp) SUCCESS.
Lemma keep_spec q thr l : obj_shaped q -> Forall (fun bp => length (fst bp) = num_vars q) l ->
  keep_outcomes q thr l = Ok (map (to_sample q) (filter (fun bp => qleb thr (snd bp)) l)).
Proof.
  intros S F. unfold keep_outcomes.
  assert (forall acc, foldM (fun acc bp => if qleb thr (snd bp) then do s <- gen_solution q (fst bp) (snd bp); Ok (acc ++ [s]) else Ok acc) l acc
     = Ok (acc ++ map (to_sample q) (filter (fun bp => qleb thr (snd bp)) l))) as G; [|apply (G [])].
  induction F as [|bp l L F IH]; intro acc; cbn [foldM filter map]; [now rewrite app_nil_r|]. destruct (qleb thr (snd bp)).
  - unfold gen_solution. cbv zeta. rewrite shaped_eval by (auto; now rewrite map_length). simpl bind. rewrite IH. cbn [map]. now rewrite <- app_assoc.
  - simpl bind. apply IH.
Qed.
Lemma total_sum (d : list (list bool * Qc)) : fold_left (fun s bc => s + snd bc)%Qc d 0%Qc = sumof snd d.
Proof.
  assert (forall d s, fold_left (fun s (bc : list bool * Qc) => s + snd bc)%Qc d s = (s + sumof snd d)%Qc) as G.
  { clear d. induction d as [|bc d IH]; intro s; simpl; [ring|]. rewrite IH. ring. }
  rewrite G. ring.
Qed.
Lemma dict_outcomes_spec d : sumof snd d <> 0%Qc -> dict_outcomes d = Ok (map (fun bc => (fst bc, snd bc / sumof snd d)%Qc) d).
Proof. intro N. unfold dict_outcomes. rewrite total_sum. destruct (qeqb_spec (sumof snd d) 0); [contradiction|reflexivity]. Qed.
Lemma nth_combine_seq {A} (l : list A) i a s : In (i, a) (combine (seq s (length l)) l) <-> s <= i /\ nth_error l (i - s) = Some a.
Proof.
  revert s. induction l as [|b l IH]; intro s; simpl.
  - split; [intros []|]. intros [_ H]. destruct (i - s); discriminate.
  - rewrite IH. split.
    + intros [[= <- <-]|[H1 H2]]; [rewrite Nat.sub_diag; auto|]. split; [lia|]. replace (i - s) with (S (i - S s)) by lia. auto.
    + intros [H1 H2]. destruct (Nat.eq_dec s i) as [->|N]; [rewrite Nat.sub_diag in H2; injection H2 as ->; auto|]. right. split; [lia|].
      replace (i - s) with (S (i - S s)) in H2 by lia. auto.
Qed.
Lemma vec_outcomes_spec n v : 0 < n -> length v = 2 ^ n ->
  vec_outcomes v = Ok (map (fun ia => (map (Nat.testbit (fst ia)) (seq 0 n), abs2 (snd ia))) (combine (seq 0 (length v)) v)).
Proof.
  intros Hn L. unfold vec_outcomes. rewrite L, Nat.log2_pow2 by lia. rewrite <- L.
  assert (v <> []) as Nv by (intro E; rewrite E in L; pose proof (Nat.pow_nonzero 2 n); simpl in L; lia).
  transitivity (Ok (map (fun ia => (bitstr n (fst ia), (fst (snd ia) * fst (snd ia) + snd (snd ia) * snd (snd ia))%Qc)) (combine (seq 0 (length v)) v))); [destruct v; [congruence|reflexivity]|].
  f_equal. apply map_ext_in. intros [i b] Hi. cbn [fst snd]. apply nth_combine_seq in Hi. destruct Hi as [_ Hi]. rewrite Nat.sub_0_r in Hi.
  rewrite bitstr_spec; auto. rewrite <- L. apply nth_error_Some. congruence.
Qed.
(** The outcomes, with their probabilities *)
Lemma outcomes_spec n e : 0 < n -> sized_state n e -> exists l, state_outcomes e = Ok l /\ Forall (fun bp => length (fst bp) = n) l /\
  forall x pr, outcome n e x pr <-> exists b, In (b, pr) l /\ x = map digit_q b.
Proof.
  intros Hn S. destruct e as [d|d|v|]; simpl in S; [| | |destruct S].
  - destruct S as [F N]. exists (map (fun bc => (fst bc, snd bc / sumof snd d)%Qc) d). split; [now apply dict_outcomes_spec|]. split; [now rewrite Forall_map|].
    intros x pr. split.
    + intro H. inversion H; subst. exists b. split; auto. apply in_map_iff. exists (b, c). auto.
    + intros (b & H & ->). apply in_map_iff in H. destruct H as ([b' c] & [= <- <-] & H). now constructor.
  - destruct S as [F N]. assert (sumof snd (map (fun bc : list bool * Qc => (fst bc, snd bc * snd bc)%Qc) d) = sumof (fun bc => snd bc * snd bc)%Qc d) as E by (now rewrite sumof_map).
    exists (map (fun bc => (fst bc, snd bc / sumof (fun bc => snd bc * snd bc)%Qc d)%Qc) (map (fun bc : list bool * Qc => (fst bc, snd bc * snd bc)%Qc) d)).
    split; [simpl; rewrite dict_outcomes_spec; rewrite E; auto|]. split; [rewrite !Forall_map; exact F|].
    intros x pr. split.
    + intro H. inversion H; subst. exists b. split; auto. rewrite map_map. apply in_map_iff. exists (b, c). auto.
    + intros (b & H & ->). rewrite map_map in H. apply in_map_iff in H. destruct H as ([b' c] & [= <- <-] & H). now constructor.
  - eexists. split; [simpl; now apply (vec_outcomes_spec n)|]. split; [apply Forall_map, Forall_forall; intros [i a] _; cbn [fst]; now rewrite map_length, seq_length|].
    intros x pr. split.
    + intro H. inversion H as [| |? i a E]; subst. exists (map (Nat.testbit i) (seq 0 n)). split; [|symmetry; apply (basis_bits n i)].
      apply in_map_iff. exists (i, a). split; auto. apply nth_combine_seq. rewrite Nat.sub_0_r. auto with arith.
    + intros (b & H & ->). apply in_map_iff in H. destruct H as ([i a] & [= <- <-] & H). apply nth_combine_seq in H. rewrite Nat.sub_0_r in H. cbn [fst snd].
      change (map digit_q) with (map bit_q). rewrite basis_bits. now constructor.
Qed.
Lemma solutions_spec e q thr : 0 < num_vars q -> obj_shaped q -> sized_state (num_vars q) e ->
  exists l, eigenvector_to_solutions e q thr = Ok l /\
    (forall s, In s l -> outcome (num_vars q) e (s_x s) (s_prob s) /\ (thr <= s_prob s)%Qc /\ s_fval s = obj_at (p_obj q) (s_x s) /\ s_status s = SUCCESS /\ bits (num_vars q) (s_x s)) /\
    (forall x pr, outcome (num_vars q) e x pr -> (thr <= pr)%Qc -> exists s, In s l /\ s_x s = x /\ s_prob s = pr).
Proof.
  intros Hn S Z. destruct (outcomes_spec _ e Hn Z) as (l & E & F & O). unfold eigenvector_to_solutions. rewrite E. simpl bind.
  eexists. split; [now apply keep_spec|]. split.
  - intros s Hs. apply in_map_iff in Hs. destruct Hs as ([b pr] & <- & Hs). apply filter_In in Hs. destruct Hs as [Hs T]. unfold to_sample. cbn [s_x s_prob s_fval s_status fst snd] in *.
    split; [apply O; eauto|]. split; [destruct (qleb_spec thr pr); [auto|discriminate]|]. split; auto. split; auto. rewrite Forall_forall in F. specialize (F _ Hs). simpl in F.
    split; [now rewrite map_length|]. apply Forall_map, Forall_forall. intros [] _; simpl; auto.
  - intros x pr H T. apply O in H. destruct H as (b & H & ->). exists (to_sample q (b, pr)). split; auto. apply in_map. apply filter_In. split; auto. cbn [snd]. destruct (qleb_spec thr pr); auto.
Qed.

(** The kept outcomes of a state vector, in order *)
Lemma vec_solutions n v q thr : 0 < n -> length v = 2 ^ n -> num_vars q = n -> obj_shaped q ->
  exists ks, picks (fun i => exists a, nth_error v i = Some a /\ (thr <= abs2 a)%Qc) (seq 0 (2 ^ n)) ks /\
    eigenvector_to_solutions (EVec v) q thr = Ok (map (fun i => mkSample (basis_point n i) (obj_at (p_obj q) (basis_point n i)) (abs2 (nth i v (0, 0)%Qc)) SUCCESS) ks).
Proof.
  intros Hn L En S. exists (filter (fun i => qleb thr (abs2 (nth i v (0, 0)%Qc))) (seq 0 (2 ^ n))). split.
  - assert (forall l, Forall (fun i => i < 2 ^ n) l -> picks (fun i => exists a, nth_error v i = Some a /\ (thr <= abs2 a)%Qc) l (filter (fun i => qleb thr (abs2 (nth i v (0, 0)%Qc))) l)) as G.
    { induction 1 as [|i l Hi F IH]; simpl; [constructor|]. assert (nth_error v i = Some (nth i v (0, 0)%Qc)) as E by (apply nth_error_nth'; lia).
      destruct (qleb_spec thr (abs2 (nth i v (0, 0)%Qc))) as [T|T]; constructor; auto; [eauto|]. intros (a & Ea & Ta). rewrite E in Ea. injection Ea as <-. contradiction. }
    apply G. apply Forall_forall. intros i Hi. apply in_seq in Hi. lia.
  - unfold eigenvector_to_solutions. cbn [state_outcomes]. rewrite (vec_outcomes_spec n) by auto. cbn [bind]. rewrite keep_spec; auto.
    + f_equal. rewrite L. clear -L. 
      assert (forall l k, length v = k + length l -> (forall i, nth_error v (k + i) = nth_error l i) ->
        map (to_sample q) (filter (fun bp => qleb thr (snd bp)) (map (fun ia => (map (Nat.testbit (fst ia)) (seq 0 n), abs2 (snd ia))) (combine (seq k (length l)) l))) =
        map (fun i => mkSample (basis_point n i) (obj_at (p_obj q) (basis_point n i)) (abs2 (nth i v (0, 0)%Qc)) SUCCESS) (filter (fun i => qleb thr (abs2 (nth i v (0, 0)%Qc))) (seq k (length l)))) as G.
      { induction l as [|a l IH]; intros k Lk Nk; simpl; [reflexivity|]. assert (nth k v (0, 0)%Qc = a) as Ea.
        { apply nth_error_nth. specialize (Nk 0). now rewrite Nat.add_0_r in Nk. }
        rewrite Ea. assert (length v = S k + length l) as L' by (simpl in Lk; lia). assert (forall i, nth_error v (S k + i) = nth_error l i) as N' by (intro i; specialize (Nk (S i)); now rewrite Nat.add_succ_r in Nk).
        destruct (qleb thr (abs2 a)); cbn [map]; rewrite (IH (S k) L' N'); [|reflexivity]. f_equal. unfold to_sample. cbn [fst snd]. rewrite Ea. change (map digit_q) with (map bit_q). now rewrite basis_bits. }
      rewrite <- L. apply (G v 0); auto.
    + apply Forall_map, Forall_forall. intros [i a] _. cbn [fst]. now rewrite map_length, seq_length.
Qed.
Lemma dict_solutions d q thr : obj_shaped q -> Forall (fun bc => length (fst bc) = num_vars q) d -> sumof snd d <> 0%Qc ->
  exists ks, picks (fun bc => (thr <= snd bc / sumof snd d)%Qc) d ks /\
    eigenvector_to_solutions (EDict d) q thr = Ok (map (fun bc => mkSample (map digit_q (fst bc)) (obj_at (p_obj q) (map digit_q (fst bc))) (snd bc / sumof snd d)%Qc SUCCESS) ks).
Proof.
  intros S F N. exists (filter (fun bc => qleb thr (snd bc / sumof snd d)%Qc) d). split.
  - apply picks_filter. intro bc. destruct (qleb_spec thr (snd bc / sumof snd d)); split; auto; discriminate.
  - unfold eigenvector_to_solutions. cbn [state_outcomes]. rewrite dict_outcomes_spec by auto. cbn [bind]. rewrite keep_spec by (auto; now rewrite Forall_map). f_equal.
    generalize (sumof snd d). intro t. clear. induction d as [|bc d IH]; simpl; [reflexivity|]. destruct (qleb thr (snd bc / t)%Qc); cbn [map]; rewrite IH; reflexivity.
Qed.
Lemma picks_unmap {A B} (f : A -> B) (P : B -> Prop) l : forall m, picks P (map f l) m -> exists k, picks (fun a => P (f a)) l k /\ m = map f k.
Proof.
  induction l as [|a l IH]; intros m H; simpl in H; inversion H; subst.
  - exists []. split; [constructor|reflexivity].
  - destruct (IH _ H4) as (k & K & ->). exists (a :: k). split; [now constructor|reflexivity].
  - destruct (IH _ H4) as (k & K & ->). exists k. split; [now constructor|reflexivity].
Qed.
Lemma dictfn_solutions d q thr : obj_shaped q -> Forall (fun bc => length (fst bc) = num_vars q) d -> sumof (fun bc => snd bc * snd bc)%Qc d <> 0%Qc ->
  exists ks, picks (fun bc => (thr <= snd bc * snd bc / sumof (fun bc => snd bc * snd bc) d)%Qc) d ks /\
    eigenvector_to_solutions (EDictFn d) q thr =
      Ok (map (fun bc => mkSample (map digit_q (fst bc)) (obj_at (p_obj q) (map digit_q (fst bc))) (snd bc * snd bc / sumof (fun bc => snd bc * snd bc) d)%Qc SUCCESS) ks).
Proof.
  intros S F N. set (d' := map (fun bc : list bool * Qc => (fst bc, snd bc * snd bc)%Qc) d).
  assert (sumof snd d' = sumof (fun bc => snd bc * snd bc)%Qc d) as E by (unfold d'; now rewrite sumof_map).
  assert (Forall (fun bc => length (fst bc) = num_vars q) d') as F' by (unfold d'; now rewrite Forall_map).
  destruct (dict_solutions d' q thr S F') as (ks & P & R); [congruence|]. rewrite E in P, R. apply picks_unmap in P. destruct P as (k & P & ->). exists k. split; [exact P|].
  change (eigenvector_to_solutions (EDictFn d) q thr) with (eigenvector_to_solutions (EDict d') q thr). rewrite R. now rewrite map_map.
Qed.

(** ** Correlations *)
Definition square (n : nat) (m : list (list Qc)) : Prop := length m = n /\ Forall (fun r => length r = n) m.
Lemma get_set2 n m i j i' j' v : square n m -> i < n -> j < n -> get2 (set2 m i j v) i' j' = if nat2_eqb (i', j') (i, j) then v else get2 m i' j'.
Proof.
  intros [L F] Hi Hj. unfold get2, set2, nat2_eqb. cbn [fst snd]. rewrite nth_update by lia.
  assert (length (nth i m []) = n) as Lr by (rewrite Forall_forall in F; apply F, nth_In; lia).
  rewrite (Nat.eqb_sym i' i), (Nat.eqb_sym j' j). destruct (Nat.eqb_spec i i') as [<-|N]; [|reflexivity]. rewrite nth_update by lia. now destruct (j =? j').
Qed.
Lemma square_set2 n m i j v : square n m -> square n (set2 m i j v).
Proof.
  intros [L F]. unfold set2. destruct (Nat.lt_ge_cases i (length m)) as [H|H].
  - split; [now rewrite update_length|]. apply Forall_update; auto. rewrite update_length. rewrite Forall_forall in F. apply F, nth_In. exact H.
  - assert (forall A (a : A) l k, length l <= k -> update k a l = l) as U. { induction l as [|b l IH]; intros k Hk; [now destruct k|]. destruct k; simpl in *; [lia|]. rewrite IH; auto. lia. }
    rewrite U by auto. split; auto.
Qed.
Lemma in_lower n i j : In (i, j) (lower_pairs n) <-> j < i /\ i < n.
Proof.
  unfold lower_pairs. rewrite in_flat_map. split.
  - intros (k & Hk & H). apply in_seq in Hk. apply in_map_iff in H. destruct H as (l & [= <- <-] & Hl). apply in_seq in Hl. lia.
  - intros [H1 H2]. exists i. split; [apply in_seq; lia|]. apply in_map_iff. exists j. split; auto. apply in_seq. lia.
Qed.
Lemma lower_nodup n : NoDup (lower_pairs n).
Proof.
  unfold lower_pairs. apply NoDup_flat_map; [apply seq_NoDup| |].
  - intros i _. apply FinFun.Injective_map_NoDup; [|apply seq_NoDup]. intros a b [=]. auto.
  - intros i i' [a b] _ _ H1 H2. apply in_map_iff in H1. apply in_map_iff in H2. destruct H1 as (? & [= -> ->] & _). destruct H2 as (? & [= -> ->] & _). auto.
Qed.
Definition agree (s : sample) (i j : nat) : bool := qeqb (at_ (s_x s) i) (at_ (s_x s) j).
Lemma corr_sample_spec n m s m' : square n m -> corr_sample n m s = Ok m' -> square n m' /\
  forall i j, get2 m' i j = if (j <? i) && (i <? n) then (get2 m i j + (if agree s i j then s_prob s else - s_prob s))%Qc else get2 m i j.
Proof.
  intros Q H. unfold corr_sample in H. destruct ((n <=? length (s_x s)) || (n <=? 1)); [|discriminate H]. injection H as <-.
  set (f := fun m ij => set2 m (fst ij) (snd ij) (if qeqb (nth (fst ij) (s_x s) 0) (nth (snd ij) (s_x s) 0) then get2 m (fst ij) (snd ij) + s_prob s else get2 m (fst ij) (snd ij) - s_prob s)%Qc).
  assert (forall l m, NoDup l -> (forall i j, In (i, j) l -> j < i /\ i < n) -> square n m -> square n (fold_left f l m) /\
    forall i j, (In (i, j) l -> get2 (fold_left f l m) i j = (get2 m i j + (if agree s i j then s_prob s else - s_prob s))%Qc) /\ (~ In (i, j) l -> get2 (fold_left f l m) i j = get2 m i j)) as G.
  { clear m Q. induction l as [|[a b] l IH]; intros m N R Q; simpl; [split; auto; intros; split; [intros []|auto]|]. inversion N as [|? ? N1 N2]; subst.
    destruct (R a b) as [R1 R2]; [now left|]. assert (forall i j, get2 (f m (a, b)) i j = if nat2_eqb (i, j) (a, b) then (get2 m a b + (if agree s a b then s_prob s else - s_prob s))%Qc else get2 m i j) as E.
    { intros i j. unfold f. cbn [fst snd]. rewrite (get_set2 n) by (auto; lia). destruct (nat2_eqb (i, j) (a, b)); auto. unfold agree, at_. destruct (qeqb _ _); ring. }
    destruct (IH (f m (a, b)) N2) as [IH1 IH2]; [intros; apply R; now right|unfold f; now apply square_set2|]. split; auto. intros i j. destruct (IH2 i j) as [I1 I2]. split.
    - intros [[= <- <-]|Hin]; [rewrite I2 by auto; rewrite E; destruct (nat2_eqb_sp (a, b) (a, b)); [reflexivity|congruence]|]. rewrite I1 by auto. rewrite E.
      destruct (nat2_eqb_sp (i, j) (a, b)) as [[= -> ->]|]; [contradiction|reflexivity].
    - intro Hn. rewrite I2 by auto. rewrite E. destruct (nat2_eqb_sp (i, j) (a, b)) as [[= -> ->]|]; [exfalso; auto|reflexivity]. }
  destruct (G (lower_pairs n) m (lower_nodup n)) as [G1 G2]; auto; [intros i j Hij; now apply in_lower|]. split; auto. intros i j. destruct (G2 i j) as [G3 G4].
  destruct (Nat.ltb_spec j i), (Nat.ltb_spec i n); cbn [andb]; [apply G3; now apply in_lower| | |]; apply G4; rewrite in_lower; lia.
Qed.
Lemma corr_fold n l : forall m m', square n m -> foldM (corr_sample n) l m = Ok m' -> square n m' /\
  forall i j, get2 m' i j = if (j <? i) && (i <? n) then (get2 m i j + sumof (fun s => if agree s i j then s_prob s else - s_prob s)%Qc l)%Qc else get2 m i j.
Proof.
  induction l as [|s l IH]; intros m m' Q H; cbn [foldM] in H.
  - injection H as <-. split; auto. intros i j. destruct (_ && _); auto. simpl. ring.
  - apply bind_ok in H. destruct H as (m1 & H1 & H2). destruct (corr_sample_spec _ _ _ _ Q H1) as [Q1 E1]. destruct (IH _ _ Q1 H2) as [Q2 E2]. split; auto.
    intros i j. rewrite E2, E1. destruct (_ && _); auto. simpl. ring.
Qed.
Lemma zero_square n : square n (repeat (repeat 0%Qc n) n).
Proof. split; [apply repeat_length|]. apply Forall_forall. intros r Hr. apply repeat_spec in Hr. subst. apply repeat_length. Qed.
Lemma zero_get n i j : get2 (repeat (repeat 0%Qc n) n) i j = 0%Qc.
Proof.
  unfold get2. destruct (nth_in_or_default i (repeat (repeat 0%Qc n) n) []) as [H|H]; [apply repeat_spec in H; rewrite H|rewrite H; now destruct j].
  destruct (nth_in_or_default j (repeat 0%Qc n) 0%Qc) as [K|K]; auto. now apply repeat_spec in K.
Qed.
Lemma picks_sum {A} (P : A -> Prop) (b : A -> bool) (f : A -> Qc) l m : (forall a, b a = true <-> P a) -> picks P l m -> sumof f m = sumof (fun a => if b a then f a else 0%Qc) l.
Proof.
  intros E. induction 1 as [|a l m Pa K IH|a l m Na K IH]; simpl; auto.
  - replace (b a) with true by (symmetry; now apply E). now rewrite IH.
  - destruct (b a) eqn:X; [apply E in X; contradiction|]. rewrite IH. ring.
Qed.
Lemma correlations_spec s0 l : let samples := s0 :: l in let n := length (s_x s0) in
  (Forall (fun s => length (s_x s) = n) samples -> exists m, correlations samples = Ok m) /\
  forall m, correlations samples = Ok m -> length m = n /\ Forall (fun r => length r = n) m /\
    forall i j, (j < i /\ i < n ->
        (forall eqs nes, picks (fun s => at_ (s_x s) i = at_ (s_x s) j) samples eqs -> picks (fun s => at_ (s_x s) i <> at_ (s_x s) j) samples nes ->
           get2 m i j = (total_prob eqs - total_prob nes)%Qc) /\
        (Forall (fun s => (0 <= s_prob s)%Qc) samples -> (qabs (get2 m i j) <= total_prob samples)%Qc)) /\
      (~ (j < i /\ i < n) -> get2 m i j = 0%Qc).
Proof.
  intros samples n. split.
  - intro F. unfold correlations. change (s0 :: l) with samples. unfold samples. cbv zeta. fold n. fold samples. generalize (repeat (repeat 0%Qc n) n). induction F as [|s k Ls F IH]; intro m; cbn [foldM]; [eauto|].
    unfold corr_sample at 1. rewrite Ls, Nat.leb_refl. cbn [orb bind]. apply IH.
  - intros m H. unfold correlations, samples in H. cbv zeta in H. fold n in H. fold samples in H. destruct (corr_fold n samples _ _ (zero_square n) H) as [[Q1 Q2] E]. split; auto. split; auto.
    intros i j. rewrite E, zero_get. split.
    + intros [H1 H2]. replace ((j <? i) && (i <? n)) with true by (symmetry; apply andb_true_intro; split; now apply Nat.ltb_lt). split.
      * intros eqs nes P1 P2. unfold total_prob. rewrite (picks_sum _ (fun s => agree s i j) s_prob _ _) with (2 := P1), (picks_sum _ (fun s => negb (agree s i j)) s_prob _ _) with (2 := P2).
        -- rewrite Qcplus_0_l, <- sumof_sub. apply sumof_ext. intros a _. destruct (agree a i j); simpl; ring.
        -- intro a. unfold agree. destruct (qeqb_spec (at_ (s_x a) i) (at_ (s_x a) j)); simpl; intuition congruence.
        -- intro a. unfold agree. destruct (qeqb_spec (at_ (s_x a) i) (at_ (s_x a) j)); intuition congruence.
      * intro P. rewrite Qcplus_0_l. eapply Qcle_trans; [apply sumof_abs|]. apply sumof_le. intros a Ha. rewrite Forall_forall in P. specialize (P a Ha).
        destruct (agree a i j); [|rewrite qabs_opp]; unfold qabs; destruct (qleb 0 (s_prob a)) eqn:Z; try qlra; destruct (qleb_spec 0 (s_prob a)); try discriminate; contradiction.
    + intro N. destruct (Nat.ltb_spec j i), (Nat.ltb_spec i n); auto. exfalso. auto.
Qed.
