(** * Facts about expressions *)
From Verif Require Export Spec PyFacts.
Local Open Scope nat_scope.

(** ** Entries *)
Lemma dok_put_nodup {K} (eqb : K -> K -> bool) (sp : forall a b, reflect (a = b) (eqb a b)) k v co :
  NoDup (map fst co) -> NoDup (map fst (dok_put eqb k v co)).
Proof. intro H. unfold dok_put. destruct (qeqb v 0); [now apply drem_nodup | now apply dset_nodup]. Qed.
Lemma dok_put_Forall {K} (eqb : K -> K -> bool) (sp : forall a b, reflect (a = b) (eqb a b)) (P : K * Qc -> Prop) k v co :
  P (k, v) -> Forall P co -> Forall P (dok_put eqb k v co).
Proof. intros H1 H2. unfold dok_put. destruct (qeqb v 0); [now apply drem_Forall | now apply dset_Forall]. Qed.
Lemma dgetq_dok_put {K} (eqb : K -> K -> bool) (sp : forall a b, reflect (a = b) (eqb a b)) k k' v co :
  NoDup (map fst co) -> dgetq eqb k (dok_put eqb k' v co) = if eqb k k' then v else dgetq eqb k co.
Proof.
  intro H. unfold dok_put. destruct (qeqb_spec v 0).
  - rewrite (dgetq_drem eqb sp) by assumption. subst. reflexivity.
  - apply (dgetq_dset eqb sp).
Qed.

Lemma nonzero_nodup {K} (l : list (K * Qc)) : NoDup (map fst l) -> NoDup (map fst (nonzero l)).
Proof.
  induction l as [|[k v] l IH]; simpl; intro H; [constructor|]. inversion H; subst.
  destruct (negb (qeqb v 0)); simpl; auto. constructor; auto.
  intro Hin. apply H2. apply in_map_iff in Hin. destruct Hin as ([a b] & Ha & Hb).
  apply filter_In in Hb. apply in_map_iff. exists (a, b). tauto.
Qed.
Lemma nonzero_Forall {K} (P : K * Qc -> Prop) l : Forall P l -> Forall P (nonzero l).
Proof. induction 1 as [|[k v] l H0 H IH]; simpl; auto. destruct (negb (qeqb v 0)); auto. Qed.
Lemma nonzero_nz {K} (l : list (K * Qc)) : Forall (fun kv => snd kv <> 0%Qc) (nonzero l).
Proof.
  apply Forall_forall. intros [k v] H. apply filter_In in H. destruct H as [_ H]. simpl in *.
  destruct (qeqb_spec v 0); [discriminate|assumption].
Qed.
Lemma dgetq_nonzero {K} (eqb : K -> K -> bool) (sp : forall a b, reflect (a = b) (eqb a b)) k l :
  NoDup (map fst l) -> dgetq eqb k (nonzero l) = dgetq eqb k l.
Proof.
  induction l as [|[k' v] l IH]; simpl; intro H; [reflexivity|]. inversion H; subst.
  destruct (qeqb_spec v 0); simpl; unfold dgetq; simpl.
  - subst. destruct (sp k k').
    + subst. fold (dgetq eqb k' (nonzero l)). rewrite IH by assumption. now apply (dgetq_notin eqb sp).
    + fold (dgetq eqb k (nonzero l)). rewrite IH by assumption. reflexivity.
  - destruct (sp k k'); [reflexivity|]. fold (dgetq eqb k (nonzero l)). rewrite IH by assumption. reflexivity.
Qed.
Lemma nonzero_id {K} (l : list (K * Qc)) : Forall (fun kv => snd kv <> 0%Qc) l -> nonzero l = l.
Proof.
  induction 1 as [|[k v] l H0 H IH]; simpl; auto. simpl in H0. destruct (qeqb_spec v 0); simpl; [contradiction|].
  now rewrite IH.
Qed.

(** ** Lists of coefficients *)
Lemma combine_seq_keys {A} (l : list A) s : map fst (combine (seq s (length l)) l) = seq s (length l).
Proof. revert s; induction l as [|a l IH]; intro s; simpl; auto. now rewrite IH. Qed.
Lemma combine_seq_get (l : list Qc) s i :
  dgetq Nat.eqb (s + i) (combine (seq s (length l)) l) = nth i l 0%Qc.
Proof.
  revert s i; induction l as [|a l IH]; intros s i; simpl.
  - destruct i; reflexivity.
  - unfold dgetq; simpl. destruct i; simpl.
    + rewrite Nat.add_0_r, Nat.eqb_refl. reflexivity.
    + destruct (Nat.eqb_spec (s + S i) s); [lia|]. fold (dgetq Nat.eqb (s + S i) (combine (seq (S s) (length l)) l)).
      rewrite <- (IH (S s) i). f_equal. lia.
Qed.

Definition lin_of_list (ints : bool) (l : list Qc) : linexpr :=
  mkLin (length l) ints (nonzero (combine (seq 0 (length l)) l)).
Lemma lin_of_list_wf ints l : lin_wf (lin_of_list ints l).
Proof.
  split; simpl.
  - apply nonzero_nodup. rewrite combine_seq_keys. apply seq_NoDup.
  - apply nonzero_Forall. apply Forall_forall. intros [k v] H. apply in_combine_l in H. apply in_seq in H. simpl. lia.
Qed.
Lemma lin_of_list_coef ints l i : coef1 (lin_of_list ints l) i = nth i l 0%Qc.
Proof.
  unfold coef1; simpl. rewrite (dgetq_nonzero _ nat_eqb_sp).
  - apply (combine_seq_get l 0 i).
  - rewrite combine_seq_keys. apply seq_NoDup.
Qed.

Lemma coef1_out e i : lin_wf e -> le_dim e <= i -> coef1 e i = 0%Qc.
Proof.
  intros [_ H] Hi. apply (dgetq_notin _ nat_eqb_sp). intro Hin. apply in_map_iff in Hin.
  destruct Hin as ([k v] & <- & Hin). rewrite Forall_forall in H. apply H in Hin. simpl in *. lia.
Qed.
Lemma coef2_out e i j : quad_wf e -> qe_dim e <= i \/ qe_dim e <= j -> coef2 e i j = 0%Qc.
Proof.
  intros [_ H] Hi. apply (dgetq_notin _ nat2_eqb_sp). intro Hin. apply in_map_iff in Hin.
  destruct Hin as ([k v] & E & Hin). simpl in E; subst k. rewrite Forall_forall in H. apply H in Hin. simpl in *. lia.
Qed.

Local Open Scope Qc_scope.
(** ** Sums over stored entries *)
Lemma lin_entries_at e x :
  lin_wf e -> (le_dim e <= length x)%nat ->
  dsum (fun i => at_ x i) (le_co e) = lin_at e x.
Proof.
  intros [H1 H2] Hl. unfold lin_at, coef1.
  rewrite (dsum_keys _ nat_eqb_sp _ _ (seq 0 (length x))); auto using seq_NoDup.
  intros k Hk. apply in_map_iff in Hk. destruct Hk as ([a b] & <- & Hin).
  rewrite Forall_forall in H2. apply H2 in Hin. simpl in *. apply in_seq. lia.
Qed.

Definition pairs (n : nat) : list (nat * nat) := flat_map (fun i => map (fun j => (i, j)) (seq 0 n)) (seq 0 n).
Lemma in_pairs n i j : In (i, j) (pairs n) <-> (i < n)%nat /\ (j < n)%nat.
Proof.
  unfold pairs. rewrite in_flat_map. split.
  - intros (a & Ha & H). apply in_map_iff in H. destruct H as (b & E & Hb). injection E; intros; subst.
    apply in_seq in Ha, Hb. lia.
  - intros [Hi Hj]. exists i. split; [apply in_seq; lia|]. apply in_map_iff. exists j. split; auto. apply in_seq; lia.
Qed.
Lemma NoDup_flat_map {A B} (f : A -> list B) l :
  NoDup l -> (forall a, In a l -> NoDup (f a)) ->
  (forall a b c, In a l -> In b l -> In c (f a) -> In c (f b) -> a = b) ->
  NoDup (flat_map f l).
Proof.
  induction l as [|a l IH]; simpl; intros Hl Hf Hd; [constructor|]. inversion Hl; subst.
  assert (forall (l1 l2 : list B), NoDup l1 -> NoDup l2 -> (forall c, In c l1 -> ~ In c l2) -> NoDup (l1 ++ l2)) as Happ.
  { clear. induction l1 as [|c l1 IH]; simpl; intros l2 H1 H2 H3; auto. inversion H1; subst. constructor.
    - rewrite in_app_iff. intros [?|?]; [auto|]. eapply H3; eauto; now left.
    - apply IH; auto. }
  apply Happ; [apply Hf; auto | apply IH; auto; intros; eapply Hd; eauto |].
  intros c Hc Hc'. apply in_flat_map in Hc'. destruct Hc' as (b & Hb & Hbc).
  assert (a = b) by (eapply Hd; eauto). subst. contradiction.
Qed.
Lemma pairs_nodup n : NoDup (pairs n).
Proof.
  apply NoDup_flat_map.
  - apply seq_NoDup.
  - intros a _. apply FinFun.Injective_map_NoDup; [|apply seq_NoDup]. intros x y [=]; auto.
  - intros a b c _ _ H1 H2. apply in_map_iff in H1, H2.
    destruct H1 as (? & <- & _), H2 as (? & [=] & _). auto.
Qed.
Lemma sumof_pairs f n : sumof f (pairs n) = sumof (fun i => sumof (fun j => f (i, j)) (seq 0 n)) (seq 0 n).
Proof. unfold pairs. rewrite sumof_flat_map. apply sumof_ext. intros i _. apply sumof_map. Qed.

Lemma quad_entries_at co x n :
  NoDup (map fst co) -> Forall (fun kv => fst (fst kv) < n /\ snd (fst kv) < n)%nat co ->
  dsum (fun ij => at_ x (fst ij) * at_ x (snd ij)) co
  = sumof (fun i => sumof (fun j => mget co i j * at_ x i * at_ x j) (seq 0 n)) (seq 0 n).
Proof.
  intros H1 H2. rewrite (dsum_keys _ nat2_eqb_sp _ _ (pairs n)); auto using pairs_nodup.
  - rewrite sumof_pairs. apply sumof_ext. intros i _. apply sumof_ext. intros j _. unfold mget. simpl. ring.
  - intros [i j] Hk. apply in_map_iff in Hk. destruct Hk as ([a b] & E & Hin). simpl in E. subst.
    rewrite Forall_forall in H2. apply H2 in Hin. simpl in *. now apply in_pairs.
Qed.

Lemma quad_at_n e x n : quad_wf e -> (qe_dim e <= n)%nat -> (n <= length x)%nat \/ (length x <= n)%nat ->
  quad_at e x = sumof (fun i => sumof (fun j => coef2 e i j * at_ x i * at_ x j) (seq 0 n)) (seq 0 n).
Proof.
  intros Hwf Hn Hl.
  assert (forall m k f, (m <= k)%nat -> (forall i, (m <= i < k)%nat -> f i = 0) ->
     sumof f (seq 0 k) = sumof f (seq 0 m)) as Cut.
  { intros m k f Hmk Hf. replace k with (m + (k - m))%nat by lia. rewrite sumof_seq_split.
    rewrite (sumof_zero _ (seq (0 + m) (k - m))); [ring|]. intros i Hi. apply in_seq in Hi. apply Hf. lia. }
  unfold quad_at. destruct Hl as [Hl|Hl].
  - rewrite (Cut n (length x)); [|lia|].
    + apply sumof_ext. intros i _. apply Cut; [lia|]. intros j Hj. rewrite coef2_out; [ring|auto|lia].
    + intros i Hi. apply sumof_zero. intros j _. rewrite coef2_out; [ring|auto|lia].
  - symmetry. rewrite (Cut (length x) n); [|lia|].
    + apply sumof_ext. intros i _. apply Cut; [lia|]. intros j Hj. unfold at_. rewrite (@nth_overflow Qc x j 0); [ring|lia].
    + intros i Hi. apply sumof_zero. intros j _. unfold at_. rewrite (@nth_overflow Qc x i 0); [ring|lia].
Qed.

(** ** Dense entries *)
Lemma dense_keys n (f : nat -> nat -> Qc) :
  map fst (flat_map (fun i => map (fun j => ((i, j), f i j)) (seq 0 n)) (seq 0 n)) = pairs n.
Proof.
  unfold pairs. generalize (seq 0 n) at 2 4 as l. induction l as [|i l IH]; simpl; [reflexivity|].
  rewrite map_app, IH, map_map. reflexivity.
Qed.
Lemma dense_get_raw n f i j : (i < n)%nat -> (j < n)%nat ->
  dgetq nat2_eqb (i, j) (flat_map (fun i => map (fun j => ((i, j), f i j)) (seq 0 n)) (seq 0 n)) = f i j.
Proof.
  intros Hi Hj. unfold dgetq.
  rewrite (in_dget _ nat2_eqb_sp (i, j) (f i j)); [reflexivity| |].
  - rewrite dense_keys. apply pairs_nodup.
  - apply in_flat_map. exists i. split; [apply in_seq; lia|]. apply in_map_iff. exists j. split; auto. apply in_seq; lia.
Qed.
Lemma dense_nodup n f : NoDup (map fst (dense_entries n f)).
Proof. apply nonzero_nodup. rewrite dense_keys. apply pairs_nodup. Qed.
Lemma dense_in n f i j v : In ((i, j), v) (dense_entries n f) -> (i < n)%nat /\ (j < n)%nat /\ v = f i j /\ v <> 0.
Proof.
  intro H. apply filter_In in H. destruct H as [H Hv]. simpl in Hv.
  apply in_flat_map in H. destruct H as (a & Ha & H). apply in_map_iff in H. destruct H as (b & E & Hb).
  injection E; intros; subst. apply in_seq in Ha, Hb. destruct (qeqb_spec (f i j) 0); [discriminate|].
  repeat split; auto; lia.
Qed.
Lemma dense_range n f : Forall (fun kv => fst (fst kv) < n /\ snd (fst kv) < n)%nat (dense_entries n f).
Proof. apply Forall_forall. intros [[i j] v] H. apply dense_in in H. simpl. tauto. Qed.
Lemma dense_get n f i j : (i < n)%nat -> (j < n)%nat -> mget (dense_entries n f) i j = f i j.
Proof.
  intros Hi Hj. unfold mget, dense_entries. rewrite (dgetq_nonzero _ nat2_eqb_sp).
  - now apply dense_get_raw.
  - rewrite dense_keys. apply pairs_nodup.
Qed.
Lemma dense_get_out n f i j : (n <= i)%nat \/ (n <= j)%nat -> mget (dense_entries n f) i j = 0.
Proof.
  intro H. apply (dgetq_notin _ nat2_eqb_sp). intro Hin. apply in_map_iff in Hin.
  destruct Hin as ([[a b] v] & E & Hin). simpl in E. injection E; intros; subst. apply dense_in in Hin. lia.
Qed.
Lemma dense_ext n f g : (forall i j, (i < n)%nat -> (j < n)%nat -> f i j = g i j) -> dense_entries n f = dense_entries n g.
Proof.
  intro H. unfold dense_entries. f_equal. 
  assert (forall l1 l2, (forall i, In i l1 -> (i < n)%nat) -> (forall i, In i l2 -> (i < n)%nat) ->
    flat_map (fun i => map (fun j => (i, j, f i j)) l2) l1 = flat_map (fun i => map (fun j => (i, j, g i j)) l2) l1) as G.
  { induction l1 as [|a l1 IH]; simpl; intros l2 H1 H2; auto. rewrite IH; auto. f_equal.
    apply map_ext_in. intros b Hb. now rewrite H by auto. }
  apply G; intros i Hi; apply in_seq in Hi; lia.
Qed.

(** ** Triangular and symmetric forms *)
Definition tri_f (co : list ((nat * nat) * Qc)) (i j : nat) : Qc :=
  (mget co i j + (if (i <? j)%nat then mget co j i else 0) - (if (j <? i)%nat then mget co i j else 0)).
Lemma triangle_get n co i j : (i < n)%nat -> (j < n)%nat ->
  mget (triangle n co) i j = if (i <? j)%nat then mget co i j + mget co j i else if (j <? i)%nat then 0 else mget co i j.
Proof.
  intros Hi Hj. unfold triangle. rewrite dense_get by assumption. cbv beta zeta.
  destruct (Nat.ltb_spec i j), (Nat.ltb_spec j i); try lia; ring.
Qed.
Lemma triangle_upper n co : Forall (fun kv => fst (fst kv) <= snd (fst kv))%nat (triangle n co).
Proof.
  apply Forall_forall. intros [[i j] v] H. apply dense_in in H. destruct H as (Hi & Hj & Hv & Hz). simpl.
  destruct (Nat.leb_spec i j); auto. exfalso. apply Hz. rewrite Hv. cbv beta zeta.
  destruct (Nat.ltb_spec i j), (Nat.ltb_spec j i); try lia; ring.
Qed.
Lemma symmetric_get n co i j : (i < n)%nat -> (j < n)%nat ->
  mget (sym_matrix n co) i j = mget co i j + (if (j <? i)%nat then mget co j i / 2 else 0)
                              - (if (i <? j)%nat then mget co i j / 2 else 0).
Proof. intros Hi Hj. unfold sym_matrix. rewrite dense_get by assumption. reflexivity. Qed.

Lemma half_half a : a / 2 + a / 2 = a.
Proof. qlra. change (/ 2)%Qc with (Q2Qc (1#2)). rewrite !this_cst. simpl. lra. Qed.

Lemma sum_swap_half (F G : nat -> nat -> Qc) n :
  (forall i j, (i < n)%nat -> (j < n)%nat -> F i j + F j i = G i j + G j i) ->
  sumof (fun i => sumof (fun j => F i j) (seq 0 n)) (seq 0 n)
  = sumof (fun i => sumof (fun j => G i j) (seq 0 n)) (seq 0 n).
Proof.
  intro H.
  assert (forall K : nat -> nat -> Qc,
    sumof (fun i => sumof (fun j => K i j + K j i) (seq 0 n)) (seq 0 n)
    = 2 * sumof (fun i => sumof (fun j => K i j) (seq 0 n)) (seq 0 n)) as D.
  { intro K. rewrite (sumof_ext _ (fun i => sumof (fun j => K i j) (seq 0 n) + sumof (fun j => K j i) (seq 0 n))).
    - rewrite sumof_add. rewrite (sumof_swap (fun i j => K j i)). ring.
    - intros i _. apply sumof_add. }
  assert (2 * sumof (fun i => sumof (fun j => F i j) (seq 0 n)) (seq 0 n)
        = 2 * sumof (fun i => sumof (fun j => G i j) (seq 0 n)) (seq 0 n)) as E.
  { rewrite <- !D. apply sumof_ext. intros i Hi. apply sumof_ext. intros j Hj.
    apply in_seq in Hi, Hj. apply H; lia. }
  qlra.
Qed.

Lemma form_sym n f g x :
  (forall i j, (i < n)%nat -> (j < n)%nat -> f i j + f j i = g i j + g j i) -> form_at n f x = form_at n g x.
Proof.
  intro H. apply sum_swap_half. intros i j Hi Hj. specialize (H i j Hi Hj).
  transitivity ((f i j + f j i) * at_ x i * at_ x j); [ring|]. rewrite H. ring.
Qed.
Lemma triangle_form n co x : form_at n (mget (triangle n co)) x = form_at n (mget co) x.
Proof.
  apply form_sym. intros i j Hi Hj. rewrite !triangle_get by assumption.
  destruct (Nat.ltb_spec i j), (Nat.ltb_spec j i); try lia; try ring.
Qed.
Lemma symmetric_form n co x : form_at n (mget (sym_matrix n co)) x = form_at n (mget co) x.
Proof.
  apply form_sym. intros i j Hi Hj. rewrite !symmetric_get by assumption.
  destruct (Nat.ltb_spec i j), (Nat.ltb_spec j i); try lia; try ring.
Qed.
