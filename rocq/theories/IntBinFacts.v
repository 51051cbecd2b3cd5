(** * IntegerToBinary *)
From Verif Require Export IneqProps.
Local Open Scope nat_scope.

(** ** The bounded-coefficient encoding *)
Definition enc_sum (bs cs : list Qc) : Qc := sumof (fun bc => (fst bc * snd bc)%Qc) (combine bs cs).
Definition bit (a : Qc) : Prop := a = 0%Qc \/ a = 1%Qc.
Lemma enc_sum_app bs cs bs' cs' : length bs = length cs -> enc_sum (bs ++ bs') (cs ++ cs') = (enc_sum bs cs + enc_sum bs' cs')%Qc.
Proof. intro L. unfold enc_sum. rewrite combine_app by assumption. apply sumof_app. Qed.
Lemma enc_sum_bounds bs cs : length bs = length cs -> Forall bit bs -> Forall (fun c => 0 <= c)%Qc cs ->
  (0 <= enc_sum bs cs)%Qc /\ (enc_sum bs cs <= sumof (fun c => c) cs)%Qc.
Proof.
  revert cs. induction bs as [|b bs IH]; intros [|c cs] L B C; simpl in L; try lia; unfold enc_sum in *; simpl; [split; qlra|].
  inversion B; inversion C; subst. destruct (IH cs) as [I1 I2]; auto. destruct H1 as [-> | ->]; split; qlra.
Qed.
Lemma enc_sum_integral bs cs : Forall bit bs -> Forall integral cs -> integral (enc_sum bs cs).
Proof.
  intros B C. unfold enc_sum. apply sumof_integral. intros [b c] Hin. simpl.
  rewrite Forall_forall in B, C. apply integral_mul.
  - destruct (B b) as [-> | ->]; [eapply in_combine_l; eauto|apply integral_0|apply integral_1].
  - apply C. eapply in_combine_r; eauto.
Qed.
Definition powers (p : nat) : list Qc := map (fun i => qz (2 ^ Z.of_nat i)) (seq 0 p).
Lemma powers_S p : powers (S p) = powers p ++ [qz (2 ^ Z.of_nat p)].
Proof. unfold powers. rewrite seq_S, map_app. reflexivity. Qed.
Lemma powers_length p : length (powers p) = p.
Proof. unfold powers. now rewrite map_length, seq_length. Qed.
Lemma powers_sum p : sumof (fun c => c) (powers p) = qz (2 ^ Z.of_nat p - 1).
Proof.
  induction p as [|p IH]; [simpl; now rewrite qz_0|]. rewrite powers_S, sumof_app, IH. simpl sumof.
  rewrite Nat2Z.inj_succ, Z.pow_succ_r by lia. rewrite !qz_sub, qz_mul, !qz_1. change (qz 2) with (1 + 1)%Qc. ring.
Qed.
Lemma binary_onto p : forall k, (0 <= k < 2 ^ Z.of_nat p)%Z -> exists bs, length bs = p /\ Forall bit bs /\ enc_sum bs (powers p) = qz k.
Proof.
  induction p as [|p IH]; intros k Hk.
  - exists []. simpl in Hk. assert (k = 0)%Z by lia. subst. split; auto.
  - rewrite Nat2Z.inj_succ, Z.pow_succ_r in Hk by lia. destruct (Z.ltb_spec k (2 ^ Z.of_nat p)) as [L|L].
    + destruct (IH k) as (bs & B1 & B2 & B3); [lia|]. exists (bs ++ [0%Qc]). rewrite app_length. simpl.
      repeat split; [lia|apply Forall_app; split; auto; constructor; [now left|constructor]|].
      rewrite powers_S, enc_sum_app by (rewrite powers_length; auto). rewrite B3. unfold enc_sum. simpl. ring.
    + destruct (IH (k - 2 ^ Z.of_nat p)%Z) as (bs & B1 & B2 & B3); [lia|]. exists (bs ++ [1%Qc]). rewrite app_length. simpl.
      repeat split; [lia|apply Forall_app; split; auto; constructor; [now right|constructor]|].
      rewrite powers_S, enc_sum_app by (rewrite powers_length; auto). rewrite B3, qz_sub. unfold enc_sum. simpl. ring.
Qed.
(** For any power with 2^p - 1 <= r <= 2^(p+1) - 1 the encoding is exact. *)
Lemma enc_coeffs_exact (p : nat) (r : Z) : (2 ^ Z.of_nat p - 1 <= r <= 2 * 2 ^ Z.of_nat p - 1)%Z ->
  let cs := enc_coeffs (Z.of_nat p) (qz r) in
  length cs = S p /\ Forall integral cs /\ Forall (fun c => 0 <= c)%Qc cs /\ sumof (fun c => c) cs = qz r /\
  forall k, (0 <= k <= r)%Z -> exists bs, length bs = length cs /\ Forall bit bs /\ enc_sum bs cs = qz k.
Proof.
  intros Hr. cbv zeta. unfold enc_coeffs. rewrite Nat2Z.id. change (map (fun i : nat => qz (2 ^ Z.of_nat i)) (seq 0 p)) with (powers p).
  assert ((qz r - (pow2 (Z.of_nat p) - 1))%Qc = qz (r - (2 ^ Z.of_nat p - 1))) as E.
  { unfold pow2. replace (0 <=? Z.of_nat p)%Z with true by (symmetry; apply Z.leb_le; lia). rewrite !qz_sub, qz_1. reflexivity. }
  rewrite E. clear E. assert (0 < 2 ^ Z.of_nat p)%Z as Hp by (apply Z.pow_pos_nonneg; lia).
  split; [rewrite app_length, powers_length; simpl; lia|].
  split; [apply Forall_app; split; [apply Forall_forall; intros c Hc; apply in_map_iff in Hc; destruct Hc as (i & <- & _); apply integral_qz|constructor; [apply integral_qz|constructor]]|].
  split; [apply Forall_app; split; [apply Forall_forall; intros c Hc; apply in_map_iff in Hc; destruct Hc as (i & <- & _)|constructor; [|constructor]]; rewrite <- qz_0; apply qz_le; [apply Z.pow_nonneg; lia|lia]|].
  split; [rewrite sumof_app, powers_sum; simpl; rewrite !qz_sub; ring|].
  intros k Hk. destruct (Z.ltb_spec k (2 ^ Z.of_nat p)) as [L|L].
  - destruct (binary_onto p k) as (bs & B1 & B2 & B3); [lia|]. exists (bs ++ [0%Qc]). rewrite !app_length, powers_length. simpl.
    split; [lia|]. split; [apply Forall_app; split; auto; constructor; [now left|constructor]|].
    rewrite enc_sum_app by (rewrite powers_length; auto). rewrite B3. unfold enc_sum. simpl. ring.
  - destruct (binary_onto p (k - (r - (2 ^ Z.of_nat p - 1)))%Z) as (bs & B1 & B2 & B3); [lia|]. exists (bs ++ [1%Qc]). rewrite !app_length, powers_length. simpl.
    split; [lia|]. split; [apply Forall_app; split; auto; constructor; [now right|constructor]|].
    rewrite enc_sum_app by (rewrite powers_length; auto). rewrite B3, qz_sub. unfold enc_sum. simpl. ring.
Qed.
Lemma qfloor_qz z : qfloor (qz z) = z.
Proof.
  apply Z.le_antisymm; [apply qz_le, qfloor_le|]. apply floor_greatest. apply Qcle_refl.
Qed.
Lemma int_log2_int r : (1 <= r)%Z -> int_log2 (qz r) = Ok (Z.log2 r).
Proof.
  intro H. unfold int_log2.
  destruct (qltb_spec (qz r) 0) as [L|_]; [rewrite <- qz_0 in L; apply (proj1 (qz_lt _ _)) in L; lia|].
  destruct (qeqb_spec (qz r) 0) as [L|_]; [rewrite <- qz_0 in L; apply qz_inj in L; lia|].
  destruct (qleb_spec 1 (qz r)) as [_|L]; [now rewrite qfloor_qz|]. exfalso. apply L. rewrite <- qz_1. now apply qz_le.
Qed.
Lemma map_snd_names (nm : string) (cs : list Qc) k :
  map snd (map (fun ic : nat * Qc => ((nm ++ "@" ++ str_nat (fst ic))%string, snd ic)) (combine (seq k (length cs)) cs)) = cs.
Proof. revert k. induction cs as [|c cs IH]; intro k; simpl; [reflexivity|]. now rewrite IH. Qed.

Lemma convert_var_exact name lb ub : (lb < ub)%Z -> exists bits, convert_var name (qz lb) (qz ub) = Ok bits /\
  (forall bs, length bs = length bits -> Forall bit bs ->
     let a := (enc_sum bs (map snd bits) + qz lb)%Qc in integral a /\ (qz lb <= a)%Qc /\ (a <= qz ub)%Qc) /\
  (forall a, integral a -> (qz lb <= a)%Qc -> (a <= qz ub)%Qc ->
     exists bs, length bs = length bits /\ Forall bit bs /\ (enc_sum bs (map snd bits) + qz lb)%Qc = a) /\
  Forall integral (map snd bits).
Proof.
  intro H. unfold convert_var. rewrite <- qz_sub. rewrite int_log2_int by lia. cbn [bind].
  eexists. split; [reflexivity|]. rewrite map_snd_names. rewrite map_length, combine_length, seq_length, Nat.min_id.
  pose proof (Z.log2_spec (ub - lb) ltac:(lia)) as [L1 L2]. pose proof (Z.log2_nonneg (ub - lb)) as L0.
  destruct (enc_coeffs_exact (Z.to_nat (Z.log2 (ub - lb))) (ub - lb)) as (C1 & C2 & C3 & C4 & C5).
  { rewrite Z2Nat.id by assumption. rewrite Z.pow_succ_r in L2 by assumption. lia. }
  rewrite Z2Nat.id in * by assumption. set (cs := enc_coeffs (Z.log2 (ub - lb)) (qz (ub - lb))) in *. clearbody cs.
  split; [|split; auto].
  - intros bs Lb B. cbv zeta. destruct (enc_sum_bounds bs cs Lb B C3) as [E1 E2]. rewrite C4, qz_sub in E2.
    split; [apply integral_add; [now apply enc_sum_integral|apply integral_qz]|]. split; qlra.
  - intros a [z ->] A1 A2. apply (proj1 (qz_le _ _)) in A1. apply (proj1 (qz_le _ _)) in A2. destruct (C5 (z - lb)%Z) as (bs & B1 & B2 & B3); [lia|].
    exists bs. split; auto. split; auto. rewrite B3, qz_sub. ring.
Qed.

(** ** What stands for a variable *)
Definition bits_of (v : variable) : list (string * Qc) :=
  match convert_var (v_name v) (v_lb v) (v_ub v) with Ok b => b | Err _ => [] end.
Definition is_int (v : variable) : bool := match v_type v with INTEGER => true | _ => false end.
(** v = lbc v + sum of coefficient * variable over xp v *)
Definition xp (v : variable) : list (string * Qc) := if is_int v then bits_of v else [(v_name v, 1%Qc)].
Definition lbc (v : variable) : Qc := if is_int v then v_lb v else 0%Qc.
Definition block (v : variable) : list variable :=
  if is_int v then map (fun b => mkVar (fst b) 0 1 BINARY) (bits_of v) else [copyv v].
Definition dec (names : list string) (y : list Qc) (v : variable) : Qc := (dsum (valof names y) (xp v) + lbc v)%Qc.

Lemma block_names v : map v_name (block v) = map fst (xp v).
Proof. unfold block, xp. destruct (is_int v); [now rewrite map_map|simpl; now rewrite copyv_name]. Qed.
Lemma blocks_names l : map v_name (flat_map block l) = flat_map (fun v => map fst (xp v)) l.
Proof. induction l as [|v l IH]; simpl; [reflexivity|]. now rewrite map_app, IH, block_names. Qed.

Lemma declare_bits_inv bits : forall p q, idx_exact p -> declare_bits p bits = Ok q ->
  idx_exact q /\ p_vars q = p_vars p ++ map (fun b => mkVar (fst b) 0 1 BINARY) bits /\
  p_lcs q = p_lcs p /\ p_qcs q = p_qcs p /\ p_obj q = p_obj p.
Proof.
  unfold declare_bits. induction bits as [|b bits IH]; intros p q X H; cbn [foldM] in H.
  - injection H as <-. simpl. rewrite app_nil_r. auto.
  - apply bind_ok in H. destruct H as (p1 & H1 & H2). apply add_variable_inv in H1. destruct H1 as (-> & F & _).
    apply IH in H2; [|apply add_var_exact; auto]. destruct H2 as (A & B & C & D & E). simpl in *. rewrite <- app_assoc in B. auto.
Qed.
Lemma declare_inv l : forall k st st', idx_exact (fst st) -> (forall i, k <= i -> dget Nat.eqb i (snd st) = None) ->
  foldM i2b_declare (combine (seq k (length l)) l) st = Ok st' ->
  idx_exact (fst st') /\ p_vars (fst st') = p_vars (fst st) ++ flat_map block l /\
  p_lcs (fst st') = p_lcs (fst st) /\ p_qcs (fst st') = p_qcs (fst st) /\ p_obj (fst st') = p_obj (fst st) /\
  (forall j v, nth_error l j = Some v -> dget Nat.eqb (k + j) (snd st') = if is_int v then Some (bits_of v) else None) /\
  (forall i, i < k -> dget Nat.eqb i (snd st') = dget Nat.eqb i (snd st)) /\
  Forall (fun v => is_int v = true -> convert_var (v_name v) (v_lb v) (v_ub v) = Ok (bits_of v)) l /\
  Forall (fun v => is_int v = false -> (v_lb (copyv v) <= v_ub (copyv v))%Qc) l.
Proof.
  induction l as [|v l IH]; intros k st st' X Z H; cbn [length seq combine foldM] in H.
  - injection H as <-. simpl. rewrite app_nil_r. split; [|split; [|split; [|split; [|split; [|split; [|split; [|split]]]]]]]; auto. intros [|j]; discriminate.
  - apply bind_ok in H. destruct H as (s1 & H1 & H2). unfold i2b_declare in H1. cbn [fst snd] in H1.
    destruct (is_int v) eqn:Ei.
    + assert (v_type v = INTEGER) as Ty by (unfold is_int in Ei; destruct (v_type v); congruence). rewrite Ty in H1.
      apply bind_ok in H1. destruct H1 as (bits & Hb & H1). apply bind_ok in H1. destruct H1 as (d & Hd & H1). injection H1 as <-.
      assert (bits = bits_of v) as -> by (unfold bits_of; now rewrite Hb).
      apply declare_bits_inv in Hd; auto. destruct Hd as (A1 & A2 & A3 & A4 & A5).
      pose proof (fun a b => IH (S k) _ st' a b H2) as IH'. destruct IH' as (B1 & B2 & B3 & B4 & B5 & B6 & B7 & B8 & B9).
      { exact A1. }
      { intros i Hi. cbn [snd]. rewrite (dget_dset _ nat_eqb_sp). destruct (Nat.eqb_spec i k); [lia|]. apply Z. lia. }
      cbn [fst snd] in *. rewrite B2, A2, B3, B4, B5. split; auto. split.
      { rewrite <- app_assoc. simpl. unfold block at 2. rewrite Ei. reflexivity. }
      split; auto. split; auto. split; auto. split; [|split; [|split]].
      * intros [|j] w Hw; simpl in Hw.
        -- injection Hw as <-. rewrite Ei, Nat.add_0_r, B7 by lia. rewrite (dget_dset _ nat_eqb_sp). now rewrite Nat.eqb_refl.
        -- rewrite <- Nat.add_succ_comm. now apply B6.
      * intros i Hi. rewrite B7 by lia. rewrite (dget_dset _ nat_eqb_sp). destruct (Nat.eqb_spec i k); [lia|reflexivity].
      * constructor; auto.
      * constructor; auto. congruence.
    + assert (exists d, copy_var (fst st) v = Ok d /\ s1 = (d, snd st)) as (d & Hd & ->).
      { unfold is_int in Ei. destruct (v_type v); try congruence; apply bind_ok in H1; destruct H1 as (d & Hd & E); injection E as <-; eauto. }
      apply copy_var_inv in Hd. destruct Hd as (-> & F & Bd).
      pose proof (fun a b => IH (S k) _ st' a b H2) as IH'. destruct IH' as (B1 & B2 & B3 & B4 & B5 & B6 & B7 & B8 & B9).
      { cbn [fst]. apply add_var_exact; auto. now rewrite copyv_name. }
      { intros i Hi. cbn [snd]. apply Z. lia. }
      cbn [fst snd] in *. rewrite B2, B3, B4, B5. split; auto. split.
      { simpl. rewrite <- app_assoc. unfold block at 2. rewrite Ei. reflexivity. }
      split; auto. split; auto. split; auto. split; [|split; [|split]].
      * intros [|j] w Hw; simpl in Hw.
        -- injection Hw as <-. rewrite Ei, Nat.add_0_r, B7 by lia. apply Z. lia.
        -- rewrite <- Nat.add_succ_comm. now apply B6.
      * intros i Hi. apply B7. lia.
      * constructor; auto. congruence.
      * constructor; auto.
Qed.

(** ** Dictionaries of substituted terms *)
Lemma fold_dset_fresh {K B} (eqb : K -> K -> bool) (sp : forall a b, reflect (a = b) (eqb a b)) (g : B -> K) (w : B -> Qc) (xs : list B) : forall l,
  NoDup (map g xs) -> (forall b, In b xs -> ~ In (g b) (map fst l)) ->
  fold_left (fun l b => dset eqb (g b) (w b) l) xs l = l ++ map (fun b => (g b, w b)) xs.
Proof.
  induction xs as [|b xs IH]; intros l N F; simpl; [now rewrite app_nil_r|]. inversion N; subst.
  rewrite (dset_fresh _ sp) by (apply F; now left). rewrite IH; auto; [now rewrite <- app_assoc|].
  intros b' Hb. rewrite map_app, in_app_iff. simpl. intros [A|[A|[]]]; [eapply F; eauto; now right|]. apply H1. rewrite A. now apply in_map.
Qed.
Lemma fold_prod {A B S} (F : S -> A -> B -> S) (bx : list A) (by_ : list B) : forall q,
  fold_left (fun q b => fold_left (fun q b' => F q b b') by_ q) bx q = fold_left (fun q bb => F q (fst bb) (snd bb)) (list_prod bx by_) q.
Proof.
  induction bx as [|b bx IH]; intro q; simpl; [reflexivity|]. rewrite fold_left_app, <- IH.
  assert (forall l q0, fold_left (fun q b' => F q b b') l q0 = fold_left (fun q bb => F q (fst bb) (snd bb)) (map (fun y => (b, y)) l) q0) as E.
  { induction l as [|b' l IHb]; intro q0; simpl; auto. }
  now rewrite E.
Qed.
Lemma flat_map_disjoint {A B} (f : A -> list B) l a b x : NoDup (flat_map f l) -> In a l -> In b l -> In x (f a) -> In x (f b) -> a = b.
Proof.
  induction l as [|c l IH]; simpl; intros N Ha Hb Xa Xb; [tauto|].
  assert (forall u v : list B, NoDup (u ++ v) -> forall z, In z u -> In z v -> False) as ND.
  { clear. induction u as [|h u IH]; simpl; intros v N z Hu Hv; [tauto|]. inversion N; subst. destruct Hu as [->|Hu]; [apply H1, in_app_iff; auto|eauto]. }
  assert (NoDup (flat_map f l)) as N2. { clear -N. induction (f c) as [|h u IHu]; simpl in N; auto. inversion N; auto. }
  destruct Ha as [->|Ha], Hb as [->|Hb]; auto.
  - exfalso. eapply ND; eauto. apply in_flat_map. eauto.
  - exfalso. eapply ND; eauto. apply in_flat_map. eauto.
Qed.
Lemma flat_map_nodup {A B} (f : A -> list B) l a : NoDup (flat_map f l) -> In a l -> NoDup (f a).
Proof.
  induction l as [|c l IH]; simpl; intros N Ha; [tauto|]. destruct Ha as [->|Ha].
  - clear -N. induction (f a) as [|h u IHu]; constructor; simpl in N; inversion N; subst; auto. intro A1. apply H1, in_app_iff. auto.
  - apply IH; auto. clear -N. induction (f c) as [|h u IHu]; simpl in N; auto. inversion N; auto.
Qed.
Lemma NoDup_app_intro {A} (l m : list A) : NoDup l -> NoDup m -> (forall a, In a l -> In a m -> False) -> NoDup (l ++ m).
Proof.
  intros N M D. induction N as [|a l H N IH]; simpl; auto. constructor; [|apply IH; intros b Hb; apply D; now right].
  rewrite in_app_iff. intros [K|K]; [auto|]. eapply D; eauto. now left.
Qed.
Lemma NoDup_list_prod {A B} (l : list A) (m : list B) : NoDup l -> NoDup m -> NoDup (list_prod l m).
Proof.
  intros N M. induction N as [|a l H N IH]; simpl; [constructor|].
  apply NoDup_app_intro; auto.
  - apply FinFun.Injective_map_NoDup; auto. intros x y E. now injection E.
  - intros [u v] H1 H2. apply in_map_iff in H1. destruct H1 as (w & E & _). injection E as <- <-. apply in_prod_iff in H2. tauto.
Qed.

Definition ones (v : variable) : Prop := Forall (fun b => snd b = 1%Qc) (xp v).
Definition prod_ok (x y : variable) : Prop :=
  is_int x = true -> is_int y = true -> (v_lb y = 0%Qc \/ ones x) /\ (v_lb x = 0%Qc \/ ones y).
Definition xp_names (vs : list variable) : list string := flat_map (fun v => map fst (xp v)) vs.

Section Sub.
Variables (src : qp) (conv : nat -> option (list (string * Qc))).
Hypothesis W : index_finds (var_names src) (p_vidx src).
Hypothesis Hconv : forall i v, nth_error (p_vars src) i = Some v -> conv i = if is_int v then Some (bits_of v) else None.
Hypothesis ND : NoDup (xp_names (p_vars src)).
Let names' := xp_names (p_vars src).

Definition vof (s : string) : variable :=
  match dget String.eqb s (p_vidx src) with Some i => nth i (p_vars src) (mkVar "" 0 0 BINARY) | None => mkVar "" 0 0 BINARY end.

Lemma vof_spec s : In s (var_names src) -> exists i, src_pos src s = Ok i /\ src_var src i = Ok (vof s) /\ v_name (vof s) = s /\
  nth_error (p_vars src) i = Some (vof s) /\ In (vof s) (p_vars src) /\ conv i = if is_int (vof s) then Some (bits_of (vof s)) else None.
Proof using W Hconv.
  intro Hs. apply In_nth_error in Hs. destruct Hs as [i Hi]. pose proof (W s i Hi) as D.
  unfold var_names in Hi. rewrite nth_error_map in Hi. destruct (nth_error (p_vars src) i) as [v|] eqn:E; [|discriminate]. simpl in Hi. injection Hi as Hi.
  assert (vof s = v) as V by (unfold vof; rewrite D; now apply nth_error_nth).
  exists i. unfold src_pos, src_var. rewrite E, V. split.
  { unfold del_pos. rewrite D. unfold py_index. assert (i < length (p_vars src)) by (apply nth_error_Some; congruence).
    replace (Z.of_nat i <? 0)%Z with false by (symmetry; apply Z.ltb_ge; lia). 
    try rewrite Nat2Z.id. replace (i <? length (p_vars src)) with true by (symmetry; apply Nat.ltb_lt; lia). reflexivity. }
  split; auto. split; auto. split; auto. split; [eapply nth_error_In; eauto|]. now apply Hconv.
Qed.
Lemma vof_block_inj s t z : In s (var_names src) -> In t (var_names src) -> In z (map fst (xp (vof s))) -> In z (map fst (xp (vof t))) -> s = t.
Proof using W Hconv ND.
  intros Hs Ht Zs Zt. destruct (vof_spec s Hs) as (i & _ & _ & N1 & _ & I1 & _). destruct (vof_spec t Ht) as (j & _ & _ & N2 & _ & I2 & _).
  rewrite <- N1, <- N2. f_equal. eapply (flat_map_disjoint (fun v => map fst (xp v))); eauto.
Qed.
Lemma vof_block_nodup s : In s (var_names src) -> NoDup (map fst (xp (vof s))).
Proof using W Hconv ND. intro Hs. destruct (vof_spec s Hs) as (i & _ & _ & _ & _ & I1 & _). eapply (flat_map_nodup (fun v => map fst (xp v))); eauto. Qed.
Lemma vof_block_in s z : In s (var_names src) -> In z (map fst (xp (vof s))) -> In z names'.
Proof using W Hconv. intros Hs Hz. destruct (vof_spec s Hs) as (i & _ & _ & _ & _ & I1 & _). apply in_flat_map. eauto. Qed.

(** *** Linear terms *)
Definition lin_image (d : list (string * Qc)) : list (string * Qc) :=
  flat_map (fun kv => map (fun b => (fst b, (snd kv * snd b)%Qc)) (xp (vof (fst kv)))) d.
Definition lin_const (d : list (string * Qc)) : Qc := sumof (fun kv => (snd kv * lbc (vof (fst kv)))%Qc) d.
Lemma i2b_linear_spec d : NoDup (map fst d) -> (forall s v, In (s, v) d -> In s (var_names src)) ->
  i2b_linear src conv d = Ok (lin_image d, lin_const d).
Proof using W Hconv ND.
  intros N I. unfold i2b_linear.
  enough (forall d l0 c0, NoDup (map fst d) -> (forall s v, In (s, v) d -> In s (var_names src)) ->
    (forall z, In z (map fst l0) -> exists s, In s (var_names src) /\ ~ In s (map fst d) /\ In z (map fst (xp (vof s)))) ->
    foldM (fun st kv =>
           do i <- src_pos src (fst kv);
           do x <- src_var src i;
           match conv i with
           | Some bits =>
               Ok (fold_left (fun l b => dset String.eqb (fst b) (snd kv * snd b)%Qc l) bits (fst st),
                   (snd st + snd kv * v_lb x)%Qc)
           | None => Ok (dset String.eqb (v_name x) (snd kv) (fst st), snd st)
           end) d (l0, c0) = Ok (l0 ++ lin_image d, (c0 + lin_const d)%Qc)) as G.
  { rewrite (G d [] 0%Qc N I); [|simpl; tauto]. simpl. do 2 f_equal. ring. }
  clear d N I. induction d as [|[s w] d IH]; intros l0 c0 N I F; cbn [foldM fst snd].
  - unfold lin_const. simpl. rewrite app_nil_r. do 2 f_equal. ring.
  - inversion N as [|? ? N1 N2]; subst. pose proof (I s w (or_introl eq_refl)) as Is.
    destruct (vof_spec s Is) as (i & E1 & E2 & E3 & _ & _ & E4). rewrite E1. cbn [bind]. rewrite E2. cbn [bind]. rewrite E4.
    assert (forall z, In z (map fst (xp (vof s))) -> ~ In z (map fst l0)) as Fr.
    { intros z Hz Hl. destruct (F z Hl) as (s' & A & B & C). apply B. left. simpl. eapply vof_block_inj; eauto. }
    assert (forall l1 c1, l1 = l0 ++ map (fun b => (fst b, (w * snd b)%Qc)) (xp (vof s)) -> c1 = (c0 + w * lbc (vof s))%Qc ->
      foldM (fun st kv =>
           do i <- src_pos src (fst kv);
           do x <- src_var src i;
           match conv i with
           | Some bits =>
               Ok (fold_left (fun l b => dset String.eqb (fst b) (snd kv * snd b)%Qc l) bits (fst st),
                   (snd st + snd kv * v_lb x)%Qc)
           | None => Ok (dset String.eqb (v_name x) (snd kv) (fst st), snd st)
           end) d (l1, c1) = Ok (l0 ++ lin_image ((s, w) :: d), (c0 + lin_const ((s, w) :: d))%Qc)) as K.
    { intros l1 c1 -> ->. rewrite IH; auto.
      - unfold lin_const, lin_image. simpl. rewrite <- app_assoc. do 2 f_equal. ring.
      - intros; eapply I; right; eauto.
      - intros z Hz. rewrite map_app, in_app_iff in Hz. destruct Hz as [Hz|Hz].
        + destruct (F z Hz) as (s' & A & B & C). exists s'. split; auto. split; auto. intro D. apply B. now right.
        + rewrite map_map in Hz. simpl in Hz. exists s. auto. }
    pose proof (vof_block_nodup s Is) as Nb. unfold xp, lbc in *. destruct (is_int (vof s)); cbn [bind fst snd].
    + apply K; auto. apply (fold_dset_fresh _ str_eqb_sp fst (fun b => (w * snd b)%Qc)); auto. intros b Hb. apply Fr. now apply in_map.
    + apply K; [|ring]. rewrite (dset_fresh _ str_eqb_sp) by (apply Fr; simpl; auto). simpl. do 2 f_equal. f_equal. ring.
Qed.
Lemma lin_image_value f d : dsum f (lin_image d) = sumof (fun kv => (snd kv * dsum f (xp (vof (fst kv))))%Qc) d.
Proof using.
  clear W Hconv ND names' conv.
  unfold lin_image, dsum at 1. rewrite sumof_flat_map. apply sumof_ext. intros [s w] _. simpl. rewrite sumof_map. unfold dsum.
  rewrite <- sumof_scale. apply sumof_ext. intros [t c] _. simpl. ring.
Qed.
Lemma lin_image_keys d z : In z (map fst (lin_image d)) -> exists s, In s (map fst d) /\ In z (map fst (xp (vof s))).
Proof using.
  unfold lin_image. rewrite in_map_iff. intros ([z' c] & E & H). simpl in E. subst. apply in_flat_map in H. destruct H as ([s w] & A & B).
  apply in_map_iff in B. destruct B as (b & E & B). injection E as <- <-. exists s. split; [change s with (fst (s, w)); now apply in_map|now apply in_map].
Qed.
Lemma lin_image_nodup d : NoDup (map fst d) -> (forall s v, In (s, v) d -> In s (var_names src)) -> NoDup (map fst (lin_image d)).
Proof using W Hconv ND.
  induction d as [|[s w] d IH]; intros N I; [constructor|]. inversion N as [|? ? N1 N2]; subst. unfold lin_image. cbn [flat_map]. rewrite map_app. apply NoDup_app_intro.
  - rewrite map_map. simpl. eapply vof_block_nodup. eapply I; left; eauto.
  - apply IH; auto. intros; eapply I; right; eauto.
  - intros z Hz Hz'. rewrite map_map in Hz. simpl in Hz. apply lin_image_keys in Hz'. destruct Hz' as (t & A & B).
    apply N1. replace s with t; auto. apply in_map_iff in A. destruct A as ([t' v] & E & A). simpl in E. subst.
    eapply vof_block_inj; eauto; eapply I; [right; eauto|left; eauto].
Qed.
Lemma lin_image_integral d : Forall (fun kv => integral (snd kv)) d -> Forall (fun v => Forall (fun b => integral (snd b)) (xp v)) (p_vars src) ->
  (forall s v, In (s, v) d -> In s (var_names src)) -> Forall (fun kv => integral (snd kv)) (lin_image d).
Proof using W Hconv.
  intros F B I. unfold lin_image. apply Forall_flat_map. apply Forall_forall. intros [s w] Hin. apply Forall_map. simpl.
  destruct (vof_spec s (I _ _ Hin)) as (i & _ & _ & _ & _ & I1 & _). rewrite Forall_forall in B. specialize (B _ I1).
  eapply Forall_impl; [|exact B]. intros b Hb. apply integral_mul; auto. rewrite Forall_forall in F. apply (F _ Hin).
Qed.

(** *** Quadratic terms *)
Definition quad_image (d : list ((string * string) * Qc)) : list ((string * string) * Qc) :=
  flat_map (fun kv => map (fun bb => ((fst (fst bb), fst (snd bb)), (snd kv * snd (fst bb) * snd (snd bb))%Qc))
                          (list_prod (xp (vof (fst (fst kv)))) (xp (vof (snd (fst kv)))))) d.
Definition quad_rest (f : string -> Qc) (d : list ((string * string) * Qc)) : Qc :=
  sumof (fun kv => let x := vof (fst (fst kv)) in let y := vof (snd (fst kv)) in
     (snd kv * (dsum f (xp x) * lbc y + dsum f (xp y) * lbc x + lbc x * lbc y))%Qc) d.
Lemma fold_dadd_dsum f (w : Qc) (bs : list (string * Qc)) : forall l,
  dsum f (fold_left (fun l b => dadd String.eqb (fst b) w l) bs l) = (dsum f l + w * sumof (fun b => f (fst b)) bs)%Qc.
Proof using.
  induction bs as [|b bs IH]; intro l; simpl; [ring|]. rewrite IH, (dsum_dadd _ str_eqb_sp). ring.
Qed.
Lemma dadd_keys k w (l : list (string * Qc)) z : In z (map fst (dadd String.eqb k w l)) -> z = k \/ In z (map fst l).
Proof using. unfold dadd. intro H. apply (dset_keys _ str_eqb_sp) in H. tauto. Qed.
Lemma dadd_nodup k w (l : list (string * Qc)) : NoDup (map fst l) -> NoDup (map fst (dadd String.eqb k w l)).
Proof using. intro H. unfold dadd. now apply (dset_nodup _ str_eqb_sp). Qed.
Lemma fold_dadd_keys w (bs : list (string * Qc)) : forall l z,
  In z (map fst (fold_left (fun l b => dadd String.eqb (fst b) w l) bs l)) -> In z (map fst bs) \/ In z (map fst l).
Proof using.
  induction bs as [|b bs IH]; intros l z H; simpl in *; auto. apply IH in H. destruct H as [H|H]; auto. apply dadd_keys in H. destruct H; auto.
Qed.
Lemma fold_dadd_nodup w (bs : list (string * Qc)) : forall l, NoDup (map fst l) ->
  NoDup (map fst (fold_left (fun l b => dadd String.eqb (fst b) w l) bs l)).
Proof using. induction bs as [|b bs IH]; intros l H; simpl; auto. apply IH. now apply dadd_nodup. Qed.
(** What is missing when the bits are counted and not weighed; 0 for a variable that is kept *)
Definition bit_gap (f : string -> Qc) (v : variable) : Qc := (dsum f (xp v) - sumof (fun b => f (fst b)) (xp v))%Qc.
Definition quad_loss (f : string -> Qc) (d : list ((string * string) * Qc)) : Qc :=
  sumof (fun kv => let x := vof (fst (fst kv)) in let y := vof (snd (fst kv)) in (snd kv * (lbc y * bit_gap f x + lbc x * bit_gap f y))%Qc) d.
Lemma bit_gap_kept f v : is_int v = false -> bit_gap f v = 0%Qc.
Proof using. intro H. unfold bit_gap, xp. rewrite H. unfold dsum. cbn [sumof fst snd fold_right map]. ring. Qed.
Lemma ones_sum f v : ones v -> sumof (fun b => f (fst b)) (xp v) = dsum f (xp v).
Proof using. unfold ones, dsum. intro H. apply sumof_ext. intros b Hb. rewrite Forall_forall in H. rewrite (H b Hb). ring. Qed.

Lemma i2b_quadratic_spec d r : NoDup (map fst d) -> (forall s t v, In ((s, t), v) d -> In s (var_names src) /\ In t (var_names src)) ->
  i2b_quadratic src conv d = Ok r -> exists l c, r = (quad_image d, l, c) /\ NoDup (map fst l) /\ (forall z, In z (map fst l) -> In z names') /\
  forall f, (dsum f l + c = quad_rest f d - quad_loss f d)%Qc.
Proof using W Hconv ND.
  intros N I. unfold i2b_quadratic.
  enough (forall d q0 l0 c0, NoDup (map fst d) -> (forall s t v, In ((s, t), v) d -> In s (var_names src) /\ In t (var_names src)) ->
    NoDup (map fst l0) -> (forall z, In z (map fst l0) -> In z names') ->
    (forall z z', In (z, z') (map fst q0) -> exists s t, In s (var_names src) /\ In t (var_names src) /\ ~ In (s, t) (map fst d) /\
        In z (map fst (xp (vof s))) /\ In z' (map fst (xp (vof t)))) ->
    foldM (i2b_term src conv) d (q0, l0, c0) = Ok r -> exists l c, r = (q0 ++ quad_image d, l, c) /\ NoDup (map fst l) /\
    (forall z, In z (map fst l) -> In z names') /\ forall f, (dsum f l + c = dsum f l0 + c0 + quad_rest f d - quad_loss f d)%Qc) as G.
  { intro E. destruct (G d [] [] 0%Qc N I) with (4 := E) as (l & c & A & B & C & D); [constructor|simpl; tauto|simpl; tauto|].
    exists l, c. split; auto. split; auto. split; auto. intro f. rewrite D. unfold dsum; simpl. ring. }
  clear d N I. induction d as [|[[s t] w] d IH]; intros q0 l0 c0 N I Nl Kl F E; cbn [foldM] in E.
  - injection E as <-. exists l0, c0. simpl. rewrite app_nil_r. split; auto. split; auto. split; auto. intro f. unfold quad_rest, quad_loss. simpl. ring.
  - apply bind_ok in E. destruct E as (st & E1 & E). inversion N as [|? ? N1 N2]; subst.
    destruct (I s t w (or_introl eq_refl)) as [Is It].
    destruct (vof_spec s Is) as (i & X1 & X2 & X3 & _ & _ & X4). destruct (vof_spec t It) as (j & Y1 & Y2 & Y3 & _ & _ & Y4).
    set (im := map (fun bb => ((fst (fst bb), fst (snd bb)), (w * snd (fst bb) * snd (snd bb))%Qc)) (list_prod (xp (vof s)) (xp (vof t)))).
    assert (forall z z', In z (map fst (xp (vof s))) -> In z' (map fst (xp (vof t))) -> ~ In (z, z') (map fst q0)) as Fr.
    { intros z z' Hz Hz' Hl. destruct (F _ _ Hl) as (s' & t' & A & B & C & D & D'). apply C. left. simpl. f_equal; eapply vof_block_inj; eauto. }
    assert (forall q1 bx by_, bx = xp (vof s) -> by_ = xp (vof t) ->
      q1 = fold_left (fun q b => fold_left (fun q b' => dset str2_eqb (fst b, fst b') (w * snd b * snd b')%Qc q) by_ q) bx q0 -> q1 = q0 ++ im) as Q.
    { intros q1 bx by_ -> -> ->.
      rewrite (fold_prod (fun q b b' => dset str2_eqb (fst b, fst b') (w * snd b * snd b')%Qc q)).
      apply (fold_dset_fresh _ str2_eqb_sp (fun bb : (string * Qc) * (string * Qc) => (fst (fst bb), fst (snd bb))) (fun bb => (w * snd (fst bb) * snd (snd bb))%Qc)).
      - pose proof (NoDup_list_prod _ _ (vof_block_nodup s Is) (vof_block_nodup t It)) as G. 
        replace (map (fun bb : (string * Qc) * (string * Qc) => (fst (fst bb), fst (snd bb))) (list_prod (xp (vof s)) (xp (vof t))))
           with (list_prod (map fst (xp (vof s))) (map fst (xp (vof t)))); auto.
        generalize (xp (vof s)) as u. induction u as [|h u IHu]; simpl; [reflexivity|]. rewrite map_app, IHu, !map_map. reflexivity.
      - intros [b b'] Hb. apply in_prod_iff in Hb. apply Fr; apply in_map; tauto. }
    assert (exists q1 l1 c1, st = (q1, l1, c1) /\ q1 = q0 ++ im /\ NoDup (map fst l1) /\ (forall z, In z (map fst l1) -> In z names') /\
       forall f, (dsum f l1 + c1 = dsum f l0 + c0 + w * (dsum f (xp (vof s)) * lbc (vof t) + dsum f (xp (vof t)) * lbc (vof s) + lbc (vof s) * lbc (vof t)) - w * (lbc (vof t) * bit_gap f (vof s) + lbc (vof s) * bit_gap f (vof t)))%Qc) as S.
    { unfold i2b_term in E1. cbn [fst snd] in E1. rewrite X1 in E1. cbn [bind] in E1. rewrite X2 in E1. cbn [bind] in E1. rewrite Y1 in E1. cbn [bind] in E1. rewrite Y2 in E1. cbn [bind] in E1.
      rewrite X4, Y4 in E1. pose proof (fun z => vof_block_in s z Is) as Bs. pose proof (fun z => vof_block_in t z It) as Bt.
      destruct (is_int (vof s)) eqn:Es, (is_int (vof t)) eqn:Et.
      - injection E1 as <-. eexists _, _, _. split; [reflexivity|]. split; [|split; [|split]].
        + apply (Q _ (bits_of (vof s)) (bits_of (vof t))); auto; unfold xp; rewrite ?Es, ?Et; reflexivity.
        + now apply fold_dadd_nodup, fold_dadd_nodup.
        + assert (xp (vof s) = bits_of (vof s) /\ xp (vof t) = bits_of (vof t)) as [Xs Xt] by (unfold xp; now rewrite Es, Et). rewrite Xs in Bs. rewrite Xt in Bt.
          intros z Hz. apply fold_dadd_keys in Hz. destruct Hz as [Hz|Hz]; auto. apply fold_dadd_keys in Hz. destruct Hz; auto.
        + intro f. rewrite !fold_dadd_dsum.
          assert (xp (vof s) = bits_of (vof s) /\ xp (vof t) = bits_of (vof t)) as [Xs Xt] by (unfold xp; now rewrite Es, Et).
          unfold bit_gap, lbc. rewrite Es, Et, Xs, Xt. ring.
      - injection E1 as <-. eexists _, _, _. split; [reflexivity|]. split; [|split; [|split]].
        + apply (Q _ (bits_of (vof s)) [(t, 1%Qc)]); auto; [unfold xp; now rewrite Es|unfold xp; rewrite Et, Y3; reflexivity|].
          clear -Y3. rewrite ?Y3. generalize q0. induction (bits_of (vof s)) as [|b bs IHb]; intro q; simpl; [reflexivity|]. rewrite IHb. f_equal. f_equal. ring.
        + now apply dadd_nodup.
        + intros z Hz. apply dadd_keys in Hz. destruct Hz as [->|Hz]; auto. apply Bt. unfold xp. rewrite Et. simpl. auto.
        + intro f. rewrite (dsum_dadd _ str_eqb_sp), ?(bit_gap_kept f _ Es), ?(bit_gap_kept f _ Et). unfold lbc. rewrite Es, Et. unfold xp at 2. rewrite Et, dsum_cons, dsum_nil. ring.
      - injection E1 as <-. eexists _, _, _. split; [reflexivity|]. split; [|split; [|split]].
        + apply (Q _ [(s, 1%Qc)] (bits_of (vof t))); auto; [unfold xp; rewrite Es, X3; reflexivity|unfold xp; now rewrite Et|].
          simpl. clear -X3. rewrite ?X3. generalize q0. induction (bits_of (vof t)) as [|b bs IHb]; intro q; simpl; [reflexivity|]. rewrite IHb. f_equal. f_equal. ring.
        + now apply dadd_nodup.
        + intros z Hz. apply dadd_keys in Hz. destruct Hz as [->|Hz]; auto. apply Bs. unfold xp. rewrite Es. simpl. auto.
        + intro f. rewrite (dsum_dadd _ str_eqb_sp), ?(bit_gap_kept f _ Es), ?(bit_gap_kept f _ Et). unfold lbc. rewrite Es, Et. unfold xp at 1. rewrite Es, dsum_cons, dsum_nil. ring.
      - injection E1 as <-. eexists _, _, _. split; [reflexivity|]. split; [|split; [|split]]; auto.
        + apply (Q _ [(s, 1%Qc)] [(t, 1%Qc)]); auto; [unfold xp; rewrite Es, X3; reflexivity|unfold xp; rewrite Et, Y3; reflexivity|].
          simpl. rewrite X3, Y3. f_equal. ring.
        + intro f. rewrite (bit_gap_kept f _ Es), (bit_gap_kept f _ Et). ring_simplify. unfold lbc. rewrite Es, Et. ring. }
    destruct S as (q1 & l1 & c1 & -> & -> & Nl1 & Kl1 & V1).
    destruct (IH (q0 ++ im) l1 c1) as (l & c & A & B & C & D); auto.
    + intros; eapply I; right; eauto.
    + intros z z' Hz. rewrite map_app, in_app_iff in Hz. destruct Hz as [Hz|Hz].
      * destruct (F _ _ Hz) as (s' & t' & A & B & C & D & D'). exists s', t'. repeat (split; auto). intro K. apply C. now right.
      * unfold im in Hz. rewrite map_map in Hz. apply in_map_iff in Hz. destruct Hz as ([b b'] & Eb & Hb). simpl in Eb. injection Eb as <- <-.
        apply in_prod_iff in Hb. exists s, t. repeat (split; auto); apply in_map; tauto.
    + exists l, c. split; [|split; [auto|split; [auto|]]].
      * rewrite A. unfold quad_image. cbn [flat_map fst snd]. rewrite <- app_assoc. reflexivity.
      * intro f. rewrite D, V1. unfold quad_rest, quad_loss. simpl. ring.
Qed.
Lemma quad_image_value f d : dsum (fun st => (f (fst st) * f (snd st))%Qc) (quad_image d) =
  sumof (fun kv => (snd kv * (dsum f (xp (vof (fst (fst kv)))) * dsum f (xp (vof (snd (fst kv))))))%Qc) d.
Proof using.
  clear W Hconv ND names' conv.
  unfold quad_image, dsum at 1. rewrite sumof_flat_map. apply sumof_ext. intros [[s t] w] _. simpl. rewrite sumof_map. cbn [fst snd].
  generalize (xp (vof s)) as u, (xp (vof t)) as v. intros u v. induction u as [|[a c] u IHu]; simpl.
  - unfold dsum at 1. simpl. ring.
  - rewrite sumof_app, IHu, dsum_cons. rewrite sumof_map. cbn [fst snd].
    replace (sumof (fun a0 : string * Qc => (w * c * snd a0 * (f a * f (fst a0)))%Qc) v) with (w * c * f a * dsum f v)%Qc; [ring|].
    unfold dsum. rewrite <- sumof_scale. apply sumof_ext. intros [b c'] _. simpl. ring.
Qed.
Lemma quad_image_keys d z z' : In (z, z') (map fst (quad_image d)) -> exists s t, In (s, t) (map fst d) /\ In z (map fst (xp (vof s))) /\ In z' (map fst (xp (vof t))).
Proof using.
  unfold quad_image. rewrite in_map_iff. intros ([k c] & E & H). simpl in E. subst. apply in_flat_map in H. destruct H as ([[s t] w] & A & B).
  apply in_map_iff in B. destruct B as ([b b'] & E & B). injection E as <- <-. apply in_prod_iff in B. exists s, t.
  split; [change (s, t) with (fst ((s, t), w)); now apply in_map|split; apply in_map; tauto].
Qed.
Lemma quad_image_nodup d : NoDup (map fst d) -> (forall s t v, In ((s, t), v) d -> In s (var_names src) /\ In t (var_names src)) -> NoDup (map fst (quad_image d)).
Proof using W Hconv ND.
  induction d as [|[[s t] w] d IH]; intros N I; [constructor|]. inversion N as [|? ? N1 N2]; subst. unfold quad_image. cbn [flat_map]. rewrite map_app.
  destruct (I s t w (or_introl eq_refl)) as [Is It]. apply NoDup_app_intro.
  - rewrite map_map. cbn [fst snd]. pose proof (NoDup_list_prod _ _ (vof_block_nodup s Is) (vof_block_nodup t It)) as G.
    replace (map (fun x : (string * Qc) * (string * Qc) => (fst (fst x), fst (snd x))) (list_prod (xp (vof s)) (xp (vof t))))
       with (list_prod (map fst (xp (vof s))) (map fst (xp (vof t)))); auto.
    generalize (xp (vof s)) as u. induction u as [|h u IHu]; simpl; [reflexivity|]. rewrite map_app, IHu, !map_map. reflexivity.
  - apply IH; auto. intros; eapply I; right; eauto.
  - intros [z z'] Hz Hz'. rewrite map_map in Hz. cbn [fst snd] in Hz. apply in_map_iff in Hz. destruct Hz as ([b b'] & Eb & Hb). simpl in Eb. injection Eb as <- <-.
    apply in_prod_iff in Hb. apply quad_image_keys in Hz'. destruct Hz' as (s' & t' & A & B & C).
    apply N1. apply in_map_iff in A. destruct A as ([[s2 t2] v] & E & A). simpl in E. injection E as -> ->.
    destruct (I s' t' v (or_intror A)) as [Is' It'].
    replace s with s'; [replace t with t'|].
    + change (s', t') with (fst ((s', t'), v)). now apply in_map.
    + eapply vof_block_inj; eauto. apply in_map; tauto.
    + eapply vof_block_inj; eauto. apply in_map; tauto.
Qed.
End Sub.
