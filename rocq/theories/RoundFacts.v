(** * Facts about rounded logarithms and the encoding of integer variables *)
Require Import Verif.RoundLog Verif.SpecRound Verif.IntBinFacts.
From Coq Require Import Reals Lra Lia.
Local Open Scope R_scope.

(** ** Logarithms *)
Lemma ln_ge x : 0 <= x -> x / (1 + x) <= ln (1 + x).
Proof.
  intro H. pose proof (exp_ineq1_le (- ln (1 + x))) as E. rewrite exp_Ropp, exp_ln in E by lra.
  replace (x / (1 + x)) with (1 - / (1 + x)) by (field; lra). lra.
Qed.
Lemma ln_le x : 0 <= x -> ln (1 + x) <= x.
Proof. intro H. pose proof (exp_ineq1_le (ln (1 + x))) as E. rewrite exp_ln in E by lra. lra. Qed.
Lemma ln2_le : ln 2 <= 1.
Proof. replace 2 with (1 + 1) by lra. apply ln_le. lra. Qed.
Lemma ln2_ge : 7 / 12 <= ln 2.
Proof.
  replace 2 with ((1 + 1 / 3) * (1 + 1 / 2)) by lra. rewrite ln_mult by lra.
  pose proof (ln_ge (1 / 3)). pose proof (ln_ge (1 / 2)). lra.
Qed.
Lemma lb2_ge x : 0 <= x -> x / (1 + x) <= lb2 (1 + x).
Proof.
  intro H. pose proof (ln_ge x H). pose proof ln2_le. pose proof ln2_ge. unfold lb2.
  apply Rmult_le_reg_r with (ln 2); [lra|]. replace (ln (1 + x) / ln 2 * ln 2) with (ln (1 + x)) by (field; lra).
  assert (0 <= x / (1 + x)) by (apply Rmult_le_pos; [lra|left; apply Rinv_0_lt_compat; lra]). nra.
Qed.
Lemma lb2_le x : 0 <= x -> lb2 (1 + x) <= 12 / 7 * x.
Proof.
  intro H. pose proof (ln_le x H). pose proof ln2_ge. unfold lb2.
  apply Rmult_le_reg_r with (ln 2); [lra|]. replace (ln (1 + x) / ln 2 * ln 2) with (ln (1 + x)) by (field; lra). nra.
Qed.
Lemma lb2_mult a b : 0 < a -> 0 < b -> lb2 (a * b) = lb2 a + lb2 b.
Proof. intros. unfold lb2. rewrite ln_mult by lra. field. pose proof ln2_ge. lra. Qed.
Lemma lb2_pow k : lb2 (2 ^ k) = INR k.
Proof. unfold lb2. rewrite ln_pow by lra. field. pose proof ln2_ge. lra. Qed.
Lemma lb2_mono a b : 0 < a -> a <= b -> lb2 a <= lb2 b.
Proof.
  intros A B. unfold lb2. pose proof ln2_ge. apply Rmult_le_compat_r; [left; apply Rinv_0_lt_compat; lra|].
  destruct (Req_dec a b) as [->|N]; [lra|]. left. apply ln_increasing; lra.
Qed.
Lemma lb2_pos a : 1 <= a -> 0 <= lb2 a.
Proof. intro H. replace 0 with (lb2 (2 ^ 0)); [apply lb2_mono; simpl; lra|rewrite lb2_pow; reflexivity]. Qed.

(** ** The power *)
Lemma floor_is x (z : Z) : IZR z <= x < IZR z + 1 -> Int_part x = z.
Proof.
  intro H. unfold Int_part. symmetry. cut (up x = (z + 1)%Z); [intros ->; lia|]. symmetry. apply tech_up; rewrite plus_IZR; lra.
Qed.
Lemma truncate_is x (z : Z) : (0 <= z)%Z -> IZR z <= x < IZR z + 1 -> truncate x = z.
Proof. intros Z0 H. unfold truncate. apply IZR_le in Z0. destruct (Rle_dec 0 x) as [_|N]; [now apply floor_is|lra]. Qed.
Lemma IZR_pow2 k : IZR (2 ^ Z.of_nat k) = 2 ^ k.
Proof. now rewrite <- pow_IZR. Qed.

(** A logarithm accurate enough for the range gives the right power. *)
Lemma accurate_power e lg r : accurate e lg -> (1 <= r)%Z -> e * lb2 (IZR r) * (IZR r + 1) < 1 -> truncate (lg (IZR r)) = Z.log2 r.
Proof.
  intros [A P] Hr C. pose proof (Z.log2_spec r ltac:(lia)) as [L1 L2]. pose proof (Z.log2_nonneg r) as L0.
  set (k := Z.to_nat (Z.log2 r)). assert (Z.log2 r = Z.of_nat k) as Ek by (unfold k; now rewrite Z2Nat.id).
  rewrite Ek in *. assert (1 <= IZR r) as R1 by now apply IZR_le.
  destruct (Z.eq_dec r (2 ^ Z.of_nat k)) as [E|N].
  { rewrite E, IZR_pow2, P. apply truncate_is; [lia|]. rewrite <- INR_IZR_INZ. lra. }
  assert (0 < 2 ^ k) as P0 by (apply pow_lt; lra).
  assert (2 ^ k + 1 <= IZR r) as G1 by (rewrite <- IZR_pow2, <- plus_IZR; apply IZR_le; lia).
  assert (IZR r + 1 <= 2 * 2 ^ k) as G2.
  { rewrite <- IZR_pow2, <- mult_IZR, <- plus_IZR. apply IZR_le. rewrite Z.pow_succ_r in L2 by lia. lia. }
  assert (Rabs (lg (IZR r) - lb2 (IZR r)) < / (IZR r + 1)) as D.
  { eapply Rle_lt_trans; [apply A; exact R1|]. apply Rmult_lt_reg_r with (IZR r + 1); [lra|]. rewrite Rinv_l by lra. exact C. }
  assert (/ (IZR r + 1) <= / IZR r) as I1 by (apply Rinv_le_contravar; lra).
  assert (INR k + / (2 ^ k + 1) <= lb2 (IZR r)) as B1.
  { apply Rle_trans with (lb2 (2 ^ k * (1 + / 2 ^ k))).
    - rewrite lb2_mult, lb2_pow; [|exact P0|pose proof (Rinv_0_lt_compat _ P0); lra]. apply Rplus_le_compat_l.
      pose proof (lb2_ge (/ 2 ^ k) ltac:(left; now apply Rinv_0_lt_compat)) as G. eapply Rle_trans; [|exact G].
      right. field. split; lra.
    - replace (2 ^ k * (1 + / 2 ^ k)) with (2 ^ k + 1) by (field; lra). apply lb2_mono; lra. }
  assert (lb2 (IZR r) + / (IZR r + 1) <= INR (S k)) as B2.
  { rewrite <- (lb2_pow (S k)). apply Rle_trans with (lb2 (IZR r * (1 + / IZR r))).
    - rewrite lb2_mult; [|lra|pose proof (Rinv_0_lt_compat (IZR r) ltac:(lra)); lra]. apply Rplus_le_compat_l.
      pose proof (lb2_ge (/ IZR r) ltac:(left; apply Rinv_0_lt_compat; lra)) as G. eapply Rle_trans; [|exact G]. right. field. split; lra.
    - replace (IZR r * (1 + / IZR r)) with (IZR r + 1) by (field; lra). apply lb2_mono; [lra|]. exact G2. }
  assert (/ IZR r <= / (2 ^ k + 1)) as I2 by (apply Rinv_le_contravar; lra).
  apply Rabs_def2 in D. rewrite S_INR in B2. apply truncate_is; [lia|]. rewrite <- INR_IZR_INZ. lra.
Qed.

(** With an error of one unit in the last place, every range below 2^46 is small enough. *)
Lemma ulp_enough r : (1 <= r < 2 ^ 46)%Z -> / 2 ^ 52 * lb2 (IZR r) * (IZR r + 1) < 1.
Proof.
  intros [R1 R2]. assert (1 <= IZR r) as B1 by now apply IZR_le.
  assert (IZR r + 1 <= 2 ^ 46) as B2 by (change 46%Z with (Z.of_nat 46) in R2; rewrite <- (IZR_pow2 46), <- plus_IZR; apply IZR_le; lia).
  assert (lb2 (IZR r) <= 46) as B3 by (replace 46 with (INR 46) by (simpl; lra); rewrite <- lb2_pow; apply lb2_mono; lra).
  pose proof (lb2_pos _ B1) as B0. apply Rle_lt_trans with (/ 2 ^ 52 * 46 * 2 ^ 46); [|lra].
  apply Rmult_le_compat; [|lra| |exact B2]; [apply Rmult_le_pos; lra|]. apply Rmult_le_compat_l; lra.
Qed.

(** The nearest double to the logarithm of 2^k - 2 is k. *)
Lemma nearest_near lg (k : nat) : nearest_double lg -> (50 <= k <= 53)%nat -> lg (IZR (2 ^ Z.of_nat k - 2)) = INR k.
Proof.
  intros N Hk. rewrite minus_IZR, IZR_pow2. set (x := 2 ^ k - 2).
  assert (2 ^ 50 <= 2 ^ k) as P by (apply Rle_pow; [lra|lia]).
  assert (0 <= INR k - lb2 x < / 2 ^ 48) as D.
  { assert (INR k = lb2 x + lb2 (1 + 2 / x)) as E.
    { rewrite <- lb2_mult; [|unfold x; lra|]. 2:{ assert (0 < 2 / x) by (apply Rdiv_lt_0_compat; unfold x; lra). lra. }
      rewrite <- (lb2_pow k). f_equal. unfold x. field. lra. }
    assert (0 <= 2 / x <= 2 / (2 ^ 50 - 2)) as [Q1 Q2].
    { split; [left; apply Rdiv_lt_0_compat; unfold x; lra|]. apply Rmult_le_compat_l; [lra|]. apply Rinv_le_contravar; unfold x; lra. }
    pose proof (lb2_le _ Q1). pose proof (lb2_pos (1 + 2 / x) ltac:(lra)). split; [lra|].
    assert (12 / 7 * (2 / (2 ^ 50 - 2)) < / 2 ^ 48) by lra. lra. }
  assert (50 <= INR k <= 53) as K by (split; [replace 50 with (INR 50) by (simpl; lra)|replace 53 with (INR 53) by (simpl; lra)]; apply le_INR; lia).
  destruct (N x ltac:(lra)) as ((n & En) & Near).
  specialize (Near (Z.of_nat k * 2 ^ 47)%Z). rewrite mult_IZR in Near. change (2 ^ 47)%Z with (2 ^ Z.of_nat 47)%Z in Near.
  rewrite IZR_pow2, <- INR_IZR_INZ in Near.
  replace (INR k * 2 ^ 47 / 2 ^ 47) with (INR k) in Near by field.
  rewrite (Rabs_right (INR k - lb2 x)) in Near by lra.
  assert (Rabs (lg x - lb2 x) < / 2 ^ 48) as D2 by lra. apply Rabs_def2 in D2.
  assert (- / 2 ^ 47 < lg x - INR k < / 2 ^ 47) as D3 by lra. rewrite En in D3 |- *.
  assert (n = (Z.of_nat k * 2 ^ 47)%Z) as ->.
  { assert (- (1) < IZR n - INR k * 2 ^ 47 < 1) as D4 by lra.
    rewrite INR_IZR_INZ in D4. change (2 ^ 47) with (2 ^ 47%nat) in D4. rewrite <- (IZR_pow2 47), <- mult_IZR, <- minus_IZR in D4.
    destruct D4 as [D4 D5]. apply lt_IZR in D5. change (- (1)) with (IZR (-1)) in D4. apply lt_IZR in D4. change (Z.of_nat 47) with 47%Z in *. lia. }
  rewrite mult_IZR. change (2 ^ 47)%Z with (2 ^ Z.of_nat 47)%Z. rewrite IZR_pow2, <- INR_IZR_INZ. field.
Qed.
Lemma nearest_exists : exists lg, nearest_double lg.
Proof.
  exists (fun x => IZR (Int_part (lb2 x * 2 ^ 47 + / 2)) / 2 ^ 47). intros x _. split; [eauto|]. intro m.
  set (L := lb2 x * 2 ^ 47). set (n := Int_part (L + / 2)). destruct (base_Int_part (L + / 2)) as [I1 I2]. fold n in I1, I2.
  assert (lb2 x = L / 2 ^ 47) as -> by (unfold L; field).
  replace (IZR n / 2 ^ 47 - L / 2 ^ 47) with ((IZR n - L) * / 2 ^ 47) by field.
  replace (IZR m / 2 ^ 47 - L / 2 ^ 47) with ((IZR m - L) * / 2 ^ 47) by field.
  rewrite !Rabs_mult. apply Rmult_le_compat_r; [apply Rabs_pos|].
  destruct (Z.lt_trichotomy m n) as [H|[->|H]]; [|lra|].
  - assert (IZR m + 1 <= IZR n) by (rewrite <- plus_IZR; apply IZR_le; lia).
    rewrite (Rabs_left1 (IZR m - L)) by lra. apply Rabs_le. lra.
  - assert (IZR n + 1 <= IZR m) by (rewrite <- plus_IZR; apply IZR_le; lia).
    rewrite (Rabs_right (IZR m - L)) by lra. apply Rabs_le. lra.
Qed.

(** ** The coefficients *)
Definition of_bool (b : bool) : Qc := if b then 1%Qc else 0%Qc.
Lemma weighed_sum bs cs : weighed bs cs = enc_sum (map of_bool bs) cs.
Proof.
  revert cs. induction bs as [|b bs IH]; intros [|c cs]; unfold enc_sum in *; simpl; try reflexivity. rewrite IH. destruct b; simpl; ring.
Qed.
Lemma bits_bools bs : Forall bit bs -> exists cs, bs = map of_bool cs.
Proof.
  induction 1 as [|b bs B _ (cs & ->)]; [now exists []|]. destruct B as [-> | ->]; [exists (false :: cs)|exists (true :: cs)]; reflexivity.
Qed.
Lemma bools_bits cs : Forall bit (map of_bool cs).
Proof. induction cs as [|b cs IH]; simpl; constructor; auto. destruct b; [now right|now left]. Qed.
Lemma enc_split p r : enc_coeffs (Z.of_nat p) (qz r) = powers p ++ [qz (r - (2 ^ Z.of_nat p - 1))].
Proof.
  unfold enc_coeffs. rewrite Nat2Z.id. f_equal. f_equal. unfold pow2.
  replace (0 <=? Z.of_nat p)%Z with true by (symmetry; apply Z.leb_le; lia). rewrite !qz_sub, qz_1. reflexivity.
Qed.
Lemma weighed_last bs b cs c : length bs = length cs -> weighed (bs ++ [b]) (cs ++ [c]) = (weighed bs cs + (if b then c else 0))%Qc.
Proof.
  revert cs. induction bs as [|d bs IH]; intros [|e cs] L; simpl in *; try lia; [ring|]. rewrite IH by lia. ring.
Qed.
Lemma powers_weighed p bs : length bs = p -> exists z, (0 <= z < 2 ^ Z.of_nat p)%Z /\ weighed bs (powers p) = qz z.
Proof.
  intro L. rewrite weighed_sum.
  destruct (enc_sum_bounds (map of_bool bs) (powers p)) as [A B].
  - now rewrite map_length, powers_length.
  - apply bools_bits.
  - apply Forall_forall. intros c Hc. apply in_map_iff in Hc. destruct Hc as (i & <- & _). rewrite <- qz_0. apply qz_le. apply Z.pow_nonneg. lia.
  - destruct (enc_sum_integral (map of_bool bs) (powers p)) as [z E]; [apply bools_bits| |].
    { apply Forall_forall. intros c Hc. apply in_map_iff in Hc. destruct Hc as (i & <- & _). apply integral_qz. }
    exists z. split; auto. rewrite E in A, B. rewrite powers_sum in B. rewrite <- qz_0 in A. apply (proj1 (qz_le _ _)) in A. apply (proj1 (qz_le _ _)) in B. lia.
Qed.
Lemma powers_full p : weighed (repeat true p) (powers p) = qz (2 ^ Z.of_nat p - 1).
Proof.
  induction p as [|p IH]; [simpl; now rewrite qz_0|]. replace (S p) with (p + 1)%nat by lia. rewrite repeat_app.
  replace (powers (p + 1)) with (powers p ++ [qz (2 ^ Z.of_nat p)]) by (rewrite <- powers_S; f_equal; lia).
  simpl repeat. rewrite weighed_last by (now rewrite repeat_length, powers_length). rewrite IH, <- qz_add. f_equal.
  rewrite Nat2Z.inj_add, Z.pow_add_r by lia. lia.
Qed.
Lemma powers_none p : weighed (repeat false p) (powers p) = 0%Qc.
Proof.
  induction p as [|p IH]; [reflexivity|]. replace (S p) with (p + 1)%nat by lia. rewrite repeat_app.
  replace (powers (p + 1)) with (powers p ++ [qz (2 ^ Z.of_nat p)]) by (rewrite <- powers_S; f_equal; lia).
  simpl repeat. rewrite weighed_last by (now rewrite repeat_length, powers_length). rewrite IH. ring.
Qed.
(** The values the coefficients give *)
Lemma values_are p r a : (exists bs, length bs = length (enc_coeffs (Z.of_nat p) (qz r)) /\ weighed bs (enc_coeffs (Z.of_nat p) (qz r)) = a) <->
  (exists z b, (0 <= z < 2 ^ Z.of_nat p)%Z /\ a = qz (z + if b : bool then r - (2 ^ Z.of_nat p - 1) else 0)).
Proof.
  rewrite enc_split. split.
  - intros (bs & L & <-). rewrite app_length, powers_length in L. simpl in L.
    destruct (exists_last (l := bs)) as (bs' & b & ->); [intros ->; simpl in L; lia|]. rewrite app_length in L. simpl in L.
    assert (length bs' = p) as L' by lia. rewrite weighed_last by (now rewrite powers_length).
    destruct (powers_weighed p bs' L') as (z & Hz & ->). exists z, b. split; auto. rewrite qz_add. destruct b; [reflexivity|]. now rewrite qz_0.
  - intros (z & b & Hz & ->). destruct (binary_onto p z Hz) as (bs & L & B & E). destruct (bits_bools bs B) as (cs & ->). rewrite map_length in L.
    exists (cs ++ [b]). rewrite !app_length, powers_length. split; [simpl; lia|]. rewrite weighed_last by (now rewrite powers_length).
    rewrite weighed_sum, E, qz_add. destruct b; [reflexivity|]. now rewrite qz_0.
Qed.
(** They give exactly the integers from 0 to r if and only if the power fits. *)
Lemma covers_iff p r : (0 <= r)%Z -> covers (enc_coeffs (Z.of_nat p) (qz r)) r <-> (2 ^ Z.of_nat p <= r + 1 <= 2 * 2 ^ Z.of_nat p)%Z.
Proof.
  intro R0. assert (0 < 2 ^ Z.of_nat p)%Z as P0 by (apply Z.pow_pos_nonneg; lia). split.
  - intro C. split.
    + destruct (C (qz (2 ^ Z.of_nat p - 1))) as [C1 _]. destruct C1 as (z & Hz & E).
      { apply values_are. exists (2 ^ Z.of_nat p - 1)%Z, false. split; [lia|]. f_equal. lia. }
      change (Q2Qc (inject_Z z)) with (qz z) in E. apply qz_inj in E. lia.
    + destruct (Z.le_gt_cases (r + 1) (2 * 2 ^ Z.of_nat p)) as [L|L]; auto. exfalso.
      destruct (C (qz (2 ^ Z.of_nat p))) as [_ C2]. assert (exists bs, length bs = length (enc_coeffs (Z.of_nat p) (qz r)) /\ weighed bs (enc_coeffs (Z.of_nat p) (qz r)) = qz (2 ^ Z.of_nat p)) as H.
      { apply C2. exists (2 ^ Z.of_nat p)%Z. split; [lia|reflexivity]. }
      apply values_are in H. destruct H as (z & b & Hz & E). apply qz_inj in E. destruct b; lia.
  - intros H a. rewrite values_are. split.
    + intros (z & b & Hz & ->). eexists. split; [|reflexivity]. destruct b; lia.
    + intros (z & Hz & ->). change (Q2Qc (inject_Z z)) with (qz z). destruct (Z.ltb_spec z (2 ^ Z.of_nat p)) as [L|L].
      * exists z, false. split; [lia|]. f_equal. lia.
      * exists (z - (r - (2 ^ Z.of_nat p - 1)))%Z, true. split; [lia|]. f_equal. lia.
Qed.
