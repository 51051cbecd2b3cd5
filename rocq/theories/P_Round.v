(** * C96: the encoding of integer variables with a rounded logarithm *)
Require Import Verif.RoundLog Verif.SpecRound Verif.IntBinFacts Verif.RoundFacts.
From Coq Require Import Reals Lra Lia.
Local Open Scope R_scope.

(** Which powers will do: those with 2^p <= r + 1 <= 2^(p+1), and no others. *)
Theorem C96_power : forall (p : nat) (r : Z), (0 <= r)%Z ->
  covers (enc_coeffs (Z.of_nat p) (qz r)) r <-> (2 ^ Z.of_nat p <= r + 1 <= 2 ^ (Z.of_nat p + 1))%Z.
Proof. intros p r R0. rewrite covers_iff by exact R0. rewrite Z.pow_add_r by lia. change (2 ^ 1)%Z with 2%Z. lia. Qed.
Example C96_power_case : covers (enc_coeffs 2 (qz 7)) 7 /\ covers (enc_coeffs 3 (qz 7)) 7 /\ ~ covers (enc_coeffs 3 (qz 6)) 6 /\ ~ covers (enc_coeffs 2 (qz 8)) 8.
Proof.
  split; [apply (C96_power 2 7 ltac:(lia)); simpl; lia|]. split; [apply (C96_power 3 7 ltac:(lia)); simpl; lia|].
  split; intro C; [apply (C96_power 3 6 ltac:(lia)) in C|apply (C96_power 2 8 ltac:(lia)) in C]; simpl in C; lia.
Qed.

(** Refuted: a logarithm rounded to the nearest double is k for a range of 2^k - 2 with k from 50 to 53.  The last coefficient is then -1,
    and there are bits that stand for the value below the lower bound and bits that stand for the value above the upper bound. *)
Theorem C96_rounded_refuted : (exists lg, nearest_double lg) /\
  forall lg name lb (k : nat), nearest_double lg -> (50 <= k <= 53)%nat ->
  let ub := (lb + (2 ^ Z.of_nat k - 2))%Z in let cs := map snd (convert_rounded lg name lb ub) in
  (exists low, length low = length cs /\ (weighed low cs + qz lb)%Qc = qz (lb - 1)) /\
  (exists high, length high = length cs /\ (weighed high cs + qz lb)%Qc = qz (ub + 1)).
Proof.
  split; [exact nearest_exists|]. intros lg name lb k N K ub cs.
  assert (cs = enc_coeffs (Z.of_nat k) (qz (2 ^ Z.of_nat k - 2))) as ->.
  { unfold cs, convert_rounded. rewrite map_snd_names. rewrite <- qz_sub. unfold rounded_power, ub.
    replace (lb + (2 ^ Z.of_nat k - 2) - lb)%Z with (2 ^ Z.of_nat k - 2)%Z by lia. rewrite nearest_near by assumption. f_equal.
    apply truncate_is; [lia|]. rewrite <- INR_IZR_INZ. lra. }
  assert (0 < 2 ^ Z.of_nat k)%Z as P0 by (apply Z.pow_pos_nonneg; lia). split.
  - destruct (proj2 (values_are k (2 ^ Z.of_nat k - 2) (qz (-1)))) as (bs & L & E); [exists 0%Z, true; split; [lia|f_equal; lia]|].
    exists bs. split; auto. rewrite E, <- qz_add. f_equal. lia.
  - destruct (proj2 (values_are k (2 ^ Z.of_nat k - 2) (qz (2 ^ Z.of_nat k - 1)))) as (bs & L & E); [exists (2 ^ Z.of_nat k - 1)%Z, false; split; [lia|f_equal; lia]|].
    exists bs. split; auto. rewrite E, <- qz_add. f_equal. unfold ub. lia.
Qed.
Example C96_rounded_case : exists lg, nearest_double lg /\ rounded_power lg 0 1125899906842622 = 50%Z /\
  (last (map snd (convert_rounded lg "x" 0 1125899906842622)) 0 = qz (-1))%Qc.
Proof.
  destruct nearest_exists as (lg & N). exists lg. split; [exact N|].
  assert (rounded_power lg 0 1125899906842622 = 50%Z) as E.
  { unfold rounded_power. change (1125899906842622 - 0)%Z with (2 ^ Z.of_nat 50 - 2)%Z. rewrite nearest_near by (auto; lia).
    apply truncate_is; [lia|]. rewrite INR_IZR_INZ. change (Z.of_nat 50) with 50%Z. lra. }
  split; [exact E|]. unfold convert_rounded. rewrite map_snd_names, E. unfold enc_coeffs. rewrite last_last.
  apply Qc_is_canon. vm_compute. reflexivity.
Qed.

(** With a logarithm that is exact at powers of two and elsewhere has a relative error small enough for the range, the variables and coefficients are those of the exact logarithm
    (C22); an error of 2^-52, one unit in the last place of a double, is small enough for every range below 2^46. *)
Theorem C96_accurate_partial : forall e lg name lb ub, accurate e lg -> (lb < ub)%Z ->
  e * lb2 (IZR (ub - lb)) * (IZR (ub - lb) + 1) < 1 \/ (e <= / 2 ^ 52 /\ (ub - lb < 2 ^ 46)%Z) ->
  convert_var name (qz lb) (qz ub) = Ok (convert_rounded lg name lb ub) /\
  covers (map snd (convert_rounded lg name lb ub)) (ub - lb).
Proof.
  intros e lg name lb ub A L H.
  assert (e * lb2 (IZR (ub - lb)) * (IZR (ub - lb) + 1) < 1) as C.
  { destruct H as [H|[H1 H2]]; [exact H|]. eapply Rle_lt_trans; [|apply (ulp_enough (ub - lb)); lia].
    assert (1 <= IZR (ub - lb)) as R1 by (apply IZR_le; lia). pose proof (lb2_pos _ R1).
    apply Rmult_le_compat_r; [lra|]. apply Rmult_le_compat_r; lra. }
  pose proof (accurate_power e lg (ub - lb) A ltac:(lia) C) as P. split.
  - unfold convert_var. rewrite <- qz_sub, int_log2_int by lia. cbn [bind]. unfold convert_rounded, rounded_power. now rewrite P, <- qz_sub.
  - unfold convert_rounded, rounded_power. rewrite map_snd_names, P, <- qz_sub.
    pose proof (Z.log2_spec (ub - lb) ltac:(lia)) as [L1 L2]. pose proof (Z.log2_nonneg (ub - lb)) as L0.
    rewrite <- (Z2Nat.id (Z.log2 (ub - lb))) by exact L0. apply C96_power; [lia|]. rewrite Z2Nat.id by exact L0.
    change (Z.log2 (ub - lb) + 1)%Z with (Z.succ (Z.log2 (ub - lb)))%Z. lia.
Qed.
Example C96_accurate_case : exists lg, accurate (/ 2 ^ 52) lg /\ lg 3 <> lb2 3 /\ rounded_power lg (-3) 9 = 3%Z.
Proof.
  exists (fun x => if Req_EM_T x 3 then lb2 x * (1 + / 2 ^ 52) else lb2 x).
  assert (0 < lb2 3) as P3.
  { apply Rlt_le_trans with (lb2 (2 ^ 1)); [rewrite lb2_pow; simpl; lra|apply lb2_mono; simpl; lra]. }
  assert (accurate (/ 2 ^ 52) (fun x => if Req_EM_T x 3 then lb2 x * (1 + / 2 ^ 52) else lb2 x)) as A.
  { split.
    - intros x X. pose proof (lb2_pos x X). destruct (Req_EM_T x 3) as [->|_].
      + replace (lb2 3 * (1 + / 2 ^ 52) - lb2 3) with (/ 2 ^ 52 * lb2 3) by ring. rewrite Rabs_right; lra.
      + rewrite Rminus_eq_0, Rabs_R0. lra.
    - intro k. destruct (Req_EM_T (2 ^ k) 3) as [E|_]; [|apply lb2_pow]. exfalso. rewrite <- IZR_pow2 in E. apply eq_IZR in E.
      destruct k as [|k]; [simpl in E; lia|]. rewrite Nat2Z.inj_succ, Z.pow_succ_r in E by lia. lia. }
  split; [exact A|]. split.
  - destruct (Req_EM_T 3 3) as [_|N]; [|lra]. nra.
  - unfold rounded_power. etransitivity; [refine (accurate_power (/ 2 ^ 52) _ (9 - -3) A _ _); [lia|apply (ulp_enough (9 - -3)); lia]|reflexivity].
Qed.

Print Assumptions C96_power.
Print Assumptions C96_rounded_refuted.
Print Assumptions C96_accurate_partial.
