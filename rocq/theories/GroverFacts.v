(** * Facts about registers and the objective of the Grover search *)
From Verif Require Export AlgoFacts3 RecurFacts2 SpecGrover.
Local Open Scope nat_scope.

(** ** Registers *)
Lemma magnitude_range v : (0 <= magnitude v < 2 ^ Z.of_nat (length v))%Z.
Proof.
  induction v as [|b v IH]; cbn [magnitude length]; [cbn; lia|]. rewrite Nat2Z.inj_succ, Z.pow_succ_r by lia. destruct b; lia.
Qed.
Lemma fold_digits v : forall a, fold_left (fun a b => 2 * a + Z.b2z b)%Z v a = (a * 2 ^ Z.of_nat (length v) + magnitude v)%Z.
Proof.
  induction v as [|b v IH]; intro a; cbn [fold_left magnitude length]; [cbn; lia|]. rewrite IH, Nat2Z.inj_succ, Z.pow_succ_r by lia. destruct b; cbn [Z.b2z]; lia.
Qed.
Lemma int2_spec v : v <> [] -> int2 v = Ok (magnitude v).
Proof. intro N. destruct v as [|b v]; [easy|]. unfold int2. rewrite fold_digits. now rewrite Z.mul_0_l, Z.add_0_l. Qed.
Lemma bin_to_int_spec v n : length v = n -> 0 < n -> bin_to_int v n = Ok (twos v).
Proof.
  intros <- L. unfold bin_to_int. rewrite int2_spec by (intros ->; cbn in L; lia). cbn [bind]. destruct v as [|[] v]; cbn [length] in *; [lia| |]; cbn [magnitude twos]; auto.
  rewrite Nat2Z.inj_succ, Z.pow_succ_r by lia. f_equal. lia.
Qed.
Lemma twos_range v : v <> [] -> (- 2 ^ (Z.of_nat (length v) - 1) <= twos v < 2 ^ (Z.of_nat (length v) - 1))%Z.
Proof.
  destruct v as [|b v]; [easy|]. intros _. cbn [twos length]. replace (Z.of_nat (S (length v)) - 1)%Z with (Z.of_nat (length v)) by lia. pose proof (magnitude_range v). destruct b; lia.
Qed.
Lemma magnitude_inj v : forall w, length v = length w -> magnitude v = magnitude w -> v = w.
Proof.
  induction v as [|b v IH]; intros [|c w] L E; cbn [length] in L; try lia; auto. injection L as L. cbn [magnitude] in E. rewrite L in E.
  pose proof (magnitude_range v) as R1. pose proof (magnitude_range w) as R2. rewrite L in R1. destruct b, c; try lia; f_equal; apply IH; auto; lia.
Qed.
Lemma twos_inj v w : length v = length w -> twos v = twos w -> v = w.
Proof.
  destruct v as [|b v], w as [|c w]; intros L E; cbn [length] in L; try lia; auto. injection L as L. cbn [twos] in E. rewrite L in E.
  pose proof (magnitude_range v) as R1. pose proof (magnitude_range w) as R2. rewrite L in R1. destruct b, c; try lia; f_equal; apply magnitude_inj; auto; lia.
Qed.
Lemma magnitude_onto n : forall z, (0 <= z < 2 ^ Z.of_nat n)%Z -> exists v, length v = n /\ magnitude v = z.
Proof.
  induction n as [|n IH]; intros z R; [exists []; cbn in *; split; auto; lia|]. rewrite Nat2Z.inj_succ, Z.pow_succ_r in R by lia.
  destruct (Z.lt_ge_cases z (2 ^ Z.of_nat n)) as [Lz|Lz].
  - destruct (IH z) as (v & L & M); [lia|]. exists (false :: v). cbn [length magnitude]. split; [lia|]. lia.
  - destruct (IH (z - 2 ^ Z.of_nat n)%Z) as (v & L & M); [lia|]. exists (true :: v). cbn [length magnitude]. rewrite L. split; [lia|]. lia.
Qed.
Lemma twos_onto n z : (- 2 ^ (Z.of_nat (S n) - 1) <= z < 2 ^ (Z.of_nat (S n) - 1))%Z -> exists v, length v = S n /\ twos v = z.
Proof.
  replace (Z.of_nat (S n) - 1)%Z with (Z.of_nat n) by lia. intro R. destruct (Z.lt_ge_cases z 0) as [Lz|Lz].
  - destruct (magnitude_onto n (z + 2 ^ Z.of_nat n)%Z) as (v & L & M); [lia|]. exists (true :: v). cbn [length twos]. rewrite L. split; [lia|]. lia.
  - destruct (magnitude_onto n z) as (v & L & M); [lia|]. exists (false :: v). cbn [length twos]. rewrite L. split; [lia|]. lia.
Qed.
(** A number in the range of the register is determined by its class modulo the size. *)
Lemma twos_class v z c : v <> [] -> twos v = (z + c * 2 ^ Z.of_nat (length v))%Z ->
  (- 2 ^ (Z.of_nat (length v) - 1) <= z < 2 ^ (Z.of_nat (length v) - 1))%Z -> twos v = z.
Proof.
  intros N E R. pose proof (twos_range v N) as T. assert (0 < length v) as P by (destruct v; [easy|cbn; lia]).
  assert (2 ^ Z.of_nat (length v) = 2 * 2 ^ (Z.of_nat (length v) - 1))%Z as D. { rewrite <- Z.pow_succ_r by lia. f_equal. lia. }
  rewrite D in E. assert (c = 0%Z) by nia. lia.
Qed.
Lemma register_S m z : register_of (S m) z = Z.testbit z (Z.of_nat m) :: register_of m z.
Proof. unfold register_of. rewrite seq_S, map_app, rev_app_distr. reflexivity. Qed.
Lemma reg_of_length m z : length (register_of m z) = m.
Proof. unfold register_of. now rewrite rev_length, map_length, seq_length. Qed.
Lemma register_mod m z : magnitude (register_of m z) = (z mod 2 ^ Z.of_nat m)%Z.
Proof.
  induction m as [|m IH]; [now rewrite Z.mod_1_r|]. rewrite register_S. cbn [magnitude]. rewrite reg_of_length, IH, Nat2Z.inj_succ, Z.pow_succ_r, Z.mul_comm, Z.rem_mul_r by lia.
  pose proof (Z.testbit_spec' z (Z.of_nat m)) as T. rewrite <- T by lia. destruct (Z.testbit z (Z.of_nat m)); cbn [Z.b2z]; lia.
Qed.
Lemma register_twos m z : 0 < m -> exists c, twos (register_of m z) = (z + c * 2 ^ Z.of_nat m)%Z.
Proof.
  intro P. assert (exists c, magnitude (register_of m z) = (z + c * 2 ^ Z.of_nat m)%Z) as [c Hc]. { rewrite register_mod. exists (- (z / 2 ^ Z.of_nat m))%Z. rewrite (Z.div_mod z (2 ^ Z.of_nat m)) at 2 by lia. lia. }
  destruct m as [|m]; [lia|]. rewrite register_S in *. cbn [magnitude twos] in *. rewrite reg_of_length in *. destruct (Z.testbit z (Z.of_nat m)); [|exists c; lia].
  exists (c - 1)%Z. rewrite Z.mul_sub_distr_r, Nat2Z.inj_succ, Z.pow_succ_r in * by lia. lia.
Qed.
Lemma register_reads m z : (- 2 ^ (Z.of_nat (S m) - 1) <= z < 2 ^ (Z.of_nat (S m) - 1))%Z -> twos (register_of (S m) z) = z.
Proof. intro R. destruct (register_twos (S m) z) as [c E]; [lia|]. apply (twos_class _ z c); [rewrite register_S; discriminate|now rewrite reg_of_length|now rewrite reg_of_length]. Qed.

Fixpoint mag_nat (v : list bool) : nat := match v with [] => 0 | b :: v' => (if b then 2 ^ length v' else 0) + mag_nat v' end.
Lemma mag_nat_Z v : magnitude v = Z.of_nat (mag_nat v).
Proof. induction v as [|b v IH]; cbn [magnitude mag_nat]; auto. rewrite IH, Nat2Z.inj_add. destruct b; [rewrite Nat2Z.inj_pow|]; reflexivity. Qed.
Lemma mag_nat_lt v : mag_nat v < 2 ^ length v.
Proof. apply Nat2Z.inj_lt. rewrite <- mag_nat_Z, Nat2Z.inj_pow. apply magnitude_range. Qed.
Lemma mag_nat_bits v : map (Nat.testbit (mag_nat v)) (seq 0 (length v)) = rev v.
Proof.
  induction v as [|b v IH]; auto. cbn [length mag_nat rev]. rewrite seq_S, map_app. cbn [map Nat.add]. rewrite <- IH. pose proof (mag_nat_lt v) as R. f_equal.
  - apply map_ext_in. intros i Hi. apply in_seq in Hi. rewrite <- (Nat.mod_pow2_bits_low _ (length v)) by lia. destruct b; auto.
    + replace ((2 ^ length v + mag_nat v) mod 2 ^ length v) with (mag_nat v); auto. replace (2 ^ length v + mag_nat v) with (mag_nat v + 1 * 2 ^ length v) by lia. rewrite Nat.mod_add by lia. now rewrite Nat.mod_small.
    + cbn [Nat.add]. now rewrite Nat.mod_pow2_bits_low by lia.
  - f_equal. rewrite Nat.testbit_eqb. destruct b.
    + replace (2 ^ length v + mag_nat v) with (mag_nat v + 1 * 2 ^ length v) by lia. rewrite Nat.div_add by lia. rewrite Nat.div_small by lia. reflexivity.
    + cbn [Nat.add]. rewrite Nat.div_small by lia. reflexivity.
Qed.
Lemma key_digits_spec v : v <> [] -> key_digits (length v) (magnitude v) = v.
Proof.
  intro N. unfold key_digits. rewrite mag_nat_Z, Nat2Z.id, bitstr_spec; [|destruct v; [easy|cbn; lia]|apply mag_nat_lt]. rewrite mag_nat_bits. apply rev_involutive.
Qed.
Lemma key_digits_zero n : 0 < n -> key_digits n 0 = repeat false n.
Proof.
  intro P. assert (magnitude (repeat false n) = 0%Z) as E. { clear. induction n as [|n IH]; cbn [repeat magnitude]; auto. }
  pose proof (key_digits_spec (repeat false n)) as K. rewrite repeat_length, E in K. apply K. destruct n; [lia|discriminate].
Qed.

(** ** Turning to minimisation *)
Lemma cast_integral i a : integral a -> dtype_cast i a = a.
Proof. intros [z ->]. unfold dtype_cast. destruct i; auto. destruct (qleb 0 (qz z)); [now rewrite floor_qz|now rewrite ceil_qz]. Qed.
Lemma negate_lin env l : forall e, lin_wf e -> NoDup (map fst l) -> Forall (fun kv => fst kv < le_dim e /\ integral (snd kv)) l ->
  exists e', foldM (fun e kv => lin_set env e (KI (Z.of_nat (fst kv))) (- snd kv)%Qc) l e = Ok e' /\ lin_wf e' /\ le_dim e' = le_dim e /\
    forall j, coef1 e' j = match dget Nat.eqb j l with Some v => (- v)%Qc | None => coef1 e j end.
Proof.
  induction l as [|[k v] l IH]; intros e W N F; [exists e; auto|]. inversion F as [|? ? [Hk Iv] F']; subst. inversion N as [|? ? Nk N']; subst. cbn [fst snd map] in *.
  destruct (lin_set_nat env e k (- v)%Qc W Hk) as (e1 & E1 & W1 & D1 & _ & C1). cbn [foldM fst snd]. rewrite E1. cbn [bind].
  destruct (IH e1) as (e' & E & W' & D' & C'); auto; [now rewrite D1|]. exists e'. split; auto. split; auto. split; [congruence|]. intro j. rewrite C', C1. cbn [dget].
  destruct (Nat.eqb_spec j k) as [->|Nj].
  - rewrite cast_integral by now apply integral_opp. destruct (dget Nat.eqb k l) as [w|] eqn:G; auto. apply (dget_in _ nat_eqb_sp) in G. exfalso. apply Nk. now apply (in_map fst) in G.
  - reflexivity.
Qed.

Lemma negate_quad env l : forall e, quad_wf e -> NoDup (map fst l) ->
  Forall (fun kv => fst (fst kv) <= snd (fst kv) /\ snd (fst kv) < qe_dim e /\ integral (snd kv)) l ->
  exists e', foldM (fun e kv => quad_set env e (KI (Z.of_nat (fst (fst kv))), KI (Z.of_nat (snd (fst kv)))) (- snd kv)%Qc) l e = Ok e' /\ quad_wf e' /\ qe_dim e' = qe_dim e /\
    forall i j, coef2 e' i j = match dget nat2_eqb (i, j) l with Some v => (- v)%Qc | None => coef2 e i j end.
Proof.
  induction l as [|[[a b] v] l IH]; intros e W N F; [exists e; auto|]. inversion F as [|? ? (Hk & Hb & Iv) F']; subst. inversion N as [|? ? Nk N']; subst. cbn [fst snd map] in *.
  assert (quad_pos env (qe_dim e) (KI (Z.of_nat a), KI (Z.of_nat b)) = Ok (a, b)) as Q.
  { unfold quad_pos. cbn [resolve bind fst snd]. rewrite <- Nat2Z.inj_min, <- Nat2Z.inj_max, !dok_index_nat by lia. cbn [bind]. now rewrite Nat.min_l, Nat.max_r by lia. }
  destruct (quad_set_spec env e _ (- v)%Qc _ W Q) as (e1 & E1 & W1 & D1 & _ & C1); cbn [fst snd]; try lia. cbn [foldM fst snd]. rewrite E1. cbn [bind].
  destruct (IH e1) as (e' & E & W' & D' & C'); auto; [now rewrite D1|]. exists e'. split; auto. split; auto. split; [congruence|]. intros i j. rewrite C', C1. cbn [dget].
  destruct (nat2_eqb_sp (i, j) (a, b)) as [E0|Nj].
  - injection E0 as -> ->. rewrite cast_integral by now apply integral_opp. destruct (dget nat2_eqb (a, b) l) as [w|] eqn:G; auto. apply (dget_in _ nat2_eqb_sp) in G. exfalso. apply Nk. now apply (in_map fst) in G.
  - reflexivity.
Qed.
Lemma coefs_all1 e : lin_wf e -> (forall i, integral (coef1 e i)) -> Forall (fun kv => fst kv < le_dim e /\ integral (snd kv)) (le_co e).
Proof.
  intros [N F] I. apply Forall_forall. intros [k v] H. rewrite Forall_forall in F. split; [exact (F _ H)|]. specialize (I k). unfold coef1, dgetq in I. now rewrite (in_dget _ nat_eqb_sp k v _ N H) in I.
Qed.
Lemma coefs_all2 e : quad_wf e -> quad_upper e -> (forall i j, integral (coef2 e i j)) ->
  Forall (fun kv => fst (fst kv) <= snd (fst kv) /\ snd (fst kv) < qe_dim e /\ integral (snd kv)) (qe_co e).
Proof.
  intros [N F] U I. apply Forall_forall. intros [[a b] v] H. unfold quad_upper in U. rewrite Forall_forall in F, U. cbn [fst snd]. split; [exact (U _ H)|]. split; [exact (proj2 (F _ H))|].
  specialize (I a b). unfold coef2, mget, dgetq in I. now rewrite (in_dget _ nat2_eqb_sp (a, b) v _ N H) in I.
Qed.
(** What [turn_to_min] makes of a program with whole coefficients *)
Lemma turn_spec q : obj_shaped q -> quad_upper (o_quad (p_obj q)) -> integer_objective q ->
  exists o, turn_to_min q = (set_obj o q, Ok tt) /\ o_sense o = MINIMIZE /\ lin_shape (num_vars q) (o_lin o) /\ quad_shape (num_vars q) (o_quad o) /\
    o_const o = (sign (o_sense (p_obj q)) * o_const (p_obj q))%Qc /\ forall x, obj_at o x = cost q x.
Proof.
  intros [[W1 D1] [W2 D2]] U (I0 & I1 & I2). unfold turn_to_min, on_objective, cost. destruct (o_sense (p_obj q)) eqn:S.
  - exists (p_obj q). split; auto. split; auto. split; [split; auto|]. split; [split; auto|]. cbn [sign]. split; [ring|]. intro x. ring.
  - destruct (negate_lin (env_of q) (le_co (o_lin (p_obj q))) (o_lin (p_obj q)) W1 (proj1 W1) (coefs_all1 _ W1 I1)) as (l & El & Wl & Dl & Cl).
    destruct (negate_quad (env_of q) (qe_co (o_quad (p_obj q))) (o_quad (p_obj q)) W2 (proj1 W2) (coefs_all2 _ W2 U I2)) as (m & Em & Wm & Dm & Cm).
    unfold lin_to_dict, quad_to_dict, quad_entries. rewrite El. cbn [bind]. rewrite Em. cbn [bind]. eexists. split; [reflexivity|]. cbn [o_sense o_lin o_quad o_const sign].
    split; auto. split; [split; auto; congruence|]. split; [split; auto; congruence|]. split; [ring|]. intro x. unfold obj_at. cbn [o_sense o_lin o_quad o_const].
    replace (lin_at l x) with (- lin_at (o_lin (p_obj q)) x)%Qc. replace (quad_at m x) with (- quad_at (o_quad (p_obj q)) x)%Qc. { ring. }
    + unfold quad_at. rewrite <- sumof_opp. apply sumof_ext. intros i _. rewrite <- sumof_opp. apply sumof_ext. intros j _. rewrite Cm. unfold coef2, mget, dgetq. destruct (dget nat2_eqb (i, j) (qe_co (o_quad (p_obj q)))); ring.
    + unfold lin_at. rewrite <- sumof_opp. apply sumof_ext. intros i _. rewrite Cl. unfold coef1, dgetq. destruct (dget Nat.eqb i (le_co (o_lin (p_obj q)))); ring.
Qed.
Lemma cost_integral q x : integer_objective q -> Forall (fun a => a = 0%Qc \/ a = 1%Qc) x -> integral (cost q x).
Proof.
  intros (I0 & I1 & I2) B. assert (forall i, integral (at_ x i)) as Ix. { intro i. unfold at_. destruct (nth_in_or_default i x 0%Qc) as [H| ->]; [|apply integral_0]. rewrite Forall_forall in B. destruct (B _ H) as [-> | ->]; [apply integral_0|apply integral_1]. }
  unfold cost. apply integral_mul. { destruct (o_sense (p_obj q)); cbn [sign]; [apply integral_1|apply integral_opp, integral_1]. }
  unfold obj_at. apply integral_add; [apply integral_add; auto|].
  - apply sumof_integral. intros i _. apply integral_mul; auto.
  - apply sumof_integral. intros i _. apply sumof_integral. intros j _. repeat apply integral_mul; auto.
Qed.
Lemma key_point_bits n out : n <= length out -> bits n (key_point n out).
Proof. intro L. split; [unfold key_point; rewrite map_length, firstn_length; lia|]. unfold key_point. apply Forall_map, Forall_forall. intros [] _; cbn; auto. Qed.
