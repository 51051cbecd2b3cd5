From Verif Require Export SpecGroverC CircuitFacts GroverFacts3.
From Verif Require Import NumFacts PyFacts ExprProps GroverFacts2.
From Coq Require Import Lra Lia ZArith.
Local Open Scope list_scope.
Local Open Scope R_scope.

(** ** Digits *)
Lemma digits_register m z : digits_of m z = register_of m z.
Proof.
  induction m as [|m IH]; [reflexivity|]. rewrite register_S. cbn [digits_of]. rewrite IH. f_equal. rewrite Z.testbit_odd, Z.shiftr_div_pow2 by lia. reflexivity.
Qed.
Lemma digits_length m z : length (digits_of m z) = m.
Proof. induction m; cbn; congruence. Qed.
Lemma bits_eqb_eq a b : bits_eqb a b = true <-> a = b.
Proof.
  revert b. induction a as [|x a IH]; intros [|y b]; cbn; try easy. rewrite andb_true_iff, IH, Bool.eqb_true_iff. split; [intros [-> ->]; reflexivity|intro E; injection E; auto].
Qed.

(** ** Product states with more qubits *)
Lemma tensor_more (us : Qc -> mat2) rest : forall cs fs ds n, length fs = length cs -> n = (length ds + length cs + length rest)%nat ->
  same_state n (run_circuit (map (fun ic => (us (snd ic), fst ic)) (combine (seq (length ds) (length cs)) cs)) (tensor (ds ++ fs ++ rest)))
               (tensor (ds ++ map (fun cf => mvec (us (fst cf)) (snd cf)) (combine cs fs) ++ rest)).
Proof.
  induction cs as [|c cs IH]; intros fs ds n L N; destruct fs as [|f fs]; cbn in L; try lia; [apply same_refl|]. cbn [length seq combine map run_circuit fold_left fst snd].
  eapply same_trans; [apply run_ext with (t := tensor ((ds ++ [mvec (us c) f]) ++ fs ++ rest))|].
  - cbn [length] in N. assert (n = length (ds ++ f :: fs ++ rest)) as -> by (rewrite app_length; cbn; rewrite app_length; lia). cbn [app]. eapply same_trans; [apply apply_tensor; rewrite app_length; cbn; lia|]. rewrite upd_app, <- app_assoc. apply same_refl.
  - replace (S (length ds)) with (length (ds ++ [mvec (us c) f])) by (rewrite app_length; cbn; lia). eapply same_trans; [apply IH; [lia|rewrite app_length; cbn in *; lia]|]. rewrite <- app_assoc. apply same_refl.
Qed.
Lemma h_row n : map (fun i => (m_h, i)) (seq 0 n) = map (fun ic => (m_h, fst ic)) (combine (seq 0 (length (repeat 0%Qc n))) (repeat 0%Qc n)).
Proof. rewrite repeat_length. generalize 0%nat. induction n as [|n IH]; intro k; [reflexivity|]. cbn [seq repeat combine map fst snd]. now rewrite IH. Qed.
Lemma h_amplitude n m k : length k = n -> run_circuit (map (fun i => (m_h, i)) (seq 0 n)) zero_state (k ++ repeat false m) = RC (/ sqrt 2 ^ n).
Proof.
  intro Hk. rewrite h_row. assert (length (k ++ repeat false m) = (n + m)%nat) as L by (rewrite app_length, repeat_length; lia).
  assert (same_state (n + m) (run_circuit (map (fun ic => (m_h, fst ic)) (combine (seq 0 (length (repeat 0%Qc n))) (repeat 0%Qc n))) zero_state) (tensor (repeat (RC (/ sqrt 2), RC (/ sqrt 2)) n ++ repeat (C1, C0) m))) as H.
  { eapply same_trans; [apply run_ext, zero_tensor|]. rewrite repeat_app. pose proof (tensor_more (fun _ => m_h) (repeat (C1, C0) m) (repeat 0%Qc n) (repeat (C1, C0) n) [] (n + m)) as K. cbn [length app Nat.add] in K.
    eapply same_trans; [apply K; rewrite !repeat_length; lia|]. intros c _. f_equal. f_equal. clear.
    induction n as [|n IH]; [reflexivity|]. cbn [repeat combine map fst snd]. f_equal; [|exact IH]. unfold mvec, m_h. cbn [m00 m01 m10 m11 fst snd]. f_equal; ring. }
  rewrite (H _ L). clear H L. revert k Hk. assert (sqrt 2 <> 0) as Z by (apply Rgt_not_eq, sqrt_lt_R0; lra). induction n as [|n IH]; intros k Hk; destruct k as [|x k]; cbn in Hk; try lia.
  - cbn [app repeat pow]. rewrite Rinv_1. change (RC 1) with C1. induction m as [|m IHm]; [reflexivity|]. cbn [repeat tensor fst snd]. rewrite IHm. ring.
  - cbn [repeat app tensor fst snd]. rewrite IH by lia. replace (if x then RC (/ sqrt 2) else RC (/ sqrt 2)) with (RC (/ sqrt 2)) by now destruct x. rewrite <- RC_mul. f_equal. cbn [pow]. field. split; [apply pow_nonzero|]; exact Z.
Qed.

(** ** Inner products *)
Lemma bit_lists_all k : bit_lists k = all_bools k.
Proof. induction k; cbn; congruence. Qed.
Lemma inner_ext k s t s' t' : same_state k s s' -> same_state k t t' -> inner_product k s t = inner_product k s' t'.
Proof.
  intros H K. unfold inner_product. rewrite bit_lists_all. assert (Forall (fun b => length b = k) (all_bools k)) as F by (apply Forall_forall; intros b Hb; now apply all_bools_length).
  induction F as [|b l Hb F IH]; [reflexivity|]. cbn [fold_right]. now rewrite IH, (H b Hb), (K b Hb).
Qed.
Lemma rotation_ext n m a s a' s' : same_state (n + m) a a' -> same_state (n + m) s s' -> same_state (n + m) (rotation n m a s) (rotation n m a' s').
Proof.
  intros A S b Hb. unfold rotation. pose proof (run_ext (n + m) (grover_oracle n) s s' S) as T. rewrite (inner_ext (n + m) a _ a' _ A T). now rewrite (A b Hb), (T b Hb).
Qed.

Section Registers.
Variables (n m : nat) (f : list bool -> Z).
Definition fits_value (b : list bool) : bool := bits_eqb (skipn n b) (digits_of m (f (firstn n b))).
Definition spread (al : list bool -> R) : state := fun b => if fits_value b then RC (al (firstn n b)) else C0.
Definition sign_of (k : list bool) : bool := nth 0 (digits_of m (f k)) false.

Lemma values_once (v : list bool) (g : R) : length v = m -> Rsum (map (fun w => if bits_eqb w v then g else 0) (all_bools m)) = g.
Proof using.
  clear f. revert v. induction m as [|m' IH]; intros v L; destruct v as [|x v]; cbn in L; try lia; [cbn; ring|]. rewrite bools_sum. cbn [bits_eqb].
  assert (Rsum (map (fun _ : list bool => 0) (all_bools m')) = 0) as Z by (clear; induction (all_bools m'); cbn; [reflexivity|lra]).
  destruct x; cbn [Bool.eqb andb]; rewrite ?Z, IH by lia; ring.
Qed.
End Registers.
Lemma fits_cons n m f x b : fits_value (S n) m f (x :: b) = fits_value n m (fun k => f (x :: k)) b.
Proof. reflexivity. Qed.
Lemma keys_sum n m : forall f (g : list bool -> R), Rsum (map (fun b => if fits_value n m f b then g (firstn n b) else 0) (all_bools (n + m))) = Rsum (map g (all_bools n)).
Proof.
  induction n as [|n IH]; intros f g.
  - cbn [Nat.add firstn all_bools map Rsum]. unfold fits_value. cbn [skipn firstn]. rewrite values_once by apply digits_length. ring.
  - cbn [Nat.add]. rewrite !bools_sum. cbn [firstn]. f_equal; [exact (IH (fun k => f (false :: k)) (fun k => g (false :: k)))|exact (IH (fun k => f (true :: k)) (fun k => g (true :: k)))].
Qed.
Lemma inner_spread n m f al be : inner_product (n + m) (spread n m f al) (spread n m f be) = RC (Rsum (map (fun k => al k * be k) (all_bools n))).
Proof.
  rewrite <- (keys_sum n m f (fun k => al k * be k)). unfold inner_product. rewrite bit_lists_all. induction (all_bools (n + m)) as [|b l IH]; [reflexivity|]. cbn [fold_right map Rsum]. rewrite IH. unfold spread.
  destruct (fits_value n m f b); apply C_eq; unfold Cplus, Cmul, RC, C0; cbn; ring.
Qed.
Lemma oracle_spread n m f al : (0 < m)%nat -> same_state (n + m) (run_circuit (grover_oracle n) (spread n m f al)) (spread n m f (fun k => if sign_of m f k then - al k else al k)).
Proof.
  intros M b Hb. cbn [grover_oracle run_circuit fold_left]. rewrite apply_diag by reflexivity. unfold spread. destruct (fits_value n m f b) eqn:E; [|ring].
  assert (nth n b false = sign_of m f (firstn n b)) as ->.
  { unfold sign_of, fits_value in *. apply bits_eqb_eq in E. rewrite <- E. rewrite <- (firstn_skipn n b) at 1. rewrite app_nth2 by (rewrite firstn_length; lia). f_equal. rewrite firstn_length. lia. }
  destruct (sign_of m f (firstn n b)); cbn [m_z m00 m11]; apply C_eq; unfold Cmul, RC, C1; cbn; ring.
Qed.
Lemma spread_ext n m f al be : (forall k, length k = n -> al k = be k) -> same_state (n + m) (spread n m f al) (spread n m f be).
Proof. intros H b Hb. unfold spread. rewrite H; [reflexivity|]. rewrite firstn_length. lia. Qed.
Lemma rotation_spread n m f u al : (0 < m)%nat -> let w := Rsum (map (fun k => u * (if sign_of m f k then - al k else al k)) (all_bools n)) in
  same_state (n + m) (rotation n m (spread n m f (fun _ => u)) (spread n m f al)) (spread n m f (fun k => 2 * w * u - (if sign_of m f k then - al k else al k))).
Proof.
  intros M w b Hb. unfold rotation. pose proof (oracle_spread n m f al M) as O. rewrite (O b Hb). rewrite (inner_ext (n + m) _ _ (spread n m f (fun _ => u)) (spread n m f (fun k => if sign_of m f k then - al k else al k))); [|apply same_refl|exact O].
  rewrite inner_spread. fold w. unfold spread. destruct (fits_value n m f b); apply C_eq; unfold Cminus, Cplus, Copp, Cmul, RC, C0; cbn; ring.
Qed.

(** ** Amplitudes *)
Lemma marked_sum (g : list bool -> bool) x y l : Rsum (map (fun k => if g k then x else y) l) = INR (length (filter g l)) * x + (INR (length l) - INR (length (filter g l))) * y.
Proof.
  induction l as [|k l IH]; [cbn; ring|]. cbn [map Rsum filter length]. rewrite IH. destruct (g k); cbn [length]; rewrite ?S_INR; ring.
Qed.
Lemma all_bools_count n : length (all_bools n) = (2 ^ n)%nat.
Proof. induction n as [|n IH]; [reflexivity|]. cbn [all_bools]. rewrite app_length, !map_length, IH. cbn. lia. Qed.
Lemma filter_length_le {A} (g : A -> bool) l : (length (filter g l) <= length l)%nat.
Proof. induction l as [|x l IH]; cbn; [lia|]. destruct (g x); cbn; lia. Qed.
Lemma pow2_pos n : 0 < INR (2 ^ n).
Proof. apply lt_0_INR. pose proof (Nat.pow_nonzero 2 n). lia. Qed.
Lemma angle_spec n g : let N := INR (2 ^ n) in let M := INR (marked n g) in
  sqrt N * sin (search_angle n g) = sqrt M /\ sqrt N * cos (search_angle n g) = sqrt (N - M) /\ 0 <= M <= N.
Proof.
  intros N M. assert (0 <= M <= N) as B.
  { split; [apply pos_INR|]. unfold M, N. apply le_INR. unfold marked. rewrite <- all_bools_count. apply filter_length_le. }
  pose proof (pow2_pos n : 0 < N) as P. assert (0 <= M / N <= 1) as Q.
  { split; [apply Rmult_le_pos; [lra|]; left; now apply Rinv_0_lt_compat|]. apply Rmult_le_reg_r with N; [exact P|]. replace (M / N * N) with M by (field; lra). lra. }
  assert (-1 <= sqrt (M / N) <= 1) as S. { pose proof (sqrt_pos (M / N)). split; [lra|]. rewrite <- sqrt_1. now apply sqrt_le_1_alt. }
  unfold search_angle. fold N M. rewrite sin_asin, cos_asin by exact S. unfold Rsqr. rewrite sqrt_sqrt by lra. split; [|split; [|exact B]].
  - rewrite <- sqrt_mult_alt by lra. f_equal. field. lra.
  - rewrite <- sqrt_mult_alt by lra. f_equal. field. lra.
Qed.
(** The amplitudes of marked and other assignments after [r] rotations *)
Fixpoint amps (N M : R) (r : nat) : R * R :=
  match r with
  | O => (/ sqrt N, / sqrt N)
  | S r' => let (a, c) := amps N M r' in let w := 2 / N * (- M * a + (N - M) * c) in (w + a, w - c)
  end.
Lemma amps_angle n g r : let N := INR (2 ^ n) in let M := INR (marked n g) in let t := search_angle n g in
  sqrt M * fst (amps N M r) = sin ((2 * INR r + 1) * t) /\ sqrt (N - M) * snd (amps N M r) = cos ((2 * INR r + 1) * t).
Proof.
  intros N M t. pose proof (angle_spec n g) as H. cbv zeta in H. fold N M t in H. destruct H as (Hs & Hc & B). pose proof (pow2_pos n : 0 < N) as P. assert (0 < sqrt N) as Q by now apply sqrt_lt_R0.
  assert (sqrt N * sqrt N = N) as NN by (apply sqrt_sqrt; lra). assert (sqrt M * sqrt M = M) as MM by (apply sqrt_sqrt; lra). assert (sqrt (N - M) * sqrt (N - M) = N - M) as DD by (apply sqrt_sqrt; lra).
  induction r as [|r IH].
  - cbn [amps fst snd INR]. replace ((2 * 0 + 1) * t) with t by ring. rewrite <- Hs, <- Hc. split; field; lra.
  - cbn [amps]. destruct (amps N M r) as [a c]. cbn [fst snd] in *. destruct IH as [IS IC]. rewrite S_INR. set (phi := (2 * INR r + 1) * t) in *. replace ((2 * (INR r + 1) + 1) * t) with (phi + 2 * t) by (unfold phi; ring).
    rewrite sin_plus, cos_plus, sin_2a, cos_2a. rewrite <- IS, <- IC. replace (sin t) with (sqrt M / sqrt N) by (rewrite <- Hs; field; lra). replace (cos t) with (sqrt (N - M) / sqrt N) by (rewrite <- Hc; field; lra).
    set (x := sqrt M) in *. set (y := sqrt (N - M)) in *. set (z := sqrt N) in *. assert (N = z * z) as EN by lra. assert (M = x * x) as EM by lra. assert (z * z - x * x = y * y) as ED by lra. assert (x * x = z * z - y * y) as EX by lra.
    rewrite EN, EM. rewrite ED. split; field_simplify; try lra.
    + f_equal. replace (y ^ 2) with (y * y) by ring. assert (z ^ 2 = x * x + y * y) as EZ by (cbn; lra). rewrite EZ. ring.
    + f_equal. assert (z ^ 2 = x * x + y * y) as EZ by (cbn; lra). rewrite EZ. ring.
Qed.

(** ** The state of the search *)
Lemma key_count q n : le_dim (o_lin (p_obj q)) = n -> length (lin_to_array (o_lin (p_obj q))) = n.
Proof. intros <-. unfold lin_to_array. now rewrite map_length, seq_length. Qed.
Lemma sqrt_pow2 n : sqrt (INR (2 ^ n)) = sqrt 2 ^ n.
Proof.
  induction n as [|n IH]; [cbn; apply sqrt_1|]. cbn [Nat.pow]. rewrite Nat.mul_comm, Nat.mul_comm. rewrite mult_INR, sqrt_mult by (try apply pos_INR; apply (pos_INR 2)). rewrite IH. cbn [pow]. f_equal.
Qed.
Lemma a_spread q n m : le_dim (o_lin (p_obj q)) = n -> same_state (n + m) (a_state q m) (spread n m (form_value q) (fun _ => / sqrt (INR (2 ^ n)))).
Proof.
  intros D b Hb. unfold a_state. rewrite (key_count q n D). unfold quadratic_form, spread, fits_value. destruct (bits_eqb _ _); [|reflexivity]. rewrite h_amplitude by (rewrite firstn_length; lia). now rewrite sqrt_pow2.
Qed.
Definition two_valued (n m : nat) (f : list bool -> Z) (ac : R * R) : state := spread n m f (fun k => if sign_of m f k then fst ac else snd ac).
Lemma state_spread q n m r : le_dim (o_lin (p_obj q)) = n -> (0 < m)%nat ->
  same_state (n + m) (grover_state q m r) (two_valued n m (form_value q) (amps (INR (2 ^ n)) (INR (marked n (sign_of m (form_value q)))) r)).
Proof.
  intros D M. unfold grover_state. rewrite (key_count q n D). set (f := form_value q). set (N := INR (2 ^ n)). set (K := INR (marked n (sign_of m f))). pose proof (a_spread q n m D) as A. fold f N in A. pose proof (pow2_pos n : 0 < N) as P.
  assert (0 < sqrt N) as Q by now apply sqrt_lt_R0. assert (sqrt N * sqrt N = N) as NN by (apply sqrt_sqrt; lra).
  induction r as [|r IH]; cbn [Nat.iter nat_rect].
  - eapply same_trans; [exact A|]. unfold two_valued. apply spread_ext. intros k _. cbn [amps fst snd]. now destruct (sign_of m f k).
  - eapply same_trans; [apply rotation_ext; [exact A|exact IH]|]. unfold two_valued. eapply same_trans; [apply rotation_spread; exact M|]. apply spread_ext. intros k Hk. cbn [amps]. destruct (amps N K r) as [a c]. cbn [fst snd].
    assert (Rsum (map (fun k => / sqrt N * (if sign_of m f k then - (if sign_of m f k then a else c) else if sign_of m f k then a else c)) (all_bools n)) = / sqrt N * (- K * a + (N - K) * c)) as ->.
    { rewrite (Rsum_ext _ (fun k => if sign_of m f k then / sqrt N * - a else / sqrt N * c)) by (intros; destruct (sign_of m f _); reflexivity). rewrite marked_sum. unfold marked in K. fold K. rewrite all_bools_count. fold N. ring. }
    assert (2 * (/ sqrt N * (- K * a + (N - K) * c)) * / sqrt N = 2 / N * (- K * a + (N - K) * c)) as ->. { rewrite <- NN at 4. field. lra. }
    destruct (sign_of m f k); ring.
Qed.
Lemma spread_prob n m f al b : prob (spread n m f al) b = if fits_value n m f b then al (firstn n b) * al (firstn n b) else 0.
Proof. unfold prob, spread. destruct (fits_value n m f b); [rewrite norm2_RC; ring|unfold Cnorm2, C0; cbn; ring]. Qed.
Lemma spread_prob_of n m f al (g : list bool -> bool) : prob_of (n + m) (spread n m f al) (fun b => g (firstn n b)) = Rsum (map (fun k => if g k then al k * al k else 0) (all_bools n)).
Proof.
  rewrite prob_of_if, <- (keys_sum n m f (fun k => if g k then al k * al k else 0)). apply Rsum_ext. intros b _. rewrite spread_prob. destruct (fits_value n m f b), (g (firstn n b)); reflexivity.
Qed.

(** ** The value computed *)
Lemma fold_dot_at (g : nat -> Qc) (x : list Qc) : forall k, fold_right (fun lx s => (fst lx * snd lx + s)%Qc) 0%Qc (combine (map g (seq k (length x))) x) = sumof (fun i => (g (k + i)%nat * at_ x i)%Qc) (seq 0 (length x)).
Proof.
  induction x as [|a x IH]; intro k; [reflexivity|]. cbn [length seq map combine fold_right fst snd sumof]. rewrite IH. rewrite Nat.add_0_r. change (at_ (a :: x) 0) with a. f_equal.
  rewrite <- seq_shift, sumof_map. apply sumof_ext. intros i _. change (at_ (a :: x) (S i)) with (at_ x i). now rewrite Nat.add_succ_comm.
Qed.
Lemma fold_rows_at (g : nat -> list Qc) (h : list Qc -> Qc) (x : list Qc) : forall k, fold_right (fun rx s => (snd rx * h (fst rx) + s)%Qc) 0%Qc (combine (map g (seq k (length x))) x) = sumof (fun i => (at_ x i * h (g (k + i)%nat))%Qc) (seq 0 (length x)).
Proof.
  induction x as [|a x IH]; intro k; [reflexivity|]. cbn [length seq map combine fold_right fst snd sumof]. rewrite IH. rewrite Nat.add_0_r. change (at_ (a :: x) 0) with a. f_equal.
  rewrite <- seq_shift, sumof_map. apply sumof_ext. intros i _. change (at_ (a :: x) (S i)) with (at_ x i). now rewrite Nat.add_succ_comm.
Qed.
Lemma form_value_at q n key : le_dim (o_lin (p_obj q)) = n -> qe_dim (o_quad (p_obj q)) = n -> length key = n -> form_value q key = qfloor (obj_at (p_obj q) (point_of key)).
Proof.
  intros D1 D2 L. unfold form_value. change (map (fun b : bool => if b then 1%Qc else 0%Qc) key) with (point_of key). assert (length (point_of key) = n) as Lx by (unfold point_of; now rewrite map_length).
  f_equal. unfold obj_at. f_equal; [f_equal|].
  - unfold lin_to_array. rewrite D1, <- Lx, fold_dot_at. reflexivity.
  - unfold quad_to_array. rewrite D2, <- Lx. rewrite (fold_rows_at _ (fun r => fold_right (fun ax t => fst ax * snd ax + t)%Qc 0%Qc (combine r (point_of key)))). unfold quad_at. apply sumof_ext. intros i _. cbn [Nat.add].
    rewrite fold_dot_at. rewrite <- sumof_scale. apply sumof_ext. intros j _. cbn [Nat.add quad_entries]. unfold coef2. ring.
Qed.
Lemma whole_form q n key z : le_dim (o_lin (p_obj q)) = n -> qe_dim (o_quad (p_obj q)) = n -> length key = n -> obj_at (p_obj q) (point_of key) = qz z -> form_value q key = z.
Proof. intros D1 D2 L E. now rewrite (form_value_at q n key D1 D2 L), E, floor_qz. Qed.
Lemma twos_sign v : v <> [] -> (twos v <? 0)%Z = nth 0 v false.
Proof.
  destruct v as [|b v]; [easy|]. intros _. cbn [twos nth]. pose proof (magnitude_range v) as R. pose proof (Z.pow_pos_nonneg 2 (Z.of_nat (length v))). destruct b; [apply Z.ltb_lt|apply Z.ltb_ge]; lia.
Qed.
Lemma sign_negative q n m key : le_dim (o_lin (p_obj q)) = n -> qe_dim (o_quad (p_obj q)) = n -> (0 < m)%nat -> whole_values n q -> values_fit n m q -> length key = n -> sign_of m (form_value q) key = negative q key.
Proof.
  intros D1 D2 P W F L. destruct (W key L) as [z Ez]. destruct (F key L) as [F1 F2]. rewrite Ez in F1, F2. unfold half in *. rewrite <- qz_opp, qz_le in F1. rewrite qz_lt in F2. unfold sign_of, negative. rewrite (whole_form q n key z) by auto. rewrite digits_register, Ez.
  destruct m as [|m]; [lia|]. rewrite <- twos_sign by (rewrite register_S; discriminate). rewrite register_reads by lia. destruct (Z.ltb_spec z 0) as [H|H]; symmetry; [apply qltb_iff|apply qltb_false]; change 0%Qc with (qz 0); [now rewrite qz_lt|now rewrite qz_le].
Qed.
Lemma marked_ext n f g : (forall k, length k = n -> f k = g k) -> marked n f = marked n g.
Proof. intro H. unfold marked. f_equal. apply filter_ext_in. intros k Hk. apply H. now apply all_bools_length. Qed.

(** ** Outcomes *)
Lemma outcome_value q n m r b : le_dim (o_lin (p_obj q)) = n -> (0 < m)%nat -> length b = (n + m)%nat -> prob (grover_state q m r) b <> 0 -> skipn n b = register_of m (form_value q (firstn n b)).
Proof.
  intros D P L H. unfold prob in H. rewrite (state_spread q n m r D P b L) in H. unfold two_valued in H. rewrite <- digits_register. apply bits_eqb_eq. fold (fits_value n m (form_value q) b). fold (prob (spread n m (form_value q) (fun k => if sign_of m (form_value q) k then fst (amps (INR (2 ^ n)) (INR (marked n (sign_of m (form_value q)))) r) else snd (amps (INR (2 ^ n)) (INR (marked n (sign_of m (form_value q)))) r))) b) in H.
  rewrite spread_prob in H. destruct (fits_value n m (form_value q) b); [reflexivity|now elim H].
Qed.
Lemma sum_one (g : R) n k : length k = n -> Rsum (map (fun b => if bits_eqb b k then g else 0) (all_bools n)) = g.
Proof. intro. now apply values_once. Qed.
Lemma key_probability q n m r k : le_dim (o_lin (p_obj q)) = n -> (0 < m)%nat -> length k = n ->
  let a := amps (INR (2 ^ n)) (INR (marked n (sign_of m (form_value q)))) r in
  prob_of (n + m) (grover_state q m r) (fun b => bits_eqb (firstn n b) k) = if sign_of m (form_value q) k then fst a * fst a else snd a * snd a.
Proof.
  intros D P L a. rewrite (prob_of_same _ _ _ _ (state_spread q n m r D P)). unfold two_valued. fold a. rewrite (spread_prob_of n m (form_value q) _ (fun c => bits_eqb c k)).
  rewrite (Rsum_ext _ (fun c => if bits_eqb c k then (if sign_of m (form_value q) k then fst a * fst a else snd a * snd a) else 0)); [now apply sum_one|]. intros c _. destruct (bits_eqb c k) eqn:E; [|reflexivity]. apply bits_eqb_eq in E. subst c. now destruct (sign_of m (form_value q) k).
Qed.
Lemma marked_probability q n m r : le_dim (o_lin (p_obj q)) = n -> (0 < m)%nat ->
  let a := amps (INR (2 ^ n)) (INR (marked n (sign_of m (form_value q)))) r in
  prob_of (n + m) (grover_state q m r) (fun b => sign_of m (form_value q) (firstn n b)) = INR (marked n (sign_of m (form_value q))) * (fst a * fst a).
Proof.
  intros D P a. rewrite (prob_of_same _ _ _ _ (state_spread q n m r D P)). unfold two_valued. fold a. rewrite (spread_prob_of n m (form_value q) _ (sign_of m (form_value q))).
  rewrite (Rsum_ext _ (fun c => if sign_of m (form_value q) c then fst a * fst a else 0)) by (intros c _; destruct (sign_of m (form_value q) c); reflexivity). rewrite marked_sum. unfold marked. ring.
Qed.
Lemma search_normed q n m r : le_dim (o_lin (p_obj q)) = n -> (0 < m)%nat -> normed (n + m) (grover_state q m r).
Proof.
  intros D P. unfold normed. rewrite (prob_of_same _ _ _ _ (state_spread q n m r D P)). unfold two_valued. set (f := form_value q). set (a := amps _ _ r). rewrite (spread_prob_of n m f _ (fun _ => true)).
  rewrite (Rsum_ext _ (fun c => if sign_of m f c then fst a * fst a else snd a * snd a)) by (intros c _; destruct (sign_of m f c); reflexivity). rewrite marked_sum, all_bools_count. fold (marked n (sign_of m f)).
  pose proof (amps_angle n (sign_of m f) r) as [Es Ec]. cbv zeta in Es, Ec. fold f in a. fold a in Es, Ec. set (M := INR (marked n (sign_of m f))) in *. set (N := INR (2 ^ n)) in *. pose proof (angle_spec n (sign_of m f)) as (_ & _ & B). cbv zeta in B. fold M N in B.
  set (phi := (2 * INR r + 1) * search_angle n (sign_of m f)) in *. pose proof (sin2_cos2 phi) as S. unfold Rsqr in S. rewrite <- Es, <- Ec in S. assert (sqrt M * sqrt M = M) as MM by (apply sqrt_sqrt; lra). assert (sqrt (N - M) * sqrt (N - M) = N - M) as DD by (apply sqrt_sqrt; lra).
  rewrite <- S. rewrite <- MM at 1. rewrite <- DD at 1. ring.
Qed.
Lemma amps_square n g r : let N := INR (2 ^ n) in let M := INR (marked n g) in let a := amps N M r in let phi := (2 * INR r + 1) * search_angle n g in
  M * (fst a * fst a) = Rsqr (sin phi) /\ (N - M) * (snd a * snd a) = Rsqr (cos phi).
Proof.
  intros N M a phi. pose proof (amps_angle n g r) as [Es Ec]. cbv zeta in Es, Ec. fold N M a phi in Es, Ec. pose proof (angle_spec n g) as (_ & _ & B). cbv zeta in B. fold M N in B.
  assert (sqrt M * sqrt M = M) as MM by (apply sqrt_sqrt; lra). assert (sqrt (N - M) * sqrt (N - M) = N - M) as DD by (apply sqrt_sqrt; lra). unfold Rsqr. rewrite <- Es, <- Ec. split; [rewrite <- MM at 1|rewrite <- DD at 1]; ring.
Qed.

(** ** The search with drawn outcomes *)
Definition sized_program (n : nat) (q : qp) : bool := Nat.eqb (le_dim (o_lin (p_obj q))) n && Nat.eqb (qe_dim (o_quad (p_obj q))) n.
Definition completed (n m : nat) (measure : nat -> qp -> nat -> list bool * circuit_results) (it : nat) (q : qp) (r : nat) : list bool * circuit_results :=
  if sized_program n q then measure it q r else (fst (replay n m (fun _ => []) it q r), snd (measure it q r)).
Lemma sized_program_spec n q : sized_program n q = true -> le_dim (o_lin (p_obj q)) = n /\ qe_dim (o_quad (p_obj q)) = n.
Proof. unfold sized_program. rewrite andb_true_iff, !Nat.eqb_eq. auto. Qed.
Lemma completed_sized n m measure : drawn n m measure -> sized_outcomes n m (completed n m measure).
Proof.
  intros H it q r. unfold completed. destruct (sized_program n q) eqn:E; [|exact (replay_sized n m (fun _ => []) it q r)]. apply sized_program_spec in E. destruct E as [E1 E2]. destruct (H it q r E1 E2) as [L _]. lia.
Qed.
Lemma completed_honest n m measure : (0 < m)%nat -> drawn n m measure -> honest n m (completed n m measure).
Proof.
  intros P H it q r z. unfold completed. destruct (sized_program n q) eqn:E; [|exact (replay_honest n m (fun _ => []) P it q r z)]. apply sized_program_spec in E. destruct E as [E1 E2]. destruct (H it q r E1 E2) as [L K]. intro Z. apply (outcome_value q n m r _ E1 P L) in K.
  unfold value_register. rewrite K. rewrite (whole_form q n _ z E1 E2) by (auto; rewrite firstn_length; lia). rewrite <- (app_nil_r (register_of m z)), firstn_exact by apply reg_of_length. now apply register_twos.
Qed.
Lemma search_ext n_value n_iter root spin m1 m2 q0 q1 caller fs : (forall it t r, m1 it (shifted_to q1 t) r = m2 it (shifted_to q1 t) r) ->
  forall fuel it s, search n_value n_iter root spin m1 q0 q1 caller fs fuel it s = search n_value n_iter root spin m2 q0 q1 caller fs fuel it s.
Proof.
  intro H. induction fuel as [|fuel IH]; intros it s; [reflexivity|]. cbn [search]. assert (search_step n_value n_iter root spin m1 q0 q1 caller fs it s = search_step n_value n_iter root spin m2 q0 q1 caller fs it s) as -> by (unfold search_step; now rewrite !H).
  destruct (search_step _ _ _ _ _ _ _ _ _ _ _) as [[s' [|]]|]; auto.
Qed.
Lemma solve_completed n_value n_iter root spin measure fuel cs p q0 fs : convert_all cs p = Ok (q0, fs) -> obj_shaped q0 ->
  grover_solve n_value n_iter root spin measure fuel cs p = grover_solve n_value n_iter root spin (completed (num_vars q0) n_value measure) fuel cs p.
Proof.
  intros C S. unfold grover_solve. destruct (qubo_compatible p); [|reflexivity]. rewrite C. destruct (turn_to_min q0) as [q1 [u|e]] eqn:T; [|reflexivity]. destruct (turn_shape _ _ _ S T) as (o & -> & (_ & S1) & (_ & S2) & _).
  rewrite (search_ext n_value n_iter root spin measure (completed (num_vars q0) n_value measure)); [reflexivity|]. intros it t r. unfold completed, sized_program, shifted_to, set_constant. cbn [p_obj set_obj o_lin o_quad]. rewrite S1, S2, Nat.eqb_refl. reflexivity.
Qed.

(** ** A backend for examples: the first outcome that can be measured, counted once *)
Definition first_outcome (n m : nat) (it : nat) (q : qp) (r : nat) : list bool * circuit_results :=
  let out := match find (fun b => if Req_EM_T (prob (grover_state q m r) b) 0 then false else true) (all_bools (n + m)) with Some b => b | None => repeat false (n + m) end in
  (out, RCounts 1 [(rev out, 1%Qc)]).
Lemma first_length n m it q r : length (fst (first_outcome n m it q r)) = (n + m)%nat.
Proof. unfold first_outcome. cbn [fst]. destruct (find _ _) as [b|] eqn:E; [|apply repeat_length]. apply find_some in E. now apply all_bools_length. Qed.
Lemma first_drawn n m : (0 < m)%nat -> drawn n m (first_outcome n m).
Proof.
  intros P it q r D1 D2. split; [apply first_length|]. unfold first_outcome. cbn [fst]. destruct (find _ _) as [b|] eqn:E.
  - apply find_some in E. destruct E as [_ E]. now destruct (Req_EM_T _ _).
  - exfalso. pose proof (search_normed q n m r D1 P) as N. unfold normed in N. rewrite prob_of_all in N. rewrite (Rsum_ext _ (fun _ => 0)) in N.
    + assert (Rsum (map (fun _ : list bool => 0) (all_bools (n + m))) = 0) as Z by (clear; induction (all_bools (n + m)); cbn; [reflexivity|lra]). lra.
    + intros b Hb. pose proof (find_none _ _ E b Hb) as K. cbn in K. now destruct (Req_EM_T _ _).
Qed.
Lemma first_state n m it q r : sized_state n (circuit_state (fun a => a) n (snd (first_outcome n m it q r))).
Proof.
  pose proof (first_length n m it q r) as L. unfold first_outcome in *. cbn [fst snd] in *. set (out := match find _ _ with Some b => b | None => _ end) in *. clearbody out. cbn [circuit_state fold_left fst dset sized_state]. rewrite rev_involutive.
  split; [constructor; [cbn [fst]; rewrite firstn_length; lia|constructor]|]. cbn. discriminate.
Qed.
