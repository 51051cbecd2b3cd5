(** * Floats: the report, and doubles *)
From Verif Require Export FloatFacts2.
Local Open Scope nat_scope.

(** ** The report *)
Lemma qabs_id a : (0 <= a)%Qc -> qabs a = a.
Proof. intro H. unfold qabs. destruct (qleb_spec 0 a); [reflexivity|contradiction]. Qed.
Lemma rnd_bounds rnd u a : (0 <= u)%Qc -> rel_error u rnd -> (0 <= a)%Qc -> ((1 - u) * a <= rnd a)%Qc /\ (rnd a <= (1 + u) * a)%Qc.
Proof. intros U R A. specialize (R a). rewrite (qabs_id a A) in R. apply qabs_bound in R. split; qlra. Qed.
Lemma rnd_abs rnd u a : (0 <= u)%Qc -> rel_error u rnd -> ((1 - u) * qabs a <= qabs (rnd a))%Qc /\ (qabs (rnd a) <= (1 + u) * qabs a)%Qc.
Proof.
  intros U R. specialize (R a). pose proof (qabs_triangle (rnd a - a) a) as T1. replace (rnd a - a + a)%Qc with (rnd a) in T1 by ring.
  pose proof (qabs_triangle (- (rnd a - a)) (rnd a)) as T2. rewrite qabs_opp in T2. replace (- (rnd a - a) + rnd a)%Qc with a in T2 by ring. split; qlra.
Qed.
Lemma mul_le a b c d : (0 <= a)%Qc -> (a <= b)%Qc -> (0 <= c)%Qc -> (c <= d)%Qc -> (a * c <= b * d)%Qc.
Proof. intros. qnra. Qed.
Lemma mul_nonneg a b : (0 <= a)%Qc -> (0 <= b)%Qc -> (0 <= a * b)%Qc.
Proof. intros. qnra. Qed.
Lemma rel_tol_nonneg : (0 <= rel_tol)%Qc. Proof. apply qleb_iff. reflexivity. Qed.
(** The tolerance times a number *)
Lemma tol_abs rnd u b : (0 <= u)%Qc -> (u <= 1)%Qc -> rel_error u rnd -> ((1 - u) * (1 - u) * (rel_tol * qabs b) <= qabs (rnd (rnd rel_tol * b)))%Qc /\ (qabs (rnd (rnd rel_tol * b)) <= (1 + u) * (1 + u) * (rel_tol * qabs b))%Qc.
Proof.
  intros U1 U2 R. destruct (rnd_abs rnd u (rnd rel_tol * b) U1 R) as [A B]. destruct (rnd_abs rnd u rel_tol U1 R) as [C D]. rewrite (qabs_id rel_tol rel_tol_nonneg) in C, D. rewrite qabs_mul in A, B.
  pose proof (qabs_nonneg b) as N. pose proof (qabs_nonneg (rnd rel_tol)) as N2. pose proof rel_tol_nonneg as N3. split.
  - eapply Qcle_trans; [|exact A]. replace ((1 - u) * (1 - u) * (rel_tol * qabs b))%Qc with ((1 - u) * ((1 - u) * rel_tol * qabs b))%Qc by ring.
    apply mul_le; [qlra|apply Qcle_refl| |]; [apply mul_nonneg; auto; apply mul_nonneg; auto; qlra|]. now apply Qcmult_le_compat_r.
  - eapply Qcle_trans; [exact B|]. replace ((1 + u) * (1 + u) * (rel_tol * qabs b))%Qc with ((1 + u) * ((1 + u) * rel_tol * qabs b))%Qc by ring.
    apply mul_le; [qlra|apply Qcle_refl| |]; [now apply mul_nonneg|]. now apply Qcmult_le_compat_r.
Qed.
Lemma whole_apart a b : integral a -> integral b -> a <> b -> (1 <= qabs (b - a))%Qc.
Proof.
  intros [za ->] [zb ->] N. assert (za <> zb) by congruence. rewrite <- qz_sub, <- qz_1. unfold qabs. destruct (qleb_spec 0 (qz (zb - za))) as [L|L].
  - rewrite <- qz_0 in L. apply (proj1 (qz_le _ _)) in L. apply qz_le. lia.
  - replace (- qz (zb - za))%Qc with (qz (za - zb)) by (rewrite !qz_sub; ring). apply qz_le. assert (~ (0 <= zb - za)%Z) by (intro Z; apply L; rewrite <- qz_0; now apply qz_le). lia.
Qed.
(** Whole numbers that are not too large are close only if they are equal. *)
Lemma tol_small rnd u b : (0 <= u)%Qc -> (u <= 1 / qz 8)%Qc -> rel_error u rnd -> (qabs b <= qz 500000000)%Qc -> (qabs (rnd (rnd rel_tol * b)) < 1 - u)%Qc.
Proof.
  intros U1 U2 R B. assert (u <= 1)%Qc as U3 by (eapply Qcle_trans; [exact U2|]; apply qleb_iff; reflexivity).
  destruct (tol_abs rnd u b U1 U3 R) as [_ T]. assert (rel_tol * qabs b <= 1 / qz 2)%Qc as H.
  { replace (1 / qz 2)%Qc with (rel_tol * qz 500000000)%Qc by (apply Qc_is_canon; vm_compute; reflexivity). apply mul_le; [apply rel_tol_nonneg|apply Qcle_refl|apply qabs_nonneg|exact B]. }
  assert (0 <= rel_tol * qabs b)%Qc as N by (apply mul_nonneg; [apply rel_tol_nonneg|apply qabs_nonneg]).
  set (t := (rel_tol * qabs b)%Qc) in *. clearbody t. eapply Qcle_lt_trans; [exact T|].
  apply Qcle_lt_trans with ((1 + 1 / qz 8) * (1 + 1 / qz 8) * (1 / qz 2))%Qc.
  - apply mul_le; auto; [apply mul_nonneg; qlra|]. apply mul_le; qlra.
  - apply Qclt_le_trans with (1 - 1 / qz 8)%Qc; [apply qltb_iff; reflexivity|qlra].
Qed.
Lemma whole_close rnd u a b : (0 <= u)%Qc -> (u <= 1 / qz 8)%Qc -> rel_error u rnd -> integral a -> integral b -> (qabs a <= qz 500000000)%Qc -> (qabs b <= qz 500000000)%Qc ->
  float_isclose rnd a b = isclose a b.
Proof.
  intros U1 U2 R Ia Ib Ba Bb. destruct (qeqb_spec a b) as [->|N].
  - unfold float_isclose, isclose. destruct (qeqb_spec b b) as [_|N]; [|congruence]. simpl. symmetry. apply qleb_iff. replace (b - b)%Qc with 0%Qc by ring. rewrite qabs_zero. apply mul_nonneg; [apply rel_tol_nonneg|].
    eapply Qcle_trans; [apply (qabs_nonneg b)|apply qmax_l].
  - pose proof (whole_apart a b Ia Ib N) as D. destruct (rnd_bounds rnd u (qabs (b - a)) U1 R (qabs_nonneg _)) as [L _].
    assert (1 - u <= rnd (qabs (b - a)))%Qc as L1.
    { eapply Qcle_trans; [|exact L]. replace (1 - u)%Qc with ((1 - u) * 1)%Qc at 1 by ring. apply mul_le; try qlra. assert (u <= 1)%Qc by (eapply Qcle_trans; [exact U2|]; apply qleb_iff; reflexivity). qlra. }
    pose proof (tol_small rnd u a U1 U2 R Ba) as TA. pose proof (tol_small rnd u b U1 U2 R Bb) as TB.
    transitivity false.
    + unfold float_isclose. destruct (qeqb_spec a b) as [|_]; [contradiction|]. destruct (qleb_spec (rnd (qabs (b - a))) (qabs (rnd (rnd rel_tol * b)%Qc))) as [H|_]; [exfalso; qlra|].
      destruct (qleb_spec (rnd (qabs (b - a))) (qabs (rnd (rnd rel_tol * a)%Qc))) as [H|_]; [exfalso; qlra|reflexivity].
    + symmetry. unfold isclose. destruct (qleb_spec (qabs (a - b)) (rel_tol * qmax (qabs a) (qabs b))%Qc) as [H|_]; [exfalso|reflexivity].
      assert (qmax (qabs a) (qabs b) <= qz 500000000)%Qc as M by (unfold qmax; destruct (qleb (qabs a) (qabs b)); assumption).
      assert (rel_tol * qmax (qabs a) (qabs b) <= rel_tol * qz 500000000)%Qc as M2.
      { apply mul_le; [apply rel_tol_nonneg|apply Qcle_refl| |exact M]. eapply Qcle_trans; [apply (qabs_nonneg a)|apply qmax_l]. }
      replace (rel_tol * qz 500000000)%Qc with (1 / qz 2)%Qc in M2 by (apply Qc_is_canon; vm_compute; reflexivity).
      replace (a - b)%Qc with (- (b - a))%Qc in H by ring. rewrite qabs_opp in H. assert (1 / qz 2 < 1)%Qc by (apply qltb_iff; reflexivity). qlra.
Qed.
Lemma filter_ext_in {A} (f g : A -> bool) l : (forall a, In a l -> f a = g a) -> filter f l = filter g l.
Proof. induction l as [|a l IH]; intro H; simpl; [reflexivity|]. rewrite (H a) by now left. rewrite IH by (intros; apply H; now right). reflexivity. Qed.
Lemma info_value p x : shapes (num_vars p) p -> length x = num_vars p -> get_feasibility_info p x =
  let vv := map fst (filter (fun va => var_violated (fst va) (snd va)) (combine (p_vars p) x)) in
  let vc := filter (fun c => con_violated (any_sense c) (any_at c x) (any_rhs c)) (all_cons p) in
  Ok (match vv, vc with [], [] => true | _, _ => false end, vv, vc).
Proof.
  intros S Hx. unfold get_feasibility_info. rewrite Hx, Nat.eqb_refl. simpl negb. cbv iota zeta. rewrite feas_fold by (intros; now apply any_eval_at). reflexivity.
Qed.
(** For whole numbers the report is the exact one. *)
Lemma whole_report rnd u n p x lhs : (0 <= u)%Qc -> (u <= 1 / qz 8)%Qc -> rel_error u rnd -> keeps_whole n rnd -> shapes (num_vars p) p -> length x = num_vars p -> Forall integral x ->
  Forall (fun v => rnd (v_lb v) = v_lb v /\ rnd (v_ub v) = v_ub v) (p_vars p) ->
  (forall c, In c (all_cons p) -> whole_con c /\ (top c x <= n)%Qc /\ (qabs (any_rhs c) <= n)%Qc /\ (any_sense c = EQ -> (top c x <= qz 500000000)%Qc /\ (qabs (any_rhs c) <= qz 500000000)%Qc)) ->
  (forall c, In c (all_cons p) -> float_lhs rnd c x (lhs c)) -> get_feasibility_info p x = Ok (float_info rnd p x lhs).
Proof.
  intros U1 U2 R K S Hx X B C L. rewrite (info_value p x S Hx). cbv zeta. unfold float_info.
  replace (filter (fun va => float_outside rnd (fst va) (snd va)) (combine (p_vars p) x)) with (filter (fun va => var_violated (fst va) (snd va)) (combine (p_vars p) x)).
  2:{ apply filter_ext_in. intros [v a] Hin. apply in_combine_l in Hin. rewrite Forall_forall in B. destruct (B v Hin) as (B1 & B2). unfold var_violated, float_outside. simpl. now rewrite B1, B2. }
  replace (filter (fun c => float_violated rnd (any_sense c) (lhs c) (any_rhs c)) (all_cons p)) with (filter (fun c => con_violated (any_sense c) (any_at c x) (any_rhs c)) (all_cons p)); [reflexivity|].
  apply filter_ext_in. intros c Hin. destruct (C c Hin) as (W & T & Rh & Q). destruct (lhs_whole rnd n K (num_vars p) p c x (lhs c) S Hin Hx W X T (L c Hin)) as (E & I & M).
  rewrite <- E. unfold con_violated, float_violated. assert (integral (any_rhs c)) as Ir by (now destruct W). rewrite (keeps rnd n K _ Ir Rh).
  destruct (any_sense c); [reflexivity|reflexivity|]. destruct (Q eq_refl) as [Q1 Q2]. rewrite (whole_close rnd u); auto. qlra.
Qed.
(** How far the report can be off *)
Lemma margin rnd u v L E r s : rel_error u rnd -> (qabs (v - L) <= E)%Qc -> s <> EQ ->
  (match s with LE => (L + (E + u * qabs r) <= r)%Qc | GE => (r <= L - (E + u * qabs r))%Qc | EQ => False end -> float_violated rnd s v r = false) /\
  (float_violated rnd s v r = false -> match s with LE => (L <= r + (E + u * qabs r))%Qc | GE => (r - (E + u * qabs r) <= L)%Qc | EQ => False end).
Proof.
  intros R A Q. pose proof (R r) as B. apply qabs_bound in A. apply qabs_bound in B. unfold float_violated. destruct s; [| |congruence]; rewrite qltb_false; split; intro H; qlra.
Qed.
Lemma equal_accepted rnd u v E r : (0 <= u)%Qc -> (u <= 1 / qz 8)%Qc -> rel_error u rnd -> (qabs (v - r) <= E)%Qc -> (E + u * qabs r <= rel_tol / qz 2 * qabs r)%Qc -> float_violated rnd EQ v r = false.
Proof.
  intros U1 U2 R A B. simpl. apply negb_false_iff. unfold float_isclose. apply orb_true_iff. left. apply orb_true_iff. right. apply qleb_iff.
  assert (u <= 1)%Qc as U3 by (eapply Qcle_trans; [exact U2|]; apply qleb_iff; reflexivity).
  destruct (rnd_bounds rnd u (qabs (rnd r - v)) U1 R (qabs_nonneg _)) as [_ D]. destruct (tol_abs rnd u (rnd r) U1 U3 R) as [T _]. destruct (rnd_abs rnd u r U1 R) as [N _].
  pose proof (R r) as Rr. assert (qabs (rnd r - v) <= rel_tol / qz 2 * qabs r)%Qc as G.
  { pose proof (qabs_triangle (rnd r - r) (- (v - r))) as Tr. rewrite qabs_opp in Tr. replace (rnd r - r + - (v - r))%Qc with (rnd r - v)%Qc in Tr by ring. qlra. }
  pose proof (qabs_nonneg r) as Nr. pose proof rel_tol_nonneg as Nt. set (t := (rel_tol * qabs r)%Qc). assert (0 <= t)%Qc as Pt by now apply mul_nonneg.
  assert ((1 - u) * (1 - u) * ((1 - u) * t) <= qabs (rnd (rnd rel_tol * rnd r)))%Qc as T2.
  { eapply Qcle_trans; [|exact T]. apply mul_le; [apply mul_nonneg; qlra|apply Qcle_refl|apply mul_nonneg; [qlra|exact Pt]|].
    unfold t. replace ((1 - u) * (rel_tol * qabs r))%Qc with (rel_tol * ((1 - u) * qabs r))%Qc by ring. apply mul_le; [exact Nt|apply Qcle_refl|apply mul_nonneg; [qlra|exact Nr]|exact N]. }
  assert (qabs (rnd r - v) <= 1 / qz 2 * t)%Qc as G2 by (replace (1 / qz 2 * t)%Qc with (rel_tol / qz 2 * qabs r)%Qc by (unfold t, Qcdiv; ring); exact G).
  eapply Qcle_trans; [exact D|]. eapply Qcle_trans; [|exact T2].
  apply Qcle_trans with ((1 + 1 / qz 8) * (1 / qz 2 * t))%Qc; [apply mul_le; try qlra; apply qabs_nonneg|].
  apply Qcle_trans with ((1 - 1 / qz 8) * (1 - 1 / qz 8) * ((1 - 1 / qz 8) * t))%Qc.
  - replace ((1 + 1 / qz 8) * (1 / qz 2 * t))%Qc with ((1 + 1 / qz 8) * (1 / qz 2) * t)%Qc by ring.
    replace ((1 - 1 / qz 8) * (1 - 1 / qz 8) * ((1 - 1 / qz 8) * t))%Qc with ((1 - 1 / qz 8) * (1 - 1 / qz 8) * (1 - 1 / qz 8) * t)%Qc by ring.
    apply Qcmult_le_compat_r; [apply qleb_iff; reflexivity|exact Pt].
  - assert (0 <= 1 - 1 / qz 8)%Qc by (apply qleb_iff; reflexivity). assert (1 - 1 / qz 8 <= 1 - u)%Qc by qlra.
    apply mul_le; [now apply mul_nonneg|now apply mul_le|now apply mul_nonneg|]. now apply Qcmult_le_compat_r.
Qed.

(** ** Doubles *)
Definition two_to (k : Z) : Qc := (if (0 <=? k)%Z then qz (2 ^ k) else 1 / qz (2 ^ (- k)))%Qc.
Lemma qz_pos z : (0 < z)%Z -> (0 < qz z)%Qc.
Proof. intro H. rewrite <- qz_0. now apply qz_lt. Qed.
Lemma qz_neq z : z <> 0%Z -> qz z <> 0%Qc.
Proof. intros H E. apply H. apply qz_inj. now rewrite qz_0. Qed.
Lemma pow2_pos k : (0 <= k)%Z -> (0 < 2 ^ k)%Z.
Proof. intro H. apply Z.pow_pos_nonneg; lia. Qed.
Lemma two_to_diff a b : (0 <= a)%Z -> (0 <= b)%Z -> two_to (a - b) = (qz (2 ^ a) / qz (2 ^ b))%Qc.
Proof.
  intros A B. pose proof (qz_neq (2 ^ b) ltac:(pose proof (pow2_pos b B); lia)) as NB. unfold two_to. destruct (Z.leb_spec 0 (a - b)) as [L|L].
  - replace (2 ^ a)%Z with (2 ^ (a - b) * 2 ^ b)%Z by (rewrite <- Z.pow_add_r by lia; f_equal; lia). rewrite qz_mul. field. exact NB.
  - replace (2 ^ b)%Z with (2 ^ (- (a - b)) * 2 ^ a)%Z in * by (rewrite <- Z.pow_add_r by lia; f_equal; lia). rewrite qz_mul in *. field.
    split; intro E; apply NB; rewrite E; ring.
Qed.
Lemma two_to_add a b : two_to (a + b) = (two_to a * two_to b)%Qc.
Proof.
  set (x := Z.abs a). set (y := Z.abs b). assert (0 <= x)%Z by (unfold x; lia). assert (0 <= y)%Z by (unfold y; lia).
  rewrite <- (Z.add_simpl_r a x), <- (Z.add_simpl_r b y). replace (a + x - x + (b + y - y))%Z with ((a + x) + (b + y) - (x + y))%Z by lia.
  rewrite !two_to_diff by (unfold x, y; lia). rewrite (Z.pow_add_r 2 (a + x) (b + y)), (Z.pow_add_r 2 x y) by (unfold x, y; lia). rewrite !qz_mul.
  assert (qz (2 ^ x) <> 0%Qc) by (apply qz_neq; pose proof (pow2_pos x); lia). assert (qz (2 ^ y) <> 0%Qc) by (apply qz_neq; pose proof (pow2_pos y); lia).
  field. split; auto.
Qed.
Lemma inv_pos a : (0 < a)%Qc -> (0 < / a)%Qc.
Proof.
  intro H. destruct (Qclt_le_dec 0 (/ a)) as [P|P]; auto. exfalso. assert (a * / a = 1)%Qc as E by (apply Qcmult_inv_r; intro Z; subst; qlra).
  generalize dependent (/ a)%Qc. intros b P E. qnra.
Qed.
Lemma two_to_pos k : (0 < two_to k)%Qc.
Proof.
  replace k with (Z.max 0 k - Z.max 0 (- k))%Z by lia. rewrite two_to_diff by lia. unfold Qcdiv.
  pose proof (qz_pos _ (pow2_pos (Z.max 0 k) ltac:(lia))) as P. pose proof (inv_pos _ (qz_pos _ (pow2_pos (Z.max 0 (- k)) ltac:(lia)))) as P2.
  generalize dependent (/ qz (2 ^ Z.max 0 (- k)))%Qc. generalize dependent (qz (2 ^ Z.max 0 k)). intros. qnra.
Qed.

Lemma two_to_0 : two_to 0 = 1%Qc. Proof. unfold two_to. simpl. apply qz_1. Qed.
Lemma two_to_neq k : two_to k <> 0%Qc.
Proof. intro Z. pose proof (two_to_pos k) as P. rewrite Z in P. qlra. Qed.
Lemma two_to_inv k : (1 / two_to k)%Qc = two_to (- k).
Proof.
  assert (two_to k * two_to (- k) = 1)%Qc as E by (rewrite <- two_to_add, Z.add_opp_diag_r; apply two_to_0). rewrite <- E. field. apply two_to_neq.
Qed.
(** A number as a fraction *)
Lemma fraction q : q = (qz (Qnum (this q)) / qz (Z.pos (Qden (this q))))%Qc.
Proof.
  assert (q * qz (Z.pos (Qden (this q))) = qz (Qnum (this q)))%Qc as E.
  { apply Qc_is_canon. destruct q as [[n d] c]. cbn [this Qnum Qden]. change (Qred (Qmult (n # d) (Qred (inject_Z (Z.pos d)))) == Qred (inject_Z n))%Q.
    rewrite (Qred_correct (Qmult _ _)), !Qred_correct. unfold Qeq, Qmult, inject_Z. simpl. lia. }
  rewrite <- E. field. intro Z. rewrite <- qz_0 in Z. apply qz_inj in Z. discriminate.
Qed.
Lemma abs_fraction q : qabs q = (qz (Z.abs (Qnum (this q))) / qz (Z.pos (Qden (this q))))%Qc.
Proof.
  rewrite (fraction q) at 1. set (n := Qnum (this q)). set (d := Z.pos (Qden (this q))). pose proof (inv_pos _ (qz_pos d eq_refl)) as P. unfold Qcdiv.
  rewrite qabs_mul. rewrite (qabs_id (/ qz d)) by qlra. f_equal. destruct (Z.abs_spec n) as [[N ->]|[N ->]].
  - apply qabs_id. rewrite <- qz_0. now apply qz_le.
  - rewrite <- qabs_opp. replace (- qz n)%Qc with (qz (- n)) by (replace (- n)%Z with (0 - n)%Z by lia; rewrite qz_sub, qz_0; ring). apply qabs_id. rewrite <- qz_0. apply qz_le. lia.
Qed.
Lemma frac_le a b c d : (0 < b)%Z -> (0 < d)%Z -> (a * d <= c * b)%Z -> (qz a / qz b <= qz c / qz d)%Qc.
Proof.
  intros B D H. pose proof (qz_pos b B) as PB. pose proof (qz_pos d D) as PD. pose proof (inv_pos _ PB) as IB. pose proof (inv_pos _ PD) as ID.
  apply qz_le in H. rewrite !qz_mul in H. unfold Qcdiv.
  assert (qz a * / qz b = (qz a * qz d) * (/ qz b * / qz d))%Qc as -> by (field; split; intro Z; [rewrite Z in PD|rewrite Z in PB]; qlra).
  assert (qz c * / qz d = (qz c * qz b) * (/ qz b * / qz d))%Qc as -> by (field; split; intro Z; [rewrite Z in PD|rewrite Z in PB]; qlra).
  apply Qcmult_le_compat_r; [exact H|]. apply mul_nonneg; qlra.
Qed.
Lemma exponent_below q : q <> 0%Qc -> (two_to (exponent q) <= qabs q)%Qc.
Proof.
  intro N. unfold exponent. set (n := Z.abs (Qnum (this q))). set (d := Z.pos (Qden (this q))). set (k := (Z.log2 n - Z.log2 d)%Z).
  change (if (0 <=? k)%Z then qz (2 ^ k) else (1 / qz (2 ^ (- k)))%Qc) with (two_to k). destruct (qleb_spec (two_to k) (qabs q)) as [L|_]; [exact L|].
  assert (0 < n)%Z as Pn.
  { assert (n <> 0%Z); [|unfold n in *; lia]. intro Z. apply N. apply qabs_0. rewrite abs_fraction. fold n. rewrite Z, qz_0. unfold Qcdiv. ring. }
  destruct (Z.log2_spec n Pn) as [A _]. destruct (Z.log2_spec d eq_refl) as [_ B]. pose proof (Z.log2_nonneg n). pose proof (Z.log2_nonneg d).
  replace (k - 1)%Z with (Z.log2 n - (Z.log2 d + 1))%Z by (unfold k; lia). rewrite two_to_diff by lia. rewrite abs_fraction. fold n d.
  apply frac_le; [apply pow2_pos; lia|reflexivity|]. replace (Z.log2 d + 1)%Z with (Z.succ (Z.log2 d)) by lia.
  apply Z.mul_le_mono_nonneg; [apply Z.pow_nonneg; lia|exact A|discriminate|lia].
Qed.
Lemma half_even_near q : (qabs (qz (half_even q) - q) <= 1 / qz 2)%Qc.
Proof.
  unfold half_even. pose proof (qfloor_le q) as A. pose proof (qfloor_lt q) as B. set (f := qfloor q) in *. clearbody f.
  assert (1 = 1 / qz 2 + 1 / qz 2)%Qc as H by (apply Qc_is_canon; vm_compute; reflexivity). set (h := (1 / qz 2)%Qc) in *. clearbody h.
  apply qabs_bound. destruct (qltb_spec (q - qz f) h) as [L|L]; [split; qlra|]. destruct (qltb_spec h (q - qz f)) as [M|M]; [rewrite qz_add, qz_1; split; qlra|].
  destruct (Z.even f); [split; qlra|rewrite qz_add, qz_1; split; qlra].
Qed.
Lemma half_even_whole z : half_even (qz z) = z.
Proof.
  unfold half_even. assert (qfloor (qz z) = z) as -> by (apply Z.le_antisymm; [apply qz_le, qfloor_le|apply floor_greatest; apply Qcle_refl]).
  replace (qz z - qz z)%Qc with 0%Qc by ring. reflexivity.
Qed.
Lemma to_double_at q : to_double q = (qz (half_even (q * two_to (52 - exponent q))) / two_to (52 - exponent q))%Qc.
Proof. reflexivity. Qed.
Lemma to_double_error : rel_error (1 / qz (2 ^ 53))%Qc to_double.
Proof.
  intro q. destruct (qeqb_spec q 0) as [->|N].
  { replace (to_double 0 - 0)%Qc with 0%Qc by (apply Qc_is_canon; vm_compute; reflexivity). rewrite qabs_zero. replace (1 / qz (2 ^ 53) * 0)%Qc with 0%Qc by ring. apply Qcle_refl. }
  rewrite to_double_at. set (s := two_to (52 - exponent q)). set (h := qz (half_even (q * s))).
  assert (0 < s)%Qc as S by apply two_to_pos. assert (s <> 0%Qc) as S0 by apply two_to_neq.
  replace (h / s - q)%Qc with ((h - q * s) * (1 / s))%Qc by (field; exact S0). rewrite qabs_mul.
  assert (1 / s = two_to (exponent q) * two_to (- 52))%Qc as Es by (unfold s; rewrite two_to_inv, <- two_to_add; f_equal; lia).
  rewrite (qabs_id (1 / s)) by (rewrite Es; pose proof (two_to_pos (exponent q)); pose proof (two_to_pos (-52)); apply mul_nonneg; qlra).
  rewrite Es. replace (1 / qz (2 ^ 53) * qabs q)%Qc with (1 / qz 2 * (qabs q * two_to (- 52)))%Qc.
  2:{ assert (1 / qz (2 ^ 53) = 1 / qz 2 * two_to (-52))%Qc as -> by (apply Qc_is_canon; vm_compute; reflexivity). ring. }
  apply mul_le; [apply qabs_nonneg|apply half_even_near| |].
  - pose proof (two_to_pos (exponent q)). pose proof (two_to_pos (-52)). apply mul_nonneg; qlra.
  - apply Qcmult_le_compat_r; [now apply exponent_below|]. pose proof (two_to_pos (-52)). qlra.
Qed.
Lemma two_to_mono a b : (a <= b)%Z -> (two_to a <= two_to b)%Qc.
Proof.
  intro H. replace b with (a + (b - a))%Z by lia. rewrite two_to_add. pose proof (two_to_pos a) as P.
  assert (1 <= two_to (b - a))%Qc as G. { unfold two_to. destruct (Z.leb_spec 0 (b - a)); [|lia]. rewrite <- qz_1. apply qz_le. pose proof (pow2_pos (b - a) ltac:(lia)). lia. }
  generalize dependent (two_to (b - a)). intros. qnra.
Qed.
Lemma to_double_whole : keeps_whole (qz (2 ^ 53)) to_double.
Proof.
  intros z B. destruct (Z.eq_dec z 0) as [->|N]; [apply Qc_is_canon; vm_compute; reflexivity|].
  assert (qz z <> 0%Qc) as Nq by now apply qz_neq. pose proof (exponent_below _ Nq) as E.
  assert (exponent (qz z) <= 53)%Z as Ex.
  { destruct (Z.le_gt_cases (exponent (qz z)) 53) as [L|L]; [exact L|]. exfalso. pose proof (two_to_mono 54 (exponent (qz z)) ltac:(lia)) as M.
    assert (qz (2 ^ 53) < two_to 54)%Qc by (apply qltb_iff; vm_compute; reflexivity). qlra. }
  rewrite to_double_at. assert (exists y, qz z * two_to (52 - exponent (qz z)) = qz y)%Qc as (y & Ey).
  { destruct (Z.eq_dec (exponent (qz z)) 53) as [E53|N53].
    - rewrite E53 in *. change (52 - 53)%Z with (-1)%Z. assert (qz (2 ^ 53) <= qabs (qz z))%Qc as G by exact E.
      assert (qabs (qz z) = qz (2 ^ 53)) as A by (apply Qcle_antisym; assumption).
      unfold qabs in A. destruct (qleb 0 (qz z)); [exists (2 ^ 52)%Z; rewrite A; apply Qc_is_canon; vm_compute; reflexivity|].
      exists (- 2 ^ 52)%Z. replace (qz z) with (- qz (2 ^ 53))%Qc by (rewrite <- A; ring). apply Qc_is_canon. vm_compute. reflexivity.
    - exists (z * 2 ^ (52 - exponent (qz z)))%Z. rewrite qz_mul. f_equal. unfold two_to. destruct (Z.leb_spec 0 (52 - exponent (qz z))); [reflexivity|lia]. }
  rewrite Ey, half_even_whole, <- Ey. field. apply two_to_neq.
Qed.

(** ** Some order *)
Section Some.
Variable rnd : Qc -> Qc.
(** The sum from the first to the last *)
Definition in_order (l : list Qc) : Qc := match l with [] => 0%Qc | a :: l => fold_left (fun s b => rnd (s + b)%Qc) l a end.
Lemma in_order_from l : forall m a, m <> [] -> float_sum rnd m a -> float_sum rnd (m ++ l) (fold_left (fun s b => rnd (s + b)%Qc) l a).
Proof.
  induction l as [|b l IH]; intros m a N H; simpl; [now rewrite app_nil_r|]. replace (m ++ b :: l) with ((m ++ [b]) ++ l) by (rewrite <- app_assoc; reflexivity).
  apply IH; [intro Z; apply app_eq_nil in Z; destruct Z; discriminate|]. apply (sum_add rnd (m ++ [b]) m [b]); auto; [discriminate|constructor].
Qed.
Lemma in_order_sum l : float_sum rnd l (in_order l).
Proof. destruct l as [|a l]; [constructor|]. apply (in_order_from l [a] a); [discriminate|constructor]. Qed.
Lemma lin_some e x : { v | float_lin rnd e x v }.
Proof. eexists. apply in_order_sum. Qed.
Lemma quad_some e x : { v | float_quad rnd e x v }.
Proof.
  set (col := fun j => in_order (map (fun kc => rnd (rnd (snd kc) * nth (fst (fst kc)) x 0)%Qc) (filter (fun kc => Nat.eqb (snd (fst kc)) j) (qe_co e)))).
  eexists. exists (map col (seq 0 (qe_dim e))). split; [|apply in_order_sum]. intros j J. unfold float_column.
  rewrite (nth_indep _ 0%Qc (col 0)) by (rewrite map_length, seq_length; lia). rewrite map_nth, seq_nth by lia. apply in_order_sum.
Qed.
Lemma lhs_some c x : { v | float_lhs rnd c x v }.
Proof.
  destruct c as [c|c]; simpl; [apply lin_some|]. destruct (lin_some (qc_lin c) x) as [a A]. destruct (quad_some (qc_quad c) x) as [b B].
  exists (rnd (a + b)%Qc), a, b. auto.
Qed.
Lemma obj_some o x : { v | float_obj rnd o x v }.
Proof.
  destruct (lin_some (o_lin o) x) as [a A]. destruct (quad_some (o_quad o) x) as [b B]. eexists. exists a, b. split; [exact A|]. split; [exact B|reflexivity].
Qed.
Lemma sum_single a v : float_sum rnd [a] v -> v = a.
Proof.
  intro H. inversion H as [|b E|l l1 l2 b c N1 N2 P _ _]; subst; [reflexivity|]. apply Permutation_length in P. rewrite app_length in P. destruct l1, l2; simpl in P; try congruence; lia.
Qed.
Lemma sum_pair a b v : float_sum rnd [a; b] v -> v = rnd (a + b)%Qc.
Proof.
  intro H. inversion H as [| |l l1 l2 c d N1 N2 P S1 S2]; subst. pose proof (Permutation_length P) as L. rewrite app_length in L. simpl in L.
  destruct l1 as [|y [|? ?]]; [congruence| |destruct l2; simpl in L; [congruence|lia]]. destruct l2 as [|z [|? ?]]; [congruence| |simpl in L; lia].
  apply sum_single in S1. apply sum_single in S2. subst. apply Permutation_length_2_inv in P. destruct P as [P|P]; injection P as -> ->; [reflexivity|f_equal; ring].
Qed.
End Some.

Lemma equal_close rnd u v E L r : (0 <= u)%Qc -> (u <= 1 / qz 8)%Qc -> rel_error u rnd -> (qabs (v - L) <= E)%Qc -> float_violated rnd EQ v r = false ->
  (qabs (L - r) <= E + u * qabs r + qz 2 * rel_tol * (qabs L + qabs r + (E + u * qabs r)))%Qc.
Proof.
  intros U1 U2 R A H. simpl in H. apply negb_false_iff in H. pose proof (R r) as Rr. pose proof rel_tol_nonneg as Nt. pose proof (qabs_nonneg r) as Nr. pose proof (qabs_nonneg L) as NL.
  assert (u <= 1)%Qc as U3 by (eapply Qcle_trans; [exact U2|]; apply qleb_iff; reflexivity).
  assert (qabs (v - L) >= 0)%Qc as Nv by apply qabs_nonneg. assert (0 <= u * qabs r)%Qc as Nu by now apply mul_nonneg.
  set (m := (E + u * qabs r)%Qc) in *. set (S := (qabs L + qabs r + m)%Qc).
  assert (forall b, (qabs b <= S)%Qc -> (rnd (qabs (rnd r - v)) <= qabs (rnd (rnd rel_tol * b)))%Qc -> (qabs (rnd r - v) <= qz 2 * rel_tol * S)%Qc) as G.
  { intros b Bb D. destruct (rnd_bounds rnd u (qabs (rnd r - v)) U1 R (qabs_nonneg _)) as [D1 _]. destruct (tol_abs rnd u b U1 U3 R) as [_ T].
    pose proof (qabs_nonneg (rnd r - v)) as Nd. set (d := qabs (rnd r - v)) in *. clearbody d.
    assert (rel_tol * qabs b <= rel_tol * S)%Qc as TS by (apply mul_le; [exact Nt|apply Qcle_refl|apply qabs_nonneg|exact Bb]).
    assert (0 <= rel_tol * qabs b)%Qc as Nb by (apply mul_nonneg; [exact Nt|apply qabs_nonneg]). set (t := (rel_tol * qabs b)%Qc) in *. clearbody t.
    replace (qz 2 * rel_tol * S)%Qc with (qz 2 * (rel_tol * S))%Qc by ring. set (t2 := (rel_tol * S)%Qc) in *. clearbody t2.
    assert ((1 - 1 / qz 8) * d <= (1 + 1 / qz 8) * (1 + 1 / qz 8) * t2)%Qc as Q.
    { apply Qcle_trans with ((1 - u) * d)%Qc; [apply mul_le; [apply qleb_iff; reflexivity|qlra|exact Nd|apply Qcle_refl]|]. eapply Qcle_trans; [exact D1|]. eapply Qcle_trans; [exact D|]. eapply Qcle_trans; [exact T|].
      apply mul_le; auto; [apply mul_nonneg; qlra|]. apply mul_le; qlra. }
    assert (0 <= t2)%Qc as N2 by qlra. clear - Q N2 Nd.
    replace ((1 - 1 / qz 8) * d)%Qc with (qz 7 / qz 8 * d)%Qc in Q by (f_equal; apply Qc_is_canon; vm_compute; reflexivity).
    replace ((1 + 1 / qz 8) * (1 + 1 / qz 8) * t2)%Qc with (qz 81 / qz 64 * t2)%Qc in Q by (f_equal; apply Qc_is_canon; vm_compute; reflexivity).
    apply (Qcmult_le_compat_r _ _ (qz 64 / qz 7)%Qc) in Q; [|apply qleb_iff; reflexivity].
    replace (qz 7 / qz 8 * d * (qz 64 / qz 7))%Qc with (qz 8 * d)%Qc in Q by (assert (qz 7 / qz 8 * (qz 64 / qz 7) = qz 8)%Qc as X by (apply Qc_is_canon; vm_compute; reflexivity); generalize dependent (qz 7 / qz 8)%Qc; generalize dependent (qz 64 / qz 7)%Qc; intros; rewrite <- X; ring).
    replace (qz 81 / qz 64 * t2 * (qz 64 / qz 7))%Qc with (qz 81 / qz 7 * t2)%Qc in Q by (assert (qz 81 / qz 64 * (qz 64 / qz 7) = qz 81 / qz 7)%Qc as X by (apply Qc_is_canon; vm_compute; reflexivity); rewrite <- X; ring).
    assert (qz 81 / qz 7 * t2 <= qz 16 * t2)%Qc as Q2 by (apply Qcmult_le_compat_r; [apply qleb_iff; reflexivity|exact N2]).
    assert (qz 16 * t2 = qz 8 * (qz 2 * t2))%Qc as Q3 by (replace (qz 16) with (qz 8 * qz 2)%Qc by (apply Qc_is_canon; vm_compute; reflexivity); ring).
    apply Qcnot_lt_le. intro C. assert (qz 8 * (qz 2 * t2) < qz 8 * d)%Qc as C2. { rewrite (Qcmult_comm (qz 8) (qz 2 * t2)), (Qcmult_comm (qz 8) d). apply Qcmult_lt_compat_r; [apply qltb_iff; reflexivity|exact C]. }
    rewrite Q3 in Q2. apply (Qclt_not_le _ _ C2). eapply Qcle_trans; eassumption. }
  pose proof (qabs_triangle (v - L) L) as T1. replace (v - L + L)%Qc with v in T1 by ring.
  pose proof (qabs_triangle (rnd r - r) r) as T2. replace (rnd r - r + r)%Qc with (rnd r) in T2 by ring.
  assert (qabs v <= S)%Qc as Bv by (unfold S, m; qlra). assert (qabs (rnd r) <= S)%Qc as Br by (unfold S, m; qlra).
  assert (qabs (rnd r - v) <= qz 2 * rel_tol * S)%Qc as F.
  { unfold float_isclose in H. rewrite !orb_true_iff, qeqb_iff, !qleb_iff in H. destruct H as [[H|H]|H].
    - rewrite <- H. replace (v - v)%Qc with 0%Qc by ring. rewrite qabs_zero. apply mul_nonneg; [apply mul_nonneg; [apply qleb_iff; reflexivity|exact Nt]|]. unfold S, m. qlra.
    - exact (G _ Br H).
    - exact (G _ Bv H). }
  pose proof (qabs_triangle (- (v - L)) (- (rnd r - v))) as T3. rewrite !qabs_opp in T3. pose proof (qabs_triangle (- (v - L) + - (rnd r - v)) (rnd r - r)) as T4.
  replace (- (v - L) + - (rnd r - v) + (rnd r - r))%Qc with (L - r)%Qc in T4 by ring. unfold m in *. qlra.
Qed.
(** A program with one linear constraint of two terms *)
Definition report_two (p : qp) (x : list Qc) : option (csense * bool * bool * nat) :=
  match all_cons p with
  | [CLin c] => match map (fun kc => to_double (to_double (snd kc) * nth (fst kc) x 0)%Qc) (le_co (lc_lin c)) with
                | [a; b] => let r := float_info to_double p x (fun _ => to_double (a + b)%Qc) in Some (any_sense (CLin c), fst (fst r), Nat.eqb (length (snd (fst r))) 0, length (snd r))
                | _ => None end
  | _ => None end.
Lemma report_two_is p x s f n : report_two p x = Some (s, f, true, n) -> exists c, all_cons p = [c] /\ any_sense c = s /\
  forall lhs, (forall c, In c (all_cons p) -> float_lhs to_double c x (lhs c)) -> float_info to_double p x lhs = (f, [], if Nat.eqb n 0 then [] else [c]).
Proof.
  unfold report_two. destruct (all_cons p) as [|[c|c] [|? ?]] eqn:A; try discriminate. destruct (map _ (le_co (lc_lin c))) as [|a [|b [|? ?]]] eqn:T; try discriminate.
  cbv zeta. intro H. injection H as Hs Hf Hl Hn. exists (CLin c). split; [reflexivity|]. split; [exact Hs|]. intros lhs L. specialize (L _ (or_introl eq_refl)). unfold float_lhs, float_lin in L. rewrite T in L. apply sum_pair in L.
  unfold float_info in *. rewrite A in *. cbn [filter fst snd] in *. rewrite L. destruct (map fst _); [|discriminate Hl]. clear Hl.
  destruct (float_violated _ _ _ _); simpl in *; subst; reflexivity.
Qed.
(** Checks *)
Lemma dgetq_integral {K} (eqb : K -> K -> bool) k (l : list (K * Qc)) : forallb (fun kv => is_integer (snd kv)) l = true -> integral (dgetq eqb k l).
Proof.
  unfold dgetq. induction l as [|[k' v] l IH]; simpl; [intros _; apply integral_0|]. rewrite andb_true_iff. intros [A B]. destruct (eqb k k'); [now apply is_integer_spec|now apply IH].
Qed.
Lemma whole_lin_b e : forallb (fun kv => is_integer (snd kv)) (le_co e) = true -> whole_lin e.
Proof. intros H i. now apply dgetq_integral. Qed.
Lemma whole_quad_b e : forallb (fun kv => is_integer (snd kv)) (qe_co e) = true -> whole_quad e.
Proof. intros H i j. unfold coef2, mget. now apply dgetq_integral. Qed.
Definition whole_con_b (c : anycon) : bool :=
  is_integer (any_rhs c) && match c with
  | CLin c => forallb (fun kv => is_integer (snd kv)) (le_co (lc_lin c))
  | CQuad c => forallb (fun kv => is_integer (snd kv)) (le_co (qc_lin c)) && forallb (fun kv => is_integer (snd kv)) (qe_co (qc_quad c)) end.
Lemma whole_con_b_ok c : whole_con_b c = true -> whole_con c.
Proof.
  unfold whole_con_b, whole_con. rewrite andb_true_iff. intros [A B]. split; [now apply is_integer_spec|]. destruct c; [now apply whole_lin_b|].
  apply andb_true_iff in B. destruct B. split; [now apply whole_lin_b|now apply whole_quad_b].
Qed.
Definition sized_b (n : Qc) (x : list Qc) (c : anycon) : bool :=
  whole_con_b c && qleb (top c x) n && qleb (qabs (any_rhs c)) n && match any_sense c with EQ => qleb (top c x) (qz 500000000) && qleb (qabs (any_rhs c)) (qz 500000000) | _ => true end.
Lemma sized_b_ok n x l : forallb (sized_b n x) l = true -> forall c, In c l -> whole_con c /\ (top c x <= n)%Qc /\ (qabs (any_rhs c) <= n)%Qc /\
  (any_sense c = EQ -> (top c x <= qz 500000000)%Qc /\ (qabs (any_rhs c) <= qz 500000000)%Qc).
Proof.
  rewrite forallb_forall. intros H c Hc. specialize (H c Hc). unfold sized_b in H. rewrite !andb_true_iff in H. destruct H as [[[A B] C] D].
  split; [now apply whole_con_b_ok|]. split; [now apply qleb_iff|]. split; [now apply qleb_iff|]. intro E. rewrite E in D. apply andb_true_iff in D. now rewrite !qleb_iff in D.
Qed.
Lemma ok_same {A} (a b : A) : Ok a = Ok b -> a = b. Proof. congruence. Qed.
Lemma bounds_b_ok rnd l : forallb (fun v => qeqb (rnd (v_lb v)) (v_lb v) && qeqb (rnd (v_ub v)) (v_ub v)) l = true -> Forall (fun v => rnd (v_lb v) = v_lb v /\ rnd (v_ub v) = v_ub v) l.
Proof. rewrite forallb_forall, Forall_forall. intros H v Hv. specialize (H v Hv). now rewrite andb_true_iff, !qeqb_iff in H. Qed.
