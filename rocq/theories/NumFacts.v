(** * Facts about numbers and finite sums *)
From Verif Require Export Num.
From Coq Require Import Permutation.
Local Open Scope Qc_scope.

(** ** Integers inside the rationals *)
Lemma qz_0 : qz 0 = 0. Proof. apply Qc_is_canon; reflexivity. Qed.
Lemma qz_1 : qz 1 = 1. Proof. apply Qc_is_canon; reflexivity. Qed.
Lemma qz_add a b : qz (a + b) = qz a + qz b.
Proof. apply Qc_is_canon. rewrite this_add, !this_qz. now rewrite inject_Z_plus. Qed.
Lemma qz_mul a b : qz (a * b) = qz a * qz b.
Proof. apply Qc_is_canon. rewrite this_mul, !this_qz. now rewrite inject_Z_mult. Qed.
Lemma qz_opp a : qz (- a) = - qz a.
Proof. apply Qc_is_canon. rewrite this_opp, !this_qz. now rewrite inject_Z_opp. Qed.
Lemma qz_sub a b : qz (a - b) = qz a - qz b.
Proof. unfold Z.sub. rewrite qz_add, qz_opp. ring. Qed.
Lemma qz_le a b : qz a <= qz b <-> (a <= b)%Z.
Proof. unfold Qcle. rewrite !this_qz. rewrite <- Zle_Qle. reflexivity. Qed.
Lemma qz_lt a b : qz a < qz b <-> (a < b)%Z.
Proof. unfold Qclt. rewrite !this_qz. rewrite <- Zlt_Qlt. reflexivity. Qed.
Lemma qz_inj a b : qz a = qz b -> a = b.
Proof. intro H. assert (qz a <= qz b /\ qz b <= qz a) as [H1 H2].
  { rewrite H; split; apply Qcle_refl. }
  rewrite qz_le in H1. rewrite qz_le in H2. lia. Qed.
Lemma qz_succ a : qz (Z.succ a) = qz a + 1.
Proof. unfold Z.succ. rewrite qz_add, qz_1. reflexivity. Qed.

Lemma qn_0 : qn 0 = 0. Proof. apply qz_0. Qed.
Lemma qn_S n : qn (S n) = 1 + qn n.
Proof. unfold qn. rewrite Nat2Z.inj_succ, qz_succ. ring. Qed.
Lemma qn_add a b : qn (a + b) = qn a + qn b.
Proof. unfold qn. rewrite Nat2Z.inj_add, qz_add. reflexivity. Qed.
Lemma qn_le a b : qn a <= qn b <-> (a <= b)%nat.
Proof. unfold qn. rewrite qz_le. lia. Qed.
Lemma qn_inj a b : qn a = qn b -> a = b.
Proof. unfold qn. intro H. apply qz_inj in H. lia. Qed.
Lemma qn_nonneg a : 0 <= qn a.
Proof. rewrite <- qn_0. apply qn_le. lia. Qed.

(** Being an integer, as a proposition. *)
Definition integral (q : Qc) : Prop := exists z : Z, q = qz z.

Lemma integral_qz z : integral (qz z). Proof. now exists z. Qed.
Lemma integral_0 : integral 0. Proof. exists 0%Z; now rewrite qz_0. Qed.
Lemma integral_1 : integral 1. Proof. exists 1%Z; now rewrite qz_1. Qed.
Lemma integral_add a b : integral a -> integral b -> integral (a + b).
Proof. intros [x ->] [y ->]. exists (x + y)%Z. now rewrite qz_add. Qed.
Lemma integral_mul a b : integral a -> integral b -> integral (a * b).
Proof. intros [x ->] [y ->]. exists (x * y)%Z. now rewrite qz_mul. Qed.
Lemma integral_opp a : integral a -> integral (- a).
Proof. intros [x ->]. exists (- x)%Z. now rewrite qz_opp. Qed.
Lemma integral_sub a b : integral a -> integral b -> integral (a - b).
Proof. intros. apply integral_add; [|apply integral_opp]; assumption. Qed.

Lemma is_integer_spec q : is_integer q = true <-> integral q.
Proof.
  unfold is_integer. rewrite Pos.eqb_eq. split.
  - intro H. exists (Qnum (this q)). apply Qc_is_canon. rewrite this_qz.
    destruct (this q) as [n d]; simpl in *. subst d. reflexivity.
  - intros [z ->]. unfold qz, Q2Qc; cbn [this].
    unfold inject_Z, Qred.
    pose proof (Z.ggcd_gcd z 1) as G. pose proof (Z.ggcd_correct_divisors z 1) as D.
    destruct (Z.ggcd z 1) as [g [aa bb]] eqn:E. simpl in *.
    destruct D as [D1 D2].
    assert (g = 1%Z) as ->. { rewrite G. apply Z.gcd_1_r. }
    replace bb with 1%Z by lia. reflexivity.
Qed.

Lemma qfloor_le q : qz (qfloor q) <= q.
Proof. unfold Qcle, qfloor. rewrite this_qz. apply Qfloor_le. Qed.
Lemma qfloor_lt q : q < qz (qfloor q) + 1.
Proof. rewrite <- qz_succ. unfold Qclt, qfloor. rewrite this_qz. apply Qlt_floor. Qed.
Lemma qceil_le q : q <= qz (qceil q).
Proof. unfold Qcle, qceil. rewrite this_qz. apply Qle_ceiling. Qed.
Lemma qceil_lt q : qz (qceil q) - 1 < q.
Proof.
  replace (qz (qceil q) - 1) with (qz (qceil q - 1)) by (rewrite qz_sub, qz_1; reflexivity).
  unfold Qclt, qceil. rewrite this_qz. apply Qceiling_lt.
Qed.
Lemma floor_greatest z q : qz z <= q -> (z <= qfloor q)%Z.
Proof.
  intro H. pose proof (qfloor_lt q) as H1.
  assert (qz z < qz (qfloor q + 1)). { rewrite qz_add, qz_1. qlra. }
  rewrite qz_lt in H0. lia.
Qed.
Lemma ceil_least z q : q <= qz z -> (qceil q <= z)%Z.
Proof.
  intro H. pose proof (qceil_lt q) as H1.
  assert (qz (qceil q - 1) < qz z). { rewrite qz_sub, qz_1. qlra. }
  rewrite qz_lt in H0. lia.
Qed.
Lemma floor_qz z : qfloor (qz z) = z.
Proof.
  pose proof (floor_greatest z (qz z) (Qcle_refl _)).
  pose proof (qfloor_le (qz z)) as H1. rewrite qz_le in H1. lia.
Qed.
Lemma ceil_qz z : qceil (qz z) = z.
Proof.
  pose proof (ceil_least z (qz z) (Qcle_refl _)).
  pose proof (qceil_le (qz z)) as H1. rewrite qz_le in H1. lia.
Qed.

(** ** abs, min, max *)
Lemma qabs_nonneg q : 0 <= qabs q.
Proof. unfold qabs. destruct (qleb_spec 0 q); qlra. Qed.
Lemma qabs_le q : q <= qabs q.
Proof. unfold qabs. destruct (qleb_spec 0 q); qlra. Qed.
Lemma qabs_neg_le q : - qabs q <= q.
Proof. unfold qabs. destruct (qleb_spec 0 q); qlra. Qed.
Lemma qabs_bound q b : qabs q <= b <-> - b <= q /\ q <= b.
Proof. unfold qabs. destruct (qleb_spec 0 q); split; intros; try split; qlra. Qed.
Lemma qabs_bound_lt q b : qabs q < b <-> - b < q /\ q < b.
Proof. unfold qabs. destruct (qleb_spec 0 q); split; intros; try split; qlra. Qed.
Lemma qabs_0 q : qabs q = 0 <-> q = 0.
Proof. unfold qabs. destruct (qleb_spec 0 q); split; intros; qlra. Qed.
Lemma qabs_mul a b : qabs (a * b) = qabs a * qabs b.
Proof.
  unfold qabs. destruct (qleb_spec 0 a), (qleb_spec 0 b), (qleb_spec 0 (a * b)); try ring; qnra.
Qed.
Lemma qabs_triangle a b : qabs (a + b) <= qabs a + qabs b.
Proof.
  unfold qabs. destruct (qleb_spec 0 a), (qleb_spec 0 b), (qleb_spec 0 (a + b)); qlra.
Qed.
Lemma qabs_opp a : qabs (- a) = qabs a.
Proof. unfold qabs. destruct (qleb_spec 0 a), (qleb_spec 0 (- a)); qlra. Qed.
Lemma qmin_l a b : qmin a b <= a. Proof. unfold qmin. destruct (qleb_spec a b); qlra. Qed.
Lemma qmin_r a b : qmin a b <= b. Proof. unfold qmin. destruct (qleb_spec a b); qlra. Qed.
Lemma qmax_l a b : a <= qmax a b. Proof. unfold qmax. destruct (qleb_spec a b); qlra. Qed.
Lemma qmax_r a b : b <= qmax a b. Proof. unfold qmax. destruct (qleb_spec a b); qlra. Qed.
Lemma qmin_glb a b c : c <= qmin a b <-> c <= a /\ c <= b.
Proof. unfold qmin. destruct (qleb_spec a b); split; intros; try split; qlra. Qed.
Lemma qmax_lub a b c : qmax a b <= c <-> a <= c /\ b <= c.
Proof. unfold qmax. destruct (qleb_spec a b); split; intros; try split; qlra. Qed.

(** ** Finite sums *)
Fixpoint sumof {A} (f : A -> Qc) (l : list A) : Qc :=
  match l with [] => 0 | a :: l' => f a + sumof f l' end.

Section Sums.
Context {A : Type}.
Implicit Types (f g : A -> Qc) (l : list A).

Lemma sumof_nil f : sumof f [] = 0. Proof. reflexivity. Qed.
Lemma sumof_cons f a l : sumof f (a :: l) = f a + sumof f l. Proof. reflexivity. Qed.
Lemma sumof_app f l1 l2 : sumof f (l1 ++ l2) = sumof f l1 + sumof f l2.
Proof. induction l1 as [|a l1 IH]; simpl; [ring|rewrite IH; ring]. Qed.
Lemma sumof_ext f g l : (forall a, In a l -> f a = g a) -> sumof f l = sumof g l.
Proof. induction l as [|a l IH]; simpl; intros H; [reflexivity|]. rewrite H by auto. rewrite IH; auto. Qed.
Lemma sumof_add f g l : sumof (fun a => f a + g a) l = sumof f l + sumof g l.
Proof. induction l as [|a l IH]; simpl; [ring|rewrite IH; ring]. Qed.
Lemma sumof_sub f g l : sumof (fun a => f a - g a) l = sumof f l - sumof g l.
Proof. induction l as [|a l IH]; simpl; [ring|rewrite IH; ring]. Qed.
Lemma sumof_scale c f l : sumof (fun a => c * f a) l = c * sumof f l.
Proof. induction l as [|a l IH]; simpl; [ring|rewrite IH; ring]. Qed.
Lemma sumof_scale_r c f l : sumof (fun a => f a * c) l = sumof f l * c.
Proof. induction l as [|a l IH]; simpl; [ring|rewrite IH; ring]. Qed.
Lemma sumof_opp f l : sumof (fun a => - f a) l = - sumof f l.
Proof. induction l as [|a l IH]; simpl; [ring|rewrite IH; ring]. Qed.
Lemma sumof_zero f l : (forall a, In a l -> f a = 0) -> sumof f l = 0.
Proof. induction l as [|a l IH]; simpl; intros H; [reflexivity|]. rewrite H by auto. rewrite IH; [ring|auto]. Qed.
Lemma sumof_le f g l : (forall a, In a l -> f a <= g a) -> sumof f l <= sumof g l.
Proof.
  induction l as [|a l IH]; simpl; intros H; [qlra|].
  assert (f a <= g a) by auto. assert (sumof f l <= sumof g l) by auto. qlra.
Qed.
Lemma sumof_nonneg f l : (forall a, In a l -> 0 <= f a) -> 0 <= sumof f l.
Proof.
  induction l as [|a l IH]; simpl; intros H; [qlra|].
  assert (0 <= f a) by auto. assert (0 <= sumof f l) by auto. qlra.
Qed.
Lemma sumof_term_le f l a : (forall b, In b l -> 0 <= f b) -> In a l -> f a <= sumof f l.
Proof.
  induction l as [|b l IH]; simpl; intros H []; subst.
  - assert (0 <= sumof f l) by (apply sumof_nonneg; auto). qlra.
  - assert (f a <= sumof f l) by auto. assert (0 <= f b) by auto. qlra.
Qed.
Lemma sumof_nonneg_0 f l : (forall b, In b l -> 0 <= f b) -> sumof f l = 0 -> forall a, In a l -> f a = 0.
Proof.
  intros H E a Ha. pose proof (sumof_term_le f l a H Ha). specialize (H a Ha). qlra.
Qed.
Lemma sumof_integral f l : (forall a, In a l -> integral (f a)) -> integral (sumof f l).
Proof. induction l; simpl; intros H; [apply integral_0|apply integral_add; auto]. Qed.
Lemma sumof_perm f l1 l2 : Permutation l1 l2 -> sumof f l1 = sumof f l2.
Proof. induction 1; simpl; try ring; congruence. Qed.
Lemma sumof_filter f (p : A -> bool) l :
  sumof f (filter p l) = sumof (fun a => if p a then f a else 0) l.
Proof. induction l as [|a l IH]; simpl; [reflexivity|]. destruct (p a); simpl; rewrite IH; ring. Qed.
Lemma sumof_split f (p : A -> bool) l :
  sumof f l = sumof f (filter p l) + sumof f (filter (fun a => negb (p a)) l).
Proof. induction l as [|a l IH]; simpl; [ring|]. destruct (p a); simpl; rewrite IH; ring. Qed.
Lemma sumof_abs f l : qabs (sumof f l) <= sumof (fun a => qabs (f a)) l.
Proof.
  induction l as [|a l IH]; simpl; [unfold qabs; destruct (qleb_spec 0 0); qlra|].
  pose proof (qabs_triangle (f a) (sumof f l)). qlra.
Qed.
End Sums.

Lemma sumof_map {A B} (h : A -> B) (f : B -> Qc) l : sumof f (map h l) = sumof (fun a => f (h a)) l.
Proof. induction l as [|a l IH]; simpl; [reflexivity|now rewrite IH]. Qed.
Lemma sumof_flat_map {A B} (h : A -> list B) (f : B -> Qc) l :
  sumof f (flat_map h l) = sumof (fun a => sumof f (h a)) l.
Proof. induction l as [|a l IH]; simpl; [reflexivity|]. now rewrite sumof_app, IH. Qed.
Lemma sumof_swap {A B} (f : A -> B -> Qc) l1 l2 :
  sumof (fun a => sumof (f a) l2) l1 = sumof (fun b => sumof (fun a => f a b) l1) l2.
Proof.
  induction l1 as [|a l1 IH]; simpl.
  - rewrite sumof_zero; [reflexivity|auto].
  - rewrite IH, sumof_add. reflexivity.
Qed.
Lemma sumof_mul {A B} (f : A -> Qc) (g : B -> Qc) l1 l2 :
  sumof f l1 * sumof g l2 = sumof (fun a => sumof (fun b => f a * g b) l2) l1.
Proof.
  rewrite <- sumof_scale_r. apply sumof_ext. intros a _. now rewrite sumof_scale.
Qed.
Lemma sumof_const {A} (c : Qc) (l : list A) : sumof (fun _ => c) l = qn (length l) * c.
Proof. induction l as [|a l IH]; simpl; [rewrite qn_0; ring|]. rewrite IH, qn_S. ring. Qed.

(** Picking one term out of a sum. *)
Lemma sumof_pick {A} (dec : forall a b : A, {a = b} + {a <> b}) (f : A -> Qc) l a :
  NoDup l -> In a l -> sumof (fun b => if dec b a then f b else 0) l = f a.
Proof.
  induction l as [|b l IH]; simpl; intros Hnd [].
  - subst b. inversion Hnd; subst. destruct (dec a a); [|congruence].
    rewrite sumof_zero; [ring|]. intros b Hb. destruct (dec b a); [subst; contradiction|reflexivity].
  - inversion Hnd; subst. destruct (dec b a); [subst; contradiction|]. rewrite IH; auto. ring.
Qed.
Lemma sumof_seq_pick (f : nat -> Qc) n k :
  (k < n)%nat -> sumof (fun i => if Nat.eqb i k then f i else 0) (seq 0 n) = f k.
Proof.
  intro H. rewrite <- (sumof_pick Nat.eq_dec f (seq 0 n) k).
  - apply sumof_ext. intros i _. destruct (Nat.eqb_spec i k), (Nat.eq_dec i k); congruence.
  - apply seq_NoDup.
  - apply in_seq. lia.
Qed.
Lemma sumof_seq_ext (f g : nat -> Qc) s n :
  (forall i, (s <= i < s + n)%nat -> f i = g i) -> sumof f (seq s n) = sumof g (seq s n).
Proof. intro H. apply sumof_ext. intros i Hi. apply in_seq in Hi. apply H. lia. Qed.
Lemma sumof_seq_shift (f : nat -> Qc) s n : sumof f (seq (S s) n) = sumof (fun i => f (S i)) (seq s n).
Proof. rewrite <- seq_shift, sumof_map. reflexivity. Qed.
Lemma sumof_seq_S_r (f : nat -> Qc) s n : sumof f (seq s (S n)) = sumof f (seq s n) + f (s + n)%nat.
Proof. rewrite seq_S, sumof_app. simpl. ring. Qed.
Lemma sumof_seq_split (f : nat -> Qc) s n m :
  sumof f (seq s (n + m)) = sumof f (seq s n) + sumof f (seq (s + n) m).
Proof. rewrite seq_app, sumof_app. reflexivity. Qed.
