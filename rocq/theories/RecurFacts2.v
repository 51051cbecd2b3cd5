(** * Facts about the recursive optimizer: shifting a variable of the objective *)
From Verif Require Export RecurFacts.
Local Open Scope nat_scope.

Definition step_up (i : nat) (y x : list Qc) : Prop :=
  length x = length y /\ forall k, k < length y -> at_ x k = (at_ y k + if Nat.eqb k i then 1 else 0)%Qc.
(** What adding one to x_i adds to the coefficient of x_k *)
Definition delta (e : quadexpr) (i k : nat) : Qc := if Nat.eqb k i then (qz 2 * coef2 e i i)%Qc else coef2 e (Nat.min i k) (Nat.max i k).
Definition cut (c : Qc) : Qc := if qltb TINY (qabs c) then c else 0%Qc.

Lemma upper_zero e i j : quad_upper e -> j < i -> coef2 e i j = 0%Qc.
Proof.
  intros U L. unfold coef2, mget, dgetq. destruct (dget nat2_eqb (i, j) (qe_co e)) as [v|] eqn:E; auto.
  apply (dget_in _ nat2_eqb_sp) in E. unfold quad_upper in U. rewrite Forall_forall in U. specialize (U _ E). cbn in U. lia.
Qed.
Lemma delta_sum e i k : quad_upper e -> delta e i k = (coef2 e i k + coef2 e k i)%Qc.
Proof.
  intro U. unfold delta. destruct (Nat.eqb_spec k i) as [->|N].
  - change (qz 2) with (1 + 1)%Qc. ring.
  - destruct (Nat.lt_ge_cases i k).
    + rewrite Nat.min_l, Nat.max_r by lia. rewrite (upper_zero e k i) by (auto; lia). ring.
    + rewrite Nat.min_r, Nat.max_l by lia. rewrite (upper_zero e i k) by (auto; lia). ring.
Qed.
Lemma lin_step e i y x : step_up i y x -> i < length y -> lin_at e x = (lin_at e y + coef1 e i)%Qc.
Proof.
  intros [L H] Hi. unfold lin_at. rewrite L, <- (sumof_seq_pick (fun k => coef1 e k) (length y) i Hi), <- sumof_add.
  apply sumof_seq_ext. intros k [_ Hk]. rewrite H by auto. destruct (Nat.eqb k i); ring.
Qed.
Lemma quad_step e i y x : quad_upper e -> step_up i y x -> i < length y ->
  quad_at e x = (quad_at e y + sumof (fun k => (delta e i k * at_ y k)%Qc) (seq 0 (length y)) + coef2 e i i)%Qc.
Proof.
  intros U [L H] Hi. unfold quad_at. rewrite L. set (n := length y) in *.
  rewrite (sumof_seq_ext _ (fun a => (sumof (fun b => coef2 e a b * at_ y a * at_ y b)%Qc (seq 0 n) + at_ y a * coef2 e a i
      + if Nat.eqb a i then sumof (fun b => coef2 e a b * at_ y b)%Qc (seq 0 n) + coef2 e a i else 0)%Qc) 0 n).
  - rewrite !sumof_add, (sumof_seq_pick (fun a => sumof (fun b => coef2 e a b * at_ y b)%Qc (seq 0 n) + coef2 e a i)%Qc) by auto.
    rewrite (sumof_ext (fun k => (delta e i k * at_ y k)%Qc) (fun k => (coef2 e i k * at_ y k + at_ y k * coef2 e k i)%Qc)).
    + rewrite sumof_add. ring.
    + intros k _. rewrite delta_sum by auto. ring.
  - intros a [_ Ha]. rewrite <- (sumof_seq_pick (fun b => coef2 e a b) n i Hi) at 1. rewrite <- sumof_scale.
    rewrite <- sumof_add. destruct (Nat.eqb_spec a i) as [->|Na].
    + rewrite <- (sumof_seq_pick (fun b => coef2 e i b) n i Hi). rewrite <- !sumof_add. apply sumof_seq_ext. intros b [_ Hb]. rewrite !H by auto. rewrite Nat.eqb_refl.
      destruct (Nat.eqb b i); ring.
    + rewrite Qcplus_0_r. apply sumof_seq_ext. intros b [_ Hb]. rewrite !H by auto. apply Nat.eqb_neq in Na. rewrite Na. destruct (Nat.eqb b i); ring.
Qed.

(** ** Reading and writing coefficients by position *)
Lemma dok_index_nat n k : k < n -> dok_index n (Z.of_nat k) = Ok k.
Proof. intro H. unfold dok_index. now rewrite py_index_nat. Qed.
Lemma lin_get_nat env e k : k < le_dim e -> lin_get env e (KI (Z.of_nat k)) = Ok (coef1 e k).
Proof. intro H. unfold lin_get. cbn [resolve bind]. now rewrite dok_index_nat. Qed.
Lemma quad_get_nat env e i k : i < qe_dim e -> k < qe_dim e -> quad_get env e (KI (Z.of_nat i), KI (Z.of_nat k)) = Ok (coef2 e (Nat.min i k) (Nat.max i k)).
Proof.
  intros Hi Hk. unfold quad_get, quad_pos. cbn [resolve bind fst snd]. rewrite <- Nat2Z.inj_min, <- Nat2Z.inj_max, !dok_index_nat by lia. reflexivity.
Qed.
Lemma lin_set_nat env e k v : lin_wf e -> k < le_dim e -> exists e', lin_set env e (KI (Z.of_nat k)) v = Ok e' /\ lin_wf e' /\ le_dim e' = le_dim e /\
  le_int e' = le_int e /\ forall j, coef1 e' j = if Nat.eqb j k then dtype_cast (le_int e) v else coef1 e j.
Proof.
  intros [W1 W2] Hk. unfold lin_set, lin_put. cbn [resolve bind fst snd]. rewrite dok_index_nat by auto. cbn [bind]. eexists. split; [reflexivity|].
  cbn [le_dim le_int]. split; [split; cbn; [now apply (dok_put_nodup _ nat_eqb_sp)|apply (dok_put_Forall _ nat_eqb_sp); auto]|]. split; auto. split; auto.
  intro j. unfold coef1. cbn [le_co]. now rewrite (dgetq_dok_put _ nat_eqb_sp) by auto.
Qed.

Lemma shift_coef_spec i p k : lin_wf (o_lin (p_obj p)) -> le_int (o_lin (p_obj p)) = false -> k < le_dim (o_lin (p_obj p)) -> i < qe_dim (o_quad (p_obj p)) -> k < qe_dim (o_quad (p_obj p)) ->
  exists e, shift_coef i p k = (set_obj (mkObj (o_const (p_obj p)) e (o_quad (p_obj p)) (o_sense (p_obj p))) p, Ok tt) /\
    lin_wf e /\ le_dim e = le_dim (o_lin (p_obj p)) /\ le_int e = false /\
    forall j, coef1 e j = if Nat.eqb j k then cut (coef1 (o_lin (p_obj p)) k + delta (o_quad (p_obj p)) i k) else coef1 (o_lin (p_obj p)) j.
Proof.
  intros W I Hk Hi Hk'. unfold shift_coef, on_objective. rewrite lin_get_nat, quad_get_nat by auto. cbn [bind].
  set (c := if Nat.eqb k i then _ else _).
  destruct (lin_set_nat (env_of p) (o_lin (p_obj p)) k (if qltb TINY (qabs c) then c else 0%Qc) W Hk) as (e & E & We & De & Ie & Ce).
  cbv zeta. rewrite E. cbn [bind]. exists e. split; auto. split; auto. split; auto. split; [congruence|]. intro j. rewrite Ce, I. cbn [dtype_cast].
  assert (c = (coef1 (o_lin (p_obj p)) k + delta (o_quad (p_obj p)) i k)%Qc) as ->; [|reflexivity].
  unfold c, delta. destruct (Nat.eqb_spec k i) as [->|]; auto. now rewrite Nat.min_id, Nat.max_id.
Qed.
Lemma shift_coefs_spec i ks : forall p, NoDup ks -> lin_wf (o_lin (p_obj p)) -> le_int (o_lin (p_obj p)) = false -> i < qe_dim (o_quad (p_obj p)) ->
  Forall (fun k => k < le_dim (o_lin (p_obj p)) /\ k < qe_dim (o_quad (p_obj p))) ks ->
  exists e, shift_coefs i p ks = (set_obj (mkObj (o_const (p_obj p)) e (o_quad (p_obj p)) (o_sense (p_obj p))) p, Ok tt) /\
    lin_wf e /\ le_dim e = le_dim (o_lin (p_obj p)) /\ le_int e = false /\
    (forall j, In j ks -> coef1 e j = cut (coef1 (o_lin (p_obj p)) j + delta (o_quad (p_obj p)) i j)) /\
    (forall j, ~ In j ks -> coef1 e j = coef1 (o_lin (p_obj p)) j).
Proof.
  induction ks as [|k ks IH]; intros p N W I Hi F; cbn [shift_coefs].
  - exists (o_lin (p_obj p)). split; [|split; auto; split; auto; split; auto; split; auto; intros j []]. f_equal. destruct p as [? ? ? ? ? ? ? ? [? ? ? ?]]. reflexivity.
  - inversion N as [|? ? Nk Nks]; subst. inversion F as [|? ? [F1 F2] F3]; subst. destruct (shift_coef_spec i p k W I F1 Hi F2) as (e1 & E1 & W1 & D1 & I1 & C1).
    rewrite E1. set (p1 := set_obj _ p). destruct (IH p1) as (e & E & We & De & Ie & A & B); auto.
    { cbn. rewrite D1. exact F3. }
    cbn in E, De, A, B. exists e. split; [exact E|]. split; auto. split; [congruence|]. split; auto. split.
    + intros j [<-|Hj].
      * rewrite B by auto. rewrite C1. now rewrite Nat.eqb_refl.
      * rewrite A by auto. rewrite C1. destruct (Nat.eqb_spec j k) as [->|]; [contradiction|reflexivity].
    + intros j Hj. rewrite B by (intro; apply Hj; now right). rewrite C1. destruct (Nat.eqb_spec j k) as [->|]; [exfalso; apply Hj; now left|reflexivity].
Qed.

(** The shifted program *)
Definition shifted (p : qp) (i : nat) (p' : qp) : Prop := exists e, p' = set_obj (mkObj (o_const (p_obj p) + coef1 (o_lin (p_obj p)) i + coef2 (o_quad (p_obj p)) i i)%Qc e (o_quad (p_obj p)) (o_sense (p_obj p))) p /\
  lin_shape (num_vars p) e /\ le_int e = false /\ forall k, k < num_vars p -> coef1 e k = cut (coef1 (o_lin (p_obj p)) k + delta (o_quad (p_obj p)) i k).
Lemma shift_spec p i : obj_shaped p -> le_int (o_lin (p_obj p)) = false -> i < num_vars p -> exists p', shift_objective p i = (p', Ok tt) /\ shifted p i p'.
Proof.
  intros [[Wl Dl] [Wq Dq]] I Hi. unfold shift_objective, shift_const, on_objective. rewrite lin_get_nat, quad_get_nat by lia. cbn [bind].
  rewrite Nat.min_id, Nat.max_id. set (p1 := set_obj _ p). destruct (shift_coefs_spec i (seq 0 (num_vars p)) p1) as (e & E & We & De & Ie & A & _); auto using seq_NoDup.
  - cbn. lia.
  - apply Forall_forall. intros k Hk. apply in_seq in Hk. cbn. lia.
  - cbn in E, De, A. eexists. split; [exact E|]. exists e. split; [reflexivity|]. split; [split; [auto|lia]|]. split; auto. intros k Hk. apply A, in_seq. lia.
Qed.
Lemma TINY_pos : (0 < TINY)%Qc. Proof. reflexivity. Qed.
Lemma cut_err c : (qabs (c - cut c) <= TINY)%Qc.
Proof.
  unfold cut. destruct (qltb_spec TINY (qabs c)) as [L|L].
  - replace (c - c)%Qc with 0%Qc by ring. discriminate.
  - apply Qcnot_lt_le in L. now replace (c - 0)%Qc with c by ring.
Qed.
Lemma multiple_tiny g c : (TINY < g)%Qc -> multiple g c -> (qabs c <= TINY)%Qc -> c = 0%Qc.
Proof.
  intros Hg [z ->] H. destruct (Z.eq_dec z 0) as [->|N]; [rewrite qz_0; ring|]. exfalso. pose proof TINY_pos.
  apply qabs_bound in H. destruct H as [H1 H2]. destruct (Z.lt_trichotomy z 0) as [L|[L|L]]; [|congruence|].
  - assert (qz z <= qz (-1))%Qc as Q by (apply qz_le; lia). change (qz (-1)) with (- (1))%Qc in Q. assert (qz z * g <= - (1) * g)%Qc by qnra. qlra.
  - assert (qz 1 <= qz z)%Qc as Q by (apply qz_le; lia). change (qz 1) with 1%Qc in Q. assert (1 * g <= qz z * g)%Qc by qnra. qlra.
Qed.
Lemma cut_multiple g c : (TINY < g)%Qc -> multiple g c -> cut c = c.
Proof.
  intros Hg M. unfold cut. destruct (qltb_spec TINY (qabs c)) as [L|L]; auto. symmetry. apply (multiple_tiny g); auto. now apply Qcnot_lt_le.
Qed.
(** The value of the shifted objective *)
Lemma shifted_value p i p' y x : shifted p i p' -> quad_upper (o_quad (p_obj p)) -> i < num_vars p -> length y = num_vars p -> step_up i y x ->
  obj_at (p_obj p') y = (obj_at (p_obj p) x - sumof (fun k => ((coef1 (o_lin (p_obj p)) k + delta (o_quad (p_obj p)) i k - coef1 (o_lin (p_obj p')) k) * at_ y k)%Qc) (seq 0 (num_vars p)))%Qc.
Proof.
  intros (e & -> & _ & _ & C) U Hi L S. unfold obj_at. cbn [p_obj set_obj o_const o_lin o_quad].
  rewrite (lin_step _ i y x), (quad_step _ i y x) by (auto; lia). rewrite L.
  rewrite (sumof_ext (fun k => ((coef1 (o_lin (p_obj p)) k + delta (o_quad (p_obj p)) i k - coef1 e k) * at_ y k)%Qc)
     (fun k => (coef1 (o_lin (p_obj p)) k * at_ y k + delta (o_quad (p_obj p)) i k * at_ y k - coef1 e k * at_ y k)%Qc)) by (intros; ring).
  rewrite sumof_sub, sumof_add. unfold lin_at. rewrite L. ring.
Qed.
