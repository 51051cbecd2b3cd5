(** * Exactness of the penalty *)
From Verif Require Export PenFacts.
Local Open Scope nat_scope.

Lemma violation_nonneg cs x : (0 <= violation cs x)%Qc.
Proof. apply sumof_nonneg. intros c _. generalize (lc_rhs c - lc_at c x)%Qc. intro a. qnra. Qed.
Lemma square_zero a : (a * a)%Qc = 0%Qc -> a = 0%Qc.
Proof. intro H. destruct (Qcmult_integral _ _ H); auto. Qed.
Lemma violation_zero cs x : Forall (fun c => lc_sense c = EQ) cs ->
  (violation cs x = 0%Qc <-> Forall (fun c => holds (lc_sense c) (lc_at c x) (lc_rhs c)) cs).
Proof.
  intro E. split.
  - intro H. apply Forall_forall. intros c Hc. rewrite Forall_forall in E. rewrite (E c Hc). simpl.
    assert ((lc_rhs c - lc_at c x) * (lc_rhs c - lc_at c x) = 0)%Qc as Z.
    { apply (sumof_nonneg_0 (fun c => ((lc_rhs c - lc_at c x) * (lc_rhs c - lc_at c x))%Qc) cs); auto. intros b _. generalize (lc_rhs b - lc_at b x)%Qc. intro a. qnra. }
    apply square_zero in Z. qlra.
  - intro H. unfold violation. transitivity (sumof (fun _ : lincon => 0%Qc) cs); [|apply sumof_zero; auto]. apply sumof_ext. intros c Hc.
    rewrite Forall_forall in *. specialize (H c Hc). rewrite (E c Hc) in H. simpl in H. rewrite H. ring.
Qed.
Lemma integral_square_ge1 a : integral a -> a <> 0%Qc -> (1 <= a * a)%Qc.
Proof.
  intros [z ->] N. assert (z <> 0)%Z as Z by (intros ->; apply N; apply qz_0). rewrite <- qz_mul, <- qz_1. apply qz_le. nia.
Qed.
Lemma violation_big cs x : Forall (fun c => lc_sense c = EQ) cs -> Forall (fun c => int_lin (lc_lin c) /\ integral (lc_rhs c)) cs ->
  Forall (fun c => lin_wf (lc_lin c)) cs -> (forall i, integral (at_ x i)) ->
  violation cs x <> 0%Qc -> (1 <= violation cs x)%Qc.
Proof.
  intros E I W X. unfold violation. induction cs as [|c cs IH]; simpl; [congruence|]. intro N.
  inversion E as [|? ? E1 E2]; inversion I as [|? ? [I1 I2] I3]; inversion W as [|? ? W1 W2]; subst.
  assert (0 <= sumof (fun c => ((lc_rhs c - lc_at c x) * (lc_rhs c - lc_at c x))%Qc) cs)%Qc as P by apply violation_nonneg.
  assert (integral (lc_rhs c - lc_at c x)) as J.
  { apply integral_sub; auto. unfold lc_at. unfold lin_at. apply sumof_integral. intros i _. apply integral_mul; auto.
    unfold coef1. unfold dgetq. destruct (dget Nat.eqb i (le_co (lc_lin c))) as [v|] eqn:D; [|apply integral_0].
    apply (dget_in _ nat_eqb_sp) in D. unfold int_lin in I1. rewrite Forall_forall in I1. apply (I1 _ D). }
  destruct (Qc_eq_dec (lc_rhs c - lc_at c x) 0) as [Z|Z].
  - rewrite Z in *. assert (1 <= sumof (fun c => ((lc_rhs c - lc_at c x) * (lc_rhs c - lc_at c x))%Qc) cs)%Qc; [|qlra].
    apply IH; auto. intro K. apply N. rewrite K. ring.
  - pose proof (integral_square_ge1 _ J Z). qlra.
Qed.

Lemma bits_at vs x : Forall (fun v => v_type v = BINARY) vs -> Forall2 has_type vs x -> forall i, at_ x i = 0%Qc \/ at_ x i = 1%Qc.
Proof.
  intros B T. induction T as [|v a vs x H T IH]; intro i.
  - left. unfold at_. now destruct i.
  - inversion B; subst. destruct i as [|i]; [|now apply IH]. unfold at_. simpl. unfold has_type in H. rewrite H2 in H. exact H.
Qed.
Lemma abs_le a : (a <= qabs a)%Qc /\ (- a <= qabs a)%Qc /\ (0 <= qabs a)%Qc.
Proof. unfold qabs. destruct (qleb_spec 0 a); [|apply Qcnot_le_lt in n]; repeat split; qlra. Qed.
Lemma lin_range x y : (forall i, at_ x i = 0%Qc \/ at_ x i = 1%Qc) -> (forall i, at_ y i = 0%Qc \/ at_ y i = 1%Qc) -> forall (l : list (nat * Qc)),
  (dsum (at_ x) l - dsum (at_ y) l <= sumof (fun kv => qabs (snd kv)) l)%Qc.
Proof.
  intros X Y. induction l as [|[i v] l IH]; simpl; [rewrite !dsum_nil; qlra|]. rewrite !dsum_cons.
  destruct (abs_le v) as (A & B & C). destruct (X i) as [-> | ->], (Y i) as [-> | ->]; qlra.
Qed.
Lemma quad_range x y : (forall i, at_ x i = 0%Qc \/ at_ x i = 1%Qc) -> (forall i, at_ y i = 0%Qc \/ at_ y i = 1%Qc) -> forall (l : list ((nat * nat) * Qc)),
  (dsum (fun ij => (at_ x (fst ij) * at_ x (snd ij))%Qc) l - dsum (fun ij => (at_ y (fst ij) * at_ y (snd ij))%Qc) l <= sumof (fun kv => qabs (snd kv)) l)%Qc.
Proof.
  intros X Y. induction l as [|[[i j] v] l IH]; simpl; [rewrite !dsum_nil; qlra|]. rewrite !dsum_cons. cbn [fst snd].
  destruct (abs_le v) as (A & B & C). 
  assert ((at_ x i * at_ x j)%Qc = 0%Qc \/ (at_ x i * at_ x j)%Qc = 1%Qc) as P by (destruct (X i) as [-> | ->], (X j) as [-> | ->]; [left|left|left|right]; ring).
  assert ((at_ y i * at_ y j)%Qc = 0%Qc \/ (at_ y i * at_ y j)%Qc = 1%Qc) as Q by (destruct (Y i) as [-> | ->], (Y j) as [-> | ->]; [left|left|left|right]; ring).
  destruct P as [-> | ->], Q as [-> | ->]; qlra.
Qed.

Section Penalize.
Variables (pen : Qc) (p q : qp).
Hypothesis W : prog_wf p.
Hypothesis H : penalize pen p = Ok q.
Hypothesis B : all_binary p.

Lemma obj_range x y : length x = num_vars p -> length y = num_vars p -> typed p x -> typed p y ->
  (obj_at (p_obj p) x - obj_at (p_obj p) y <= weight (p_obj p))%Qc.
Proof using W H B.
  intros Lx Ly Tx Ty. destruct (penalize_spec pen p q W H) as (_ & _ & _ & _ & _ & _ & (F1 & F2) & _).
  pose proof W as (_ & _ & _ & _ & (W1 & W2 & _) & _). unfold obj_at, weight.
  rewrite !(lin_entries_in (o_lin (p_obj p))), !(quad_entries_in (o_quad (p_obj p))); rewrite ?Lx, ?Ly; try assumption; try apply W1; try apply W2.
  pose proof (lin_range x y (bits_at _ _ B Tx) (bits_at _ _ B Ty) (le_co (o_lin (p_obj p)))).
  pose proof (quad_range x y (bits_at _ _ B Tx) (bits_at _ _ B Ty) (qe_co (o_quad (p_obj p)))). qlra.
Qed.
Lemma pen_feasible_iff : p_qcs p = [] -> binary_open p -> forall y, feasible p y <-> feasible q y /\ violation (p_lcs p) y = 0%Qc.
Proof using W H.
  intros Q O y. destruct (penalize_spec pen p q W H) as (V & L & K & _ & E & _ & _). unfold feasible, in_bounds, typed, lcs_hold, qcs_hold. rewrite V, L, K, Q.
  rewrite (violation_zero _ _ E). split.
  - intros (A1 & A2 & A3 & A4). split; [|assumption]. split; [now apply copy_in_bounds|]. split; [now apply copy_typed|]. split; constructor.
  - intros ((A1 & A2 & _ & _) & A3). split; [now apply open_in_bounds|]. split; [now apply copy_typed|]. split; [assumption|constructor].
Qed.
Lemma pen_value_eq y : feasible p y -> obj_at (p_obj q) y = obj_at (p_obj p) y.
Proof using W H.
  intros (F1 & F2 & F3 & F4). destruct (penalize_spec pen p q W H) as (_ & _ & _ & _ & E & _ & _ & O). rewrite O by (symmetry; exact (Forall2_length _ _ _ F1)).
  apply (violation_zero _ _ E) in F3. rewrite F3. ring.
Qed.
(** Points violating a constraint are strictly worse than feasible ones. *)
Definition ranges (D : Qc) : Prop := forall x y, in_bounds p x -> in_bounds p y -> typed p x -> typed p y -> (obj_at (p_obj p) x - obj_at (p_obj p) y <= D)%Qc.
Lemma pen_worse D x y : discrete p -> int_rows p -> ranges D -> (D < pen)%Qc -> p_qcs p = [] -> binary_open p -> feasible p x -> feasible q y -> ~ feasible p y ->
  ~ at_least (o_sense (p_obj p)) (obj_at (p_obj q) y) (obj_at (p_obj q) x).
Proof using W H.
  intros Dc IR RG Wt Q O Fx Fy Ny. destruct (penalize_spec pen p q W H) as (V & _ & _ & _ & E & _ & _ & Ob).
  assert (violation (p_lcs p) y <> 0%Qc) as Nz by (intro Z; apply Ny; apply (pen_feasible_iff Q O); auto).
  assert (typed p y) as Ty by (destruct Fy as (_ & T & _); unfold typed in *; rewrite V in T; now apply copy_typed).
  pose proof W as (_ & _ & _ & _ & (_ & _ & W3 & _) & _).
  assert (in_bounds p y) as By by (destruct Fy as (T & _); unfold in_bounds in *; rewrite V in T; now apply open_in_bounds).
  assert (in_bounds p x) as Bx by apply Fx.
  pose proof (violation_big _ _ E IR W3 (fun i => typed_integral p y i Dc Ty) Nz) as Big.
  pose proof (Forall2_length _ _ _ Ty) as Ly. assert (typed p x) as Tx by apply Fx. pose proof (Forall2_length _ _ _ Tx) as Lx.
  symmetry in Lx, Ly. change (length x = num_vars p) in Lx. change (length y = num_vars p) in Ly.
  rewrite (pen_value_eq x Fx), (Ob y Ly). pose proof (RG x y Bx By Tx Ty) as R1. pose proof (RG y x By Bx Ty Tx) as R2.
  assert (0 <= D)%Qc as P0 by (pose proof (RG x x Bx Bx Tx Tx); qlra).
  set (v := violation (p_lcs p) y) in *. clearbody v. assert (pen <= pen * v)%Qc as M by qnra.
  unfold at_least, sense_val. destruct (o_sense (p_obj p)); intro C.
  - assert (obj_at (p_obj p) y + 1 * pen * v = obj_at (p_obj p) y + pen * v)%Qc as Z by ring. qlra.
  - assert (obj_at (p_obj p) y + - (1) * pen * v = obj_at (p_obj p) y - pen * v)%Qc as Z by ring. qlra.
Qed.
Lemma pen_exact_range D : discrete p -> int_rows p -> ranges D -> (D < pen)%Qc -> p_qcs p = [] -> binary_open p -> (exists x, feasible p x) ->
  forall y, optimal q y <-> optimal p y.
Proof using W H.
  intros Dc IR RG Wt Q O [x0 F0] y. destruct (penalize_spec pen p q W H) as (_ & _ & _ & S & _).
  assert (forall y, feasible p y -> feasible q y) as In by (intros z Fz; now apply (pen_feasible_iff Q O)).
  split.
  - intros [Fy Oy]. assert (feasible p y) as Fp.
    { destruct (feas_b p y) eqn:G; [now apply feas_b_spec|]. exfalso. apply feas_b_false in G.
      apply (pen_worse D x0 y Dc IR RG Wt Q O F0 Fy G). rewrite <- S. apply Oy. auto. }
    split; auto. intros z Fz. rewrite <- (pen_value_eq y Fp), <- (pen_value_eq z Fz), <- S. apply Oy. auto.
  - intros [Fy Oy]. split; [auto|]. intros z Fz. destruct (feas_b p z) eqn:G.
    + apply feas_b_spec in G. rewrite (pen_value_eq y Fy), (pen_value_eq z G), S. apply Oy. auto.
    + apply feas_b_false in G. pose proof (pen_worse D y z Dc IR RG Wt Q O Fy Fz G) as K. rewrite S. 
      unfold at_least in *. destruct (o_sense (p_obj p)); apply Qcnot_le_lt in K; now apply Qclt_le_weak.
Qed.
Lemma pen_exact : int_rows p -> (weight (p_obj p) < pen)%Qc -> p_qcs p = [] -> binary_open p -> (exists x, feasible p x) ->
  forall y, optimal q y <-> optimal p y.
Proof using W H B.
  intros IR Wt Q O F. apply (pen_exact_range (weight (p_obj p))); auto.
  - unfold discrete. unfold all_binary in B. rewrite Forall_forall in *. intros v Hv E. apply B in Hv. congruence.
  - intros x y Bx By Tx Ty. apply obj_range; auto; symmetry; [exact (Forall2_length _ _ _ Tx)|exact (Forall2_length _ _ _ Ty)].
Qed.
(** Exactly the points breaking a linear constraint are noticed. *)
Lemma pen_linear_only x : pen <> 0%Qc -> length x = num_vars p -> (lcs_hold p x <-> obj_at (p_obj q) x = obj_at (p_obj p) x) /\ p_lcs q = [] /\ p_qcs q = [].
Proof using W H.
  intros N L. destruct (penalize_spec pen p q W H) as (_ & K1 & K2 & _ & E & _ & _ & O). split; [|auto]. rewrite (O x L). unfold lcs_hold. rewrite <- (violation_zero _ x E).
  set (v := violation (p_lcs p) x). set (a := obj_at (p_obj p) x). clearbody v a. split; [intros ->; ring|]. intro E0.
  assert (sense_val (o_sense (p_obj p)) * pen * v = 0)%Qc as Z by qlra.
  apply Qcmult_integral in Z. destruct Z as [Z|Z]; auto. apply Qcmult_integral in Z. destruct Z as [Z|Z]; [|contradiction].
  destruct (o_sense (p_obj p)); simpl in Z; discriminate Z.
Qed.
(** A point breaking a constraint is noticed. *)
Lemma pen_notices x : p_qcs p = [] -> pen <> 0%Qc -> in_bounds p x -> typed p x -> obj_at (p_obj q) x = obj_at (p_obj p) x -> feasible p x.
Proof using W H.
  intros Q N Bx Tx E0. destruct (penalize_spec pen p q W H) as (_ & _ & _ & _ & E & _ & _ & O).
  assert (length x = num_vars p) as L by (symmetry; exact (Forall2_length _ _ _ Bx)). rewrite (O x L) in E0.
  split; [assumption|]. split; [assumption|]. split; [|unfold qcs_hold; rewrite Q; constructor].
  apply (violation_zero _ _ E). set (v := violation (p_lcs p) x) in *. clearbody v.
  assert (sense_val (o_sense (p_obj p)) * pen * v = 0)%Qc as Z by (set (a := obj_at (p_obj p) x) in *; clearbody a; qlra).
  apply Qcmult_integral in Z. destruct Z as [Z|Z]; auto. apply Qcmult_integral in Z. destruct Z as [Z|Z]; [|contradiction].
  destruct (o_sense (p_obj p)); simpl in Z; discriminate Z.
Qed.
End Penalize.

Lemma fold_sum l : forall a, fold_left (fun s b => (s + b)%Qc) l a = (a + sumof (fun b => b) l)%Qc.
Proof. induction l as [|b l IH]; intro a; simpl; [ring|]. rewrite IH. ring. Qed.
Lemma auto_penalty_integral p : int_rows p -> auto_penalty p = (1 + weight (p_obj p))%Qc.
Proof.
  intro IR. unfold auto_penalty. destruct (existsb _ (p_lcs p)) eqn:E.
  - exfalso. apply existsb_exists in E. destruct E as (c & Hc & E). unfold int_rows in IR. rewrite Forall_forall in IR. destruct (IR c Hc) as [I1 I2].
    apply is_integer_spec in I2. rewrite I2 in E. simpl in E. unfold any_float, lin_to_dict in E. apply existsb_exists in E. destruct E as (kv & Hk & E).
    unfold int_lin in I1. rewrite Forall_forall in I1. specialize (I1 _ Hk). apply is_integer_spec in I1. rewrite I1 in E. discriminate.
  - rewrite fold_sum, sumof_app, !sumof_map. reflexivity.
Qed.
Lemma auto_penalty_large p : int_rows p -> (weight (p_obj p) < auto_penalty p)%Qc.
Proof. intro IR. rewrite auto_penalty_integral by assumption. qlra. Qed.
