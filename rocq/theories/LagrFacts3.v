From Verif Require Export LagrFacts2.
Local Open Scope nat_scope.

Lemma two_names p : two_blocks p -> NoDup (var_names p).
Proof. intros ((X & _) & _). eapply index_finds_nodup; eauto. Qed.
Lemma two_exprs p : two_blocks p -> exprs_wf p.
Proof. intros ((_ & _ & _ & _ & W & _) & _). exact W. Qed.
Lemma free_feasible op idx lb ub q x : free_block op idx CONTINUOUS lb ub q -> length x = length idx -> Forall (fun a => lb <= a /\ a <= ub)%Qc x -> feasible q x.
Proof.
  intros (V & L & Q & _) Lx F. unfold feasible, in_bounds, typed, lcs_hold, qcs_hold. rewrite V, L, Q. split; [|split; [|split; constructor]].
  - clear - Lx F. revert x Lx F. induction idx as [|i idx IH]; intros [|a x] Lx F; try discriminate; constructor; inversion F; subst; auto.
  - clear - Lx F. revert x Lx F. induction idx as [|i idx IH]; intros [|a x] Lx F; try discriminate; constructor; inversion F; subst; auto. exact I.
Qed.
Lemma bits_feasible op idx q x : free_block op idx BINARY 0 1 q -> (feasible q x <-> length x = length idx /\ zero_or_one x).
Proof.
  intros (V & L & Q & _). unfold feasible, in_bounds, typed, lcs_hold, qcs_hold, zero_or_one. rewrite V, L, Q. split.
  - intros (_ & T & _). clear - T. remember (map (fun i => mkVar (nth i (var_names op) ""%string) 0 1 BINARY) idx) as vs eqn:E. revert idx E. induction T as [|v a vs x H T IH]; intros [|i idx] E; try discriminate; [split; [reflexivity|constructor]|]. cbn in E. injection E as -> E.
    destruct (IH idx E) as [H1 H2]. split; [cbn; congruence|]. constructor; auto.
  - intros [Lx F]. split; [|split; [|split; constructor]]; clear - Lx F; revert x Lx F; induction idx as [|i idx IH]; intros [|a x] Lx F; try discriminate; constructor; inversion F; subst; auto.
    cbn. unfold in_range. cbn. destruct H1 as [-> | ->]; split; discriminate.
Qed.
Lemma bits_coords op idx b u x : joins op b u x -> zero_or_one b -> (forall i, In i idx -> is_var BINARY op i) -> zero_or_one (coords x idx).
Proof.
  intros J Z I. unfold zero_or_one, coords in *. rewrite Forall_forall in *. intros a Ha. apply in_map_iff in Ha. destruct Ha as (i & <- & Hi). specialize (I i Hi). apply indices_in, In_nth_error in I. destruct I as (j & Hj). rewrite (joins_at _ _ _ _ _ _ J Hj). apply Z. unfold at_. apply nth_In.
  destruct J as (L & <- & _). rewrite part_length by assumption. now apply some_lt in Hj.
Qed.

Section Rounds.
Variables (qubo cont : nat -> qp -> result (list Qc)) (norm : list Qc -> Qc) (pr : admm_params).
Lemma block1_min d s k s' : two_blocks (a_op d) -> represents d -> sized_blocks d s -> exact_solver qubo -> a_abs d <> [] -> admm_round qubo cont norm pr d s k = Ok s' ->
  zero_or_one (i_x0 s') /\ (forall u x, joins (a_op d) (i_x0 s') u x -> rest_zero d x) /\
  forall rows u b x x', picks (binary_eq (a_op d)) (p_lcs (a_op d)) rows -> zero_or_one b -> joins (a_op d) b u x -> rest_zero d x -> joins (a_op d) (i_x0 s') u x' ->
    (lagrangian (a_op d) rows (i_rho s) (ap_c pr) (ap_beta pr) (i_lam s) (i_x0 s') (i_z s) (i_y s) x' <= lagrangian (a_op d) rows (i_rho s) (ap_c pr) (ap_beta pr) (i_lam s) b (i_z s) (i_y s) x)%Qc.
Proof.
  intros T R Sz Ex Ne H. pose proof T as (W & Sh & U & P & M & Sep & Mn). pose proof (two_exprs _ T) as We. destruct (represents_split d R) as [Sb Sc]. destruct (step1_spec d We R) as (Sa & Ia & Ra).
  destruct (step1_lagr pr d s (two_names _ T) We U M Sep R Sz) as (op1 & E1 & F1 & La). apply round_inv in H. destruct H as [H _ _ _ _ _ _].
  unfold update_x0 in H. destruct (a_abs d) as [|a0 l0] eqn:Ea; [congruence|]. rewrite <- Ea in *. rewrite E1 in H. cbn [bind] in H. apply bind_ok in H. destruct H as (w & H1 & H). injection H as H. apply logged_ok in H1. destruct H1 as [H1 Lw].
  specialize (Ex _ _ _ H1). destruct Ex as [Fw Op]. pose proof F1 as (_ & _ & _ & S1). rewrite S1 in Op. cbn [at_least] in Op. apply (bits_feasible _ _ _ _ F1) in Fw. destruct Fw as [Lw' Zw].
  assert (NoDup (a_rel d)) as Nr.
  { assert (NoDup (a_abs d)) as Na by (now apply sorted_nodup). clear - Ra Na. induction Ra as [|a j l m E R IH]; [constructor|]. inversion Na as [|? ? Na1 N']; subst. constructor; auto. intro K. apply Na1. clear - R K E. induction R as [|b i l m E' R IH]; [contradiction|]. destruct K as [->|K]; [left; congruence|right; auto]. }
  assert (length (a_rel d) = length (a_abs d)) as Lr by (symmetry; eapply IneqFacts.Forall2_length; eassumption).
  assert (Forall (fun j => j < length (a_bin d)) (a_rel d)) as Fr. { clear - Ra. induction Ra as [|a j l m E R IH]; constructor; auto. now apply some_lt in E. }
  assert (coords (i_x0 s') (a_rel d) = w) as Cw by (rewrite <- H; apply put_in; [exact Nr|congruence|now rewrite repeat_length]).
  assert (forall j, ~ In j (a_rel d) -> at_ (i_x0 s') j = 0%Qc) as Ow by (intros j K; rewrite <- H, put_out by assumption; apply at_repeat).
  assert (forall u x, joins (a_op d) (i_x0 s') u x -> coords x (a_abs d) = w) as Xw.
  { intros u x J. rewrite <- Cw. rewrite Sb in Ra. clear - Ra J. unfold coords. induction Ra as [|a j l m E R IH]; [reflexivity|]. cbn [map]. f_equal; [eapply joins_at; eassumption|assumption]. }
  assert (forall u x, joins (a_op d) (i_x0 s') u x -> rest_zero d x) as Rz.
  { intros u x J i Hi K. apply indices_in, In_nth_error in Hi. destruct Hi as (j & Hj). rewrite (joins_at _ _ _ _ _ _ J Hj). apply Ow. rewrite <- Sb in Hj. rewrite (rel_in d i j We R Hj). exact K. }
  split; [|split; [exact Rz|]].
  - unfold zero_or_one. apply Forall_forall. intros a Ha. apply (In_nth _ _ 0%Qc) in Ha. destruct Ha as (j & Hj & <-). fold (at_ (i_x0 s') j). destruct (mem_spec (a_rel d) j) as [K|K]; [|left; now apply Ow].
    unfold zero_or_one in Zw. rewrite Forall_forall in Zw. apply Zw. rewrite <- Cw. unfold coords. apply in_map_iff. exists j. auto.
  - intros rows u b x x' Pk Zb J Z J'. destruct (La rows u Pk) as (K & Eq). rewrite (Eq b x J Z), (Eq _ x' J' (Rz u x' J')). rewrite (Xw u x' J'). apply Qcplus_le_compat; [|apply Qcle_refl]. apply Op. apply (bits_feasible _ _ _ _ F1). split; [apply map_length|].
    eapply bits_coords; eauto. intros i Hi. now apply Ia in Hi.
Qed.

Lemma block2_min d s k s' : two_blocks (a_op d) -> float_objective (a_op d) -> no_binary_products (a_op d) -> represents d -> sized_blocks d s -> exact_solver cont -> admm_round qubo cont norm pr d s k = Ok s' ->
  exists x2, joins (a_op d) (i_z s') (i_u s') x2 /\ block2 (a_op d) x2 /\
  forall rows z u x x' y, picks (binary_eq (a_op d)) (p_lcs (a_op d)) rows -> joins (a_op d) z u y -> block2 (a_op d) y -> joins (a_op d) (i_x0 s') u x -> joins (a_op d) (i_x0 s') (i_u s') x' ->
    (lagrangian (a_op d) rows (i_rho s) (ap_c pr) (ap_beta pr) (i_lam s) (i_x0 s') (i_z s') (i_y s) x' <= lagrangian (a_op d) rows (i_rho s) (ap_c pr) (ap_beta pr) (i_lam s) (i_x0 s') z (i_y s) x)%Qc.
Proof.
  intros T Fl Nb R Sz Ex H. pose proof T as (W & Sh & U & P & M & Sep & Mn). destruct (represents_split d R) as [Sb Sc]. apply round_inv in H. destruct H as [H1 (op2 & x1 & H2 & H3 & H4 & H5 & H6) _ _ _ _ _].
  assert (sized_blocks d (set_x0 (i_x0 s') s)) as Sz'. { destruct Sz as (L0 & Lz & Ly & Ll). repeat split; cbn; auto. eapply x0_length; eauto. }
  destruct (step2_lagr pr d (set_x0 (i_x0 s') s) Sh) as (q & E & Fe & Se & La); auto. { apply W. } rewrite E in H2. injection H2 as ->. specialize (Ex _ _ _ H3). destruct Ex as [Fx Op]. rewrite Se, Mn in Op. cbn [at_least] in Op.
  assert (length x1 = num_vars (a_op d)) as Lx. { apply Fe in Fx. destruct Fx as [Fx _]. symmetry. unfold num_vars. eapply IneqFacts.Forall2_length; eauto. }
  assert (joins (a_op d) (i_z s') (i_u s') x1) as J1. { apply np_take_ok in H5, H6. destruct H5 as [-> _], H6 as [-> _]. rewrite Sb, Sc. split; [assumption|]. rewrite !coords_indices by assumption. split; reflexivity. }
  assert (forall x, bit_products (a_op d) x = 0%Qc) as Z.
  { intro x. unfold bit_products. apply sumof_zero. intros i _. apply sumof_zero. intros j _. destruct (bit_at (a_op d) i) eqn:Bi; [|reflexivity]. destruct (bit_at (a_op d) j) eqn:Bj; [|reflexivity]. cbn [andb]. destruct (Nat.eqb_spec i j); [reflexivity|]. cbn [negb].
    rewrite Nb; [ring| | |assumption]; [unfold bit_at in Bi; destruct (nth_error (p_vars (a_op d)) i) as [v|] eqn:Ev; [|discriminate]|unfold bit_at in Bj; destruct (nth_error (p_vars (a_op d)) j) as [v|] eqn:Ev; [|discriminate]]; exists v; (split; [assumption|]); destruct (v_type v); try discriminate; reflexivity. }
  exists x1. split; [exact J1|]. split; [now apply Fe|]. intros rows z u x x' y Pk J By Jx Jx'. destruct (La rows Pk) as (K & Eq). cbn [set_x0 i_rho i_lam i_x0 i_y] in Eq.
  pose proof (Eq _ _ _ _ Jx' J1) as E1. pose proof (Eq _ _ _ _ Jx J) as E2. rewrite !Z, Qcplus_0_r in E1, E2. rewrite E1, E2. apply Qcplus_le_compat; [|apply Qcle_refl]. apply Op. now apply Fe.
Qed.

Lemma block3_min d s k s' : two_blocks (a_op d) -> represents d -> sized_blocks d s -> exact_solver cont -> ap_three pr = true -> admm_round qubo cont norm pr d s k = Ok s' ->
  forall rows x y, length y = length (i_x0 s') -> Forall (fun a => - INFINITY <= a /\ a <= INFINITY)%Qc y ->
    (lagrangian (a_op d) rows (i_rho s) (ap_c pr) (ap_beta pr) (i_lam s) (i_x0 s') (i_z s') (i_y s') x <= lagrangian (a_op d) rows (i_rho s) (ap_c pr) (ap_beta pr) (i_lam s) (i_x0 s') (i_z s') y x)%Qc.
Proof.
  intros T R Sz Ex Th H. destruct (represents_split d R) as [Sb Sc]. apply round_inv in H. destruct H as [H1 (op2 & x1 & _ & _ & _ & H5 & H6) H3 _ _ _ _]. intros rows x y Ly By.
  assert (length (i_x0 s') = length (a_bin d)) as L0 by (destruct Sz as (L0 & _); eapply x0_length; eauto).
  set (s1 := set_uz (i_u s') (i_z s') (set_x0 (i_x0 s') s)) in *.
  assert (sized_blocks d s1) as Sz'. { destruct Sz as (_ & Lz & Ly' & Ll). repeat split; cbn; auto. eapply take_length; eauto. }
  destruct (step3_lagr pr d s1 (two_names _ T) R Sz') as (op3 & E & F & La). unfold update_y in H3. rewrite Th in H3. destruct (a_bin d) as [|b l] eqn:Eb.
  - assert (y = []) as -> by (destruct y; [reflexivity|]; cbn in *; congruence). assert (i_y s' = []) as -> by (destruct Sz as (_ & _ & Ly' & _); injection H3 as <-; rewrite Eb in Ly'; cbn in Ly'; destruct (i_y s); [reflexivity|discriminate]). apply Qcle_refl.
  - rewrite <- Eb in *. rewrite E in H3. cbn [bind] in H3. apply logged_ok in H3. destruct H3 as [H3 L3]. specialize (Ex _ _ _ H3). destruct Ex as [_ Op]. pose proof F as (Fv & _ & _ & S3). rewrite S3 in Op. cbn [at_least] in Op.
    destruct (La rows x) as (K & Eq). cbn [s1 set_uz set_x0 i_rho i_lam i_x0 i_z i_y] in Eq. rewrite (Eq y) by congruence. rewrite (Eq (i_y s')). 2: { rewrite L3. unfold num_vars. rewrite Fv, map_length, Sb. reflexivity. }
    apply Qcplus_le_compat; [|apply Qcle_refl]. apply Op. eapply free_feasible; eauto. congruence.
Qed.

Lemma descends d s k s' : two_blocks (a_op d) -> float_objective (a_op d) -> no_binary_products (a_op d) -> represents d -> sized_blocks d s -> exact_solver qubo -> exact_solver cont -> ap_three pr = true -> a_abs d <> [] -> admm_round qubo cont norm pr d s k = Ok s' ->
  forall rows x x2 x', picks (binary_eq (a_op d)) (p_lcs (a_op d)) rows -> zero_or_one (i_x0 s) -> joins (a_op d) (i_x0 s) (i_u s) x -> rest_zero d x -> joins (a_op d) (i_z s) (i_u s) x2 -> block2 (a_op d) x2 ->
    Forall (fun a => - INFINITY <= a /\ a <= INFINITY)%Qc (i_y s) -> joins (a_op d) (i_x0 s') (i_u s') x' ->
    (lagrangian (a_op d) rows (i_rho s) (ap_c pr) (ap_beta pr) (i_lam s) (i_x0 s') (i_z s') (i_y s') x' <= lagrangian (a_op d) rows (i_rho s) (ap_c pr) (ap_beta pr) (i_lam s) (i_x0 s) (i_z s) (i_y s) x)%Qc.
Proof.
  intros T Fl Nb R Sz Q C Th Ne H rows x x2 x' Pk Z J Rz J2 B2 By J'. pose proof T as (W & Sh & U & P & M & Sep & Mn). pose proof (represents_split d R) as Sp.
  destruct (block1_min d s k s' T R Sz Q Ne H) as (_ & _ & M1). destruct (block2_min d s k s' T Fl Nb R Sz C H) as (w & Jw & Bw & M2). pose proof (block3_min d s k s' T R Sz C Th H) as M3.
  apply round_inv in H. destruct H as [H1 _ _ _ _ _ _]. pose proof (x0_length _ _ _ _ _ _ (proj1 Sz) H1) as L0.
  assert (length (i_u s) = length (a_cont d)) as Lu. { destruct J as (L & _ & <-). rewrite part_length by assumption. destruct Sp as [_ ->]. reflexivity. }
  pose proof (revert_joins d (i_x0 s') (i_u s) Sp M L0 Lu) as Jm.
  eapply Qcle_trans; [apply (M3 rows x' (i_y s)); [destruct Sz as (_ & _ & -> & _); congruence|assumption]|].
  eapply Qcle_trans; [eapply (M2 rows (i_z s) (i_u s) _ x' x2); eauto|]. eapply M1; eauto.
Qed.
End Rounds.

(** ** An exact optimizer for one variable *)
Definition solve1 (k : nat) (q : qp) : result (list Qc) :=
  match p_vars q, p_lcs q, p_qcs q, o_sense (p_obj q) with
  | [v], [], [], MINIMIZE =>
      let l := coef1 (o_lin (p_obj q)) 0 in let w := coef2 (o_quad (p_obj q)) 0 0 in
      match v_type v with
      | BINARY => if qeqb (v_lb v) 0 && qeqb (v_ub v) 1 then Ok [if qleb 0 (l + w) then 0%Qc else 1%Qc] else Err ValueError
      | CONTINUOUS => if qltb 0 w && qleb (v_lb v) (v_ub v) then
          (let a := (- l / (qz 2 * w))%Qc in Ok [if qltb a (v_lb v) then v_lb v else if qltb (v_ub v) a then v_ub v else a]) else Err ValueError
      | INTEGER => Err ValueError
      end
  | _, _, _, _ => Err ValueError
  end.
Lemma one_obj o a : obj_at o [a] = (o_const o + coef1 (o_lin o) 0 * a + coef2 (o_quad o) 0 0 * a * a)%Qc.
Proof. unfold obj_at, lin_at, quad_at, at_, sumof, np_sum. cbn. ring. Qed.
Lemma one_feasible q v a : p_vars q = [v] -> p_lcs q = [] -> p_qcs q = [] -> feasible q [a] <-> in_range v a /\ has_type v a.
Proof.
  intros V L Q. unfold feasible, in_bounds, typed, lcs_hold, qcs_hold. rewrite V, L, Q. split; [intros (A & B & _); inversion A; inversion B; auto|]. intros [A B]. split; [constructor; [exact A|constructor]|]. split; [constructor; [exact B|constructor]|]. split; constructor.
Qed.
Lemma times_nonneg a b : (0 <= a -> 0 <= b -> 0 <= a * b)%Qc.
Proof. intros. qnra. Qed.
Lemma square_nonneg a : (0 <= a * a)%Qc.
Proof. destruct (qleb_spec 0 a) as [K|K]; [now apply times_nonneg|]. replace (a * a)%Qc with ((- a) * (- a))%Qc by ring. apply times_nonneg; qlra. Qed.
Lemma solve1_exact : exact_solver solve1.
Proof.
  intros k q x H. unfold solve1 in H. destruct (p_vars q) as [|v [|]] eqn:V; try discriminate. destruct (p_lcs q) eqn:L; try discriminate. destruct (p_qcs q) eqn:Q; try discriminate. destruct (o_sense (p_obj q)) eqn:S; try discriminate. cbv zeta in H.
  assert (forall y, feasible q y -> exists a, y = [a]) as One. { intros y (F & _). unfold in_bounds in F. rewrite V in F. inversion F as [|? a ? l ? F']; subst. inversion F'; subst. eauto. }
  unfold optimal. rewrite S. cbn [at_least]. set (l := coef1 (o_lin (p_obj q)) 0) in *. set (w := coef2 (o_quad (p_obj q)) 0 0) in *. destruct (v_type v) eqn:T; [| |discriminate].
  - destruct (qltb_spec 0 w) as [Pw|]; [|discriminate]. destruct (qleb_spec (v_lb v) (v_ub v)) as [B|]; [|discriminate]. cbn [andb] in H. injection H as <-.
    set (c := (- l / (qz 2 * w))%Qc). assert (l = (- (qz 2) * w * c)%Qc) as Lc by (unfold c; field; split; [intros ->; now apply Qclt_not_eq in Pw|discriminate]). change (qz 2) with (1 + 1)%Qc in Lc.
    split.
    + apply (one_feasible q v); auto. split; [|unfold has_type; now rewrite T]. unfold in_range. destruct (qltb_spec c (v_lb v)); [split; [apply Qcle_refl|assumption]|]. destruct (qltb_spec (v_ub v) c); [split; [assumption|apply Qcle_refl]|]. split; qlra.
    + intros y Fy. destruct (One y Fy) as (a & ->). apply (one_feasible q v) in Fy; auto. destruct Fy as [[A1 A2] _]. rewrite !one_obj. fold l w. rewrite Lc. clearbody c. clear Lc One.
      destruct (qltb_spec c (v_lb v)) as [K|K]; [|destruct (qltb_spec (v_ub v) c) as [K'|K']].
      * assert (0 <= w * ((a - v_lb v) * ((a - c) + (v_lb v - c))))%Qc by (repeat apply times_nonneg; qlra). qlra.
      * assert (0 <= w * ((v_ub v - a) * ((c - a) + (c - v_ub v))))%Qc by (repeat apply times_nonneg; qlra). qlra.
      * assert (0 <= w * ((a - c) * (a - c)))%Qc by (apply times_nonneg; [qlra|]; apply square_nonneg). qlra.
  - destruct (qeqb_spec (v_lb v) 0) as [E0|]; [|discriminate]. destruct (qeqb_spec (v_ub v) 1) as [E1|]; [|discriminate]. cbn [andb] in H. injection H as <-. split.
    + apply (one_feasible q v); auto. unfold in_range, has_type. rewrite T, E0, E1. destruct (qleb 0 (l + w)); repeat split; try discriminate; auto.
    + intros y Fy. destruct (One y Fy) as (a & ->). apply (one_feasible q v) in Fy; auto. destruct Fy as [_ Ta]. unfold has_type in Ta. rewrite T in Ta. rewrite !one_obj. fold l w. destruct (qleb_spec 0 (l + w)) as [K|K]; destruct Ta as [-> | ->]; qlra.
Qed.

(** ** Deciding the conditions on the products *)
Definition is_var_b (t : vartype) (p : qp) (i : nat) : bool := match nth_error (p_vars p) i with Some v => vartype_eqb (v_type v) t | None => false end.
Definition pairs_b (p : qp) (t t' : vartype) (f : nat -> nat -> bool) : bool :=
  forallb (fun i => forallb (fun j => negb (is_var_b t p i && is_var_b t' p j) || f i j) (seq 0 (num_vars p))) (seq 0 (num_vars p)).
Lemma is_var_b_iff t p i : is_var t p i -> is_var_b t p i = true /\ i < num_vars p.
Proof. intros (v & E & <-). unfold is_var_b. rewrite E. split; [now destruct (v_type v)|]. apply nth_error_Some. congruence. Qed.
Lemma pairs_b_spec p t t' f : pairs_b p t t' f = true -> forall i j, is_var t p i -> is_var t' p j -> f i j = true.
Proof.
  intros H i j A B. apply is_var_b_iff in A, B. destruct A as [A La], B as [B Lb]. unfold pairs_b in H. rewrite forallb_forall in H. specialize (H i ltac:(apply in_seq; lia)). cbv beta in H. rewrite forallb_forall in H. specialize (H j ltac:(apply in_seq; lia)). cbv beta in H. rewrite A, B in H. exact H.
Qed.
Lemma separable_b p : pairs_b p BINARY CONTINUOUS (fun i j => qeqb (coef2 (o_quad (p_obj p)) i j) 0 && qeqb (coef2 (o_quad (p_obj p)) j i) 0) = true -> separable p.
Proof. intros H i j A B. pose proof (pairs_b_spec _ _ _ _ H i j A B) as K. cbv beta in K. apply andb_prop in K. destruct K as [K1 K2]. split; now apply qeqb_iff. Qed.
Lemma no_products_b p : pairs_b p BINARY BINARY (fun i j => Nat.eqb i j || qeqb (coef2 (o_quad (p_obj p)) i j) 0) = true -> no_binary_products p.
Proof. intros H i j A B N. pose proof (pairs_b_spec _ _ _ _ H i j A B) as K. cbv beta in K. apply orb_prop in K. destruct K as [K|K]; [now apply Nat.eqb_eq in K|now apply qeqb_iff]. Qed.
Definition plain_b (v : variable) : bool := match v_type v with BINARY => qeqb (v_lb v) 0 && qeqb (v_ub v) 1 | _ => true end.
Lemma plain_b_spec l : forallb plain_b l = true -> Forall plain l.
Proof. intros H. apply Forall_forall. intros v I T. rewrite forallb_forall in H. specialize (H v I). unfold plain_b in H. rewrite T in H. apply andb_prop in H. destruct H as [H1 H2]. split; now apply qeqb_iff. Qed.
