(** * Facts about the recursive optimizer: the loop *)
From Verif Require Export RecurFacts4.
Local Open Scope nat_scope.

Lemma shifted_plain p i p' : plain_qubo p -> shifted p i p' -> i < num_vars p -> plain_qubo p' /\ var_names p' = var_names p /\ o_sense (p_obj p') = o_sense (p_obj p) /\
  forall g, (TINY < g)%Qc -> on_grid g p -> on_grid g p' /\ forall k, k < num_vars p -> coef1 (o_lin (p_obj p')) k = (coef1 (o_lin (p_obj p)) k + delta (o_quad (p_obj p)) i k)%Qc.
Proof.
  intros (W & L & Q & Z & NC & [[Wl Dl] [Wq Dq]] & U & I) (e & -> & [We De] & Ie & C) Hi. split; [|split; [|split]]; auto.
  - split; [|split; [|split; [|split; [|split; [|split; [|split]]]]]]; auto.
    + destruct W as (A1 & A2 & A3 & A4 & (B1 & B2 & B3) & A6). exact (conj A1 (conj A2 (conj A3 (conj A4 (conj (conj We (conj B2 B3)) A6))))).
    + split; [split; [exact We|exact De]|split; [exact Wq|exact Dq]].
  - intros g Hg [G1 G2]. assert (forall k, multiple g (coef1 (o_lin (p_obj p)) k + delta (o_quad (p_obj p)) i k)%Qc) as M.
    { intro k. apply multiple_add; [apply G1|]. rewrite delta_sum by auto. apply multiple_add; apply G2. }
    assert (forall k, k < num_vars p -> coef1 e k = (coef1 (o_lin (p_obj p)) k + delta (o_quad (p_obj p)) i k)%Qc) as C' by (intros k Hk; rewrite (C k Hk); eapply cut_multiple; eauto).
    split; [split|]; auto. intro k. cbn [p_obj set_obj o_lin]. destruct (Nat.lt_ge_cases k (num_vars p)) as [Hk|Hk]; [rewrite (C' k Hk); apply M|].
    assert (coef1 e k = 0%Qc) as ->; [|apply multiple_0]. unfold coef1, dgetq. destruct (dget Nat.eqb k (le_co e)) as [c|] eqn:E; auto. apply (dget_in _ nat_eqb_sp) in E.
    destruct We as [_ We]. rewrite Forall_forall in We. specialize (We _ E). cbn in We. lia.
Qed.

Definition unit_on (names : list string) (val : string -> Qc) : Prop := forall s, In s names -> (0 <= val s)%Qc /\ (val s <= 1)%Qc.
(** What a round, or several, do to the value of the objective *)
Definition keeps_value (n : nat) (p q : qp) (val : string -> Qc) : Prop :=
  exists eps, obj_val q val = (obj_val p val + eps)%Qc /\ (unit_on (var_names p) val -> (qabs eps <= qn n * qn (num_vars p) * TINY)%Qc) /\
    forall g, (TINY < g)%Qc -> on_grid g p -> eps = 0%Qc.
Record one_round (p : qp) (xi xj : string) (same : bool) (q : qp) : Prop := {
  or_i : In xi (var_names p); or_j : In xj (var_names p); or_ne : xi <> xj;
  or_names : var_names q = without xi (var_names p);
  or_plain : plain_qubo q;
  or_sense : o_sense (p_obj q) = o_sense (p_obj p);
  or_grid : forall g, (TINY < g)%Qc -> on_grid g p -> on_grid g q;
  or_value : forall val, val xi = (if same then val xj else 1 - val xj)%Qc -> keeps_value 1 p q val }.

Lemma qn_nonneg n : (0 <= qn n)%Qc.
Proof. induction n as [|n IH]; [rewrite qn_0; apply Qcle_refl|]. rewrite qn_S. qlra. Qed.
Lemma round_same kz p i j xi xj q : plain_qubo p -> nth_error (var_names p) i = Some xi -> nth_error (var_names p) j = Some xj ->
  substitute kz p [] [(KI (Z.of_nat i), (KI (Z.of_nat j), 1%Qc))] = Ok q -> one_round p xi xj true q /\ p_status q = VALID.
Proof.
  intros G Ni Nj H. destruct (round_spec kz p i j 1%Qc xi xj G (or_introl eq_refl) Ni Nj q H) as (A & B & C & D & E & F & P). split; auto. constructor; auto; try (eapply nth_error_In; eauto).
  - intros g _ [G1 G2]. destruct (P (multiple g)) as [P1 P2]; auto using multiple_0, multiple_add, multiple_opp. split; auto.
  - intros val Ev. exists 0%Qc. split; [rewrite F by (rewrite Ev; ring); ring|]. split; auto. intros _. rewrite qn_S, qn_0. pose proof (qn_nonneg (num_vars p)). pose proof TINY_pos.
    change (qabs 0) with 0%Qc. qnra.
Qed.
Lemma round_opposite kz p i j xi xj p' q : plain_qubo p -> nth_error (var_names p) i = Some xi -> nth_error (var_names p) j = Some xj -> shifted p i p' ->
  substitute kz p' [] [(KI (Z.of_nat i), (KI (Z.of_nat j), (- (1))%Qc))] = Ok q -> one_round p xi xj false q /\ p_status q = VALID.
Proof.
  intros G Ni Nj S H. assert (i < num_vars p) as Hi by (rewrite <- names_length; apply nth_error_Some; congruence). assert (NoDup (var_names p)) as ND by (apply prog_wf_nodup, G).
  destruct (shifted_plain p i p' G S Hi) as (G' & V' & S' & Gr). rewrite <- V' in Ni, Nj.
  destruct (round_spec kz p' i j (- (1))%Qc xi xj G' (or_intror eq_refl) Ni Nj q H) as (A & B & C & D & E & F & P). rewrite V' in *.
  split; auto. constructor; auto; try (eapply nth_error_In; eauto); try congruence.
  - intros g Hg Og. destruct (Gr g Hg Og) as [[G1 G2] _]. destruct (P (multiple g)) as [P1 P2]; auto using multiple_0, multiple_add, multiple_opp. split; auto.
  - intros val Ev. set (val' := fun s => if String.eqb s xi then (val s - 1)%Qc else val s).
    assert (val' xi = (val xi - 1)%Qc /\ val' xj = val xj) as [V1 V2].
    { unfold val'. rewrite String.eqb_refl. destruct (str_eqb_sp xj xi); [congruence|auto]. }
    unfold keeps_value. assert (obj_val q val = obj_val q val') as ->.
    { unfold obj_val. f_equal. apply map_ext_in. intros s Hs. change (map v_name (p_vars q)) with (var_names q) in Hs. rewrite B, without_in in Hs. unfold val'. destruct (str_eqb_sp s xi); [tauto|auto]. }
    rewrite F by (rewrite V1, V2, Ev; ring). unfold obj_val. change (map v_name (p_vars p')) with (var_names p'). change (map v_name (p_vars p)) with (var_names p). rewrite V'.
    set (y := map val' (var_names p)). set (x := map val (var_names p)). assert (length y = num_vars p) as Ly by (unfold y; now rewrite map_length, names_length).
    assert (forall k s, nth_error (var_names p) k = Some s -> at_ y k = val' s /\ at_ x k = val s) as At by (intros; unfold x, y; split; now apply at_map).
    assert (step_up i y x) as Su.
    { split; [unfold x, y; now rewrite !map_length|]. intros k Hk. rewrite Ly, <- names_length in Hk. destruct (nth_error (var_names p) k) as [s|] eqn:Es; [|apply nth_error_None in Es; lia].
      destruct (At k s Es) as [-> ->]. unfold val'. destruct (str_eqb_sp s xi) as [->|Ns], (Nat.eqb_spec k i) as [->|Nk]; try ring; exfalso.
      - apply Nk. eapply name_inj; eauto.
      - congruence. }
    destruct G as (_ & _ & _ & _ & _ & [[_ Dl] _] & U & _). rewrite (shifted_value p i p' y x S U Hi Ly Su).
    set (err := sumof _ _). exists (- err)%Qc. split; [ring|]. split.
    + intro Un. rewrite qabs_opp. unfold err. eapply Qcle_trans; [apply sumof_abs|]. rewrite qn_S, qn_0.
      replace ((1 + 0) * qn (num_vars p) * TINY)%Qc with (qn (length (seq 0 (num_vars p))) * TINY)%Qc by (rewrite seq_length; ring). rewrite <- sumof_const.
      apply sumof_le. intros k Hk. apply in_seq in Hk. rewrite qabs_mul. destruct S as (e & -> & _ & _ & Ce). cbn [p_obj set_obj o_lin]. rewrite (Ce k) by lia.
      pose proof (cut_err (coef1 (o_lin (p_obj p)) k + delta (o_quad (p_obj p)) i k)) as Er.
      assert (qabs (at_ y k) <= 1)%Qc as By.
      { destruct Hk as [_ Hk]. cbn in Hk. rewrite <- names_length in Hk. destruct (nth_error (var_names p) k) as [s|] eqn:Es; [|apply nth_error_None in Es; lia].
        destruct (At k s Es) as [-> _]. destruct (Un s (nth_error_In _ _ Es)). apply qabs_bound. unfold val'. destruct (String.eqb s xi); split; qlra. }
      pose proof (qabs_nonneg (at_ y k)). pose proof (qabs_nonneg (coef1 (o_lin (p_obj p)) k + delta (o_quad (p_obj p)) i k - cut (coef1 (o_lin (p_obj p)) k + delta (o_quad (p_obj p)) i k))). pose proof TINY_pos. qnra.
    + intros g Hg Og. destruct (Gr g Hg Og) as [_ Ce]. unfold err. rewrite sumof_zero; [ring|]. intros k Hk. apply in_seq in Hk. rewrite Ce by lia. ring.
Qed.
Lemma keeps_trans n m p q r val : keeps_value n p q val -> keeps_value m q r val -> num_vars q <= num_vars p -> incl (var_names q) (var_names p) ->
  (forall g, (TINY < g)%Qc -> on_grid g p -> on_grid g q) -> keeps_value (n + m) p r val.
Proof.
  intros (e1 & E1 & B1 & G1) (e2 & E2 & B2 & G2) L I Gr. exists (e1 + e2)%Qc. split; [rewrite E2, E1; ring|]. split.
  - intro Un. specialize (B1 Un). specialize (B2 (fun s Hs => Un s (I s Hs))). pose proof (qabs_triangle e1 e2). rewrite qn_add.
    assert (qn (num_vars q) <= qn (num_vars p))%Qc as Lq by (apply qz_le; lia).
    assert (qn m * qn (num_vars q) * TINY <= qn m * qn (num_vars p) * TINY)%Qc by (pose proof (qn_nonneg m); pose proof TINY_pos; assert (qn m * qn (num_vars q) <= qn m * qn (num_vars p))%Qc by qnra; qnra).
    qlra.
  - intros g Hg Og. rewrite (G1 g Hg Og), (G2 g Hg (Gr g Hg Og)). ring.
Qed.

Section Loop.
Variable kz : bool.
Lemma py_nth_some {A} (l : list A) i a : py_nth l (Z.of_nat i) = Ok a -> nth_error l i = Some a.
Proof using.
  clear. unfold py_nth. destruct (py_index (length l) (Z.of_nat i)) as [k|] eqn:E; [|discriminate]. apply py_index_some in E. destruct E as [L [E|E]]; [|lia].
  apply Nat2Z.inj in E. subst k. destruct (nth_error l i); [|discriminate]. now intros [= ->].
Qed.
Lemma reduce_subst_spec s i j xi xj same s' : reduce_subst kz s i j xi xj same = (s', Ok tt) ->
  exists q, substitute kz (rs_cur s) [] [(KI (Z.of_nat i), (KI (Z.of_nat j), if same then 1%Qc else (- (1))%Qc))] = Ok q /\ s' = mkR (rs_orig s) q false (dset String.eqb xi (xj, same) (rs_repl s)).
Proof using. clear. unfold reduce_subst. destruct (substitute _ _ _ _) as [q|]; [|discriminate]. destruct (p_status q); intro H; [injection H as <-; eauto|discriminate]. Qed.
Lemma reduce_round_spec s res s' : plain_qubo (rs_cur s) -> reduce_round kz s res = (s', Ok tt) ->
  exists xi xj same, one_round (rs_cur s) xi xj same (rs_cur s') /\ rs_repl s' = dset String.eqb xi (xj, same) (rs_repl s) /\ rs_same s' = false /\
    (rs_same s = false -> rs_orig s' = rs_orig s).
Proof using.
  intros G H. unfold reduce_round in H. cbv zeta in H.
  match type of H with match ?e with _ => _ end = _ => destruct e as [[[[m [i j]] xi] xj]|] eqn:E; [|discriminate H] end.
  apply bind_ok in E. destruct E as (r & _ & E). apply bind_ok in E. destruct E as (m' & _ & E). apply bind_ok in E. destruct E as ([i' j'] & _ & E).
  apply bind_ok in E. destruct E as (vi & Ei & E). apply bind_ok in E. destruct E as (vj & Ej & E). injection E as -> -> -> Exi Exj. cbn [fst snd] in *.
  apply py_nth_some in Ei, Ej. assert (nth_error (var_names (rs_cur s)) i = Some xi /\ nth_error (var_names (rs_cur s)) j = Some xj) as [Ni Nj].
  { unfold var_names. rewrite !nth_error_map, Ei, Ej. cbn. now rewrite Exi, Exj. }
  destruct (qltb 0 (get2 m i j)).
  - apply reduce_subst_spec in H. destruct H as (q & Hq & ->). destruct (round_same _ _ _ _ _ _ _ G Ni Nj Hq) as [O _]. exists xi, xj, true. auto.
  - destruct (shift_objective (rs_cur s) i) as [p' [[]|]] eqn:Es; [|discriminate H]. apply reduce_subst_spec in H. destruct H as (q & Hq & ->).
    assert (i < num_vars (rs_cur s)) as Hi by (rewrite <- names_length; apply nth_error_Some; congruence).
    destruct (shift_spec (rs_cur s) i) as (p'' & Ep & Sh); auto; try apply G. rewrite Es in Ep. injection Ep as <-.
    destruct (round_opposite _ _ _ _ _ _ _ _ G Ni Nj Sh Hq) as [O _]. exists xi, xj, false. split; auto. split; auto. split; auto. cbn. intros ->. reflexivity.
Qed.
Lemma plain_length p q a : plain_qubo p -> In a (var_names p) -> var_names q = without a (var_names p) -> S (num_vars q) = num_vars p.
Proof using. intros G Ha E. rewrite <- !names_length, E. apply without_length; auto. apply prog_wf_nodup, G. Qed.

Lemma loop_spec inner min : forall fuel k s s', plain_qubo (rs_cur s) -> (forall a, In a (map fst (rs_repl s)) -> ~ In a (var_names (rs_cur s))) ->
  reduce_loop kz fuel inner min k s = (s', Ok tt) ->
  exists rep, rs_repl s' = rs_repl s ++ rep /\ eliminates (var_names (rs_cur s)) rep (var_names (rs_cur s')) /\ plain_qubo (rs_cur s') /\
    o_sense (p_obj (rs_cur s')) = o_sense (p_obj (rs_cur s)) /\ num_vars (rs_cur s') = Nat.min min (num_vars (rs_cur s)) /\
    (rs_same s = false -> rs_orig s' = rs_orig s) /\ forall val, respects rep val -> keeps_value (length rep) (rs_cur s) (rs_cur s') val.
Proof using.
  induction fuel as [|f IH]; intros k s s' G Fr H; cbn [reduce_loop] in H; destruct (Nat.ltb_spec min (num_vars (rs_cur s))) as [Lt|Ge].
  - discriminate H.
  - injection H as <-. exists []. rewrite app_nil_r. split; auto. split; [constructor|]. split; auto. split; auto. split; [lia|]. split; auto. intros val _. exists 0%Qc. split; [ring|]. split; auto.
    intros _. cbn [length]. rewrite qn_0. replace (0 * qn (num_vars (rs_cur s)) * TINY)%Qc with 0%Qc by ring. apply Qcle_refl.
  - destruct (reduce_round kz s (inner k (rs_cur s))) as [s1 [[]|]] eqn:E; [|discriminate H]. destruct (reduce_round_spec _ _ _ G E) as (xi & xj & same & O & R & Sm & Or).
    destruct O as [Hi Hj Ne Nm Pl Se Gr Va]. assert (dset String.eqb xi (xj, same) (rs_repl s) = rs_repl s ++ [(xi, (xj, same))]) as Rd.
    { apply (dset_fresh _ str_eqb_sp). intro Hin. exact (Fr _ Hin Hi). }
    pose proof (plain_length _ _ _ G Hi Nm) as Ln.
    destruct (IH (S k) s1 s') as (rep & R' & El & Pl' & Se' & Nv & Or' & Va'); auto.
    { rewrite R, Rd, Nm. intros a Ha Hin. apply without_in in Hin. rewrite map_app in Ha. apply in_app_or in Ha. destruct Ha as [Ha|[<-|[]]]; [|tauto]. destruct Hin as [Hin _]. exact (Fr _ Ha Hin). }
    exists ((xi, (xj, same)) :: rep). rewrite R', R, Rd, <- app_assoc. split; auto. split; [constructor; auto; now rewrite <- Nm|]. split; auto. split; [congruence|]. split; [lia|]. split; [intro Es; rewrite (Or' Sm); auto|].
    intros val Rv. inversion Rv as [|? ? Rx Rr]; subst. cbn [fst snd] in Rx. cbn [length]. change (S (length rep)) with (1 + length rep).
    apply (keeps_trans 1 (length rep) _ (rs_cur s1)); auto; [lia|]. rewrite Nm. intros t Ht. apply without_in in Ht. tauto.
  - injection H as <-. exists []. rewrite app_nil_r. split; auto. split; [constructor|]. split; auto. split; auto. split; [lia|]. split; auto. intros val _. exists 0%Qc. split; [ring|]. split; auto.
    intros _. cbn [length]. rewrite qn_0. replace (0 * qn (num_vars (rs_cur s)) * TINY)%Qc with 0%Qc by ring. apply Qcle_refl.
Qed.
(** More rounds than variables are never needed. *)
Lemma loop_fuel inner min : forall fuel k s, plain_qubo (rs_cur s) -> num_vars (rs_cur s) <= fuel -> forall more, reduce_loop kz (fuel + more) inner min k s = reduce_loop kz fuel inner min k s.
Proof using.
  induction fuel as [|f IH]; intros k s G L more.
  - cbn [Nat.add]. destruct more; cbn [reduce_loop]; auto. destruct (Nat.ltb_spec min (num_vars (rs_cur s))); [lia|reflexivity].
  - cbn [Nat.add reduce_loop]. destruct (min <? num_vars (rs_cur s)); auto. destruct (reduce_round kz s (inner k (rs_cur s))) as [s1 [[]|]] eqn:E; auto.
    destruct (reduce_round_spec _ _ _ G E) as (xi & xj & same & O & _). destruct O as [Hi Hj Ne Nm Pl Se Gr Va]. apply IH; auto. pose proof (plain_length _ _ _ G Hi Nm). lia.
Qed.
(** Well-sized answers keep the loop going to the end. *)
Lemma round_runs s res samples s0 : plain_qubo (rs_cur s) -> 2 <= num_vars (rs_cur s) -> res = Ok s0 -> r_samples s0 = Some samples -> samples <> [] -> Forall (fun t => length (s_x t) = num_vars (rs_cur s)) samples ->
  exists s', reduce_round kz s res = (s', Ok tt).
Proof using.
  intros G N2 -> Es Ne Fs. destruct samples as [|t ts]; [congruence|]. pose proof (correlations_spec t ts) as C. cbv zeta in C. destruct C as [C1 C2].
  assert (length (s_x t) = num_vars (rs_cur s)) as Lt by now inversion Fs. rewrite Lt in C1, C2. destruct (C1 Fs) as [m Em]. destruct (C2 m Em) as (L & F & _). clear C1 C2.
  destruct (strongest_total m _ L F) as [[i j] Ei]; [lia|]. destruct (strongest_spec m _ L F i j Ei) as (Hi & Hj & St). destruct (St N2) as [Nij _].
  unfold reduce_round. unfold get_correlations. cbv zeta. cbn [bind]. rewrite Es, Em. cbn [bind]. rewrite Ei. cbn [bind fst snd].
  destruct (nth_error (p_vars (rs_cur s)) i) as [vi|] eqn:Vi; [|apply nth_error_None in Vi; unfold num_vars in *; lia].
  destruct (nth_error (p_vars (rs_cur s)) j) as [vj|] eqn:Vj; [|apply nth_error_None in Vj; unfold num_vars in *; lia].
  assert (forall k v, nth_error (p_vars (rs_cur s)) k = Some v -> py_nth (p_vars (rs_cur s)) (Z.of_nat k) = Ok v) as Py.
  { intros k v Hk. unfold py_nth. rewrite py_index_nat by (apply nth_error_Some; congruence). now rewrite Hk. }
  rewrite (Py i vi Vi), (Py j vj Vj). cbn [bind]. assert (forall p, p_vars p = p_vars (rs_cur s) -> nth_error (var_names p) i = Some (v_name vi) /\ nth_error (var_names p) j = Some (v_name vj)) as Nm.
  { intros p E. unfold var_names. rewrite E, !nth_error_map, Vi, Vj. auto. }
  destruct (qltb 0 (get2 m i j)).
  - destruct (Nm (rs_cur s) eq_refl) as [Ni Nj]. unfold reduce_subst. destruct (round_total kz (rs_cur s) i j 1%Qc _ _ G (or_introl eq_refl) Ni Nj Nij) as [q Hq]. cbv iota. rewrite Hq.
    destruct (round_same _ _ _ _ _ _ _ G Ni Nj Hq) as [_ ->]. eauto.
  - destruct (shift_spec (rs_cur s) i) as (p' & Ep & Sh); auto; try apply G. rewrite Ep. destruct (shifted_plain _ _ _ G Sh Hi) as (G' & V' & _).
    pose proof Sh as (e & Ee & _). assert (p_vars p' = p_vars (rs_cur s)) as Pv by now rewrite Ee. destruct (Nm (rs_cur s) eq_refl) as [Ni Nj]. destruct (Nm p' Pv) as [Ni' Nj'].
    unfold reduce_subst. cbn [write_cur rs_cur]. destruct (round_total kz p' i j (- (1))%Qc _ _ G' (or_intror eq_refl) Ni' Nj' Nij) as [q Hq]. cbv iota. rewrite Hq.
    destruct (round_opposite _ _ _ _ _ _ _ _ G Ni Nj Sh Hq) as [_ ->]. eauto.
Qed.
Lemma loop_total inner min : samples_sized inner -> 1 <= min -> forall fuel k s, plain_qubo (rs_cur s) -> num_vars (rs_cur s) <= fuel -> exists s', reduce_loop kz fuel inner min k s = (s', Ok tt).
Proof using.
  intros Si Hm. induction fuel as [|f IH]; intros k s G L; cbn [reduce_loop]; destruct (Nat.ltb_spec min (num_vars (rs_cur s))) as [Lt|Ge]; try lia; [eauto| |eauto].
  destruct (Si k (rs_cur s)) as (r & t & ts & Er & Es & Fs). destruct (round_runs s (inner k (rs_cur s)) (t :: ts) r) as [s1 E]; auto; [lia|congruence|]. rewrite E.
  destruct (reduce_round_spec _ _ _ G E) as (xi & xj & same & O & _). destruct O as [Hi Hj Ne Nm Pl Se Gr Va]. apply IH; auto. pose proof (plain_length _ _ _ G Hi Nm). lia.
Qed.
End Loop.
