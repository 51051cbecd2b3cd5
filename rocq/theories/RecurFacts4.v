(** * Facts about the recursive optimizer: one round *)
From Verif Require Export RecurFacts3.
Local Open Scope nat_scope.

Lemma substitute_unconstrained kz p cs vs q : substitute kz p cs vs = Ok q -> p_lcs p = [] -> p_qcs p = [] ->
  exists subs d1 d2, subs_dict p cs vs = Ok subs /\ sub_objective kz p subs d1 = Ok d2 /\ p_lcs d1 = [] /\ p_qcs d1 = [] /\
    (q = d2 \/ q = set_status INFEASIBLE d2).
Proof.
  intros H L Q. unfold substitute in H. apply bind_ok in H. destruct H as (subs & Es & E). apply bind_ok in E. destruct E as ([d1 b1] & Ev & E).
  apply bind_ok in E. destruct E as (d2 & Eo & E). rewrite L, Q in E. cbn [foldM bind fst snd] in *. exists subs, d1, d2. split; auto. split; auto.
  assert (p_lcs d1 = [] /\ p_qcs d1 = []) as [A B]; [|split; auto; split; auto; destruct b1; injection E as <-; auto].
  unfold sub_variables in Ev. apply bind_ok in Ev. destruct Ev as (d0 & Ec & Ev). apply bind_ok in Ev. destruct Ev as ([d1' b1'] & Eb & Ev). cbn [fst snd] in Ev. injection Ev as -> _.
  apply sub_copy_inv in Ec; [|apply idx_exact_new]. destruct Ec as (_ & _ & L0 & _ & Q0 & _). cbn in L0, Q0.
  assert (forall l st st', foldM (sub_bound p) l st = Ok st' -> p_lcs (fst st) = [] /\ p_qcs (fst st) = [] -> p_lcs (fst st') = [] /\ p_qcs (fst st') = []) as G.
  { clear. induction l as [|[i [j v]] l IH]; intros st st' H I; cbn [foldM] in H; [now injection H as <-|]. apply bind_ok in H. destruct H as (st1 & H1 & H). eapply IH; eauto.
    unfold sub_bound in H1. apply bind_ok in H1. destruct H1 as (vi & _ & H1). destruct (String.eqb j CONST); [now injection H1 as <-|]. destruct (qeqb v 0); [discriminate|].
    apply bind_ok in H1. destruct H1 as (dst & Hd & H1). injection H1 as <-. cbn [fst]. unfold on_variable in Hd. destruct (key_pos _ _ _); [|discriminate].
    destruct (nth_error _ _); [|discriminate]. destruct (tighten vi v v0); [|discriminate]. injection Hd as <-. exact I. }
  apply (G subs (d0, true) (d1, b1') Eb). auto.
Qed.

Lemma valof_map names (val : string -> Qc) s : NoDup names -> In s names -> valof names (map val names) s = val s.
Proof.
  intros N H. apply In_nth_error in H. destruct H as [i Hi]. rewrite (valof_nth _ _ i) by auto. unfold at_. apply nth_error_nth. now rewrite nth_error_map, Hi.
Qed.
Lemma at_map (val : string -> Qc) names i s : nth_error names i = Some s -> at_ (map val names) i = val s.
Proof. intro H. unfold at_. apply nth_error_nth. now rewrite nth_error_map, H. Qed.
Lemma denotes_nat p i k : i < num_vars p -> denotes p (KI (Z.of_nat i)) k <-> k = i.
Proof. intro Hi. unfold denotes, points_to. split; [intros [Hk [E|E]]; lia|intros ->; auto]. Qed.
Lemma Forall2_zero {A} (R : A -> Qc -> Prop) l z : Forall (fun v => R v 0%Qc) l -> length z = length l -> Forall (fun a => a = 0%Qc) z -> Forall2 R l z.
Proof. intros F. revert z. induction F as [|v l Hv F IH]; intros [|a z] L Z; try discriminate; constructor; inversion Z; subst; auto. Qed.
Lemma Forall2_zero_inv {A} (R : A -> Qc -> Prop) l z : Forall2 R l z -> Forall (fun a => a = 0%Qc) z -> Forall (fun v => R v 0%Qc) l.
Proof. induction 1 as [|v a l z Hv F IH]; intro Z; constructor; inversion Z; subst; auto. Qed.
Lemma filter_map_swap {A B} (g : A -> B) f l : filter f (map g l) = map g (filter (fun a => f (g a)) l).
Proof. induction l as [|a l IH]; cbn; auto. destruct (f (g a)); cbn; now rewrite IH. Qed.
Lemma finite_0 : finite 0%Qc. Proof. reflexivity. Qed.
Lemma finite_opp a : finite a -> finite (- a)%Qc. Proof. unfold finite. now rewrite qabs_opp. Qed.

Section Round.
Variables (kz : bool) (p : qp) (i j : nat) (v : Qc) (xi xj : string).
Hypothesis G : plain_qubo p.
Hypothesis Vv : v = 1%Qc \/ v = (- (1))%Qc.
Hypothesis Ni : nth_error (var_names p) i = Some xi.
Hypothesis Nj : nth_error (var_names p) j = Some xj.
Local Notation vs := [(KI (Z.of_nat i), (KI (Z.of_nat j), v))].

Lemma rd_i : i < num_vars p. Proof using Ni. rewrite <- names_length. apply nth_error_Some. congruence. Qed.
Lemma rd_j : j < num_vars p. Proof using Nj. rewrite <- names_length. apply nth_error_Some. congruence. Qed.
Lemma rd_keys : keys_denote p [] vs.
Proof using Ni Nj.
  split; [intros ? ? []|]. intros k k' w [E|[]]. injection E as <- <- <-. split; [exists i; apply denotes_nat; auto using rd_i|exists j; apply denotes_nat; auto using rd_j].
Qed.
Lemma rd_agrees x : length x = num_vars p -> at_ x i = (v * at_ x j)%Qc -> agrees p [] vs x.
Proof using Ni Nj.
  intros L E. split; auto. split; [intros ? ? ? []|]. intros k k' w a b [H|[]] Da Db. injection H as <- <- <-.
  apply denotes_nat in Da; [|apply rd_i]. apply denotes_nat in Db; [|apply rd_j]. now subst.
Qed.
Local Notation zero := (repeat 0%Qc (num_vars p)).
Lemma zero_all : Forall (fun a => a = 0%Qc) zero. Proof using. clear. apply Forall_forall. intros a H. now apply repeat_spec in H. Qed.
Lemma zero_at k : at_ zero k = 0%Qc.
Proof using. clear. unfold at_. destruct (nth_in_or_default k zero 0%Qc) as [H|H]; auto. now apply repeat_spec in H. Qed.
Lemma zero_agrees : agrees p [] vs zero.
Proof using Ni Nj. apply rd_agrees; [apply repeat_length|]. rewrite !zero_at. ring. Qed.
Lemma zero_fits : Forall2 fits (p_vars p) zero.
Proof using G.
  destruct G as (_ & _ & _ & Z & _). apply Forall2_zero; [|apply repeat_length|apply zero_all]. eapply Forall_impl; [|exact Z]. intros w [A B]. split; auto.
Qed.
Lemma zero_satisfies : satisfies p zero.
Proof using G. pose proof G as (_ & L & Q & _). split; [apply zero_fits|]. unfold lcs_hold, qcs_hold. rewrite L, Q. auto. Qed.
Lemma rd_moderate : moderate p [] vs.
Proof using G Vv.
  pose proof G as (_ & _ & _ & Z & _). split; [|split; [intros ? ? []|]].
  - eapply Forall_impl; [|exact Z]. intros w [A B]. pose proof INF_pos. split; qlra.
  - intros k k' u a w [E|[]] _ _. injection E as _ _ <-. destruct Vv as [->| ->].
    + replace (v_lb w / 1)%Qc with (v_lb w) by fld. replace (v_ub w / 1)%Qc with (v_ub w) by fld. auto.
    + replace (v_lb w / - (1))%Qc with (- v_lb w)%Qc by fld. replace (v_ub w / - (1))%Qc with (- v_ub w)%Qc by fld. split; apply finite_opp.
Qed.
Lemma round_total : i <> j -> exists q, substitute kz p [] vs = Ok q.
Proof using G Vv Ni Nj.
  intro Nij. pose proof G as (W & L & Q & Z & NC & [[_ Dl] [_ Dq]] & _). pose proof rd_i as Hi. pose proof rd_j as Hj.
  apply (substitute_total kz p [] vs zero W); auto using rd_keys, zero_agrees, zero_fits.
  - split; [lia|]. split; [lia|]. rewrite L, Q. auto.
  - intros (a & b & k & k' & c & Lab & E1 & E2 & _). cbn in E1, E2. destruct b as [|b]; [lia|]. destruct b; discriminate.
  - intros (k & k' & [E|[]]). injection E as _ _ E. destruct Vv as [V|V]; rewrite E in V; apply (f_equal this) in V; discriminate V.
  - intros (k & k' & w & c & [E|[]] & D1 & D2). injection E as <- <- <-. apply denotes_nat in D1; auto. apply denotes_nat in D2; auto. congruence.
  - intros (k & k' & w & c & [E|[]] & D1 & [(? & ? & [] & _)|(k1 & k2 & w' & [E'|[]] & D2)]). injection E as <- <- <-. injection E' as <- <- <-.
    apply denotes_nat in D1; auto. apply denotes_nat in D2; auto. congruence.
  - apply Forall_forall. intros a Ha. apply repeat_spec in Ha. subst a. exact finite_0.
Qed.

Variable q : qp.
Hypothesis H : substitute kz p [] vs = Ok q.
Lemma round_spec : xi <> xj /\ var_names q = without xi (var_names p) /\ p_status q = VALID /\ plain_qubo q /\ o_sense (p_obj q) = o_sense (p_obj p) /\
  (forall val, val xi = (v * val xj)%Qc -> obj_val q val = obj_val p val) /\
  (forall P : Qc -> Prop, P 0%Qc -> (forall a b, P a -> P b -> P (a + b)%Qc) -> (forall a, P a -> P (- a)%Qc) ->
     (forall k, P (coef1 (o_lin (p_obj p)) k)) -> (forall k l, P (coef2 (o_quad (p_obj p)) k l)) ->
     (forall k, P (coef1 (o_lin (p_obj q)) k)) /\ (forall k l, P (coef2 (o_quad (p_obj q)) k l))).
Proof using G Vv Ni Nj H.
  pose proof G as (W & L & Q & Z & NC & [[Wl Dl] [Wq Dq]] & U & I). pose proof rd_keys as K. pose proof (prog_wf_nodup _ W) as ND.
  destruct (substitute_inv kz p [] vs q W K H) as (subs & D). pose proof (consistent_agrees p [] vs q W NC K subs D) as CA.
  assert (In (xi, (xj, v)) subs) as Hs by (apply (sd_var _ _ _ _ _ D (KI (Z.of_nat i)) (KI (Z.of_nat j)) v i j); auto; [now left|apply denotes_nat; auto using rd_i|apply denotes_nat; auto using rd_j]).
  assert (forall e, In e subs -> e = (xi, (xj, v))) as Ho.
  { intros [s [t w]] He. destruct (sd_from _ _ _ _ _ D _ He) as [(k & a & [] & _)|(k & k' & a & b & [E|[]] & Da & Db & Na & Nb & _)]. cbn [fst snd] in *. injection E as <- <- <-.
    apply denotes_nat in Da; [|apply rd_i]. apply denotes_nat in Db; [|apply rd_j]. subst a b. congruence. }
  assert (xj <> CONST) as Nc by (intros ->; apply NC; eapply nth_error_In; eauto).
  assert (xi <> xj) as Nx.
  { pose proof (sd_kept _ _ _ _ _ D _ _ _ Hs Nc) as Kk. apply kept_iff in Kk. destruct Kk as [_ Kk]. intros E. apply Kk. rewrite <- E. apply (in_map fst _ _ Hs). }
  assert (var_names q = without xi (var_names p)) as Vn.
  { rewrite (sd_names _ _ _ _ _ D). unfold kept_names, kept, var_names, without. rewrite filter_map_swap. f_equal. apply filter_ext. intro w. f_equal.
    destruct (str_eqb_sp (v_name w) xi) as [Ew|E]; [rewrite Ew; apply (dhas_in _ str_eqb_sp), (in_map fst _ _ Hs)|]. apply (dhas_false _ str_eqb_sp). intro Hin. apply in_map_iff in Hin. destruct Hin as (e & Ee & He).
    apply E. rewrite <- Ee, (Ho e He). reflexivity. }
  pose proof (proj2 (CA zero) zero_agrees) as Cz. destruct (proj2 (sd_sat _ _ _ _ _ D rd_moderate (const_finite p [] vs q subs D NC rd_moderate) zero Cz) zero_satisfies) as [St [Fz _]].
  destruct (substitute_unconstrained kz p [] vs q H L Q) as (subs' & d1 & d2 & Es & Eo & L1 & Q1 & Eq).
  assert (forall e, In e subs' -> snd (snd e) = v) as Fv.
  { destruct (subs_dict_inv p [] vs W K subs' Es) as (_ & _ & _ & SF). intros e He. destruct (SF e He) as [(k & a & [] & _)|(k & k' & a & b & [E|[]] & _)]. now injection E as _ _ <-. }
  split; auto. split; auto. split; auto. split; [|split; [exact (sd_sense _ _ _ _ _ D)|split]].
  - destruct (sub_objective_P (fun _ => True) Logic.I (fun _ _ _ _ => Logic.I) p subs' ND (fun _ _ _ _ => Logic.I) kz d1 d2 Eo Wl Wq) as (o & -> & Sl & Sq & Uo & Io & _); auto.
    assert (p_obj q = o /\ p_lcs q = [] /\ p_qcs q = [] /\ num_vars q = num_vars d1) as (E1 & E2 & E3 & E4) by (destruct Eq as [-> | ->]; auto).
    split; [exact (sd_wf _ _ _ _ _ D)|]. split; auto. split; auto. split.
    { apply (Forall_impl (P := fun w => fits w 0%Qc)); [intros w; apply fits_range, finite_0|]. eapply Forall2_zero_inv; [exact Fz|].
      apply Forall_forall. intros a Ha. unfold reduced in Ha. apply in_map_iff in Ha. destruct Ha as (s & <- & Hs'). apply kept_iff in Hs'. destruct Hs' as [Hs' _]. apply In_nth_error in Hs'. destruct Hs' as [k Hk].
      rewrite (valof_nth _ _ k) by auto. apply zero_at. }
    split; [rewrite Vn, without_in; tauto|]. unfold obj_shaped. rewrite E1, E4. auto.
  - intros val Ev. unfold obj_val. change (map v_name (p_vars q)) with (var_names q). change (map v_name (p_vars p)) with (var_names p).
    assert (agrees p [] vs (map val (var_names p))) as A. { apply rd_agrees; [now rewrite map_length, names_length|]. now rewrite (at_map _ _ _ _ Ni), (at_map _ _ _ _ Nj). }
    rewrite <- (sd_obj _ _ _ _ _ D _ _ (proj2 (CA _) A) (matches_reduced _ _ W _)). f_equal. unfold reduced. rewrite (sd_names _ _ _ _ _ D). apply map_ext_in. intros s Hs'. symmetry. apply valof_map; auto. apply kept_iff in Hs'. tauto.
  - intros P P0 PA PO P1 P2. destruct (sub_objective_P P P0 PA p subs' ND) with (kz := kz) (dst := d1) (dst' := d2) as (o & -> & _ & _ & _ & _ & Co & Cq); auto.
    { intros e He c Hc. rewrite (Fv e He). destruct Vv as [-> | ->]; [now rewrite Qcmult_1_r|]. replace (c * - (1))%Qc with (- c)%Qc by ring. auto. }
    assert (p_obj q = o) as -> by (destruct Eq as [-> | ->]; auto). auto.
Qed.
End Round.
