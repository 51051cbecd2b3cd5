(** * Substitution of variables: bounds and the whole function *)
From Verif Require Export SubstFacts3.
Local Open Scope string_scope.
Local Open Scope list_scope.
Local Open Scope nat_scope.

Lemma INF_pos : (0 < INFINITY)%Qc.
Proof. reflexivity. Qed.
Lemma div_le_pos (a b v : Qc) : (0 < v)%Qc -> (a / v <= b)%Qc <-> (a <= v * b)%Qc.
Proof.
  intro Hv. assert (v <> 0%Qc) as Nz by (intros ->; discriminate). assert (a = v * (a / v))%Qc as E by (field; auto).
  set (t := (a / v)%Qc) in *. clearbody t. subst a. split; intro; [qnra|].
  destruct (qleb_spec t b); auto. exfalso. assert (b < t)%Qc by (now apply Qcnot_le_lt). assert (v * b < v * t)%Qc by qnra. qlra.
Qed.
Lemma div_ge_pos (a b v : Qc) : (0 < v)%Qc -> (b <= a / v)%Qc <-> (v * b <= a)%Qc.
Proof.
  intro Hv. assert (v <> 0%Qc) as Nz by (intros ->; discriminate). assert (a = v * (a / v))%Qc as E by (field; auto).
  set (t := (a / v)%Qc) in *. clearbody t. subst a. split; intro; [qnra|].
  destruct (qleb_spec b t); auto. exfalso. assert (t < b)%Qc by (now apply Qcnot_le_lt). assert (v * t < v * b)%Qc by qnra. qlra.
Qed.
Lemma div_opp (a v : Qc) : v <> 0%Qc -> (a / v = - a / - v)%Qc.
Proof. intro. field. split; auto. intro E. apply H. rewrite <- (Qcopp_involutive v), E. reflexivity. Qed.
Lemma div_le_neg (a b v : Qc) : (v < 0)%Qc -> (a / v <= b)%Qc <-> (v * b <= a)%Qc.
Proof.
  intro Hv. rewrite div_opp by (intros ->; discriminate). rewrite div_le_pos by qlra. split; intro; qlra.
Qed.
Lemma div_ge_neg (a b v : Qc) : (v < 0)%Qc -> (b <= a / v)%Qc <-> (a <= v * b)%Qc.
Proof.
  intro Hv. rewrite div_opp by (intros ->; discriminate). rewrite div_ge_pos by qlra. split; intro; qlra.
Qed.

(** Lower and upper conditions of [fits]. *)
Definition low_ok (b a : Qc) : Prop := (b <= - INFINITY)%Qc \/ (b <= a)%Qc.
Definition high_ok (b a : Qc) : Prop := (INFINITY <= b)%Qc \/ (a <= b)%Qc.
Lemma low_max b c a : low_ok (qmax b c) a <-> low_ok b a /\ low_ok c a.
Proof.
  unfold low_ok. rewrite !qmax_lub. split; [tauto|]. intros [[?|?] [?|?]]; try tauto.
  - destruct (qleb_spec (- INFINITY) a) as [H2|H2]; [right|left]; split; try qlra.
  - destruct (qleb_spec (- INFINITY) a) as [H2|H2]; [right|left]; split; try qlra.
Qed.
Lemma high_min b c a : high_ok (qmin b c) a <-> high_ok b a /\ high_ok c a.
Proof.
  unfold high_ok. rewrite !qmin_glb. split; [tauto|]. intros [[?|?] [?|?]]; try tauto.
  - destruct (qleb_spec a INFINITY) as [H2|H2]; [right|left]; split; try qlra.
  - destruct (qleb_spec a INFINITY) as [H2|H2]; [right|left]; split; try qlra.
Qed.
Lemma finite_iff a : finite a <-> (- INFINITY < a)%Qc /\ (a < INFINITY)%Qc.
Proof. apply qabs_bound_lt. Qed.
Lemma not_finite a : ~ finite a -> (a <= - INFINITY)%Qc \/ (INFINITY <= a)%Qc.
Proof.
  intro H. destruct (qleb_spec a (- INFINITY)); auto. destruct (qleb_spec INFINITY a); auto. exfalso. apply H, finite_iff. split; now apply Qcnot_le_lt.
Qed.
(** Scaling a bound by a factor. *)
Lemma scale_low b v a : (b < INFINITY)%Qc -> (finite b -> finite (b / v)) -> v <> 0%Qc ->
  if qltb 0 v then low_ok (scale_bound b v) a <-> low_ok b (v * a)%Qc else high_ok (scale_bound b v) a <-> low_ok b (v * a)%Qc.
Proof.
  intros Hb Hf Hv. unfold scale_bound. pose proof INF_pos as IP. destruct (qltb_spec (qabs b) INFINITY) as [F|F].
  - specialize (Hf F). apply finite_iff in Hf. assert (finite b) as Fb by exact F. apply finite_iff in Fb.
    destruct (qltb_spec 0 v) as [P|P].
    + unfold low_ok. rewrite (div_le_pos b a) by auto. split; intros [?|?]; try tauto; exfalso; qlra.
    + assert (v < 0)%Qc as P' by (apply Qcnot_lt_le in P; destruct (Qcle_lt_or_eq _ _ P); [auto|congruence]).
      unfold low_ok, high_ok. rewrite (div_ge_neg b a) by auto. split; intros [?|?]; try tauto; exfalso; qlra.
  - assert (b <= - INFINITY)%Qc as Hl by (destruct (not_finite b F); auto; exfalso; qlra).
    destruct (qltb_spec 0 v) as [P|P]; unfold low_ok, high_ok.
    + tauto.
    + split; intro; left; qlra.
Qed.
Lemma scale_high b v a : (- INFINITY < b)%Qc -> (finite b -> finite (b / v)) -> v <> 0%Qc ->
  if qltb 0 v then high_ok (scale_bound b v) a <-> high_ok b (v * a)%Qc else low_ok (scale_bound b v) a <-> high_ok b (v * a)%Qc.
Proof.
  intros Hb Hf Hv. unfold scale_bound. pose proof INF_pos as IP. destruct (qltb_spec (qabs b) INFINITY) as [F|F].
  - specialize (Hf F). apply finite_iff in Hf. assert (finite b) as Fb by exact F. apply finite_iff in Fb.
    destruct (qltb_spec 0 v) as [P|P].
    + unfold high_ok. rewrite (div_ge_pos b a) by auto. split; intros [?|?]; try tauto; exfalso; qlra.
    + assert (v < 0)%Qc as P' by (apply Qcnot_lt_le in P; destruct (Qcle_lt_or_eq _ _ P); [auto|congruence]).
      unfold low_ok, high_ok. rewrite (div_le_neg b a) by auto. split; intros [?|?]; try tauto; exfalso; qlra.
  - assert (INFINITY <= b)%Qc as Hl by (destruct (not_finite b F); auto; exfalso; qlra).
    destruct (qltb_spec 0 v) as [P|P]; unfold low_ok, high_ok.
    + tauto.
    + split; intro; left; qlra.
Qed.
Lemma tighten_spec vi v vj w : (v_lb vi < INFINITY)%Qc -> (- INFINITY < v_ub vi)%Qc ->
  (finite (v_lb vi) -> finite (v_lb vi / v)) -> (finite (v_ub vi) -> finite (v_ub vi / v)) -> v <> 0%Qc -> tighten vi v vj = Ok w ->
  forall a, fits w a <-> fits vj a /\ fits vi (v * a)%Qc.
Proof.
  intros H1 H2 H3 H4 Hv H a. pose proof (scale_low _ _ a H1 H3 Hv) as L. pose proof (scale_high _ _ a H2 H4 Hv) as U.
  unfold tighten in H. cbv zeta in H. change (low_ok (v_lb w) a /\ high_ok (v_ub w) a <-> (low_ok (v_lb vj) a /\ high_ok (v_ub vj) a) /\ (low_ok (v_lb vi) (v * a)%Qc /\ high_ok (v_ub vi) (v * a)%Qc)).
  destruct (qltb 0 v); inv_ok; unfold var_set_lb, var_set_ub in *;
    repeat match goal with H : (if ?b then _ else _) = Ok _ |- _ => destruct b; [discriminate H|injection H as <-] end; cbn [v_lb v_ub];
    rewrite low_max, high_min, L, U; tauto.
Qed.
(** In any case names and types stay, and the bounds do not cross. *)
Lemma tighten_shape vi v vj w : tighten vi v vj = Ok w -> v_name w = v_name vj /\ v_type w = v_type vj /\ (v_lb w <= v_ub w)%Qc.
Proof.
  intro H. unfold tighten in H. cbv zeta in H.
  destruct (qltb 0 v); inv_ok; unfold var_set_lb, var_set_ub in *;
    repeat match goal with H : (if qltb ?a ?b then _ else _) = Ok _ |- _ => destruct (qltb_spec a b) as [|?Q]; [discriminate H|injection H as <-] end;
    cbn in *; (split; [|split]; auto); now apply Qcnot_lt_le.
Qed.
(** Bounds only become tighter. *)
Lemma tighten_within vi v vj w : tighten vi v vj = Ok w -> (v_lb vj <= v_lb w)%Qc /\ (v_ub w <= v_ub vj)%Qc.
Proof.
  intro H. unfold tighten in H. cbv zeta in H.
  destruct (qltb 0 v); inv_ok; unfold var_set_lb, var_set_ub in *;
    repeat match goal with H : (if ?b then _ else _) = Ok _ |- _ => destruct b; [discriminate H|injection H as <-] end; cbn [v_lb v_ub];
    (split; [pose proof (proj1 (qmax_lub _ _ _) (Qcle_refl (qmax (v_lb vj) (scale_bound (v_lb vi) v)))) ;
             pose proof (proj1 (qmax_lub _ _ _) (Qcle_refl (qmax (v_lb vj) (scale_bound (v_ub vi) v)))); tauto
            |pose proof (proj1 (qmin_glb _ _ _) (Qcle_refl (qmin (v_ub vj) (scale_bound (v_ub vi) v))));
             pose proof (proj1 (qmin_glb _ _ _) (Qcle_refl (qmin (v_ub vj) (scale_bound (v_lb vi) v)))); tauto]).
Qed.

Lemma Forall2_at {A} (R : A -> Qc -> Prop) l y : Forall2 R l y <-> length y = length l /\ forall i a, nth_error l i = Some a -> R a (at_ y i).
Proof.
  split.
  - intro F. split; [symmetry; eapply Forall2_length; eauto|]. intros i a H. eapply Forall2_nth; eauto.
  - revert y. induction l as [|a l IH]; intros [|b y] [L H]; try discriminate; constructor.
    + exact (H 0 a eq_refl).
    + apply IH. split; [now injection L|]. intros i c Hi. exact (H (S i) c Hi).
Qed.
Lemma Forall2_update {A} (R : A -> Qc -> Prop) l y i a b : nth_error l i = Some a ->
  (forall c, R b c -> R a c) -> Forall2 R (update i b l) y <-> Forall2 R l y /\ R b (at_ y i).
Proof.
  intros H M. rewrite !Forall2_at, update_length. assert (i < length l) as Hi by (apply nth_error_Some; congruence).
  assert (i <? length l = true) as Hb by now apply Nat.ltb_lt. split.
  - intros [L F]. assert (R b (at_ y i)) as Rb by (apply F; rewrite nth_error_update, Nat.eqb_refl, Hb; reflexivity).
    repeat split; auto. intros j c Hj. destruct (Nat.eq_dec i j) as [<-|N].
    + rewrite H in Hj. injection Hj as <-. auto.
    + apply F. rewrite nth_error_update. apply Nat.eqb_neq in N. now rewrite N.
  - intros [[L F] Rb]. split; auto. intros j c. rewrite nth_error_update. destruct (Nat.eqb_spec i j) as [<-|N].
    + rewrite Hb. now intros [= <-].
    + apply F.
Qed.

Section Bounds.
Variables (p : qp) (subs : subs_t).
Hypothesis W : prog_wf p.
Hypothesis SS : forall e, In e subs -> In (fst e) (var_names p).
Notation red := (reduced p subs).
Notation good := (consistent p subs).

(** The target while bounds are tightened. *)
Record binv (dst0 dst : qp) : Prop := {
  bi_exact : idx_exact dst;
  bi_names : var_names dst = var_names dst0;
  bi_types : map v_type (p_vars dst) = map v_type (p_vars dst0);
  bi_bounds : bounds_ok dst;
  bi_lcs : p_lcs dst = p_lcs dst0;
  bi_qcs : p_qcs dst = p_qcs dst0;
  bi_obj : p_obj dst = p_obj dst0;
  bi_status : p_status dst = p_status dst0 }.

Lemma exact_key dst s i : idx_exact dst -> key_pos (p_vars dst) (p_vidx dst) (KS s) = Ok i -> nth_error (var_names dst) i = Some s.
Proof using.
  clear. intros X H. unfold key_pos, del_pos in H. destruct (dget String.eqb s (p_vidx dst)) eqn:E; [|discriminate].
  apply (ie_v _ X) in E. destruct (_ <? _); [|discriminate]. now injection H as <-.
Qed.
Lemma sub_bound_cases dst0 st e st' : binv dst0 (fst st) -> In e subs -> sub_bound p st e = Ok st' ->
  exists i vi, nth_error (p_vars p) i = Some vi /\ v_name vi = fst e /\
  ((fst (snd e) = CONST /\ fst st' = fst st /\ snd st' = snd st && (qleb (v_lb vi) (snd (snd e)) && qleb (snd (snd e)) (v_ub vi)))
   \/ (fst (snd e) <> CONST /\ snd (snd e) <> 0%Qc /\ snd st' = snd st /\
       exists j vj w, nth_error (var_names dst0) j = Some (fst (snd e)) /\ nth_error (p_vars (fst st)) j = Some vj /\
         tighten vi (snd (snd e)) vj = Ok w /\ fst st' = set_vars (update j w (p_vars (fst st))) (fst st))).
Proof using W SS.
  intros B He H. destruct e as [s [s' v]]. cbn [fst snd] in *. unfold sub_bound in H. apply bind_ok in H. destruct H as (vi & Hv & H).
  destruct (get_variable_named p s vi) as (i & Hi & Hs); auto.
  { now destruct W. } { now apply (SS _ He). }
  exists i, vi. split; auto. split. { apply nth_var in Hi. congruence. }
  destruct (str_eqb_sp s' CONST) as [->|N]; [left|right].
  - injection H as <-. auto.
  - destruct (qeqb_spec v 0); [discriminate|]. split; auto. split; auto. apply bind_ok in H. destruct H as (d & Hd & H). injection H as <-. split; auto.
    destruct (on_variable_cases (fst st) (KS s') (tighten vi v)) as [[er E]|(j & vj & w & Hj & Hvj & Hw & E)]; rewrite E in Hd; [discriminate|].
    injection Hd as <-. exists j, vj, w. apply exact_key in Hj; [|apply B]. rewrite (bi_names _ _ B) in Hj. auto.
Qed.
Lemma map_update_same_nat {A B} (f : A -> B) l i a b : nth_error l i = Some a -> f b = f a -> map f (update i b l) = map f l.
Proof using. clear. intros H E. rewrite update_map, E. apply update_same. now rewrite nth_error_map, H. Qed.
Lemma binv_step dst0 st e st' : binv dst0 (fst st) -> In e subs -> sub_bound p st e = Ok st' -> binv dst0 (fst st') /\
  (fst (snd e) <> CONST -> In (fst (snd e)) (var_names dst0)).
Proof using W SS.
  intros B He H. destruct (sub_bound_cases _ _ _ _ B He H) as (i & vi & Hi & Hn & [(E & -> & _)|(N & Nz & Es & j & vj & w & Hj & Hvj & Hw & ->)]).
  - split; auto. intro. contradiction.
  - destruct (tighten_shape _ _ _ _ Hw) as (T1 & T2 & T3). split; [|intros _; eapply nth_error_In; eauto].
    destruct B as [B1 B2 B3 B4 B5 B6 B7 B8]. constructor; auto.
    + eapply upd_v_exact; eauto.
    + unfold var_names in *. cbn. rewrite (map_update_same_nat _ _ _ _ _ Hvj T1). exact B2.
    + cbn. rewrite (map_update_same_nat _ _ _ _ _ Hvj T2). exact B3.
    + unfold bounds_ok. cbn. apply Forall_update; auto.
Qed.
Lemma binv_fold dst0 l : forall st st', binv dst0 (fst st) -> incl l subs -> foldM (sub_bound p) l st = Ok st' -> binv dst0 (fst st') /\
  forall e, In e l -> fst (snd e) <> CONST -> In (fst (snd e)) (var_names dst0).
Proof using W SS.
  induction l as [|e l IH]; intros st st' B I H; cbn [foldM] in H.
  - injection H as <-. split; auto. intros e [].
  - apply bind_ok in H. destruct H as (st1 & H1 & H). destruct (binv_step _ _ _ _ B (I e (or_introl eq_refl)) H1) as [B1 C].
    destruct (IH _ _ B1 (fun a Ha => I a (or_intror Ha)) H) as [B2 C2]. split; auto. intros e' [<-|He]; auto.
Qed.

(** The bounds say the same. *)
Hypothesis MV : Forall (fun v => (v_lb v < INFINITY)%Qc /\ (- INFINITY < v_ub v)%Qc) (p_vars p).
Hypothesis MC : forall e, In e subs -> fst (snd e) = CONST -> finite (snd (snd e)).
Hypothesis MD : forall e i w, In e subs -> fst (snd e) <> CONST -> nth_error (p_vars p) i = Some w -> v_name w = fst e ->
  (finite (v_lb w) -> finite (v_lb w / snd (snd e))) /\ (finite (v_ub w) -> finite (v_ub w / snd (snd e))).
Hypothesis SV : forall s s' v, In (s, (s', v)) subs -> s' <> CONST -> In s' (kept_names p subs).

Definition entry_fits (x : list Qc) (e : string * (string * Qc)) : Prop :=
  forall i w, nth_error (p_vars p) i = Some w -> v_name w = fst e -> fits w (at_ x i).

Lemma sub_bound_fits dst0 st e st' x : binv dst0 (fst st) -> var_names dst0 = kept_names p subs -> In e subs -> good x -> sub_bound p st e = Ok st' ->
  (snd st' = true /\ Forall2 fits (p_vars (fst st')) (red x)) <->
  (snd st = true /\ Forall2 fits (p_vars (fst st)) (red x)) /\ entry_fits x e.
Proof using W SS MV MC MD SV.
  intros B V He G H. pose proof (prog_wf_nodup _ W) as ND.
  destruct (sub_bound_cases _ _ _ _ B He H) as (i & vi & Hi & Hn & Cs).
  assert (entry_fits x e <-> fits vi (at_ x i)) as EF.
  { split; [intro F; now apply F|]. intros F i' w Hw Hnw. assert (i' = i) as ->; [|congruence].
    apply nth_var in Hw, Hi. rewrite Hnw in Hw. rewrite Hn in Hi. eapply name_inj; eauto. }
  assert (at_ x i = valof (var_names p) x (fst e)) as Ev.
  { symmetry. apply valof_nth; auto. rewrite <- Hn. now apply nth_var. }
  destruct G as (_ & _ & G). destruct e as [s [s' v]]. cbn [fst snd] in *. specialize (G s s' v He).
  assert ((v_lb vi < INFINITY)%Qc /\ (- INFINITY < v_ub vi)%Qc) as [M1 M2] by (eapply Forall_forall in MV; [exact MV|eapply nth_error_In; eauto]).
  destruct Cs as [(-> & -> & ->)|(N & Nz & -> & j & vj & w & Hj & Hvj & Hw & ->)].
  - rewrite String.eqb_refl in G. rewrite EF, Ev, G, !andb_true_iff, !qleb_iff. pose proof (MC _ He eq_refl) as Fi. cbn in Fi. apply finite_iff in Fi.
    assert (fits vi v <-> (v_lb vi <= v)%Qc /\ (v <= v_ub vi)%Qc) as ->; [|tauto].
    unfold fits. split; [|tauto]. intros [[?|?] [?|?]]; split; auto; qlra.
  - destruct (str_eqb_sp s' CONST); [contradiction|]. destruct (MD _ _ _ He N Hi Hn) as [M3 M4]. cbn [fst snd] in M3, M4.
    pose proof (tighten_spec _ _ _ _ M1 M2 M3 M4 Nz Hw) as T. cbn [p_vars set_vars].
    rewrite (Forall2_update _ _ _ _ _ _ Hvj) by (intros c Hc; now apply T).
    assert (at_ (red x) j = valof (var_names p) x s') as Ej.
    { rewrite V in Hj. rewrite <- (reduced_val p subs W x s') by (eapply SV; eauto). symmetry. apply valof_nth; auto. now apply kept_nodup. }
    rewrite T, EF, Ev, G, Ej. split; [tauto|]. intros ((E & F) & E2). split; auto. split; auto. split; auto.
    rewrite <- Ej. apply Forall2_at in F. now apply F.
Qed.
Lemma sub_bounds_fits dst0 l : forall st st' x, binv dst0 (fst st) -> var_names dst0 = kept_names p subs -> incl l subs -> good x ->
  foldM (sub_bound p) l st = Ok st' ->
  (snd st' = true /\ Forall2 fits (p_vars (fst st')) (red x)) <->
  (snd st = true /\ Forall2 fits (p_vars (fst st)) (red x)) /\ Forall (entry_fits x) l.
Proof using W SS MV MC MD SV.
  induction l as [|e l IH]; intros st st' x B V I G H; cbn [foldM] in H.
  - injection H as <-. intuition.
  - apply bind_ok in H. destruct H as (st1 & H1 & H). assert (In e subs) as He by (apply I; now left).
    destruct (binv_step _ _ _ _ B He H1) as [B1 _].
    rewrite (IH _ _ x B1 V (fun a Ha => I a (or_intror Ha)) G H), (sub_bound_fits _ _ _ _ x B V He G H1), Forall_cons_iff. tauto.
Qed.
(** Kept variables with replaced ones are all variables. *)
Lemma all_fit x : length x = num_vars p -> Forall2 fits (p_vars p) x <-> Forall2 fits (kept p subs) (red x) /\ Forall (entry_fits x) subs.
Proof using W.
  intro L. pose proof (prog_wf_nodup _ W) as ND. rewrite !Forall2_at. split.
  - intros [_ F]. split; [split|].
    + apply reduced_length.
    + intros i v Hi. assert (In v (kept p subs)) as Hin by (eapply nth_error_In; eauto). unfold kept in Hin. apply filter_In in Hin. destruct Hin as [Hin _].
      apply In_nth_error in Hin. destruct Hin as [k Hk].
      assert (at_ (red x) i = at_ x k) as ->; [|now apply F]. pose proof (nth_var _ _ _ Hk) as Hk'. rewrite <- (valof_nth _ x k _ ND Hk').
      unfold at_, reduced. apply nth_error_nth. unfold kept_names. now rewrite !nth_error_map, Hi.
    + apply Forall_forall. intros e He i w Hw Hn. now apply F.
  - intros [[_ F] E]. split; auto. intros k v Hk. pose proof (nth_var _ _ _ Hk) as Hk'.
    destruct (dhas String.eqb (v_name v) subs) eqn:D.
    + apply (dhas_in _ str_eqb_sp), in_map_iff in D. destruct D as (e & He & Hin). eapply Forall_forall in E; [|exact Hin]. eapply E; eauto.
    + assert (In v (kept p subs)) as Hin by (apply filter_In; rewrite D; split; auto; eapply nth_error_In; eauto).
      apply In_nth_error in Hin. destruct Hin as [i Hi]. specialize (F _ _ Hi).
      assert (at_ (red x) i = at_ x k) as E'; [|now rewrite E' in F]. rewrite <- (valof_nth _ x k _ ND Hk').
      unfold at_, reduced. apply nth_error_nth. unfold kept_names. now rewrite !nth_error_map, Hi.
Qed.
End Bounds.
