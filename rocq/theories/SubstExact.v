(** * Substitution of variables: exactly which substitutions are carried out *)
From Verif Require Export SubstTotal.
Local Open Scope string_scope.
Local Open Scope list_scope.
Local Open Scope nat_scope.

Lemma scale_turned_low b v a : v <> 0%Qc -> (if qltb 0 v then (scale_bound b v <= a)%Qc else (a <= scale_bound b v)%Qc) <-> (b <= turned b v a)%Qc.
Proof.
  intro Nz. unfold scale_bound, turned. destruct (qltb_spec 0 v) as [P|P].
  - destruct (qltb (qabs b) INFINITY); [now apply div_le_pos|reflexivity].
  - assert (v < 0)%Qc as P' by (apply Qcnot_lt_le in P; destruct (Qcle_lt_or_eq _ _ P); [auto|congruence]).
    destruct (qltb (qabs b) INFINITY); [now apply div_ge_neg|]. split; intro; qlra.
Qed.
Lemma scale_turned_high b v a : v <> 0%Qc -> (if qltb 0 v then (a <= scale_bound b v)%Qc else (scale_bound b v <= a)%Qc) <-> (turned b v a <= b)%Qc.
Proof.
  intro Nz. unfold scale_bound, turned. destruct (qltb_spec 0 v) as [P|P].
  - destruct (qltb (qabs b) INFINITY); [now apply div_ge_pos|reflexivity].
  - assert (v < 0)%Qc as P' by (apply Qcnot_lt_le in P; destruct (Qcle_lt_or_eq _ _ P); [auto|congruence]).
    destruct (qltb (qabs b) INFINITY); [now apply div_le_neg|]. split; intro; qlra.
Qed.
Lemma narrow_cases vj l u :
  match (do w <- var_set_lb vj (qmax (v_lb vj) l); var_set_ub w (qmin (v_ub vj) u)) with
  | Ok w => forall a, in_range w a <-> in_range vj a /\ (l <= a)%Qc /\ (a <= u)%Qc
  | Err e => e = QiskitOptimizationError /\ forall a, ~ (in_range vj a /\ (l <= a)%Qc /\ (a <= u)%Qc) end.
Proof.
  unfold var_set_lb. destruct (qltb_spec (v_ub vj) (qmax (v_lb vj) l)) as [L|L]; cbn [bind].
  - split; [reflexivity|]. intros a ((A & B) & C & D). assert (qmax (v_lb vj) l <= a)%Qc by (apply qmax_lub; auto). qlra.
  - unfold var_set_ub. cbn [v_lb v_ub v_name v_type]. destruct (qltb_spec (qmin (v_ub vj) u) (qmax (v_lb vj) l)) as [L2|L2].
    + split; [reflexivity|]. intros a ((A & B) & C & D). assert (qmax (v_lb vj) l <= a)%Qc by (apply qmax_lub; auto). assert (a <= qmin (v_ub vj) u)%Qc by (apply qmin_glb; auto). qlra.
    + intro a. unfold in_range. cbn [v_lb v_ub]. rewrite qmax_lub, qmin_glb. tauto.
Qed.
Lemma tighten_cases vi v vj : v <> 0%Qc ->
  match tighten vi v vj with
  | Ok w => forall a, in_range w a <-> in_range vj a /\ obeys vi v a
  | Err e => e = QiskitOptimizationError /\ forall a, ~ (in_range vj a /\ obeys vi v a) end.
Proof.
  intro Nz. pose proof (fun a => scale_turned_low (v_lb vi) v a Nz) as L. pose proof (fun a => scale_turned_high (v_ub vi) v a Nz) as U.
  unfold obeys. unfold tighten. cbv zeta. destruct (qltb 0 v).
  - pose proof (narrow_cases vj (scale_bound (v_lb vi) v) (scale_bound (v_ub vi) v)) as C. destruct (bind _ _) as [w|e].
    + intro a. rewrite (C a), (L a), (U a). reflexivity.
    + destruct C as [-> C]. split; auto. intros a H. apply (C a). rewrite (L a), (U a). exact H.
  - pose proof (narrow_cases vj (scale_bound (v_ub vi) v) (scale_bound (v_lb vi) v)) as C. destruct (bind _ _) as [w|e].
    + intro a. rewrite (C a), (L a), (U a). tauto.
    + destruct C as [-> C]. split; auto. intros a H. apply (C a). rewrite (L a), (U a). tauto.
Qed.

Section Bounds.
Variables (p : qp) (subs : subs_t).
Hypothesis W : prog_wf p.
Hypothesis SS : forall e, In e subs -> In (fst e) (var_names p).
Hypothesis SZ : forall s s' v, In (s, (s', v)) subs -> s' <> CONST -> v <> 0%Qc.

(** What the entries in [l] ask of the [m]-th variable. *)
Definition asked (dst0 : qp) (l : subs_t) (m : nat) (a : Qc) : Prop :=
  forall s s' v n u, In (s, (s', v)) l -> s' <> CONST -> nth_error (var_names dst0) m = Some s' -> nth_error (var_names p) n = Some s ->
    nth_error (p_vars p) n = Some u -> obeys u v a.

Lemma bound_cases dst0 e st : binv dst0 (fst st) -> In e subs ->
  match sub_bound p st e with
  | Ok st' => binv dst0 (fst st') /\ forall m v0 a, nth_error (p_vars (fst st)) m = Some v0 -> exists v1, nth_error (p_vars (fst st')) m = Some v1 /\
      (in_range v1 a <-> in_range v0 a /\ asked dst0 [e] m a)
  | Err er => (er = KeyError /\ fst (snd e) <> CONST /\ ~ In (fst (snd e)) (var_names dst0)) \/
      (er = QiskitOptimizationError /\ exists m v0, nth_error (p_vars (fst st)) m = Some v0 /\ forall a, ~ (in_range v0 a /\ asked dst0 [e] m a))
  end.
Proof using W SS SZ.
  intros B He. pose proof (fun st' => binv_step p subs W SS dst0 st e st' B He) as BS. pose proof (prog_wf_nodup _ W) as ND.
  destruct e as [s [s' v]]. cbn [fst snd] in *. unfold sub_bound in *.
  destruct (named_get p W s (SS _ He)) as (n & vi & Ev & Hvi & Hs). rewrite Ev in *. cbn [bind] in *.
  destruct (str_eqb_sp s' CONST) as [->|Nc].
  { specialize (BS _ eq_refl). split; [apply BS|]. cbn [fst]. intros m v0 a Hm. exists v0. split; auto. split; [|tauto]. intro R. split; auto.
    intros ? ? ? ? ? [[= <- <- <-]|[]] X. now elim X. }
  destruct (qeqb_spec v 0) as [->|Nz]; [exfalso; exact (SZ _ _ _ He Nc eq_refl)|].
  unfold on_variable in *. destruct (key_pos (p_vars (fst st)) (p_vidx (fst st)) (KS s')) as [j|er] eqn:Ek.
  2: { clear BS. cbn [fst snd bind]. left. assert (er = KeyError /\ ~ In s' (var_names dst0)) as [-> Hn]; [|auto]. rewrite <- (bi_names _ _ B).
    unfold key_pos, del_pos in Ek. destruct (dget String.eqb s' (p_vidx (fst st))) as [j|] eqn:Eg.
    - exfalso. apply (ie_v _ (bi_exact _ _ B)) in Eg. assert (j < length (p_vars (fst st))) as Lj by (pose proof (names_length (fst st)) as E; unfold num_vars in E; rewrite <- E; apply nth_error_Some; congruence).
      apply Nat.ltb_lt in Lj. rewrite Lj in Ek. discriminate.
    - injection Ek as <-. split; auto. intro Hin. apply In_nth_error in Hin. destruct Hin as [j Hj]. apply (ie_v _ (bi_exact _ _ B)) in Hj. congruence. }
  pose proof (exact_key _ _ _ (bi_exact _ _ B) Ek) as Hj.
  assert (nth_error (var_names dst0) j = Some s') as Hj0 by (rewrite <- (bi_names _ _ B); exact Hj).
  destruct (name_var _ _ _ Hj) as (vj & Hvj & _). rewrite Hvj in *. pose proof (tighten_cases vi v vj Nz) as T.
  assert (forall a, asked dst0 [(s, (s', v))] j a <-> obeys vi v a) as As.
  { intro a. split.
    - intro A. apply (A s s' v n vi); auto. now left.
    - intros R s1 s1' v1 n1 u1 [[= <- <- <-]|[]] _ _ Hn1 Hu1. pose proof (name_inj _ _ _ _ ND Hn1 Hs) as ->. congruence. }
  destruct (tighten vi v vj) as [w|er] eqn:Et; cbn in *.
  - specialize (BS _ eq_refl). split; [apply BS|]. intros m v0 a Hm. rewrite nth_error_update. destruct (Nat.eqb_spec j m) as [<-|Nm].
    + assert (v0 = vj) as -> by congruence. assert (j < length (p_vars (fst st))) as Lj by (apply nth_error_Some; congruence).
      apply Nat.ltb_lt in Lj. rewrite Lj. exists w. split; auto. rewrite (T a), As. reflexivity.
    + exists v0. split; auto. split; [|tauto]. intro R. split; auto. intros s1 s1' v1 n1 u1 [[= <- <- <-]|[]] _ Hm1. exfalso. apply Nm.
      rewrite <- (bi_names _ _ B) in Hm1. apply (ie_v _ (bi_exact _ _ B)) in Hm1. apply (ie_v _ (bi_exact _ _ B)) in Hj. congruence.
  - right. destruct T as [-> T]. split; auto. exists j, vj. split; auto. intros a [R A]. apply (T a). split; auto. now apply As.
Qed.
Lemma bounds_cases dst0 l : forall st, binv dst0 (fst st) -> incl l subs ->
  match foldM (sub_bound p) l st with
  | Ok st' => binv dst0 (fst st') /\ forall m v0 a, nth_error (p_vars (fst st)) m = Some v0 -> exists v1, nth_error (p_vars (fst st')) m = Some v1 /\
      (in_range v1 a <-> in_range v0 a /\ asked dst0 l m a)
  | Err er => (er = KeyError /\ exists e, In e l /\ fst (snd e) <> CONST /\ ~ In (fst (snd e)) (var_names dst0)) \/
      (er = QiskitOptimizationError /\ exists m v0, nth_error (p_vars (fst st)) m = Some v0 /\ forall a, ~ (in_range v0 a /\ asked dst0 l m a))
  end.
Proof using W SS SZ.
  induction l as [|e l IH]; intros st B I; cbn [foldM].
  - split; auto. intros m v0 a Hm. exists v0. split; auto. split; [|tauto]. intro R. split; auto. intros ? ? ? ? ? [].
  - assert (forall m a, asked dst0 (e :: l) m a <-> asked dst0 [e] m a /\ asked dst0 l m a) as Sp.
    { intros m a. split; [intro A; split; intros s s' v n u Hin; apply (A s s' v n u)|].
      - destruct Hin as [->|[]]. now left.
      - now right.
      - intros [A1 A2] s s' v n u [->|Hin]; [apply A1; now left|now apply A2]. }
    pose proof (bound_cases dst0 e st B (I e (or_introl eq_refl))) as C. destruct (sub_bound p st e) as [st1|er]; cbn [bind].
    + destruct C as [B1 C]. specialize (IH st1 B1 (fun a Ha => I a (or_intror Ha))). destruct (foldM (sub_bound p) l st1) as [st2|er].
      * destruct IH as [B2 IH]. split; auto. intros m v0 a Hm. destruct (C m v0 a Hm) as (v1 & H1 & E1). destruct (IH m v1 a H1) as (v2 & H2 & E2).
        exists v2. split; auto. rewrite E2, E1, Sp. tauto.
      * destruct IH as [(-> & e' & He & N1 & N2)|(-> & m & v1 & Hm & N)]; [left; split; auto; exists e'; split; [now right|auto]|right].
        split; auto. assert (exists v0, nth_error (p_vars (fst st)) m = Some v0) as [v0 Hv0].
        { destruct (nth_error (p_vars (fst st)) m) as [v0|] eqn:E; eauto. exfalso. apply nth_error_None in E.
          assert (m < length (p_vars (fst st1))) as L by (apply nth_error_Some; congruence).
          assert (length (p_vars (fst st1)) = length (p_vars (fst st))) as L2; [|lia].
          rewrite <- (map_length v_name (p_vars (fst st1))), <- (map_length v_name (p_vars (fst st))). change (length (var_names (fst st1)) = length (var_names (fst st))).
          now rewrite (bi_names _ _ B1), (bi_names _ _ B). }
        exists m, v0. split; auto. intros a [R A]. apply Sp in A. destruct (C m v0 a Hv0) as (v1' & H1 & E1). assert (v1' = v1) as -> by congruence. apply (N a). split; [apply E1|]; tauto.
    + destruct C as [(-> & N1 & N2)|(-> & m & v0 & Hm & N)]; [left; split; auto; exists e; split; [now left|auto]|right].
      split; auto. exists m, v0. split; auto. intros a [R A]. apply (N a). split; auto. now apply Sp in A.
Qed.
End Bounds.

Section Exact.
Variables (kz : bool) (p : qp) (cs : list (key * Qc)) (vs : list (key * (key * Qc))).
Hypothesis W : prog_wf p.
Hypothesis S : exprs_small p.
Hypothesis NC : ~ In CONST (var_names p).
Hypothesis K : keys_denote p cs vs.
Hypothesis N1 : ~ given_twice p cs vs.
Hypothesis N2 : ~ by_zero vs.
Hypothesis N3 : ~ by_itself p vs.
Hypothesis N4 : ~ by_replaced_before p cs vs.

Lemma replaced_iff subs i s : subs_dict p cs vs = Ok subs -> nth_error (var_names p) i = Some s -> replaced p cs vs i <-> In s (map fst subs).
Proof using W K.
  intros Es Hn. pose proof (prog_wf_nodup _ W) as ND. destruct (subs_dict_inv p cs vs W K subs Es) as (SN & SC & SVr & SF). split.
  - intros [(k & v & Hin & D)|(k & j & v & Hin & D)].
    + apply (in_map fst _ (s, (CONST, v))). eapply SC; eauto.
    + destruct K as [_ K2]. destruct (K2 _ _ _ Hin) as [_ [i' Di']]. destruct (denotes_name _ _ _ Di') as [s' Hs']. apply (in_map fst _ (s, (s', v))). eapply SVr; eauto.
  - intro Hs. apply in_map_iff in Hs. destruct Hs as ([s0 [s2 v2]] & Es0 & He2). cbn in Es0. subst s0.
    destruct (SF _ He2) as [(k2 & i2 & Hin2 & Di2 & Hn2 & _)|(k2 & j2 & i2 & i3 & Hin2 & Di2 & _ & Hn2 & _)]; cbn [fst snd] in *;
      pose proof (name_inj _ _ _ _ ND Hn2 Hn) as ->; [left; eauto|right; eauto].
Qed.

Lemma substitute_cases :
  (by_replaced p cs vs -> leaves_room p cs vs -> substitute kz p cs vs = Err KeyError) /\
  (by_replaced p cs vs -> substitute kz p cs vs = Err KeyError \/ substitute kz p cs vs = Err QiskitOptimizationError) /\
  (~ by_replaced p cs vs -> leaves_room p cs vs -> exists q, substitute kz p cs vs = Ok q) /\
  (~ by_replaced p cs vs -> ~ leaves_room p cs vs -> substitute kz p cs vs = Err QiskitOptimizationError).
Proof using W S NC K N1 N2 N3 N4.
  pose proof (prog_wf_nodup _ W) as ND.
  destruct (subs_dict_total p cs vs W K N1 N2 N3 N4) as [subs Es]. destruct (subs_dict_inv p cs vs W K subs Es) as (SN & SC & SVr & SF).
  assert (forall e, In e subs -> In (fst e) (var_names p)) as SS by (intros e He; eapply from_name; apply SF; exact He).
  assert (forall s s' v, In (s, (s', v)) subs -> s' <> CONST -> v <> 0%Qc) as SZ.
  { intros s s' v He Nc. destruct (SF _ He) as [(k & i & _ & _ & _ & Hc)|(k & j & i & i' & Hin & Di & Dj & Hn & Hn' & Nz & Ni)]; cbn [fst snd] in *; [contradiction|auto]. }
  pose proof W as (Wi1 & Wi2 & Wi3 & Wb & _ & _).
  destruct (sub_copy_total subs (p_vars p) (new_qp (p_name p))) as [d0 E0]; auto. { apply idx_exact_new. }
  pose proof E0 as C0. apply sub_copy_inv in C0; [|apply idx_exact_new]. destruct C0 as (X0 & V0 & L0 & _ & Q0 & _ & O0 & St0 & B0).
  cbn in V0. fold (kept p subs) in V0, B0. assert (var_names d0 = kept_names p subs) as M0 by (unfold var_names; now rewrite V0).
  assert (binv d0 d0) as I0 by (constructor; auto; unfold bounds_ok; now rewrite V0).
  pose proof (bounds_cases p subs W SS SZ d0 subs (d0, true) I0 (incl_refl _)) as C. cbn [fst] in C.
  (* the values left to the variables *)
  assert (forall m v0, nth_error (p_vars d0) m = Some v0 -> exists i, nth_error (p_vars p) i = Some v0 /\ ~ replaced p cs vs i /\ nth_error (var_names d0) m = nth_error (var_names p) i) as Src.
  { intros m v0 Hm. rewrite V0 in Hm. pose proof (nth_error_In _ _ Hm) as Hin. unfold kept in Hin. apply filter_In in Hin. destruct Hin as [Hin Hk].
    apply In_nth_error in Hin. destruct Hin as [i Hi]. exists i. split; auto. split.
    - intro R. apply (replaced_iff subs i (v_name v0) Es (nth_var _ _ _ Hi)) in R. apply (dhas_in _ str_eqb_sp) in R. rewrite R in Hk. discriminate.
    - unfold var_names. rewrite V0, !nth_error_map, Hm, Hi. reflexivity. }
  assert (forall i w, nth_error (p_vars p) i = Some w -> ~ replaced p cs vs i -> exists m, nth_error (p_vars d0) m = Some w /\ nth_error (var_names d0) m = nth_error (var_names p) i) as Tgt.
  { intros i w Hi R. assert (In w (kept p subs)) as Hin.
    { unfold kept. apply filter_In. split; [eapply nth_error_In; eauto|]. destruct (dhas String.eqb (v_name w) subs) eqn:Eh; auto. exfalso. apply R.
      apply (replaced_iff subs i (v_name w) Es (nth_var _ _ _ Hi)). now apply (dhas_in _ str_eqb_sp). }
    apply In_nth_error in Hin. destruct Hin as [m Hm]. exists m. rewrite V0. split; auto. unfold var_names. rewrite V0, !nth_error_map, Hm, Hi. reflexivity. }
  assert (forall m i a, nth_error (var_names d0) m = nth_error (var_names p) i -> i < num_vars p -> asked p d0 subs m a <->
    forall k j v n u, In (k, (j, v)) vs -> denotes p j i -> denotes p k n -> nth_error (p_vars p) n = Some u -> obeys u v a) as As.
  { intros m i a Hmi Hi. destruct (nth_error (var_names p) i) as [t|] eqn:Ht; [|apply nth_error_None in Ht; rewrite names_length in Ht; lia]. split.
    - intros A k j v n u Hin Dj Dk Hu. destruct (denotes_name _ _ _ Dk) as [s Hs]. destruct (denotes_name _ _ _ Dj) as [t' Ht'].
      assert (t' = t) as -> by congruence. apply (A s t v n u); auto; [eapply SVr; eauto|]. intros ->. apply NC. eapply nth_error_In; eauto.
    - intros A s s' v n u Hin Nc Hm Hn Hu. destruct (SF _ Hin) as [(k & i0 & _ & _ & _ & Hc)|(k & j & i0 & i' & Hin' & Di & Dj & Hn0 & Hn' & _)]; cbn [fst snd] in *; [contradiction|].
      assert (s' = t) as -> by congruence. pose proof (name_inj _ _ _ _ ND Hn' Ht) as ->. pose proof (name_inj _ _ _ _ ND Hn0 Hn) as ->. eapply A; eauto. }
  assert (forall m v0, nth_error (p_vars d0) m = Some v0 -> (forall a, ~ (in_range v0 a /\ asked p d0 subs m a)) -> ~ leaves_room p cs vs) as NR.
  { intros m v0 Hm N R. destruct (Src m v0 Hm) as (i & Hi & Nr & Hmi). destruct (R i v0 Hi Nr) as (a & Ra & Ha). apply (N a). split; auto.
    apply (As m i a Hmi); auto. unfold num_vars. apply nth_error_Some. congruence. }
  assert (forall e, In e subs -> fst (snd e) <> CONST -> ~ In (fst (snd e)) (var_names d0) -> by_replaced p cs vs) as BR.
  { intros [s [s' v]] He Nc Nk. cbn [fst snd] in *. rewrite M0 in Nk.
    destruct (SF _ He) as [(k & i & _ & _ & _ & Hc)|(k & j & i & i' & Hin & Di & Dj & Hn & Hn' & Nz & Ni)]; cbn [fst snd] in *; [contradiction|].
    exists k, j, v, i'. split; auto. split; auto. apply (replaced_iff subs i' s' Es Hn').
    destruct (dhas String.eqb s' subs) eqn:Eh; [now apply (dhas_in _ str_eqb_sp)|]. exfalso. apply Nk. apply kept_iff. split; [eapply nth_error_In; eauto|].
    intro X. apply (dhas_in _ str_eqb_sp) in X. congruence. }
  assert (forall er, foldM (sub_bound p) subs (d0, true) = Err er -> substitute kz p cs vs = Err er) as SE.
  { intros er E. unfold substitute. rewrite Es. cbn [bind]. unfold sub_variables. rewrite E0. cbn [bind]. now rewrite E. }
  destruct (foldM (sub_bound p) subs (d0, true)) as [[d1 b1]|er] eqn:E1; cbn [fst] in C.
  - destruct C as [B1 C].
    assert (leaves_room p cs vs) as R.
    { intros i w Hi Nr. destruct (Tgt i w Hi Nr) as (m & Hm & Hmi). destruct (C m w 0%Qc Hm) as (v1 & H1 & _).
      exists (v_lb v1). destruct (C m w (v_lb v1) Hm) as (v1' & H1' & E). assert (v1' = v1) as -> by congruence.
      assert (in_range v1 (v_lb v1)) as R1.
      { split; [apply Qcle_refl|]. pose proof (bi_bounds _ _ B1) as Bo. unfold bounds_ok in Bo. rewrite Forall_forall in Bo. apply Bo. eapply nth_error_In; eauto. }
      apply E in R1. destruct R1 as [R1 R2]. split; auto. apply (As m i); auto. unfold num_vars. apply nth_error_Some. congruence. }
    split; [|split; [|split]].
    + intros X _. exfalso. destruct (binv_fold p subs W SS d0 subs (d0, true) (d1, b1) I0 (incl_refl _) E1) as [_ Kp].
      destruct (substitute kz p cs vs) as [q|er'] eqn:Eq.
      { exact (replaced_rejected kz p cs vs q W NC K X Eq). }
      destruct (substitute_rest kz p cs vs subs d0 d1 b1 W S NC Es SN SS) as [q Eq']; auto; [|congruence].
      intros s s' v He Nc. rewrite <- M0. exact (Kp _ He Nc).
    + intros X. exfalso. destruct (binv_fold p subs W SS d0 subs (d0, true) (d1, b1) I0 (incl_refl _) E1) as [_ Kp].
      destruct (substitute_rest kz p cs vs subs d0 d1 b1 W S NC Es SN SS) as [q Eq']; auto.
      { intros s s' v He Nc. rewrite <- M0. exact (Kp _ He Nc). }
      exact (replaced_rejected kz p cs vs q W NC K X Eq').
    + intros X _. destruct (binv_fold p subs W SS d0 subs (d0, true) (d1, b1) I0 (incl_refl _) E1) as [_ Kp].
      apply (substitute_rest kz p cs vs subs d0 d1 b1); auto. intros s s' v He Nc. rewrite <- M0. exact (Kp _ He Nc).
    + intros _ X. contradiction.
  - rewrite (SE _ eq_refl). destruct C as [(-> & e & He & Nc & Nk)|(-> & m & v0 & Hm & N)].
    + pose proof (BR e He Nc Nk) as X. split; [reflexivity|]. split; [auto|]. split; intro; contradiction.
    + pose proof (NR m v0 Hm N) as X. split; [intros _ Y; contradiction|]. split; [auto|]. split; [intros _ Y; contradiction|reflexivity].
Qed.
End Exact.
