(** * Numerical solvers: facts *)
From Verif Require Export SpecSolvers.
From Verif Require Import NumFacts PyFacts FeasFacts AlgoFacts ExprClose.
Local Open Scope nat_scope.

Lemma sense_sq s : (sense_val s * sense_val s)%Qc = 1%Qc.
Proof. destruct s; apply Qc_is_canon; reflexivity. Qed.

(** ** Multi-start *)
Section Multi.
Variable p : qp.
Hypothesis S : shapes (num_vars p) p.
Let f := obj_at (p_obj p).
Let s := sense_val (o_sense (p_obj p)).
(** The loop on the points found *)
Definition accept_step (st : Qc * option (list Qc)) (x : list Qc) : Qc * option (list Qc) :=
  if qltb (f x * s)%Qc (fst st) then (f x, Some x) else st.
Lemma trials_fold clip draw minimize trials found : finds clip draw minimize p trials found ->
  forall st, foldM (trial_step clip draw minimize p) (seq 0 trials) st = Ok (fold_left accept_step found st).
Proof using S.
  unfold finds. generalize (seq 0 trials). intros l. induction 1 as [|t x l found (x0 & E1 & E2 & L) F IH]; intros st; [reflexivity|].
  cbn [foldM fold_left]. unfold trial_step at 1. rewrite E1. cbn [bind]. rewrite E2. cbn [bind]. rewrite (shapes_obj p x S L). cbn [bind].
  fold f. fold s. unfold accept_step at 2. destruct (qltb (f x * s) (fst st)); cbn [bind]; rewrite IH; [|reflexivity].
  do 2 f_equal. replace (f x * s * s)%Qc with (f x * (s * s))%Qc by ring. unfold s. rewrite sense_sq. rewrite Qcmult_1_r. reflexivity.
Qed.
Lemma multi_unfold clip draw minimize trials found : finds clip draw minimize p trials found ->
  multi_start trials clip draw minimize p =
  match snd (fold_left accept_step found (INFINITY, None)) with
  | None => Err TypeError
  | Some x => do st <- feas_status p x; make_result (Some x) (Some (fst (fold_left accept_step found (INFINITY, None)))) (p_vars p) st []
  end.
Proof using S. intros F. unfold multi_start. rewrite (trials_fold _ _ _ _ _ F). reflexivity. Qed.
Lemma finds_len clip draw minimize trials found : finds clip draw minimize p trials found -> Forall (fun x => length x = num_vars p) found.
Proof using. unfold finds. induction 1 as [|t x l found (x0 & _ & _ & L) F IH]; constructor; auto. Qed.
Lemma report_ok x v : length x = num_vars p -> v = f x -> exists r, (do st <- feas_status p x; make_result (Some x) (Some v) (p_vars p) st []) = Ok r /\ reports p r x.
Proof using S.
  intros L ->. destruct (feas_status_spec p x S L) as (st & E & T). rewrite E. cbn [bind]. unfold make_result. fold (num_vars p).
  replace (Nat.eqb (length x) (num_vars p)) with true by (symmetry; apply Nat.eqb_eq; exact L). cbn [bind]. eexists. split; [reflexivity|]. split; [reflexivity|]. split; [reflexivity|]. split; [reflexivity|exact T].
Qed.
(** Whatever is returned was found, and is reported with its own value. *)
Lemma accept_found found : forall v0 x0, (forall x, x0 = Some x -> v0 = f x) ->
  match snd (fold_left accept_step found (v0, x0)) with
  | None => True
  | Some x => (In x found \/ x0 = Some x) /\ fst (fold_left accept_step found (v0, x0)) = f x
  end.
Proof using.
  induction found as [|a found IH]; intros v0 x0 H; cbn [fold_left].
  - cbn [fst snd]. destruct x0; auto.
  - unfold accept_step at 2 4. cbn [fst]. destruct (qltb (f a * s) v0).
    + specialize (IH (f a) (Some a)). destruct (snd (fold_left accept_step found (f a, Some a))) as [x|] eqn:E; [|exact I].
      destruct IH as (H1 & H2); [intros x1 [= <-]; reflexivity|]. split; [|exact H2]. left. destruct H1 as [H1|[= <-]]; [right; exact H1|left; reflexivity].
    + specialize (IH v0 x0 H). destruct (snd (fold_left accept_step found (v0, x0))); [|exact I]. destruct IH as ([H1|H1] & H2); split; auto. left. right. exact H1.
Qed.
Lemma multi_reports clip draw minimize trials found r : finds clip draw minimize p trials found -> multi_start trials clip draw minimize p = Ok r ->
  exists x, In x found /\ reports p r x /\ fold_left accept_step found (INFINITY, None) = (f x, Some x).
Proof using S.
  intros F E. rewrite (multi_unfold _ _ _ _ _ F) in E. pose proof (accept_found found INFINITY None ltac:(discriminate)) as H.
  destruct (fold_left accept_step found (INFINITY, None)) as [v [x|]]; cbn [fst snd] in *; [|discriminate E]. destruct H as ([H|H] & V); [|discriminate H].
  exists x. split; [exact H|]. pose proof (proj1 (Forall_forall _ _) (finds_len _ _ _ _ _ F) x H) as L. destruct (report_ok x _ L V) as (r' & E' & R).
  rewrite E' in E. injection E as <-. split; [exact R|]. rewrite V. reflexivity.
Qed.
Lemma multi_accepts clip draw minimize trials found : finds clip draw minimize p trials found ->
  (exists x, In x found /\ (s * f x < INFINITY)%Qc) ->
  exists r, multi_start trials clip draw minimize p = Ok r.
Proof using S.
  intros F (x & I & L). rewrite (multi_unfold _ _ _ _ _ F). pose proof (accept_found found INFINITY None ltac:(discriminate)) as H.
  assert (N : snd (fold_left accept_step found (INFINITY, None)) <> None).
  { assert (K : forall found v a, snd (fold_left accept_step found (v, Some a)) <> None).
    { clear. induction found as [|b found IH]; intros v a; cbn [fold_left]; [discriminate|]. unfold accept_step at 2. cbn [fst]. destruct (qltb _ _); apply IH. }
    clear F H. induction found as [|a found IH]; [destruct I|]. cbn [fold_left]. unfold accept_step at 2. cbn [fst].
    destruct (qltb_spec (f a * s) INFINITY) as [Q|Q]; [apply K|]. destruct I as [->|I]; [exfalso; apply Q; rewrite Qcmult_comm; exact L|]. apply IH, I. }
  destruct (snd (fold_left accept_step found (INFINITY, None))) as [y|]; [|congruence]. destruct H as ([H|H] & V); [|discriminate H].
  destruct (report_ok y _ (proj1 (Forall_forall _ _) (finds_len _ _ _ _ _ F) y H) V) as (r & E & _). exists r. exact E.
Qed.
(** Minimisation *)
Lemma accept_min found : s = 1%Qc -> forall v0 x0 y, (y = v0 \/ exists x, In x found /\ y = f x) -> (fst (fold_left accept_step found (v0, x0)) <= y)%Qc.
Proof using.
  intros Es. induction found as [|a found IH]; intros v0 x0 y H; cbn [fold_left].
  - destruct H as [->|(x & [] & _)]. apply Qcle_refl.
  - unfold accept_step at 2. cbn [fst]. rewrite Es, Qcmult_1_r. destruct (qltb_spec (f a) v0) as [Q|Q].
    + destruct H as [->|(x & [->|H] & ->)].
      * apply Qcle_trans with (f a); [|apply Qclt_le_weak, Q]. apply IH. left. reflexivity.
      * apply IH. left. reflexivity.
      * apply IH. right. exists x. auto.
    + destruct H as [->|(x & [->|H] & ->)].
      * apply IH. left. reflexivity.
      * apply Qcle_trans with v0; [|apply Qcnot_lt_le, Q]. apply IH. left. reflexivity.
      * apply IH. right. exists x. auto.
Qed.
(** Maximisation of positive values: every trial replaces the previous one *)
Lemma accept_last found x : s = (- (1))%Qc -> Forall (fun a => (0 < f a)%Qc) (found ++ [x]) ->
  fold_left accept_step (found ++ [x]) (INFINITY, None) = (f x, Some x).
Proof using.
  intros Es H. assert (K : forall l v a, (0 < v)%Qc -> Forall (fun a => (0 < f a)%Qc) l -> exists v' b, (0 < v')%Qc /\ fold_left accept_step l (v, a) = (v', b)).
  { induction l as [|b l IH]; intros v a Hv Fl; cbn [fold_left]; [exists v, a; auto|]. inversion Fl; subst. unfold accept_step at 2. cbn [fst].
    destruct (qltb _ _); apply IH; assumption. }
  apply Forall_app in H as (H1 & H2). inversion H2; subst. rewrite fold_left_app. destruct (K found INFINITY None ltac:(reflexivity) H1) as (v & b & Hv & ->).
  cbn [fold_left]. unfold accept_step. cbn [fst]. rewrite Es. destruct (qltb_spec (f x * - (1)) v) as [Q|Q]; [reflexivity|]. exfalso. apply Q. qlra.
Qed.
End Multi.

Lemma multi_min p clip draw minimize trials found : shapes (num_vars p) p -> o_sense (p_obj p) = MINIMIZE -> finds clip draw minimize p trials found ->
  (exists x, In x found /\ (obj_at (p_obj p) x < INFINITY)%Qc) ->
  exists r x, multi_start trials clip draw minimize p = Ok r /\ In x found /\ reports p r x /\
    forall y, In y found -> (obj_at (p_obj p) x <= obj_at (p_obj p) y)%Qc.
Proof.
  intros S Es F (x0 & I0 & L0). assert (E1 : sense_val (o_sense (p_obj p)) = 1%Qc) by (rewrite Es; reflexivity).
  destruct (multi_accepts p S clip draw minimize trials found F) as (r & E).
  { exists x0. split; [exact I0|]. rewrite E1, Qcmult_1_l. exact L0. }
  destruct (multi_reports p S clip draw minimize trials found r F E) as (x & I & R & V). exists r, x. split; [exact E|]. split; [exact I|]. split; [exact R|].
  intros y Iy. pose proof (accept_min p found E1 INFINITY None (obj_at (p_obj p) y)) as H. rewrite V in H. apply H. right. exists y. auto.
Qed.
(** One trial: sense and value do not matter *)
Lemma multi_one p clip draw minimize x : shapes (num_vars p) p -> finds clip draw minimize p 1 [x] ->
  (sense_val (o_sense (p_obj p)) * obj_at (p_obj p) x < INFINITY)%Qc ->
  exists r, multi_start 1 clip draw minimize p = Ok r /\ reports p r x.
Proof.
  intros S F L. destruct (multi_accepts p S clip draw minimize 1 [x] F) as (r & E); [exists x; split; [left; reflexivity|exact L]|].
  destruct (multi_reports p S clip draw minimize 1 [x] r F E) as (y & [<-|[]] & R & _). exists r. auto.
Qed.
Lemma multi_last p clip draw minimize trials found x : shapes (num_vars p) p -> o_sense (p_obj p) = MAXIMIZE -> finds clip draw minimize p trials (found ++ [x]) ->
  Forall (fun a => (0 < obj_at (p_obj p) a)%Qc) (found ++ [x]) ->
  exists r, multi_start trials clip draw minimize p = Ok r /\ reports p r x.
Proof.
  intros S Es F H. assert (E1 : sense_val (o_sense (p_obj p)) = (- (1))%Qc) by (rewrite Es; reflexivity).
  rewrite (multi_unfold p S _ _ _ _ _ F). rewrite (accept_last p found x E1 H). cbn [fst snd].
  apply (report_ok p S x); [|reflexivity]. apply (proj1 (Forall_forall _ _) (finds_len p _ _ _ _ _ F)). apply in_or_app. right. left. reflexivity.
Qed.
Lemma multi_nothing p clip draw minimize trials found : shapes (num_vars p) p -> finds clip draw minimize p trials found ->
  Forall (fun x => (INFINITY <= sense_val (o_sense (p_obj p)) * obj_at (p_obj p) x)%Qc) found ->
  multi_start trials clip draw minimize p = Err TypeError.
Proof.
  intros S F H. rewrite (multi_unfold p S _ _ _ _ _ F). replace (fold_left (accept_step p) found (INFINITY, None)) with (INFINITY, @None (list Qc)); [reflexivity|].
  clear F. induction H as [|x found Hx H IH]; [reflexivity|]. cbn [fold_left]. unfold accept_step at 2. cbn [fst].
  destruct (qltb_spec (obj_at (p_obj p) x * sense_val (o_sense (p_obj p))) INFINITY) as [Q|Q]; [|exact IH]. exfalso. rewrite Qcmult_comm in Q. qlra.
Qed.

(** Maximisation of values that are not positive: the first trial is never replaced *)
Lemma multi_first p clip draw minimize trials found x : shapes (num_vars p) p -> o_sense (p_obj p) = MAXIMIZE -> finds clip draw minimize p trials (x :: found) ->
  (- INFINITY < obj_at (p_obj p) x)%Qc -> Forall (fun a => (obj_at (p_obj p) a <= 0)%Qc) (x :: found) ->
  exists r, multi_start trials clip draw minimize p = Ok r /\ reports p r x.
Proof.
  intros S Es F B H. assert (E1 : sense_val (o_sense (p_obj p)) = (- (1))%Qc) by (rewrite Es; reflexivity).
  pose proof (proj1 (Forall_forall _ _) (finds_len p _ _ _ _ _ F) x (or_introl eq_refl)) as L.
  inversion H as [|? ? Hx Hf]; subst. rewrite (multi_unfold p S _ _ _ _ _ F).
  assert (fold_left (accept_step p) (x :: found) (INFINITY, None) = (obj_at (p_obj p) x, Some x)) as ->.
  { cbn [fold_left]. unfold accept_step at 2. cbn [fst]. rewrite E1. destruct (qltb_spec (obj_at (p_obj p) x * - (1)) INFINITY) as [Q|Q]; [|exfalso; apply Q; qlra].
    replace (obj_at (p_obj p) x * - (1) * - (1))%Qc with (obj_at (p_obj p) x) by ring. clear F H Q L B. induction Hf as [|y found Hy Hf IH]; [reflexivity|].
    cbn [fold_left]. unfold accept_step at 2. cbn [fst]. rewrite E1. destruct (qltb_spec (obj_at (p_obj p) y * - (1)) (obj_at (p_obj p) x)) as [Q|Q]; [exfalso; qlra|exact IH]. }
  cbn [fst snd]. apply (report_ok p S x); [exact L|reflexivity].
Qed.
(** A result is returned if and only if some trial has a value below 1e20 (in the sense of minimisation) *)
Lemma multi_answers p clip draw minimize trials found : shapes (num_vars p) p -> finds clip draw minimize p trials found ->
  ((exists r, multi_start trials clip draw minimize p = Ok r) <-> exists x, In x found /\ (sense_val (o_sense (p_obj p)) * obj_at (p_obj p) x < INFINITY)%Qc) /\
  ((~ exists r, multi_start trials clip draw minimize p = Ok r) -> multi_start trials clip draw minimize p = Err TypeError).
Proof.
  intros S F. assert ((exists x, In x found /\ (sense_val (o_sense (p_obj p)) * obj_at (p_obj p) x < INFINITY)%Qc) \/
    Forall (fun x => (INFINITY <= sense_val (o_sense (p_obj p)) * obj_at (p_obj p) x)%Qc) found) as D.
  { clear F. induction found as [|y found [(x & Hx & Lx)|IH]]; [right; constructor|left; exists x; split; [now right|auto]|].
    destruct (qltb_spec (sense_val (o_sense (p_obj p)) * obj_at (p_obj p) y) INFINITY) as [Q|Q]; [left; exists y; split; [now left|auto]|].
    right. constructor; [now apply Qcnot_lt_le|auto]. }
  destruct D as [D|D].
  - pose proof (multi_accepts p S clip draw minimize trials found F D) as A. tauto.
  - pose proof (multi_nothing p clip draw minimize trials found S F D) as A. split; [|auto]. split.
    + intros (r & E). congruence.
    + intros (x & Hx & Lx). rewrite Forall_forall in D. specialize (D x Hx). qlra.
Qed.
(** The error of the first trial that fails *)
Lemma multi_fails p clip draw minimize trials k found e : shapes (num_vars p) p -> finds clip draw minimize p k found -> k < trials ->
  (first_guess clip draw p k = Err e \/ exists x0, first_guess clip draw p k = Ok x0 /\ minimize k x0 = Err e) ->
  multi_start trials clip draw minimize p = Err e.
Proof.
  intros S F L E. unfold multi_start. replace trials with (k + (1 + (trials - k - 1))) by lia. rewrite seq_app, foldM_app.
  rewrite (trials_fold p S _ _ _ _ _ F). cbn [bind seq Nat.add foldM]. unfold trial_step at 1.
  destruct E as [-> |(x0 & -> & E)]; [reflexivity|]. cbn [bind]. rewrite E. reflexivity.
Qed.

(** ** Handed problems *)
Lemma nonneg_ok x f v : f x = Ok v -> (nonneg_at x f <-> (0 <= v)%Qc).
Proof. intros E. unfold nonneg_at. split; [intros (w & E' & H)|intros H; exists v; auto]. rewrite E in E'. injection E' as <-. exact H. Qed.
Lemma Forall_flat {A B} (P : B -> Prop) (g : A -> list B) l : Forall P (flat_map g l) <-> Forall (fun a => Forall P (g a)) l.
Proof. induction l as [|a l IH]; cbn; [split; constructor|]. rewrite Forall_app, Forall_cons_iff, IH. reflexivity. Qed.
Lemma qsub_nonneg a b : (0 <= a - b)%Qc <-> (b <= a)%Qc.
Proof. split; intros H; qlra. Qed.
Lemma bounds_from x : forall vars i, (forall k, k < length vars -> nth_error x (i + k) <> None) ->
  (Forall (nonneg_at x) (flat_map (fun iv => (if qltb (- INFINITY) (v_lb (snd iv)) then [fun x => do a <- coord x (fst iv); Ok (a - v_lb (snd iv))%Qc] else []) ++
                      (if qltb (v_ub (snd iv)) INFINITY then [fun x => do a <- coord x (fst iv); Ok (v_ub (snd iv) - a)%Qc] else [])) (combine (seq i (length vars)) vars))
   <-> Forall2 fits vars (firstn (length vars) (skipn i x))).
Proof.
  induction vars as [|v vars IH]; intros i H; [cbn; split; constructor|]. cbn [length seq combine flat_map].
  destruct (nth_error x i) as [a|] eqn:Ea; [|exfalso; apply (H 0); [cbn; lia|rewrite Nat.add_0_r; exact Ea]].
  assert (Hs : skipn i x = a :: skipn (S i) x).
  { clear -Ea. revert i Ea. induction x as [|b x IH]; intros [|i] E; cbn in E; try discriminate E; [injection E as ->; reflexivity|]. cbn. apply (IH i E). }
  rewrite Hs. cbn [firstn]. rewrite !Forall_app. rewrite (IH (S i)); [|intros k Hk; specialize (H (S k)); rewrite Nat.add_succ_r in H; apply H; cbn; lia].
  cbn [fst snd]. assert (Hc : coord x i = Ok a) by (unfold coord; rewrite Ea; reflexivity).
  assert (H1 : Forall (nonneg_at x) (if qltb (- INFINITY) (v_lb v) then [fun x => do a <- coord x i; Ok (a - v_lb v)%Qc] else []) <-> ((v_lb v <= - INFINITY)%Qc \/ (v_lb v <= a)%Qc)).
  { destruct (qltb_spec (- INFINITY) (v_lb v)) as [Q|Q].
    - rewrite Forall_cons_iff. rewrite (nonneg_ok x _ (a - v_lb v)%Qc) by (rewrite Hc; reflexivity). rewrite qsub_nonneg. split; [intros (A & _); auto|]. intros [A|A]; [exfalso; qlra|]. split; [exact A|constructor].
    - split; [intros _; left; apply Qcnot_lt_le, Q|constructor]. }
  assert (H2 : Forall (nonneg_at x) (if qltb (v_ub v) INFINITY then [fun x => do a <- coord x i; Ok (v_ub v - a)%Qc] else []) <-> ((INFINITY <= v_ub v)%Qc \/ (a <= v_ub v)%Qc)).
  { destruct (qltb_spec (v_ub v) INFINITY) as [Q|Q].
    - rewrite Forall_cons_iff. rewrite (nonneg_ok x _ (v_ub v - a)%Qc) by (rewrite Hc; reflexivity). rewrite qsub_nonneg. split; [intros (A & _); auto|]. intros [A|A]; [exfalso; qlra|]. split; [exact A|constructor].
    - split; [intros _; left; apply Qcnot_lt_le, Q|constructor]. }
  rewrite H1, H2. split.
  - intros ((A & B) & C). constructor; [split; assumption|exact C].
  - intros K. inversion K as [|? ? ? ? (A & B) C]; subst. auto.
Qed.
Lemma cobyla_bounds_spec p x : length x = num_vars p -> (Forall (nonneg_at x) (cobyla_bounds p) <-> Forall2 fits (p_vars p) x).
Proof.
  intros L. unfold cobyla_bounds, num_vars. rewrite (bounds_from x (p_vars p) 0).
  - cbn [skipn]. unfold num_vars in L. rewrite <- L, firstn_all. reflexivity.
  - intros k Hk. cbn. apply nth_error_Some. unfold num_vars in L. lia.
Qed.
Lemma all_cons_hold p x : Forall (fun c => holds (any_sense c) (any_at c x) (any_rhs c)) (all_cons p) <-> lcs_hold p x /\ qcs_hold p x.
Proof. unfold all_cons, lcs_hold, qcs_hold. rewrite Forall_app, !Forall_map. reflexivity. Qed.
Lemma Forall_iff_in {A} (P Q : A -> Prop) l : (forall a, In a l -> (P a <-> Q a)) -> (Forall P l <-> Forall Q l).
Proof. rewrite !Forall_forall. intros H. split; intros K a I; apply (H a I), K, I. Qed.
Lemma cobyla_spec p x : shapes (num_vars p) p -> length x = num_vars p -> (Forall (nonneg_at x) (cobyla_constraints p) <-> satisfies p x).
Proof.
  intros S L. unfold cobyla_constraints, satisfies. rewrite Forall_app, (cobyla_bounds_spec p x L), <- all_cons_hold, Forall_flat.
  apply and_iff_compat_l. apply Forall_iff_in. intros c I. pose proof (any_eval_at p c x S L I) as E.
  assert (B : nonneg_at x (below p c) <-> (any_at c x <= any_rhs c)%Qc) by (rewrite (nonneg_ok x _ (any_rhs c - any_at c x)%Qc) by (unfold below; rewrite E; reflexivity); apply qsub_nonneg).
  assert (A : nonneg_at x (above p c) <-> (any_rhs c <= any_at c x)%Qc) by (rewrite (nonneg_ok x _ (any_at c x - any_rhs c)%Qc) by (unfold above; rewrite E; reflexivity); apply qsub_nonneg).
  assert (N : forall P : (list Qc -> result Qc) -> Prop, Forall P [] <-> True) by (intros; split; auto).
  destruct (any_sense c); cbn [holds]; rewrite ?Forall_cons_iff, ?N, ?A, ?B; try tauto.
  split; [intros (H1 & H2 & _); apply Qcle_antisym; assumption|intros ->; auto using Qcle_refl].
Qed.
Lemma slsqp_spec p x : shapes (num_vars p) p -> length x = num_vars p ->
  (Forall2 within (slsqp_bounds p) x /\ Forall (zero_at x) (slsqp_eq p) /\ Forall (nonneg_at x) (slsqp_ineq p) <-> in_bounds p x /\ lcs_hold p x /\ qcs_hold p x).
Proof.
  intros S L. rewrite <- all_cons_hold. unfold slsqp_bounds, in_bounds.
  assert (HB : Forall2 within (map (fun v => (v_lb v, v_ub v)) (p_vars p)) x <-> Forall2 in_range (p_vars p) x).
  { generalize (p_vars p). clear. intros l. revert x. induction l as [|v l IH]; intros x; cbn [map]; (split; intros H; inversion H; subst; constructor; try assumption; apply IH; assumption). }
  rewrite HB. apply and_iff_compat_l. unfold slsqp_eq, slsqp_ineq. rewrite !Forall_flat, !Forall_forall.
  assert (K : forall c, In c (all_cons p) -> (Forall (zero_at x) (match any_sense c with EQ => [below p c] | _ => [] end) /\
    Forall (nonneg_at x) (match any_sense c with EQ => [] | LE => [below p c] | GE => [above p c] end) <-> holds (any_sense c) (any_at c x) (any_rhs c))).
  { intros c I. pose proof (any_eval_at p c x S L I) as E.
    assert (Z : zero_at x (below p c) <-> any_at c x = any_rhs c).
    { unfold zero_at, below. rewrite E. cbn [bind]. split; [intros H|intros ->; f_equal; ring]. assert (any_rhs c - any_at c x = 0)%Qc as H0 by congruence. qlra. }
    assert (B : nonneg_at x (below p c) <-> (any_at c x <= any_rhs c)%Qc) by (rewrite (nonneg_ok x _ (any_rhs c - any_at c x)%Qc) by (unfold below; rewrite E; reflexivity); apply qsub_nonneg).
    assert (A : nonneg_at x (above p c) <-> (any_rhs c <= any_at c x)%Qc) by (rewrite (nonneg_ok x _ (any_at c x - any_rhs c)%Qc) by (unfold above; rewrite E; reflexivity); apply qsub_nonneg).
    assert (N : forall P : (list Qc -> result Qc) -> Prop, Forall P [] <-> True) by (intros; split; auto).
    destruct (any_sense c); cbn [holds]; rewrite ?Forall_cons_iff, ?N, ?Z, ?A, ?B; tauto. }
  split.
  - intros (H1 & H2) c I. apply (K c I). auto.
  - intros H. split; intros c I; apply (K c I), H, I.
Qed.
Lemma objective_spec p x : shapes (num_vars p) p -> length x = num_vars p ->
  handed_objective p x = Ok (match o_sense (p_obj p) with MINIMIZE => obj_at (p_obj p) x | MAXIMIZE => (- obj_at (p_obj p) x)%Qc end).
Proof.
  intros S L. unfold handed_objective. rewrite (shapes_obj p x S L). cbn [bind]. f_equal. destruct (o_sense (p_obj p)); [change (sense_val MINIMIZE) with 1%Qc|change (sense_val MAXIMIZE) with (- (1))%Qc]; ring.
Qed.
Lemma gradient_spec p x h : obj_sized (num_vars p) (p_obj p) -> length x = num_vars p -> length h = num_vars p ->
  exists g a b c, handed_gradient p x = Ok g /\ length g = num_vars p /\ handed_objective p x = Ok a /\ handed_objective p (vadd x h) = Ok b /\
    quad_eval (env_of p) (o_quad (p_obj p)) (XList h) = Ok c /\ b = (a + dot g h + sense_val (o_sense (p_obj p)) * c)%Qc.
Proof.
  intros S L H. destruct (obj_gradient (env_of p) (p_obj p) x h (num_vars p) S L H) as (g & a & b & c & E1 & Lg & E2 & E3 & E4 & E5).
  set (s := sense_val (o_sense (p_obj p))). exists (map (fun a => s * a)%Qc g), (s * a)%Qc, (s * b)%Qc, c.
  unfold handed_gradient, handed_objective. rewrite E1, E2, E3. cbn [bind]. fold s. split; [reflexivity|]. split; [rewrite map_length; exact Lg|]. split; [reflexivity|]. split; [reflexivity|]. split; [exact E4|].
  rewrite E5. assert (dot (map (fun a => s * a)%Qc g) h = (s * dot g h)%Qc) as ->; [|ring].
  unfold dot. rewrite map_length, <- sumof_scale. apply sumof_ext. intros i I. apply in_seq in I. unfold at_. rewrite (nth_indep _ 0%Qc (s * 0)%Qc) by (rewrite map_length; lia). rewrite (map_nth (fun a => s * a)%Qc). ring.
Qed.
Lemma continuous_only_spec p : continuous_only p = true <-> all_continuous p.
Proof.
  unfold continuous_only, all_continuous. rewrite Nat.leb_le. induction (p_vars p) as [|v l IH]; cbn; [split; [constructor|lia]|].
  rewrite Forall_cons_iff. assert (length (filter (fun v => match v_type v with CONTINUOUS => true | _ => false end) l) <= length l) by (clear; induction l as [|a l IH]; cbn; [lia|]; destruct (v_type a); cbn; lia).
  destruct (v_type v); cbn [length]; split; intros H1; try lia; try (destruct H1 as (H1 & _); discriminate H1).
  - split; [reflexivity|]. apply IH. lia.
  - destruct H1 as (_ & H1). apply IH in H1. lia.
Qed.
