(** * Facts on starting points and on what the numerical optimizers return *)
From Verif Require Export SpecStart SolversFacts.
From Verif Require Import NumFacts PyFacts FeasFacts AlgoFacts ExprClose.
From Coq Require Import List Lia.
Local Open Scope string_scope.
Local Open Scope list_scope.
Local Open Scope nat_scope.

Lemma mapM_ext_in {A B} (f g : A -> result B) l : (forall a, In a l -> f a = g a) -> mapM f l = mapM g l.
Proof. induction l as [|a l IH]; intro H; [reflexivity|]. cbn [mapM]. rewrite (H a), IH; auto with datatypes. Qed.
Definition lo_of (clip : Qc) (v : variable) : Qc := if qltb (- INFINITY) (v_lb v) then v_lb v else (- clip)%Qc.
Definition hi_of (clip : Qc) (v : variable) : Qc := if qltb (v_ub v) INFINITY then v_ub v else clip.
Lemma range_iff clip v a : in_start_range clip v a <-> (lo_of clip v <= a)%Qc /\ (a <= hi_of clip v)%Qc.
Proof.
  unfold in_start_range, lo_of, hi_of. destruct (qltb (- INFINITY) (v_lb v)) eqn:A; destruct (qltb (v_ub v) INFINITY) eqn:B;
    rewrite ?qltb_iff, ?qltb_false in *; (split; [intros (H1 & H2 & H3 & H4); split; first [apply H1; assumption|apply H2; assumption|apply H3; assumption|apply H4; assumption]|]);
    intros [K1 K2]; repeat split; intro H; try assumption; match goal with P : (?x < ?y)%Qc, Q : (?y <= ?x)%Qc |- _ => destruct (Qclt_not_le _ _ P Q) end.
Qed.
Lemma has_start_iff clip v : has_start clip v <-> (lo_of clip v <= hi_of clip v)%Qc.
Proof.
  unfold has_start. split; [intros [a H]; apply range_iff in H; destruct H; eapply Qcle_trans; eassumption|].
  intro H. exists (lo_of clip v). apply range_iff. split; [apply Qcle_refl|assumption].
Qed.
Definition guess_one (clip : Qc) (draw : nat -> nat -> Qc) (t : nat) (iv : nat * variable) : result Qc :=
  uniform (draw t (fst iv)) (lo_of clip (snd iv)) (hi_of clip (snd iv) - lo_of clip (snd iv))%Qc.
Lemma guess_eq clip draw p t : first_guess clip draw p (S t) = mapM (guess_one clip draw (S t)) (combine (seq 0 (num_vars p)) (p_vars p)).
Proof. reflexivity. Qed.
Lemma guess_ok clip draw t i v : has_start clip v -> guess_one clip draw t (i, v) = Ok (lo_of clip v + draw t i * (hi_of clip v - lo_of clip v))%Qc.
Proof.
  intro H. apply has_start_iff in H. unfold guess_one, uniform. cbn. destruct (qltb _ 0) eqn:E; [|reflexivity]. apply qltb_iff in E. exfalso. qlra.
Qed.
Lemma guess_err clip draw t i v : ~ has_start clip v -> guess_one clip draw t (i, v) = Err ValueError.
Proof.
  intro H. rewrite has_start_iff in H. apply Qcnot_le_lt in H. unfold guess_one, uniform. cbn. destruct (qltb _ 0) eqn:E; [reflexivity|]. apply qltb_false in E. exfalso. qlra.
Qed.
Lemma has_start_dec clip v : {has_start clip v} + {~ has_start clip v}.
Proof.
  destruct (Qclt_le_dec (hi_of clip v) (lo_of clip v)); [right|left]; rewrite has_start_iff; [now apply Qclt_not_le|assumption].
Qed.
Lemma guesses clip draw t vs : forall k, match mapM (guess_one clip draw t) (combine (seq k (length vs)) vs) with
  | Ok xs => Forall (has_start clip) vs /\ xs = map (fun iv => lo_of clip (snd iv) + draw t (fst iv) * (hi_of clip (snd iv) - lo_of clip (snd iv)))%Qc (combine (seq k (length vs)) vs)
  | Err e => ~ Forall (has_start clip) vs /\ e = ValueError end.
Proof.
  induction vs as [|v vs IH]; intro k; cbn [length seq combine mapM map bind]; [split; constructor|].
  destruct (has_start_dec clip v) as [H|H].
  - rewrite (guess_ok clip draw t k v H). cbn [bind]. specialize (IH (S k)). destruct (mapM _ _) as [xs|e]; cbn [bind].
    + destruct IH as [A ->]. split; [constructor; assumption|reflexivity].
    + destruct IH as [A ->]. split; [|reflexivity]. intro F. apply A. now inversion F.
  - rewrite (guess_err clip draw t k v H). cbn [bind]. split; [|reflexivity]. intro F. apply H. now inversion F.
Qed.
Lemma guess_inside clip draw vs t : unit_draws draw -> Forall (has_start clip) vs -> forall k,
  Forall2 (in_start_range clip) vs (map (fun iv => lo_of clip (snd iv) + draw t (fst iv) * (hi_of clip (snd iv) - lo_of clip (snd iv)))%Qc (combine (seq k (length vs)) vs)).
Proof.
  intros U. induction 1 as [|v vs H F IH]; intro k; cbn; constructor; [|apply IH]. apply range_iff. apply has_start_iff in H. destruct (U t k) as [U1 U2].
  set (d := draw t k) in *. set (l := lo_of clip v) in *. set (h := hi_of clip v) in *. clearbody d l h.
  assert (0 <= d * (h - l))%Qc by qnra. assert (0 <= (1 - d) * (h - l))%Qc by qnra. split; [qlra|].
  replace ((1 - d) * (h - l))%Qc with (h - l - d * (h - l))%Qc in * by ring. qlra.
Qed.
(** The draw that leads to [a]. *)
Definition draw_for (clip : Qc) (v : variable) (a : Qc) : Qc := if qeqb (hi_of clip v) (lo_of clip v) then 0%Qc else ((a - lo_of clip v) / (hi_of clip v - lo_of clip v))%Qc.
Lemma draw_for_ok clip v a : in_start_range clip v a -> not_top clip v a ->
  (0 <= draw_for clip v a)%Qc /\ (draw_for clip v a < 1)%Qc /\ (lo_of clip v + draw_for clip v a * (hi_of clip v - lo_of clip v))%Qc = a.
Proof.
  intros R N. apply range_iff in R. destruct R as [R1 R2]. unfold draw_for. destruct (qeqb _ _) eqn:E.
  - apply qeqb_iff in E. rewrite E in *. split; [apply Qcle_refl|]. split; [reflexivity|]. replace (lo_of clip v) with a by (apply Qcle_antisym; assumption). ring.
  - assert (lo_of clip v < hi_of clip v)%Qc as L.
    { destruct (Qclt_le_dec (lo_of clip v) (hi_of clip v)) as [?|G]; [assumption|]. exfalso. assert (hi_of clip v = lo_of clip v) as Q by (apply Qcle_antisym; [assumption|eapply Qcle_trans; eassumption]).
      apply qeqb_iff in Q. congruence. }
    assert (a < hi_of clip v)%Qc as T.
    { destruct N as [(b & B & LT)|U]; [apply range_iff in B; eapply Qclt_le_trans; [exact LT|apply B]|].
      rewrite <- (U (lo_of clip v)); [assumption|]. apply range_iff. split; [apply Qcle_refl|now apply Qclt_le_weak]. }
    set (l := lo_of clip v) in *. set (h := hi_of clip v) in *. clearbody l h. assert (h - l <> 0)%Qc as NZ by (intro Z; assert (h = l) by (replace h with (h - l + l)%Qc by ring; rewrite Z; ring); subst; exact (Qclt_not_eq _ _ L eq_refl)).
    assert (((a - l) / (h - l)) * (h - l) = a - l)%Qc as M by (field; exact NZ). set (u := ((a - l) / (h - l))%Qc) in *. clearbody u.
    split; [|split; [|rewrite M; ring]].
    + apply Qcnot_lt_le. intro B. assert (0 < (- u) * (h - l))%Qc as X by qnra. replace (- u * (h - l))%Qc with (- (u * (h - l)))%Qc in X by ring. qlra.
    + apply Qcnot_le_lt. intro B. assert (0 <= (u - 1) * (h - l))%Qc as X by qnra. replace ((u - 1) * (h - l))%Qc with (u * (h - l) - (h - l))%Qc in X by ring. qlra.
Qed.
Lemma start_reached clip vs x t : Forall2 (in_start_range clip) vs x -> Forall2 (not_top clip) vs x -> forall k, exists d : nat -> Qc, (forall i, (0 <= d i)%Qc /\ (d i < 1)%Qc) /\
  mapM (guess_one clip (fun _ => d) t) (combine (seq k (length vs)) vs) = Ok x.
Proof.
  intro R. induction R as [|v a vs x R1 R IH]; intros N k.
  - exists (fun _ => 0%Qc). split; [intro; split; [apply Qcle_refl|reflexivity]|reflexivity].
  - inversion N; subst. destruct (IH ltac:(assumption) (S k)) as (d & D & E). destruct (draw_for_ok clip v a R1 ltac:(assumption)) as (A & B & C).
    exists (fun i => if i =? k then draw_for clip v a else d i). split; [intro i; destruct (i =? k); auto|].
    cbn [length seq combine mapM]. rewrite guess_ok by (exists a; assumption). cbn [bind]. rewrite Nat.eqb_refl, C.
    rewrite (mapM_ext_in _ (guess_one clip (fun _ => d) t)); [rewrite E; reflexivity|].
    intros [i w] I. apply in_combine_l, in_seq in I. unfold guess_one. cbn [fst]. replace (i =? k) with false; [reflexivity|]. symmetry. apply Nat.eqb_neq. lia.
Qed.

(** ** Results *)
Lemma satisfies_len p x : satisfies p x -> length x = num_vars p.
Proof. intros [F _]. symmetry. exact (Forall2_length _ _ _ F). Qed.
Lemma feasible_len p x : in_bounds p x -> length x = num_vars p.
Proof. intro F. symmetry. exact (Forall2_length _ _ _ F). Qed.
Lemma minimises_best p (P : list Qc -> Prop) x : shapes (num_vars p) p -> (forall y, P y -> length y = num_vars p) -> minimises (num_vars p) (handed_objective p) P x -> best_of p P x.
Proof.
  intros S PL (L & Px & M). split; [assumption|]. intros y Py. destruct (M y (PL y Py) Py) as (a & b & A & B & LE).
  rewrite objective_spec in A, B by auto. injection A as <-. injection B as <-. destruct (o_sense (p_obj p)); cbn; [assumption|qlra].
Qed.
Lemma minimises_ext n f (P Q : list Qc -> Prop) x : (forall y, length y = n -> (P y <-> Q y)) -> minimises n f P x -> minimises n f Q x.
Proof. intros H (L & Px & M). split; [assumption|]. split; [apply H; assumption|]. intros y Ly Qy. apply M; [assumption|now apply H]. Qed.
Lemma exact_finds p clip draw minimize (R : list Qc -> Prop) : (forall t x0, exists x, minimize t x0 = Ok x /\ length x = num_vars p /\ R x) ->
  forall trials, (forall t, t < trials -> exists x0, first_guess clip draw p t = Ok x0) -> exists found, finds clip draw minimize p trials found /\ Forall R found.
Proof.
  intros X trials G. assert (K : forall l, (forall t, In t l -> t < trials) -> exists found,
    Forall2 (fun t x => exists x0, first_guess clip draw p t = Ok x0 /\ minimize t x0 = Ok x /\ length x = num_vars p) l found /\ Forall R found).
  { induction l as [|t l IH]; intro H; [exists []; split; constructor|]. destruct IH as (found & F & Q); [intros; apply H; now right|].
    destruct (G t (H t (or_introl eq_refl))) as (x0 & E). destruct (X t x0) as (x & Ex & L & Rx). exists (x :: found). split; constructor; eauto. }
  destruct (K (seq 0 trials)) as (found & F & Q); [intros t I; apply in_seq in I; lia|]. exists found. split; assumption.
Qed.
Lemma exact_multi p clip draw minimize (P : list Qc -> Prop) trials : shapes (num_vars p) p -> (forall y, P y -> length y = num_vars p) ->
  (forall t x0, exists x, minimize t x0 = Ok x /\ minimises (num_vars p) (handed_objective p) P x) ->
  (forall t, t < trials -> exists x0, first_guess clip draw p t = Ok x0) -> 0 < trials ->
  (exists y, P y /\ (sense_val (o_sense (p_obj p)) * obj_at (p_obj p) y < INFINITY)%Qc) ->
  exists r x, multi_start trials clip draw minimize p = Ok r /\ reports p r x /\ best_of p P x.
Proof.
  intros S PL X G T (y & Py & Ly). destruct (exact_finds p clip draw minimize (best_of p P)) with (trials := trials) as (found & F & B).
  - intros t x0. destruct (X t x0) as (x & E & M). exists x. split; [assumption|]. split; [apply M|]. now apply minimises_best.
  - assumption.
  - destruct found as [|x0 found]; [apply Forall2_length in F; rewrite seq_length in F; cbn in F; lia|].
    destruct (multi_accepts p S clip draw minimize trials _ F) as (r & E).
    { exists x0. split; [now left|]. inversion B as [|? ? [_ B0] _]; subst. specialize (B0 y Py). destruct (o_sense (p_obj p)); cbn [at_least sense_val] in *; qlra. }
    destruct (multi_reports p S clip draw minimize trials _ r F E) as (x & I & R & _). exists r, x. split; [assumption|]. split; [assumption|].
    exact (proj1 (Forall_forall _ _) B x I).
Qed.
Lemma cobyla_exact_best p routine clip draw trials : shapes (num_vars p) p -> all_continuous p -> 0 < trials -> (forall t, t < trials -> exists x0, first_guess clip draw p t = Ok x0) ->
  cobyla_exact routine (num_vars p) (handed_objective p) (cobyla_constraints p) -> (exists y, satisfies p y /\ (sense_val (o_sense (p_obj p)) * obj_at (p_obj p) y < INFINITY)%Qc) ->
  exists r x, cobyla_solve routine trials clip draw p = Ok r /\ reports p r x /\ best_of p (satisfies p) x.
Proof.
  intros S C T G X Y. unfold cobyla_solve. rewrite (proj2 (continuous_only_spec p) C). apply exact_multi; try assumption; [apply satisfies_len|].
  intros t x0. destruct (X t x0) as (x & E & M). exists x. split; [assumption|]. revert M. apply minimises_ext. intros y Ly. now apply cobyla_spec.
Qed.
Lemma continuous_typed p x : all_continuous p -> length x = num_vars p -> typed p x.
Proof.
  unfold all_continuous, typed, num_vars. intro C. revert x. induction C as [|v vs V C IH]; intros [|a x] L; try discriminate; constructor; [|apply IH; cbn in L; lia].
  unfold has_type. rewrite V. exact I.
Qed.
Lemma slsqp_again p routine trials clip draw r x : shapes (num_vars p) p -> all_continuous p -> multi_start trials clip draw (routine (slsqp_handed p)) p = Ok r -> reports p r x -> length x = num_vars p ->
  exists r', slsqp_solve routine trials clip draw p = Ok r' /\ reports p r' x.
Proof.
  intros S C E (R1 & R2 & R3 & R4) L. unfold slsqp_solve. rewrite (proj2 (continuous_only_spec p) C), E. cbn [bind]. rewrite R1, R2, R3. now apply report_ok.
Qed.
Lemma slsqp_exact_optimal p routine clip draw trials : shapes (num_vars p) p -> all_continuous p -> 0 < trials -> (forall t, t < trials -> exists x0, first_guess clip draw p t = Ok x0) ->
  slsqp_exact routine (num_vars p) (slsqp_handed p) -> (exists y, feasible p y /\ (sense_val (o_sense (p_obj p)) * obj_at (p_obj p) y < INFINITY)%Qc) ->
  exists r x, slsqp_solve routine trials clip draw p = Ok r /\ reports p r x /\ optimal p x.
Proof.
  intros S C T G X Y. destruct (exact_multi p clip draw (routine (slsqp_handed p)) (feasible p) trials S) as (r & x & E & R & B); try assumption.
  - intros y [B _]. now apply feasible_len.
  - intros t x0. destruct (X t x0) as (x & E & M). exists x. split; [assumption|]. revert M. apply minimises_ext. intros y Ly. cbn [slsqp_handed sq_bounds sq_eq sq_ineq].
    rewrite slsqp_spec by assumption. unfold feasible. pose proof (continuous_typed p y C Ly). tauto.
  - destruct (slsqp_again p routine trials clip draw r x S C E R) as (r' & E' & R'); [apply feasible_len, B|]. exists r', x. auto.
Qed.
Lemma slsqp_reports p routine trials clip draw found r : shapes (num_vars p) p -> finds clip draw (routine (slsqp_handed p)) p trials found -> slsqp_solve routine trials clip draw p = Ok r ->
  exists x, In x found /\ reports p r x.
Proof.
  intros S F E. unfold slsqp_solve in E. destruct (continuous_only p) eqn:C; [|discriminate]. destruct (multi_start _ _ _ _ _) as [r0|] eqn:M; [|discriminate]. cbn [bind] in E.
  destruct (multi_reports p S _ _ _ _ _ r0 F M) as (x & I & R & _). exists x. split; [assumption|]. destruct R as (R1 & R2 & R3 & R4). rewrite R1, R2, R3 in E.
  destruct (report_ok p S x _ (proj1 (Forall_forall _ _) (finds_len p _ _ _ _ _ F) x I) eq_refl) as (r' & E' & R'). rewrite E' in E. injection E as <-. exact R'.
Qed.
