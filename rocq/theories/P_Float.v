(** * C97: evaluation and feasibility with floats *)
Require Import Verif.FloatEval Verif.SpecFloats Verif.ConvMore Verif.WfFacts Verif.FloatFacts3.
Local Open Scope string_scope.
Local Open Scope list_scope.
Local Open Scope nat_scope.

(** The rounding of doubles: the error is at most 2^-53 of the number, and whole numbers up to 2^53 are kept. *)
Theorem C97_double : rel_error (1 / qz (2 ^ 53))%Qc to_double /\ keeps_whole (qz (2 ^ 53)) to_double.
Proof. split; [exact to_double_error|exact to_double_whole]. Qed.
Example C97_double_case : to_double (1 / qz 10)%Qc = (qz 3602879701896397 / qz (2 ^ 55))%Qc /\ to_double (qz (2 ^ 53 + 1)) = qz (2 ^ 53) /\ to_double (qz (2 ^ 53 + 3)) = qz (2 ^ 53 + 4) /\
  to_double (qz (-7)) = qz (-7) /\ to_double (to_double (1 / qz 10) + to_double (qz 2 / qz 10))%Qc <> to_double (qz 3 / qz 10)%Qc.
Proof. repeat split; try (apply Qc_is_canon; vm_compute; reflexivity). apply qeqb_false. vm_compute. reflexivity. Qed.

(** Refuted: 0.1 x + 0.2 y <= 0.3 holds for x = y = 1 and 0.1 x - 0.3 y == 0 for x = 3, y = 1, but both are reported as violated, because inequalities are compared without a tolerance and
    equalities with a relative one, which is nothing at 0.  And x + 10^-17 y <= 1 does not hold for x = y = 1 but is not reported.  In each case this is so in every order of the sum. *)
Definition tenth (n : Z) : Qc := (qz n / qz 10)%Qc.
Definition ex97le : qp := run (new_qp "") [OAddVar 0 1 BINARY (Some "x"); OAddVar 0 1 BINARY (Some "y");
  OLinCon (Some (LDict [(KS "x", tenth 1); (KS "y", tenth 2)])) (SStr "<=") (tenth 3) (Some "c");
  OObjective MINIMIZE 0 None None].
Definition ex97eq : qp := run (new_qp "") [OAddVar 0 (qz 3) INTEGER (Some "x"); OAddVar 0 1 BINARY (Some "y");
  OLinCon (Some (LDict [(KS "x", tenth 1); (KS "y", tenth (-3))])) (SStr "==") 0 (Some "c")].
Definition ex97tiny : qp := run (new_qp "") [OAddVar 0 1 BINARY (Some "x"); OAddVar 0 1 BINARY (Some "y");
  OLinCon (Some (LDict [(KS "x", 1%Qc); (KS "y", (1 / qz (10 ^ 17))%Qc)])) (SStr "<=") 1 (Some "c")].
Theorem C97_tolerance_refuted :
  (forall p x, exists lhs, forall c, In c (all_cons p) -> float_lhs to_double c x (lhs c)) /\
  (exists p x c, feasible p x /\ all_cons p = [c] /\ any_sense c = LE /\
    forall lhs, (forall c, In c (all_cons p) -> float_lhs to_double c x (lhs c)) -> float_info to_double p x lhs = (false, [], [c])) /\
  (exists p x c, feasible p x /\ all_cons p = [c] /\ any_sense c = EQ /\
    forall lhs, (forall c, In c (all_cons p) -> float_lhs to_double c x (lhs c)) -> float_info to_double p x lhs = (false, [], [c])) /\
  (exists p x c, ~ feasible p x /\ all_cons p = [c] /\ any_sense c = LE /\
    forall lhs, (forall c, In c (all_cons p) -> float_lhs to_double c x (lhs c)) -> float_info to_double p x lhs = (true, [], [])).
Proof.
  split; [|split; [|split]].
  - intros p x. exists (fun c => proj1_sig (lhs_some to_double c x)). intros c _. exact (proj2_sig (lhs_some to_double c x)).
  - assert (report_two ex97le [1%Qc; 1%Qc] = Some (LE, false, true, 1)) as R by (vm_compute; reflexivity). apply report_two_is in R. destruct R as (c & A & S & R).
    exists ex97le, [1%Qc; 1%Qc], c. split; [apply feas_b_spec; vm_compute; reflexivity|]. split; [exact A|]. split; [exact S|exact R].
  - assert (report_two ex97eq [qz 3; 1%Qc] = Some (EQ, false, true, 1)) as R by (vm_compute; reflexivity). apply report_two_is in R. destruct R as (c & A & S & R).
    exists ex97eq, [qz 3; 1%Qc], c. split; [apply feas_b_spec; vm_compute; reflexivity|]. split; [exact A|]. split; [exact S|exact R].
  - assert (report_two ex97tiny [1%Qc; 1%Qc] = Some (LE, true, true, 0)) as R by (vm_compute; reflexivity). apply report_two_is in R. destruct R as (c & A & S & R).
    exists ex97tiny, [1%Qc; 1%Qc], c. split; [apply feas_b_false; vm_compute; reflexivity|]. split; [exact A|]. split; [exact S|exact R].
Qed.
Example C97_tolerance_case : is_feasible ex97le [1%Qc; 1%Qc] = Ok true /\ is_feasible ex97eq [qz 3; 1%Qc] = Ok true /\ is_feasible ex97tiny [1%Qc; 1%Qc] = Ok false /\
  report_two ex97le [1%Qc; 0%Qc] = Some (LE, true, true, 0) /\ report_two ex97eq [0%Qc; 0%Qc] = Some (EQ, true, true, 0).
Proof. repeat split; vm_compute; reflexivity. Qed.

(** For whole numbers floats change nothing: if the coefficients, right-hand sides and values are whole numbers and the sums stay below [n], up to which whole numbers are kept, then the value
    of the objective and the report are the exact ones.  The bounds need only be floats; sums and right-hand sides of equalities must not exceed 5 * 10^8, half of 1 over the tolerance. *)
Theorem C97_whole_partial : forall rnd u n p x, (0 <= u)%Qc -> (u <= 1 / qz 8)%Qc -> rel_error u rnd -> keeps_whole n rnd -> shapes (num_vars p) p -> length x = num_vars p -> Forall integral x ->
  (integral (o_const (p_obj p)) -> whole_lin (o_lin (p_obj p)) -> whole_quad (o_quad (p_obj p)) ->
   (qabs (o_const (p_obj p)) + top_lin (o_lin (p_obj p)) x + top_quad (o_quad (p_obj p)) x <= n)%Qc -> forall v, float_obj rnd (p_obj p) x v -> v = obj_at (p_obj p) x) /\
  (Forall (fun v => rnd (v_lb v) = v_lb v /\ rnd (v_ub v) = v_ub v) (p_vars p) ->
   (forall c, In c (all_cons p) -> whole_con c /\ (top c x <= n)%Qc /\ (qabs (any_rhs c) <= n)%Qc /\
      (any_sense c = EQ -> (top c x <= qz 500000000)%Qc /\ (qabs (any_rhs c) <= qz 500000000)%Qc)) ->
   forall lhs, (forall c, In c (all_cons p) -> float_lhs rnd c x (lhs c)) -> get_feasibility_info p x = Ok (float_info rnd p x lhs)).
Proof.
  intros rnd u n p x U1 U2 R K S Hx X. split.
  - intros C L Q B v V. exact (obj_whole rnd n K _ p x v S Hx C L Q X B V).
  - intros B C lhs L. exact (whole_report rnd u n p x lhs U1 U2 R K S Hx X B C L).
Qed.
Definition ex97w : qp := run (new_qp "") [OAddVar 0 1 BINARY (Some "x"); OAddVar (- INFINITY) INFINITY INTEGER (Some "y");
  OLinCon (Some (LDict [(KS "x", qz 3); (KS "y", qz (-2))])) (SStr "==") (qz 1) (Some "c"); OQuadCon (Some (LDict [(KS "x", 1%Qc)])) (Some (QDict [((KS "x", KS "y"), qz 5)])) (SStr "<=") (qz 6) (Some "q");
  OObjective MINIMIZE (qz 1) (Some (LDict [(KS "x", qz 3)])) (Some (QDict [((KS "y", KS "y"), qz 2)]))].
Example C97_whole_case : forall lhs v, (forall c, In c (all_cons ex97w) -> float_lhs to_double c [1%Qc; 1%Qc] (lhs c)) -> float_obj to_double (p_obj ex97w) [1%Qc; 1%Qc] v ->
  v = qz 6 /\ float_info to_double ex97w [1%Qc; 1%Qc] lhs = (true, [], []).
Proof.
  intros lhs v L V. assert (shapes (num_vars ex97w) ex97w) as S by (vm_compute; repeat split; repeat constructor; simpl; try lia; intuition (try congruence; lia)).
  assert (0 <= 1 / qz (2 ^ 53))%Qc as U1 by (apply qleb_iff; reflexivity). assert (1 / qz (2 ^ 53) <= 1 / qz 8)%Qc as U2 by (apply qleb_iff; vm_compute; reflexivity).
  destruct (C97_whole_partial to_double _ _ ex97w [1%Qc; 1%Qc] U1 U2 (proj1 C97_double) (proj2 C97_double) S eq_refl) as [A B]; [repeat constructor; apply integral_1|]. split.
  - rewrite (A ltac:(apply is_integer_spec; vm_compute; reflexivity) ltac:(apply whole_lin_b; vm_compute; reflexivity) ltac:(apply whole_quad_b; vm_compute; reflexivity) ltac:(apply qleb_iff; vm_compute; reflexivity) v V).
    apply Qc_is_canon. vm_compute. reflexivity.
  - assert (get_feasibility_info ex97w [1%Qc; 1%Qc] = Ok (true, [], [])) as E by (vm_compute; reflexivity). rewrite (fun H1 H2 => B H1 H2 lhs L) in E; [exact (ok_same _ _ E)| |].
    + apply bounds_b_ok. vm_compute. reflexivity.
    + apply sized_b_ok. vm_compute. reflexivity.
Qed.

(** In general the value of a constraint or of the objective is off by at most (1 + u)^k - 1 times the sum of the absolute values of the terms, with k roundings. *)
Theorem C97_error : forall rnd u p x, (0 <= u)%Qc -> rel_error u rnd -> shapes (num_vars p) p -> length x = num_vars p ->
  (forall c v, In c (all_cons p) -> float_lhs rnd c x v -> (qabs (v - any_at c x) <= spread u (steps c) (mag c x))%Qc) /\
  (forall v, float_obj rnd (p_obj p) x v ->
     (qabs (v - obj_at (p_obj p) x) <= spread u (3 + steps_lin (o_lin (p_obj p)) + steps_quad (o_quad (p_obj p))) (qabs (o_const (p_obj p)) + mag_lin (o_lin (p_obj p)) x + mag_quad (o_quad (p_obj p)) x))%Qc).
Proof.
  intros rnd u p x U R S Hx. split.
  - intros c v Hc V. exact (lhs_error rnd u U R _ p c x v S Hc Hx V).
  - intros v V. exact (obj_error rnd u U R _ p x v S Hx V).
Qed.
Example C97_error_case : forall v c, all_cons ex97le = [c] -> float_lhs to_double c [1%Qc; 1%Qc] v -> (qabs (v - tenth 3) <= 1 / qz (10 ^ 16))%Qc.
Proof.
  intros v c A V. assert (shapes (num_vars ex97le) ex97le) as S by (vm_compute; repeat split; repeat constructor; simpl; try lia; intuition (try congruence; lia)).
  assert (0 <= 1 / qz (2 ^ 53))%Qc as U1 by (apply qleb_iff; reflexivity).
  destruct (C97_error to_double _ ex97le [1%Qc; 1%Qc] U1 (proj1 C97_double) S eq_refl) as [E _]. specialize (E c v ltac:(rewrite A; now left) V).
  assert (c = hd c (all_cons ex97le)) as Hc by now rewrite A. clear A V S. vm_compute in Hc. subst c.
  replace (any_at _ _) with (tenth 3) in E by (apply Qc_is_canon; vm_compute; reflexivity). eapply Qcle_trans; [exact E|]. apply qleb_iff. vm_compute. reflexivity.
Qed.

(** So the report is right up to a margin: an inequality that holds with the margin is not reported, and one that is not reported is violated by at most the margin.  An equality is not
    reported if the error is at most half of the tolerance, and one that is not reported holds up to the margin and twice the tolerance.  A bound is missed by at most its own rounding. *)
Theorem C97_margin_partial : forall rnd u p x lhs, (0 <= u)%Qc -> (u <= 1 / qz 8)%Qc -> rel_error u rnd -> shapes (num_vars p) p -> length x = num_vars p ->
  (forall c, In c (all_cons p) -> float_lhs rnd c x (lhs c)) ->
  (forall c, In c (all_cons p) -> let m := (spread u (steps c) (mag c x) + u * qabs (any_rhs c))%Qc in let d := (any_at c x - any_rhs c)%Qc in let reported := In c (snd (float_info rnd p x lhs)) in
     (any_sense c = LE -> ((d <= - m)%Qc -> ~ reported) /\ (~ reported -> (d <= m)%Qc)) /\
     (any_sense c = GE -> ((m <= d)%Qc -> ~ reported) /\ (~ reported -> (- m <= d)%Qc)) /\
     (any_sense c = EQ -> ((qabs d + m <= rel_tol / qz 2 * qabs (any_rhs c))%Qc -> ~ reported) /\ (~ reported -> (qabs d <= m + qz 2 * rel_tol * (qabs (any_at c x) + qabs (any_rhs c) + m))%Qc))) /\
  (forall i v a, nth_error (p_vars p) i = Some v -> nth_error x i = Some a -> ~ In v (snd (fst (float_info rnd p x lhs))) ->
     (v_lb v - u * qabs (v_lb v) <= a)%Qc /\ (a <= v_ub v + u * qabs (v_ub v))%Qc).
Proof.
  intros rnd u p x lhs U1 U2 R S Hx L. split.
  - intros c Hc m d reported. pose proof (lhs_error rnd u U1 R _ p c x _ S Hc Hx (L c Hc)) as E. set (s := spread u (steps c) (mag c x)) in *.
    assert (reported <-> float_violated rnd (any_sense c) (lhs c) (any_rhs c) = true) as Rp by (unfold reported, float_info; cbn [snd]; rewrite filter_In; tauto).
    assert (~ reported <-> float_violated rnd (any_sense c) (lhs c) (any_rhs c) = false) as Rn by (rewrite Rp; now destruct (float_violated _ _ _ _)).
    split; [|split]; intro Q; rewrite Rn, Q.
    + destruct (margin rnd u (lhs c) (any_at c x) s (any_rhs c) LE R E ltac:(discriminate)) as [M1 M2]. split; intro H; [apply M1|apply M2 in H]; unfold m, d in *; qlra.
    + destruct (margin rnd u (lhs c) (any_at c x) s (any_rhs c) GE R E ltac:(discriminate)) as [M1 M2]. split; intro H; [apply M1|apply M2 in H]; unfold m, d in *; qlra.
    + split; intro H.
      * apply (equal_accepted rnd u (lhs c) (s + qabs d)%Qc (any_rhs c) U1 U2 R); [|unfold m in H; qlra].
        pose proof (qabs_triangle (lhs c - any_at c x) d) as T. unfold d in *. replace (lhs c - any_at c x + (any_at c x - any_rhs c))%Qc with (lhs c - any_rhs c)%Qc in T by ring. qlra.
      * exact (equal_close rnd u (lhs c) s (any_at c x) (any_rhs c) U1 U2 R E H).
  - intros i v a Hv Ha N. assert (float_outside rnd v a = false) as O.
    { destruct (float_outside rnd v a) eqn:O; [|reflexivity]. exfalso. apply N. unfold float_info. cbn [fst snd]. apply in_map_iff. exists (v, a). split; [reflexivity|]. apply filter_In. split; [|exact O].
      clear - Hv Ha. revert i x Hv Ha. induction (p_vars p) as [|w l IH]; intros [|i] [|b x] Hv Ha; try discriminate; simpl in *; [left; congruence|right; eauto]. }
    unfold float_outside in O. apply orb_false_iff in O. destruct O as [O1 O2]. rewrite qltb_false in O1, O2. pose proof (R (v_lb v)) as R1. pose proof (R (v_ub v)) as R2. apply qabs_bound in R1. apply qabs_bound in R2. split; qlra.
Qed.
Example C97_margin_case : forall lhs, (forall c, In c (all_cons ex97le) -> float_lhs to_double c [1%Qc; 0%Qc] (lhs c)) -> forall c, In c (all_cons ex97le) -> ~ In c (snd (float_info to_double ex97le [1%Qc; 0%Qc] lhs)).
Proof.
  intros lhs L c Hc. assert (shapes (num_vars ex97le) ex97le) as S by (vm_compute; repeat split; repeat constructor; simpl; try lia; intuition (try congruence; lia)).
  assert (0 <= 1 / qz (2 ^ 53))%Qc as U1 by (apply qleb_iff; reflexivity). assert (1 / qz (2 ^ 53) <= 1 / qz 8)%Qc as U2 by (apply qleb_iff; vm_compute; reflexivity).
  destruct (C97_margin_partial to_double _ ex97le [1%Qc; 0%Qc] lhs U1 U2 (proj1 C97_double) S eq_refl L) as [M _]. destruct (M c Hc) as (M1 & _). clear M L S U1 U2.
  assert (any_sense c = LE /\ (any_at c [1%Qc; 0%Qc] - any_rhs c <= - (spread (1 / qz (2 ^ 53)) (steps c) (mag c [1%Qc; 0%Qc]) + 1 / qz (2 ^ 53) * qabs (any_rhs c)))%Qc) as [Q B].
  { clear M1. vm_compute in Hc. destruct Hc as [<-|[]]. split; [reflexivity|]. apply qleb_iff. vm_compute. reflexivity. }
  exact (proj1 (M1 Q) B).
Qed.
Print Assumptions C97_double.
Print Assumptions C97_tolerance_refuted.
Print Assumptions C97_whole_partial.
Print Assumptions C97_error.
Print Assumptions C97_margin_partial.
