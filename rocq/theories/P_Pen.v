(** * C28 to C31: constraints as penalties *)
From Verif Require Import PenLight QuboFacts.
Local Open Scope string_scope.
Local Open Scope list_scope.
Local Open Scope nat_scope.

(** ** C28 *)
Theorem C28_penalty_objective : forall pen p q, prog_wf p -> penalize pen p = Ok q ->
  p_lcs q = [] /\ p_qcs q = [] /\ o_sense (p_obj q) = o_sense (p_obj p) /\
  (Forall plain (p_vars p) -> p_vars q = p_vars p) /\
  forall x, length x = num_vars p ->
    obj_at (p_obj q) x = (obj_at (p_obj p) x + sense_val (o_sense (p_obj p)) * pen * violation (p_lcs p) x)%Qc.
Proof.
  intros pen p q W H. destruct (penalize_spec pen p q W H) as (V & L & Q & S & _ & _ & _ & O).
  split; auto. split; auto. split; auto. split; auto. intro P. rewrite V. now apply map_copyv_plain.
Qed.
Theorem C28_rejects_inequalities : forall pen p c, prog_wf p -> In c (p_lcs p) -> lc_sense c <> EQ -> exists e, penalize pen p = Err e.
Proof.
  intros pen p c W Hc N. destruct (penalize pen p) as [q|e] eqn:H; [|eauto]. exfalso.
  destruct (penalize_spec pen p q W H) as (_ & _ & _ & _ & E & _). rewrite Forall_forall in E. now apply N, E.
Qed.
Definition ex28 (s : string) : qp := run (new_qp "")
  [OAddVar 0 1 BINARY (Some "a"); OAddVar 0 1 BINARY (Some "b"); OAddVar (qz (-2)) (qz 3) INTEGER (Some "i");
   OObjective MAXIMIZE 1 (Some (LDict [(KS "i", qz 2); (KS "a", qz 3)])) (Some (QDict [((KS "a", KS "b"), qz 5)]));
   OLinCon (Some (LDict [(KS "a", qz 1); (KS "b", qz 1)])) (SStr "==") 1 (Some "one");
   OLinCon (Some (LDict [(KS "b", qz 2); (KS "i", qz (-1))])) (SStr s) (1 / qz 2) (Some "two")].
Example C28_case : prog_wf (ex28 "==") /\ match penalize (qz 10) (ex28 "==") with
  | Ok q => qeqb (obj_at (p_obj q) [1; 1; qz 3]%Qc) (1 + qz 6 + qz 3 + qz 5 - qz 10 * (1 + qz 9 / qz 4))%Qc = true /\ num_vars q = 3
  | Err _ => False end /\ match penalize (qz 10) (ex28 "<=") with Ok _ => False | Err e => e = QiskitOptimizationError end.
Proof. split; [apply reachable_wf; repeat constructor|]. vm_compute. auto. Qed.
Print Assumptions C28_penalty_objective.
Print Assumptions C28_rejects_inequalities.

(** ** C29 *)
Theorem C29_auto_penalty_exact : forall p q, prog_wf p -> all_binary p -> binary_open p -> int_rows p -> p_qcs p = [] ->
  (exists x, feasible p x) -> penalize (auto_penalty p) p = Ok q ->
  forall y, (optimal q y <-> optimal p y) /\ (optimal p y -> obj_at (p_obj q) y = obj_at (p_obj p) y).
Proof.
  intros p q W B O IR Q F H y. split.
  - apply (pen_exact _ _ _ W H B IR (auto_penalty_large p IR) Q O F).
  - intros [Fy _]. exact (pen_value_eq _ _ _ W H y Fy).
Qed.
Definition ex29 : qp := run (new_qp "")
  [OAddVar 0 1 BINARY (Some "a"); OAddVar 0 1 BINARY (Some "b"); OAddVar 0 1 BINARY (Some "c");
   OObjective MAXIMIZE 1 (Some (LDict [(KS "a", (1 / qz 2)%Qc); (KS "c", qz 3)])) (Some (QDict [((KS "a", KS "b"), qz 5); ((KS "b", KS "c"), qz (-2))]));
   OLinCon (Some (LDict [(KS "a", qz 1); (KS "b", qz 1); (KS "c", qz 1)])) (SStr "==") 1 (Some "one")].
Example C29_case : prog_wf ex29 /\ all_binary ex29 /\ binary_open ex29 /\ int_rows ex29 /\ feasible ex29 [0; 0; 1]%Qc /\
  qeqb (auto_penalty ex29) (qz 23 / qz 2) = true /\ is_ok (penalize (auto_penalty ex29) ex29) = true.
Proof.
  split; [apply reachable_wf; repeat constructor|]. split; [repeat constructor|].
  split; [repeat constructor; vm_compute; discriminate|].
  split; [repeat constructor; simpl; apply is_integer_spec; vm_compute; reflexivity|].
  split; [apply feas_b_spec; vm_compute; reflexivity|]. vm_compute. auto.
Qed.
Print Assumptions C29_auto_penalty_exact.

(** ** C30 *)
(** Refuted: the penalty adds up coefficients as if all variables were bits. *)
Theorem C30_integer_penalty_refuted : exists p q x y, prog_wf p /\ int_bounds p /\ int_rows p /\ p_qcs p = [] /\ feasible p x /\
  penalize (auto_penalty p) p = Ok q /\ feasible q y /\ ~ feasible p y /\ o_sense (p_obj p) = MINIMIZE /\
  (forall z, feasible p z -> (obj_at (p_obj q) y < obj_at (p_obj q) z)%Qc).
Proof.
  set (p := run (new_qp "") [OAddVar 0 (qz 10) INTEGER (Some "x"); OAddVar 0 (qz 10) INTEGER (Some "z");
     OObjective MINIMIZE 0 None (Some (QDict [((KS "x", KS "z"), (- (1))%Qc)]));
     OLinCon (Some (LDict [(KS "x", 1%Qc)])) (SStr "==") 0 (Some "c")]).
  assert (prog_wf p) as W by (apply reachable_wf; repeat constructor).
  assert (match penalize (auto_penalty p) p with
    | Ok q => feas_b p [0; 0]%Qc && feas_b q [1; qz 10]%Qc && negb (feas_b p [1; qz 10]%Qc) && qltb (obj_at (p_obj q) [1; qz 10]%Qc) 0
    | Err _ => false end = true) as V by (vm_compute; reflexivity).
  destruct (penalize (auto_penalty p) p) as [q|] eqn:E; [|discriminate].
  apply andb_prop in V. destruct V as [V V4]. apply andb_prop in V. destruct V as [V V3]. apply andb_prop in V. destruct V as [V1 V2].
  apply feas_b_spec in V1, V2. apply negb_true_iff, feas_b_false in V3.
  exists p, q, [0; 0]%Qc, [1; qz 10]%Qc. split; auto. split; [repeat constructor; apply is_integer_spec; vm_compute; reflexivity|].
  split; [repeat constructor; simpl; apply is_integer_spec; vm_compute; reflexivity|]. split; [reflexivity|]. split; auto. split; auto. split; auto. split; auto. split; auto.
  intros z Fz. rewrite (pen_value_eq _ _ _ W E z Fz). destruct (qltb_spec (obj_at (p_obj q) [1; qz 10]%Qc) 0) as [Lt|]; [|discriminate].
  destruct Fz as (B & T & C & _). inversion B as [|? a ? z' B1 B2]; subst. inversion B2 as [|? b ? z'' B3 B4]; subst. inversion B4; subst.
  inversion C as [|? ? C1 _]; subst. simpl in C1. unfold lc_at in C1. rewrite lin_entries_in in C1; [|vm_compute; repeat constructor; simpl; tauto|vm_compute; repeat constructor].
  unfold dsum in C1. simpl in C1. unfold at_ in C1. simpl in C1. assert (a = 0%Qc) as -> by qlra.
  assert (obj_at (p_obj p) [0%Qc; b] = 0%Qc) as ->; [|exact Lt].
  unfold obj_at. rewrite lin_entries_in, quad_entries_in; [|vm_compute; repeat constructor; simpl; tauto|vm_compute; repeat constructor|vm_compute; constructor|vm_compute; constructor].
  unfold dsum. simpl. unfold at_. simpl. ring.
Qed.
(** What holds: a penalty above the variation of the objective over the box is enough, also for integer variables.
    Missing: that the automatic penalty is above it, which is false. *)
Theorem C30_integer_penalty_partial : forall pen p q range, prog_wf p -> discrete p -> binary_open p -> int_rows p -> p_qcs p = [] ->
  (exists x, feasible p x) -> penalize pen p = Ok q ->
  (forall x y, in_bounds p x -> in_bounds p y -> typed p x -> typed p y -> (obj_at (p_obj p) x - obj_at (p_obj p) y <= range)%Qc) -> (range < pen)%Qc ->
  forall y, (optimal q y <-> optimal p y) /\ (optimal p y -> obj_at (p_obj q) y = obj_at (p_obj p) y).
Proof.
  intros pen p q range W D O IR Q F H R L y. split.
  - apply (pen_exact_range _ _ _ W H range); auto.
  - intros [Fy _]. exact (pen_value_eq _ _ _ W H y Fy).
Qed.
Example C30_case : let p := run (new_qp "") [OAddVar 0 (qz 10) INTEGER (Some "x"); OObjective MINIMIZE 0 (Some (LDict [(KS "x", qz (-1))])) None;
     OLinCon (Some (LDict [(KS "x", qz 2)])) (SStr "==") (qz 6) (Some "c")] in
  match penalize (qz 11) p with
  | Ok q => qeqb (obj_at (p_obj q) [qz 3]) (qz (-3)) = true /\ qltb (qz (-3)) (obj_at (p_obj q) [qz 4]) = true | Err _ => False end.
Proof. vm_compute. auto. Qed.
(** The automatic penalty itself is large enough if the variables of the objective have few values, whatever the bounds of the others. *)
Theorem C30_light_partial : forall p q, prog_wf p -> discrete p -> binary_open p -> int_rows p -> light_objective p -> p_qcs p = [] ->
  (exists x, feasible p x) -> penalize (auto_penalty p) p = Ok q ->
  forall y, (optimal q y <-> optimal p y) /\ (optimal p y -> obj_at (p_obj q) y = obj_at (p_obj p) y).
Proof.
  intros p q W D O IR Lo Q F H y. split.
  - apply (pen_exact_range _ _ _ W H (weight (p_obj p))); auto; [|now apply auto_penalty_large]. intros x z. now apply (light_range (auto_penalty p) p q W H Lo).
  - intros [Fy _]. exact (pen_value_eq _ _ _ W H y Fy).
Qed.
(** A sum with an integer variable of a large range that is not in the objective *)
Definition ex30 : qp := run (new_qp "") [OAddVar 0 1 BINARY (Some "a"); OAddVar (qz 4) (qz 5) INTEGER (Some "b"); OAddVar (qz (-50)) (qz 50) INTEGER (Some "s");
  OObjective MAXIMIZE 0 (Some (LDict [(KS "a", qz 3); (KS "b", qz 2)])) (Some (QDict [((KS "a", KS "a"), qz (-1))]));
  OLinCon (Some (LDict [(KS "a", qz 2); (KS "b", qz 3); (KS "s", 1%Qc)])) (SStr "==") (qz 7) (Some "c")].
Example C30_light_case : prog_wf ex30 /\ discrete ex30 /\ binary_open ex30 /\ int_rows ex30 /\ light_objective ex30 /\ p_qcs ex30 = [] /\ feasible ex30 [1; qz 5; qz (-10)]%Qc /\
  match penalize (auto_penalty ex30) ex30 with Ok q => qeqb (obj_at (p_obj q) [1; qz 5; qz (-10)]%Qc) (qz 12) && qltb (obj_at (p_obj q) [1; qz 5; qz (-9)]%Qc) (qz 12) | Err _ => false end = true.
Proof.
  assert (p_vars ex30 = [mkVar "a" 0 1 BINARY; mkVar "b" (qz 4) (qz 5) INTEGER; mkVar "s" (qz (-50)) (qz 50) INTEGER]) as V by (vm_compute; reflexivity).
  assert (map fst (le_co (o_lin (p_obj ex30))) = [0; 1] /\ map fst (qe_co (o_quad (p_obj ex30))) = [(0, 0)]) as [E1 E2] by (vm_compute; auto).
  split; [apply reachable_wf; repeat constructor|]. split; [unfold discrete; rewrite V; repeat constructor; discriminate|].
  split; [unfold binary_open; rewrite V; repeat constructor; discriminate|]. split.
  { assert (forallb (fun c => is_integer (lc_rhs c) && forallb (fun kv => is_integer (snd kv)) (le_co (lc_lin c))) (p_lcs ex30) = true) as F by (vm_compute; reflexivity).
    unfold int_rows. rewrite forallb_forall in F. apply Forall_forall. intros c Hc. specialize (F c Hc). apply andb_prop in F. destruct F as [F1 F2]. split; [|now apply is_integer_spec].
    unfold int_lin. rewrite forallb_forall in F2. apply Forall_forall. intros kv Hk. apply is_integer_spec. auto. }
  split.
  { split.
    - intros i c v Hc Hv. apply (in_map fst) in Hc. rewrite E1 in Hc. change (In i [0; 1]) in Hc. rewrite V in Hv. destruct Hc as [<-|[<-|[]]]; cbn [nth_error] in Hv; apply (f_equal (fun o => match o with Some a => a | None => v end)) in Hv; subst v; [left; reflexivity|right; apply qleb_iff; vm_compute; reflexivity].
    - intros i j c v Hc Hv. apply (in_map fst) in Hc. rewrite E2 in Hc. change (In (i, j) [(0, 0)]) in Hc. rewrite V in Hv. destruct Hc as [E|[]]. injection E as <- <-. destruct Hv as [Hv|Hv]; cbn [nth_error] in Hv; apply (f_equal (fun o => match o with Some a => a | None => v end)) in Hv; subst v; left; reflexivity. }
  split; [vm_compute; reflexivity|]. split; [apply feas_b_spec; vm_compute; reflexivity|]. vm_compute. reflexivity.
Qed.
Print Assumptions C30_light_partial.
Print Assumptions C30_integer_penalty_refuted.
Print Assumptions C30_integer_penalty_partial.

(** ** C31 *)
(** Refuted: quadratic constraints are dropped without a word. *)
Theorem C31_no_constraint_lost_refuted : exists pen p q x, prog_wf p /\ p_qcs p <> [] /\ penalize pen p = Ok q /\ pen <> 0%Qc /\
  in_bounds p x /\ typed p x /\ ~ feasible p x /\ feasible q x /\ obj_at (p_obj q) x = obj_at (p_obj p) x.
Proof.
  set (p := run (new_qp "") [OAddVar 0 1 BINARY (Some "x"); OObjective MINIMIZE 0 (Some (LDict [(KS "x", qz (-1))])) None;
     OQuadCon None (Some (QDict [((KS "x", KS "x"), 1%Qc)])) (SStr "==") 0 (Some "c")]).
  assert (match penalize (qz 10) p with
    | Ok q => feas_b q [1%Qc] && fits_b (p_vars p) [1%Qc] && negb (feas_b p [1%Qc]) && qeqb (obj_at (p_obj q) [1%Qc]) (obj_at (p_obj p) [1%Qc])
    | Err _ => false end = true) as V by (vm_compute; reflexivity).
  destruct (penalize (qz 10) p) as [q|] eqn:E; [|discriminate].
  apply andb_prop in V. destruct V as [V V4]. apply andb_prop in V. destruct V as [V V3]. apply andb_prop in V. destruct V as [V1 V2].
  apply feas_b_spec in V1. apply fits_b_spec in V2. apply negb_true_iff, feas_b_false in V3.
  exists (qz 10), p, q, [1%Qc]. split; [apply reachable_wf; repeat constructor|]. split; [discriminate|]. split; auto. split; [discriminate|].
  split; [apply V2|]. split; [apply V2|]. split; auto. split; auto. now destruct (qeqb_spec (obj_at (p_obj q) [1%Qc]) (obj_at (p_obj p) [1%Qc])).
Qed.
(** What holds: without quadratic constraints every point breaking a constraint changes its objective, and no other does.
    Missing: quadratic constraints, where it is false. *)
Theorem C31_no_constraint_lost_partial : forall pen p q x, prog_wf p -> p_qcs p = [] -> penalize pen p = Ok q -> pen <> 0%Qc ->
  in_bounds p x -> typed p x -> (feasible p x <-> obj_at (p_obj q) x = obj_at (p_obj p) x).
Proof.
  intros pen p q x W Q H N B T. split.
  - intro F. exact (pen_value_eq _ _ _ W H x F).
  - intro E. exact (pen_notices _ _ _ W H x Q N B T E).
Qed.
Example C31_case : match penalize (qz 10) ex29 with
  | Ok q => feas_b ex29 [1; 1; 0]%Qc = false /\ qeqb (obj_at (p_obj q) [1; 1; 0]%Qc) (obj_at (p_obj ex29) [1; 1; 0]%Qc) = false
  | Err _ => False end.
Proof. vm_compute. auto. Qed.
(** Exactly: the penalty notices the points that break a linear constraint, no others, and the new program has no constraints. *)
Theorem C31_linear_only : forall pen p q x, prog_wf p -> penalize pen p = Ok q -> pen <> 0%Qc -> length x = num_vars p ->
  (lcs_hold p x <-> obj_at (p_obj q) x = obj_at (p_obj p) x) /\ p_lcs q = [] /\ p_qcs q = [].
Proof. intros pen p q x W H N L. exact (pen_linear_only pen p q W H x N L). Qed.
Example C31_linear_only_case : let p := run (new_qp "") [OAddVars (KCount 2) 0 1 BINARY None "{}"; OObjective MINIMIZE 0 (Some (LDict [(KI 0, qz (-1))])) None;
     OLinCon (Some (LDict [(KI 0, 1%Qc); (KI 1, 1%Qc)])) (SStr "==") 1 (Some "l"); OQuadCon None (Some (QDict [((KI 0, KI 0), 1%Qc)])) (SStr "==") 0 (Some "c")] in
  match penalize (qz 10) p with
  | Ok q => map (fun x => (feas_b p x, qeqb (obj_at (p_obj q) x) (obj_at (p_obj p) x))) [[0; 1]; [1; 0]; [1; 1]]%Qc = [(true, true); (false, true); (false, false)]
  | Err _ => False end.
Proof. vm_compute. auto. Qed.
Print Assumptions C31_no_constraint_lost_refuted.
Print Assumptions C31_linear_only.
Print Assumptions C31_no_constraint_lost_partial.
