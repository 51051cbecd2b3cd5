(** * C71 and C72: where the numerical optimizers start and what they return *)
From Verif Require Import StartFacts ConvMore.
Local Open Scope string_scope.
Local Open Scope list_scope.
Local Open Scope nat_scope.

(** ** C71 *)
(** Refuted: the first trial starts at a = 0 although 1 <= a <= 2. *)
Theorem C71_first_refuted : exists p x clip draw, shapes (num_vars p) p /\ feasible p x /\ unit_draws draw /\ (0 < clip)%Qc /\
  exists x0, first_guess clip draw p 0 = Ok x0 /\ ~ Forall2 (in_start_range clip) (p_vars p) x0.
Proof.
  exists (run (new_qp "") [OAddVar 1 (qz 2) CONTINUOUS (Some "a"); OObjective MINIMIZE 0 (Some (LDict [(KS "a", 1%Qc)])) None]), [1%Qc], (qz 100), (fun _ _ => 0%Qc).
  split; [unfold shapes, lin_shape, quad_shape, lin_wf, quad_wf; vm_compute; repeat (constructor || (intros []))|].
  split; [apply feas_b_spec; vm_compute; reflexivity|]. split; [intros t i; split; [apply Qcle_refl|reflexivity]|]. split; [reflexivity|].
  eexists. split; [reflexivity|]. intro F. inversion F as [|? ? ? ? R _]; subst. apply range_iff in R. destruct R as [R _]. apply (Qcle_not_lt _ _ R). reflexivity.
Qed.
(** Refuted: a >= 200 without upper bound; the second trial raises ValueError. *)
Theorem C71_clip_refuted : exists p x clip draw, shapes (num_vars p) p /\ feasible p x /\ unit_draws draw /\ (0 < clip)%Qc /\
  first_guess clip draw p 1 = Err ValueError.
Proof.
  exists (run (new_qp "") [OAddVar (qz 200) INFINITY CONTINUOUS (Some "a"); OObjective MINIMIZE 0 (Some (LDict [(KS "a", 1%Qc)])) None]), [qz 300], (qz 100), (fun _ _ => 0%Qc).
  split; [unfold shapes, lin_shape, quad_shape, lin_wf, quad_wf; vm_compute; repeat (constructor || (intros []))|].
  split; [apply feas_b_spec; vm_compute; reflexivity|]. split; [intros t i; split; [apply Qcle_refl|reflexivity]|]. split; [reflexivity|]. vm_compute. reflexivity.
Qed.
(** What holds: the first trial starts at the origin ... *)
Theorem C71_origin_partial clip draw p : exists x0, first_guess clip draw p 0 = Ok x0 /\ length x0 = num_vars p /\ forall i, at_ x0 i = 0%Qc.
Proof.
  eexists. split; [reflexivity|]. split; [apply repeat_length|]. intro i. unfold at_. generalize (num_vars p). intro n. revert i. induction n as [|n IH]; intros [|i]; cbn; auto.
Qed.
(** ... later trials start within the bounds, and do start if there is such a place ... *)
Theorem C71_later_partial clip draw p t : unit_draws draw -> Forall (has_start clip) (p_vars p) ->
  exists x0, first_guess clip draw p (S t) = Ok x0 /\ Forall2 (in_start_range clip) (p_vars p) x0.
Proof.
  intros U H. rewrite guess_eq. pose proof (guesses clip draw (S t) (p_vars p) 0) as G. unfold num_vars. destruct (mapM _ _) as [x0|e]; [|tauto].
  destruct G as [_ ->]. eexists. split; [reflexivity|]. now apply guess_inside.
Qed.
Theorem C71_nowhere_partial clip draw p t : ~ Forall (has_start clip) (p_vars p) -> first_guess clip draw p (S t) = Err ValueError.
Proof.
  intro H. rewrite guess_eq. pose proof (guesses clip draw (S t) (p_vars p) 0) as G. unfold num_vars. destruct (mapM _ _) as [x0|e]; [tauto|]. destruct G as [_ ->]. reflexivity.
Qed.
(** ... every such place (below the upper ends) is a possible start ... *)
Theorem C71_anywhere_partial clip p t x : Forall2 (in_start_range clip) (p_vars p) x -> Forall2 (not_top clip) (p_vars p) x ->
  exists draw, unit_draws draw /\ first_guess clip draw p (S t) = Ok x.
Proof.
  intros R N. destruct (start_reached clip (p_vars p) x (S t) R N 0) as (d & D & E). exists (fun _ => d). split; [intros ? i; apply D|]. exact E.
Qed.
(** ... and a variable bounded on both sides starts between its bounds. *)
Theorem C71_bounded_partial clip v a : (- INFINITY < v_lb v)%Qc -> (v_ub v < INFINITY)%Qc -> (in_start_range clip v a <-> (v_lb v <= a)%Qc /\ (a <= v_ub v)%Qc).
Proof.
  intros L U. rewrite range_iff. unfold lo_of, hi_of. rewrite (proj2 (qltb_iff _ _) L), (proj2 (qltb_iff _ _) U). tauto.
Qed.
(** 1 <= a <= 3, b without bounds, c <= 0: with draws of one half the second trial starts at 2, 0 and -50. *)
Example C71_case : let p := run (new_qp "") [OAddVar 1 (qz 3) CONTINUOUS (Some "a"); OAddVar (- INFINITY) INFINITY CONTINUOUS (Some "b"); OAddVar (- INFINITY) 0 CONTINUOUS (Some "c")] in
  match first_guess (qz 100) (fun _ _ => 1 / qz 2)%Qc p 1 with Ok x => qs_eqb x [qz 2; 0%Qc; qz (-50)] | Err _ => false end = true /\
  Forall (has_start (qz 100)) (p_vars p).
Proof. split; [vm_compute; reflexivity|]. repeat constructor; apply has_start_iff; vm_compute; discriminate. Qed.
Print Assumptions C71_first_refuted.
Print Assumptions C71_clip_refuted.
Print Assumptions C71_origin_partial.
Print Assumptions C71_later_partial.
Print Assumptions C71_nowhere_partial.
Print Assumptions C71_anywhere_partial.
Print Assumptions C71_bounded_partial.

(** ** C72 *)
(** With a routine that solves what it is given, the answer is a best point of the problem, reported as such. *)
Theorem C72_cobyla p routine clip draw trials : shapes (num_vars p) p -> all_continuous p -> 0 < trials -> (forall t, t < trials -> exists x0, first_guess clip draw p t = Ok x0) ->
  cobyla_exact routine (num_vars p) (handed_objective p) (cobyla_constraints p) -> (exists y, satisfies p y /\ (sense_val (o_sense (p_obj p)) * obj_at (p_obj p) y < INFINITY)%Qc) ->
  exists r x, cobyla_solve routine trials clip draw p = Ok r /\ reports p r x /\ best_of p (satisfies p) x.
Proof. exact (cobyla_exact_best p routine clip draw trials). Qed.
Theorem C72_slsqp p routine clip draw trials : shapes (num_vars p) p -> all_continuous p -> 0 < trials -> (forall t, t < trials -> exists x0, first_guess clip draw p t = Ok x0) ->
  slsqp_exact routine (num_vars p) (slsqp_handed p) -> (exists y, feasible p y /\ (sense_val (o_sense (p_obj p)) * obj_at (p_obj p) y < INFINITY)%Qc) ->
  exists r x, slsqp_solve routine trials clip draw p = Ok r /\ reports p r x /\ optimal p x.
Proof. exact (slsqp_exact_optimal p routine clip draw trials). Qed.
(** Whatever the routine does, the answer is one of the points it found, with its objective and a status that tells whether the point is accepted. *)
Theorem C72_cobyla_reported p routine clip draw trials found r : shapes (num_vars p) p -> finds clip draw (routine (handed_objective p) (cobyla_constraints p)) p trials found ->
  cobyla_solve routine trials clip draw p = Ok r -> exists x, In x found /\ reports p r x.
Proof.
  intros S F E. unfold cobyla_solve in E. destruct (continuous_only p); [|discriminate]. destruct (multi_reports p S _ _ _ _ _ r F E) as (x & I & R & _). exists x. auto.
Qed.
Theorem C72_slsqp_reported p routine clip draw trials found r : shapes (num_vars p) p -> finds clip draw (routine (slsqp_handed p)) p trials found ->
  slsqp_solve routine trials clip draw p = Ok r -> exists x, In x found /\ reports p r x.
Proof. exact (slsqp_reports p routine trials clip draw found r). Qed.
(** Problems with other than continuous variables are refused before any routine runs. *)
Theorem C72_refused p croutine sroutine clip draw trials : ~ all_continuous p ->
  cobyla_solve croutine trials clip draw p = Err QiskitOptimizationError /\ slsqp_solve sroutine trials clip draw p = Err QiskitOptimizationError.
Proof.
  intro N. unfold cobyla_solve, slsqp_solve. destruct (continuous_only p) eqn:C; [|auto]. apply continuous_only_spec in C. contradiction.
Qed.
(** Maximise a - b with a <= 2, b >= 1 and a + b <= 3 (0 <= a, b <= 10); a routine that answers (2, 1) is exact. *)
Example C72_case : let p := run (new_qp "") [OAddVar 0 (qz 10) CONTINUOUS (Some "a"); OAddVar 0 (qz 10) CONTINUOUS (Some "b");
    OLinCon (Some (LDict [(KS "a", 1%Qc)])) (SVal LE) (qz 2) (Some "s"); OLinCon (Some (LDict [(KS "b", 1%Qc)])) (SVal GE) 1 (Some "t");
    OLinCon (Some (LDict [(KS "a", 1%Qc); (KS "b", 1%Qc)])) (SVal LE) (qz 3) (Some "u"); OObjective MAXIMIZE 0 (Some (LDict [(KS "a", 1%Qc); (KS "b", - (1))%Qc])) None] in
  all_continuous p /\ feas_b p [qz 2; 1%Qc] = true /\
  match slsqp_solve (fun _ _ _ => Ok [qz 2; 1%Qc]) 3 (qz 100) (fun _ _ => 0%Qc) p with
  | Ok r => match r_x r, r_fval r, r_status r with Some x, Some f, SUCCESS => qs_eqb x [qz 2; 1%Qc] && qeqb f 1 | _, _, _ => false end | Err _ => false end = true /\
  match slsqp_solve (fun _ _ _ => Ok [qz 3; 1%Qc]) 1 (qz 100) (fun _ _ => 0%Qc) p with
  | Ok r => match r_status r with INFEASIBLE_ => true | _ => false end | Err _ => false end = true.
Proof. split; [repeat constructor|]. vm_compute. auto. Qed.
Print Assumptions C72_cobyla.
Print Assumptions C72_slsqp.
Print Assumptions C72_cobyla_reported.
Print Assumptions C72_slsqp_reported.
Print Assumptions C72_refused.
