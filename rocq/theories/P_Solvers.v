(** * C44 and C45: the numerical solvers *)
From Verif Require Import SolversFacts ConvMore.
Local Open Scope string_scope.
Local Open Scope list_scope.
Local Open Scope nat_scope.

(** ** C44 *)
(** Refuted: of the maximisation of a over 0..10, trials find 2 and then 1; 1 is returned. *)
Theorem C44_maximise_refuted : exists p minimize r, shapes (num_vars p) p /\ o_sense (p_obj p) = MAXIMIZE /\
  finds (qz 100) (fun _ _ => 0%Qc) minimize p 2 [[qz 2]; [1%Qc]] /\ multi_start 2 (qz 100) (fun _ _ => 0%Qc) minimize p = Ok r /\
  reports p r [1%Qc] /\ (obj_at (p_obj p) [1%Qc] < obj_at (p_obj p) [qz 2])%Qc.
Proof.
  set (p := run (new_qp "") [OAddVar 0 (qz 10) CONTINUOUS (Some "a"); OObjective MAXIMIZE 0 (Some (LDict [(KS "a", 1%Qc)])) None]).
  assert (S : shapes (num_vars p) p).
  { unfold shapes, lin_shape, quad_shape, lin_wf, quad_wf. vm_compute. repeat (constructor || (intros [])). }
  assert (F : finds (qz 100) (fun _ _ => 0%Qc) (fun t _ => Ok (match t with 0 => [qz 2] | _ => [1%Qc] end)) p 2 [[qz 2]; [1%Qc]]).
  { constructor; [eexists; split; [vm_compute; reflexivity|split; reflexivity]|]. constructor; [eexists; split; [vm_compute; reflexivity|split; reflexivity]|]. constructor. }
  destruct (multi_last p (qz 100) (fun _ _ => 0%Qc) (fun t _ => Ok (match t with 0 => [qz 2] | _ => [1%Qc] end)) 2 [[qz 2]] [1%Qc] S eq_refl F) as (r & E & R).
  { repeat constructor. }
  exists p, (fun t _ => Ok (match t with 0 => [qz 2] | _ => [1%Qc] end)), r. split; [exact S|]. split; [reflexivity|]. split; [exact F|]. split; [exact E|]. split; [exact R|]. reflexivity.
Qed.
(** Refuted: if no value is below 1e20, nothing is returned. *)
Theorem C44_large_refuted : exists p minimize x, shapes (num_vars p) p /\ o_sense (p_obj p) = MINIMIZE /\ feasible p x /\
  finds (qz 100) (fun _ _ => 0%Qc) minimize p 1 [x] /\ multi_start 1 (qz 100) (fun _ _ => 0%Qc) minimize p = Err TypeError.
Proof.
  set (p := run (new_qp "") [OAddVar 0 INFINITY CONTINUOUS (Some "a"); OObjective MINIMIZE INFINITY (Some (LDict [(KS "a", 1%Qc)])) None]).
  assert (S : shapes (num_vars p) p).
  { unfold shapes, lin_shape, quad_shape, lin_wf, quad_wf. vm_compute. repeat (constructor || (intros [])). }
  assert (F : finds (qz 100) (fun _ _ => 0%Qc) (fun _ x => Ok x) p 1 [[0%Qc]]).
  { constructor; [eexists; split; [vm_compute; reflexivity|split; reflexivity]|]. constructor. }
  exists p, (fun _ x => Ok x), [0%Qc]. split; [exact S|]. split; [reflexivity|]. split; [apply feas_b_spec; vm_compute; reflexivity|]. split; [exact F|].
  apply (multi_nothing p _ _ _ 1 [[0%Qc]] S F). constructor; [|constructor]. apply Qcnot_lt_le. discriminate.
Qed.
(** What holds: what is returned is always the point of a trial with its own value and status ... *)
Theorem C44_reported_partial p clip draw minimize trials found r : shapes (num_vars p) p -> finds clip draw minimize p trials found ->
  multi_start trials clip draw minimize p = Ok r -> exists x, In x found /\ reports p r x.
Proof.
  intros S F E. destruct (multi_reports p S clip draw minimize trials found r F E) as (x & I & R & _). exists x. auto.
Qed.
(** ... for minimisation it is the best one (if a value is below 1e20) ... *)
Theorem C44_minimise_partial p clip draw minimize trials found : shapes (num_vars p) p -> o_sense (p_obj p) = MINIMIZE -> finds clip draw minimize p trials found ->
  (exists x, In x found /\ (obj_at (p_obj p) x < INFINITY)%Qc) ->
  exists r x, multi_start trials clip draw minimize p = Ok r /\ In x found /\ reports p r x /\
    forall y, In y found -> (obj_at (p_obj p) x <= obj_at (p_obj p) y)%Qc.
Proof. exact (multi_min p clip draw minimize trials found). Qed.
(** ... and with one trial, of either sense, it is its point. *)
Theorem C44_one_trial_partial p clip draw minimize x : shapes (num_vars p) p -> finds clip draw minimize p 1 [x] ->
  (sense_val (o_sense (p_obj p)) * obj_at (p_obj p) x < INFINITY)%Qc ->
  exists r, multi_start 1 clip draw minimize p = Ok r /\ reports p r x.
Proof. exact (multi_one p clip draw minimize x). Qed.
(** Maximisation of positive values always returns the last trial, whatever was found before. *)
Theorem C44_maximise_last p clip draw minimize trials found x : shapes (num_vars p) p -> o_sense (p_obj p) = MAXIMIZE -> finds clip draw minimize p trials (found ++ [x]) ->
  Forall (fun a => (0 < obj_at (p_obj p) a)%Qc) (found ++ [x]) ->
  exists r, multi_start trials clip draw minimize p = Ok r /\ reports p r x.
Proof. exact (multi_last p clip draw minimize trials found x). Qed.
(** Minimise a^2 - 4a over 0..10; the trials find 1, 2 and 4.  With a lower bound above the clipping value the second trial fails. *)
Example C44_case : let p := run (new_qp "") [OAddVar 0 (qz 10) CONTINUOUS (Some "a"); OObjective MINIMIZE 0 (Some (LDict [(KS "a", - qz 4)%Qc])) (Some (QDict [((KS "a", KS "a"), 1%Qc)]))] in
  let q := run (new_qp "") [OAddVar (qz 200) INFINITY CONTINUOUS (Some "a")] in
  match multi_start 3 (qz 100) (fun _ _ => 0%Qc) (fun t _ => Ok [qn (2 ^ t)]) p with
  | Ok r => match r_x r, r_fval r with Some x, Some f => qs_eqb x [qz 2] && qeqb f (- qz 4) | _, _ => false end | Err _ => false end = true /\
  multi_start 2 (qz 100) (fun _ _ => 0%Qc) (fun t x => Ok x) q = Err ValueError.
Proof. split; vm_compute; reflexivity. Qed.
(** Maximisation of values that are not positive always returns the first trial, whatever is found later. *)
Theorem C44_maximise_first p clip draw minimize trials found x : shapes (num_vars p) p -> o_sense (p_obj p) = MAXIMIZE -> finds clip draw minimize p trials (x :: found) ->
  (- INFINITY < obj_at (p_obj p) x)%Qc -> Forall (fun a => (obj_at (p_obj p) a <= 0)%Qc) (x :: found) ->
  exists r, multi_start trials clip draw minimize p = Ok r /\ reports p r x.
Proof. exact (multi_first p clip draw minimize trials found x). Qed.
(** If all trials find points, something is returned exactly if one of them has a value below 1e20 (above -1e20 for maximisation); otherwise
    it is TypeError.  If a trial fails, its error is raised. *)
Theorem C44_answers p clip draw minimize trials : shapes (num_vars p) p ->
  (forall found, finds clip draw minimize p trials found ->
    ((exists r, multi_start trials clip draw minimize p = Ok r) <->
     exists x, In x found /\ match o_sense (p_obj p) with MINIMIZE => (obj_at (p_obj p) x < INFINITY)%Qc | MAXIMIZE => (- INFINITY < obj_at (p_obj p) x)%Qc end) /\
    ((~ exists r, multi_start trials clip draw minimize p = Ok r) -> multi_start trials clip draw minimize p = Err TypeError)) /\
  (forall k found e, finds clip draw minimize p k found -> k < trials ->
    (first_guess clip draw p k = Err e \/ exists x0, first_guess clip draw p k = Ok x0 /\ minimize k x0 = Err e) -> multi_start trials clip draw minimize p = Err e).
Proof.
  intros S. split.
  - intros found F. destruct (multi_answers p clip draw minimize trials found S F) as [A B]. split; [|exact B]. rewrite A.
    destruct (o_sense (p_obj p)); cbn [sense_val]; split; intros (x & Hx & Lx); exists x; (split; [exact Hx|]).
    + replace (obj_at (p_obj p) x) with (1 * obj_at (p_obj p) x)%Qc by ring. exact Lx.
    + replace (1 * obj_at (p_obj p) x)%Qc with (obj_at (p_obj p) x) by ring. exact Lx.
    + replace (- (1) * obj_at (p_obj p) x)%Qc with (- obj_at (p_obj p) x)%Qc in Lx by ring. qlra.
    + replace (- (1) * obj_at (p_obj p) x)%Qc with (- obj_at (p_obj p) x)%Qc by ring. qlra.
  - intros k found e F L E. exact (multi_fails p clip draw minimize trials k found e S F L E).
Qed.
(** Maximise a over -10..0: the trials find -2 and then -1, the first one is returned; if the second trial fails, so does the call. *)
Example C44_maximise_case : let p := run (new_qp "") [OAddVar (qz (-10)) 0 CONTINUOUS (Some "a"); OObjective MAXIMIZE 0 (Some (LDict [(KS "a", 1%Qc)])) None] in
  match multi_start 2 (qz 100) (fun _ _ => 0%Qc) (fun t _ => Ok [match t with 0 => qz (-2) | _ => qz (-1) end]) p with
  | Ok r => match r_x r with Some x => qs_eqb x [qz (-2)] | None => false end | Err _ => false end = true /\
  multi_start 2 (qz 100) (fun _ _ => 0%Qc) (fun t x => match t with 0 => Ok x | _ => Err ValueError end) p = Err ValueError.
Proof. split; vm_compute; reflexivity. Qed.
Print Assumptions C44_maximise_first.
Print Assumptions C44_answers.
Print Assumptions C44_maximise_refuted.
Print Assumptions C44_large_refuted.
Print Assumptions C44_reported_partial.
Print Assumptions C44_minimise_partial.
Print Assumptions C44_one_trial_partial.
Print Assumptions C44_maximise_last.

(** ** C45 *)
Theorem C45_cobyla p x : shapes (num_vars p) p -> length x = num_vars p -> (Forall (nonneg_at x) (cobyla_constraints p) <-> satisfies p x).
Proof. exact (cobyla_spec p x). Qed.
Theorem C45_slsqp p x : shapes (num_vars p) p -> length x = num_vars p ->
  (Forall2 within (slsqp_bounds p) x /\ Forall (zero_at x) (slsqp_eq p) /\ Forall (nonneg_at x) (slsqp_ineq p) <-> in_bounds p x /\ lcs_hold p x /\ qcs_hold p x).
Proof. exact (slsqp_spec p x). Qed.
Theorem C45_objective p x : shapes (num_vars p) p -> length x = num_vars p ->
  handed_objective p x = Ok (match o_sense (p_obj p) with MINIMIZE => obj_at (p_obj p) x | MAXIMIZE => (- obj_at (p_obj p) x)%Qc end).
Proof. exact (objective_spec p x). Qed.
Theorem C45_gradient p x h : obj_sized (num_vars p) (p_obj p) -> length x = num_vars p -> length h = num_vars p ->
  exists g a b c, handed_gradient p x = Ok g /\ length g = num_vars p /\ handed_objective p x = Ok a /\ handed_objective p (vadd x h) = Ok b /\
    quad_eval (env_of p) (o_quad (p_obj p)) (XList h) = Ok c /\ b = (a + dot g h + sense_val (o_sense (p_obj p)) * c)%Qc.
Proof. exact (gradient_spec p x h). Qed.
(** Exactly the continuous problems are taken. *)
Theorem C45_compatible p : continuous_only p = true <-> all_continuous p.
Proof. exact (continuous_only_spec p). Qed.
(** 0 <= a, b >= -1 and b <= 3, a + b = 2, a * b <= 1: three functions for the bounds, two for the equation, one for the inequality. *)
Example C45_case : let p := run (new_qp "") [OAddVar 0 INFINITY CONTINUOUS (Some "a"); OAddVar (- (1))%Qc (qz 3) CONTINUOUS (Some "b");
    OLinCon (Some (LDict [(KS "a", 1%Qc); (KS "b", 1%Qc)])) (SVal EQ) (qz 2) (Some "s"); OQuadCon None (Some (QDict [((KS "a", KS "b"), 1%Qc)])) (SVal LE) 1 (Some "m");
    OObjective MAXIMIZE 0 (Some (LDict [(KS "a", 1%Qc)])) None] in
  continuous_only p = true /\ length (cobyla_constraints p) = 6 /\ length (slsqp_eq p) = 1 /\ length (slsqp_ineq p) = 1 /\
  match mapM (fun f => f [qz 3; - (1)]%Qc) (cobyla_constraints p) with Ok l => qs_eqb l [qz 3; 0; qz 4; 0; 0; qz 4]%Qc | Err _ => false end = true /\
  match handed_objective p [qz 3; - (1)]%Qc with Ok v => qeqb v (- qz 3) | Err _ => false end = true.
Proof. vm_compute. repeat split; reflexivity. Qed.
Print Assumptions C45_cobyla.
Print Assumptions C45_slsqp.
Print Assumptions C45_objective.
Print Assumptions C45_gradient.
Print Assumptions C45_compatible.
