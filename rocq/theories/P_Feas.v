(** * C13, C14: feasibility *)
From Verif Require Import FeasFacts.
Local Open Scope string_scope.
Local Open Scope list_scope.
Local Open Scope nat_scope.

(** ** C13 *)
Theorem C13_feasibility_report : forall p x, cons_shapes (num_vars p) p -> length x = num_vars p ->
  exists b vx cs, get_feasibility_info p x = Ok (b, map fst vx, cs) /\
    picks (fun va => ~ in_range (fst va) (snd va)) (combine (p_vars p) x) vx /\
    picks (fun c => ~ holds_close (any_sense c) (any_at c x) (any_rhs c)) (map CLin (p_lcs p) ++ map CQuad (p_qcs p)) cs /\
    (b = true <-> vx = [] /\ cs = []) /\
    (b = true <-> Forall2 in_range (p_vars p) x /\
                  Forall (fun c => holds_close (any_sense c) (any_at c x) (any_rhs c)) (map CLin (p_lcs p) ++ map CQuad (p_qcs p))) /\
    is_feasible p x = Ok b.
Proof. exact info_cons. Qed.
Theorem C13_wrong_length : forall p x, length x <> num_vars p ->
  get_feasibility_info p x = Err QiskitOptimizationError /\ is_feasible p x = Err QiskitOptimizationError.
Proof. exact info_wrong_length. Qed.
(** Exactly feasible points are accepted, and on inequalities (and equalities with right-hand side 0) nothing else is. *)
Theorem C13_exact_points : forall p x, cons_shapes (num_vars p) p ->
  (feasible p x -> is_feasible p x = Ok true) /\
  (length x = num_vars p -> is_feasible p x = Ok true ->
   (forall c, In c (p_lcs p) -> lc_sense c = EQ -> lc_rhs c = 0%Qc) ->
   (forall c, In c (p_qcs p) -> qc_sense c = EQ -> qc_rhs c = 0%Qc) ->
   in_bounds p x /\ lcs_hold p x /\ qcs_hold p x).
Proof. exact feasible_points_cons. Qed.
(** There is an answer exactly if all constraints are as large as the program, and ValueError otherwise; the objective does not matter. *)
Theorem C13_sizes : forall p x, exprs_wf p -> length x = num_vars p ->
  ((exists b, is_feasible p x = Ok b) <-> cons_shapes (num_vars p) p) /\ (forall e, is_feasible p x = Err e -> e = ValueError).
Proof. exact info_sizes. Qed.

Definition ex13 : qp := run (new_qp "")
  [OAddVars (KCount 2) 0 (qz 5) INTEGER None "{}"; OObjective MINIMIZE 0 None None;
   OLinCon (Some (LList true [1%Qc; 1%Qc])) (SStr "<=") (qz 4) (Some "a");
   OLinCon (Some (LList true [1%Qc; (- (1))%Qc])) (SStr "==") 0 (Some "b");
   OQuadCon None (Some (QDict [((KI 0, KI 1), 1%Qc)])) (SStr ">=") (qz 3) (Some "q")].
Lemma ex13_shapes : shapes (num_vars ex13) ex13.
Proof.
  repeat split; simpl; repeat constructor; simpl; try lia; intuition (try congruence; lia).
Qed.
Example C13_sizes_case : let p := run ex13 [OAddVar 0 1 BINARY (Some "late")] in let q := run p [ORemLin (KI 0); ORemLin (KI 0); ORemQuad (KI 0)] in
  is_feasible p [qz 2; qz 2; 1%Qc] = Err ValueError /\ is_feasible q [qz 2; qz 2; 1%Qc] = Ok true /\ eval_obj q [qz 2; qz 2; 1%Qc] = Err ValueError.
Proof. vm_compute. auto. Qed.
Example C13_case : shapes (num_vars ex13) ex13 /\ is_feasible ex13 [qz 2; qz 2] = Ok true /\
  match get_feasibility_info ex13 [qz 6; 0%Qc] with
  | Ok (b, vs, cs) => (b, map v_name vs, map (fun c => match c with CLin c => lc_name c | CQuad c => qc_name c end) cs)
                      = (false, ["x0"], ["a"; "b"; "q"])
  | Err _ => False end.
Proof. split; [exact ex13_shapes|]. vm_compute. auto. Qed.
Print Assumptions C13_feasibility_report.
Print Assumptions C13_wrong_length.
Print Assumptions C13_exact_points.
Print Assumptions C13_sizes.

(** ** C14 *)
(** Refuted: is_feasible does not look at variable types. *)
Theorem C14_types_refuted : exists p x,
  shapes (num_vars p) p /\ is_feasible p x = Ok true /\ ~ typed p x.
Proof.
  exists (set_obj (mkObj 0 (mkLin 1 false []) (mkQuad 1 false []) MINIMIZE) (run (new_qp "") [OAddVar 0 1 BINARY None])), [(1 / qz 2)%Qc].
  split; [|split].
  - repeat split; simpl; constructor.
  - vm_compute. reflexivity.
  - intro H. inversion H as [|? ? ? ? T _]; subst. vm_compute in T. destruct T as [T|T]; discriminate T.
Qed.
(** What holds: type membership is equivalent to feasibility of the point in the strict sense.
    Missing: nothing more is true; the check never looks at types. *)
Theorem C14_bounds_only_partial : forall p x, shapes (num_vars p) p -> length x = num_vars p ->
  is_feasible p x = Ok true -> Forall2 (fun v a => (v_lb v <= a)%Qc /\ (a <= v_ub v)%Qc) (p_vars p) x.
Proof. exact feasible_bounds. Qed.
(** The types play no part at all: programs that differ only in the types of their variables accept the same points. *)
Theorem C14_blind : forall p q x, Forall2 (fun v w => v_name w = v_name v /\ v_lb w = v_lb v /\ v_ub w = v_ub v) (p_vars p) (p_vars q) ->
  p_lcs q = p_lcs p -> p_qcs q = p_qcs p -> p_vidx q = p_vidx p -> is_feasible q x = is_feasible p x.
Proof. exact retyped_report. Qed.
Example C14_case : let q := run ex13 [OSetType (KI 0) CONTINUOUS; OSetType (KS "x1") BINARY] in
  Forall2 (fun v w => v_name w = v_name v /\ v_lb w = v_lb v /\ v_ub w = v_ub v) (p_vars ex13) (p_vars q) /\ map v_type (p_vars q) = [CONTINUOUS; BINARY] /\
  is_feasible q [qz 2; qz 2] = Ok true /\ is_feasible q [qz 3; qz 3] = Ok false.
Proof. split; [vm_compute; repeat constructor|]. vm_compute. auto. Qed.
Print Assumptions C14_types_refuted.
Print Assumptions C14_blind.
Print Assumptions C14_bounds_only_partial.
