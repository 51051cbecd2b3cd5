(** * C53 and C54: docplex models *)
From Verif Require Import DocFacts3 DocWf DocSame ConvMore.
Local Open Scope string_scope.
Local Open Scope list_scope.
Local Open Scope nat_scope.

(** ** C53 *)
(** Refuted: the constraint 0 <= 1 is dropped, although it is not of the form 0 (sense) 0. *)
Theorem C53_dropped_refuted : exists p m p' c, run_ok (new_qp "") [OAddVar 0 1 BINARY (Some "a"); OLinCon None (SVal LE) 1 (Some "c")] = Ok p /\
  Forall plain (p_vars p) /\ In c (p_lcs p) /\ void_lc c = false /\ to_docplex p = Ok m /\ from_docplex m = Ok p' /\ p_lcs p' = [].
Proof.
  eexists _, _, _, _. split; [vm_compute; reflexivity|]. split; [repeat constructor; reflexivity|]. split; [left; reflexivity|].
  split; [vm_compute; reflexivity|]. split; [vm_compute; reflexivity|]. split; [vm_compute; reflexivity|]. reflexivity.
Qed.
(** Refuted: with the constraint 0 >= 1 nothing is exported, docplex raises an exception. *)
Theorem C53_infeasible_refuted : exists p, run_ok (new_qp "") [OAddVar 0 1 BINARY (Some "a"); OLinCon None (SVal GE) 1 (Some "c")] = Ok p /\
  Forall plain (p_vars p) /\ to_docplex p = Err DOcplexException.
Proof. eexists. split; [vm_compute; reflexivity|]. split; [repeat constructor; reflexivity|]. vm_compute. reflexivity. Qed.
(** Refuted: a quadratic constraint without quadratic terms comes back as a linear one, and if there is a linear constraint
    of the same name, the import fails. *)
Theorem C53_kind_refuted : exists p m p' p2 m2,
  run_ok (new_qp "") [OAddVar 0 1 BINARY (Some "a"); OQuadCon (Some (LDict [(KS "a", 1%Qc)])) None (SVal LE) 1 (Some "c")] = Ok p /\
  length (p_qcs p) = 1 /\ p_lcs p = [] /\ to_docplex p = Ok m /\ from_docplex m = Ok p' /\ p_qcs p' = [] /\ length (p_lcs p') = 1 /\
  run_ok p [OLinCon (Some (LDict [(KS "a", 1%Qc)])) (SVal GE) 0 (Some "c")] = Ok p2 /\ to_docplex p2 = Ok m2 /\ from_docplex m2 = Err QiskitOptimizationError.
Proof.
  eexists _, _, _, _, _. split; [vm_compute; reflexivity|]. split; [reflexivity|]. split; [reflexivity|]. split; [vm_compute; reflexivity|].
  split; [vm_compute; reflexivity|]. split; [reflexivity|]. split; [reflexivity|]. split; [vm_compute; reflexivity|]. split; vm_compute; reflexivity.
Qed.
(** What holds: programs whose binary variables have the bounds 0 and 1, without empty variable names, in which every linear constraint
    without terms is 0 (sense) 0 and every quadratic constraint has a quadratic term or is 0 (sense) 0, come back unchanged,
    but for the constraints 0 (sense) 0. *)
Theorem C53_round_trip_partial : forall p, prog_wf p -> exprs_small p -> Forall plain (p_vars p) -> ~ In EmptyString (var_names p) ->
  Forall (fun c => le_co (lc_lin c) = [] -> lc_rhs c = 0%Qc) (p_lcs p) ->
  Forall (fun c => qe_co (qc_quad c) = [] -> le_co (qc_lin c) = [] /\ qc_rhs c = 0%Qc) (p_qcs p) ->
  exists m p', to_docplex p = Ok m /\ from_docplex m = Ok p' /\
    p_name p' = p_name p /\ p_vars p' = p_vars p /\ o_sense (p_obj p') = o_sense (p_obj p) /\
    (forall x, length x = num_vars p -> obj_at (p_obj p') x = obj_at (p_obj p) x) /\
    Forall2 (same_lc (num_vars p)) (filter (fun c => negb (void_lc c)) (p_lcs p)) (p_lcs p') /\
    Forall2 (same_qc (num_vars p)) (filter (fun c => negb (void_qc c)) (p_qcs p)) (p_qcs p').
Proof. exact round_trip. Qed.
(** What happens to any program without empty variable names.  The export fails exactly if a constraint without terms is false.  The
    import fails exactly if a quadratic constraint without products has the name of a linear constraint with terms.  Otherwise name,
    objective and solutions come back, but for bounds of binary variables; constraints without terms are gone and quadratic
    constraints without products are linear ones. *)
Theorem C53_exact : forall p, prog_wf p -> exprs_small p -> ~ In EmptyString (var_names p) ->
  (to_docplex p = Err DOcplexException <-> never p) /\
  forall m, to_docplex p = Ok m ->
    ((exists p', from_docplex m = Ok p') <-> forall c d, In c (with_terms p) -> In d (without_products p) -> lc_name c <> qc_name d) /\
    forall p', from_docplex m = Ok p' ->
      p_name p' = p_name p /\ p_vars p' = map freed (p_vars p) /\ o_sense (p_obj p') = o_sense (p_obj p) /\
      (forall x, length x = num_vars p -> obj_at (p_obj p') x = obj_at (p_obj p) x) /\ (forall x, feasible p' x <-> feasible (freed_program p) x) /\
      map lc_name (p_lcs p') = map lc_name (with_terms p) ++ map qc_name (without_products p) /\ map qc_name (p_qcs p') = map qc_name (with_products p).
Proof.
  intros p W S Ne. split; [now apply export_refused|]. intros m E. split; [rewrite <- clash_in; now apply import_accepts|]. intros p' I. destruct (labels_filter p) as (<- & <- & <-). exact (round_trip_any p m p' W S E I).
Qed.
(** A binary variable that must be 1, a constraint 0 <= 1 and a quadratic constraint without products *)
Example C53_exact_case :
  let p := run (new_qp "m") [OAddVar 1 1 BINARY (Some "a"); OAddVar 0 (qz 5) INTEGER (Some "i");
    OObjective MAXIMIZE (qz 3) (Some (LDict [(KI 1, qz 2)])) (Some (QDict [((KI 1, KI 0), qz 7)]));
    OLinCon None (SVal LE) 1 (Some "z"); OLinCon (Some (LDict [(KS "a", 1%Qc); (KS "i", 1%Qc)])) (SVal GE) (qz 2) (Some "c");
    OQuadCon (Some (LDict [(KS "i", 1%Qc)])) None (SVal LE) (qz 4) (Some "q"); OQuadCon None (Some (QDict [((KI 1, KI 1), 1%Qc)])) (SVal LE) (qz 9) (Some "r")] in
  prog_wf p /\ exprs_small p /\ ~ In EmptyString (var_names p) /\ map lc_name (with_terms p) = ["c"] /\ map qc_name (without_products p) = ["q"] /\
  match to_docplex p with
  | Ok m => match from_docplex m with
            | Ok p' => map lc_name (p_lcs p') = ["c"; "q"] /\ map qc_name (p_qcs p') = ["r"] /\ feas_b p' [0; qz 3]%Qc = true /\ feas_b p [0; qz 3]%Qc = false /\ feas_b p' [1; qz 4]%Qc = false
            | Err _ => False end
  | Err _ => False end.
Proof.
  intro p. split; [apply reachable_wf; repeat constructor|]. split; [vm_compute; repeat split; repeat constructor|].
  split; [intros [A|[A|[]]]; discriminate A|]. split; [reflexivity|]. split; [reflexivity|]. vm_compute. auto 10.
Qed.
Example C53_case :
  let p := run (new_qp "m") [OAddVar 0 1 BINARY (Some "a"); OAddVar (qz (-2)) (qz 5) INTEGER (Some "i"); OAddVar (1 / qz 2) (qz 3) CONTINUOUS (Some "r");
    OObjective MAXIMIZE (qz 3) (Some (LDict [(KI 1, qz 2)])) (Some (QDict [((KI 2, KI 0), qz 7); ((KI 1, KI 1), 1%Qc)]));
    OLinCon (Some (LDict [(KS "a", 1%Qc); (KS "r", qz (-4))])) (SVal GE) (qz 2) (Some "c"); OLinCon None (SVal EQ) 0 (Some "z");
    OQuadCon (Some (LDict [(KS "i", 1%Qc)])) (Some (QDict [((KI 1, KI 0), qz 2)])) (SVal LE) (qz 6) (Some "q")] in
  (exists m p', to_docplex p = Ok m /\ from_docplex m = Ok p' /\ p_vars p' = p_vars p /\ map lc_name (p_lcs p') = ["c"] /\ map qc_name (p_qcs p') = ["q"]) /\
  (do m <- to_docplex p; do p' <- from_docplex m; eval_obj p' [1; qz 2; qz 3]%Qc) = Ok (qz 32).
Proof.
  intros p. split; [|vm_compute; reflexivity]. destruct (to_docplex p) as [m|] eqn:E; [|vm_compute in E; discriminate E]. vm_compute in E. injection E as <-.
  eexists _, _. split; [reflexivity|]. split; [vm_compute; reflexivity|]. split; [vm_compute; reflexivity|split; reflexivity].
Qed.
Print Assumptions C53_dropped_refuted.
Print Assumptions C53_infeasible_refuted.
Print Assumptions C53_kind_refuted.
Print Assumptions C53_round_trip_partial.
Print Assumptions C53_exact.

(** ** C54 *)
(** Refuted: the bounds of a binary variable are not imported; here the variable is fixed to 1. *)
Theorem C54_bounds_refuted : exists m p x, dmodel_wf m /\ from_docplex m = Ok p /\ feasible p x /\ ~ dsolution m x.
Proof.
  set (m := mkDM "" [mkDVar (Some "a") DBinary 1 1] MINIMIZE (d_var 0) []).
  eexists m, _, [0%Qc]. split.
  { split; [|split; [constructor|repeat constructor; discriminate]]. repeat split; cbn; repeat constructor; auto. }
  split; [vm_compute; reflexivity|]. split.
  - split; [|split; [|split; constructor]]; repeat constructor; cbn; try (left; reflexivity); vm_compute; discriminate.
  - intros (F & _). inversion F as [|? ? ? ? H]; subst. destruct H as (H & _). vm_compute in H. apply H. reflexivity.
Qed.
(** Refuted: a variable without a name is called x0, and an import fails if that is the name of a later variable; likewise with constraints. *)
Theorem C54_names_refuted : exists m m2, dmodel_wf m /\ Forall dplain (dm_vars m) /\ from_docplex m = Err QiskitOptimizationError /\
  dmodel_wf m2 /\ Forall dplain (dm_vars m2) /\ from_docplex m2 = Err QiskitOptimizationError.
Proof.
  exists (mkDM "" [mkDVar None DBinary 0 1; mkDVar (Some "x0") DBinary 0 1] MINIMIZE (d_var 0) []),
    (mkDM "" [mkDVar (Some "a") DBinary 0 1] MINIMIZE (d_var 0) [DLinear None LE (d_var 0) (d_num 1); DLinear (Some "c0") GE (d_var 0) (d_num 0)]).
  split. { split; [|split; [constructor|repeat constructor; discriminate]]. repeat split; cbn; repeat constructor; auto. }
  split; [repeat constructor; reflexivity|]. split; [vm_compute; reflexivity|].
  split. { split; [|split; [|repeat constructor; discriminate]]; repeat constructor; cbn; auto. }
  split; [repeat constructor; reflexivity|]. vm_compute; reflexivity.
Qed.
(** What holds: if the binary variables have the bounds 0 and 1, the imported program has the same variables, objective and constraints. *)
Theorem C54_import_partial : forall m p, dmodel_wf m -> Forall dplain (dm_vars m) -> from_docplex m = Ok p ->
  p_name p = dm_name m /\ Forall2 same_var (dm_vars m) (p_vars p) /\ o_sense (p_obj p) = dm_sense m /\
  (forall x, length x = length (dm_vars m) -> obj_at (p_obj p) x = dval (dm_obj m) x) /\
  Forall2 (same_lincon (length (dm_vars m))) (filter is_linear (dm_cons m)) (p_lcs p) /\
  Forall2 (same_quadcon (length (dm_vars m))) (filter is_quadratic (dm_cons m)) (p_qcs p).
Proof. exact import_faithful. Qed.
(** ... and the same solutions. *)
Theorem C54_solutions_partial : forall m p x, dmodel_wf m -> Forall dplain (dm_vars m) -> from_docplex m = Ok p -> (feasible p x <-> dsolution m x).
Proof. exact import_solutions. Qed.
(** Models are imported if names are given to all or none of the variables, the linear and the quadratic constraints, and the names are different. *)
Theorem C54_accepted_partial : forall m, dmodel_wf m ->
  Forall (fun d => dv_type d = DBinary \/ (dv_lb d <= dv_ub d)%Qc) (dm_vars m) -> named_alike (map dv_name (dm_vars m)) ->
  named_alike (map dcon_name (filter is_linear (dm_cons m))) -> named_alike (map dcon_name (filter is_quadratic (dm_cons m))) ->
  exists p, from_docplex m = Ok p.
Proof. exact from_docplex_total. Qed.
(** Every model of linear and quadratic constraints: what is imported is the model with the bounds of its binary variables taken back
    to 0 and 1.  Models with other types of variables or other constraints are never imported. *)
Theorem C54_exact : forall m p, from_docplex m = Ok p ->
  (dmodel_wf m -> Forall2 same_var (map dfreed (dm_vars m)) (p_vars p) /\ (forall x, feasible p x <-> dsolution (dfreed_model m) x)) /\
  Forall (fun v => dv_type v <> DOtherType) (dm_vars m) /\ Forall (fun c => c <> DOtherCon) (dm_cons m).
Proof.
  intros m p H. split; [|exact (import_supported m p H)]. intro W. destruct (dfreed_wf m W) as [W' P]. rewrite <- from_freed in H. split.
  - apply (import_faithful (dfreed_model m) p W' P H).
  - intro x. exact (import_solutions (dfreed_model m) p x W' P H).
Qed.
(** b must be 1 in the model, but is free in the program; with an indicator constraint the import fails. *)
Example C54_exact_case :
  let m cs := mkDM "m" [mkDVar (Some "b") DBinary 1 1; mkDVar (Some "i") DInteger 0 (qz 4)] MINIMIZE (d_var 1) (DLinear None GE (d_add (d_var 0) (d_var 1)) (d_num (qz 2)) :: cs) in
  match from_docplex (m []) with
  | Ok p => map v_lb (p_vars p) = [0; 0]%Qc /\ feas_b p [0; qz 2]%Qc = true /\ feas_b p [0; 1]%Qc = false
  | Err _ => False
  end /\ is_ok (from_docplex (m [DOtherCon])) = false.
Proof. vm_compute. auto. Qed.
(** Whatever is imported is a program as the other theorems assume it: well formed, with expressions over all its variables, so that
    it can be evaluated and converted. *)
Theorem C54_usable : forall m p, from_docplex m = Ok p -> prog_wf p /\ shapes (num_vars p) p.
Proof. exact from_docplex_ready. Qed.
(** Terms on both sides, some of them on one variable: 2 a - i + 1 <= 3 a + 4 and a i + 2 >= i * i + r. *)
Example C54_case :
  let m := mkDM "m" [mkDVar (Some "a") DBinary 0 1; mkDVar (Some "i") DInteger (qz (-1)) (qz 4); mkDVar (Some "r") DContinuous 0 (qz 9)] MAXIMIZE
    (d_add (d_mul (d_var 0) (d_var 2)) (d_num (qz 5)))
    [DQuadratic None GE (d_add (d_mul (d_var 1) (d_var 0)) (d_num (qz 2))) (d_add (d_mul (d_var 1) (d_var 1)) (d_var 2));
     DLinear None LE (d_add (d_sub (d_scale (qz 2) (d_var 0)) (d_var 1)) (d_num 1)) (d_add (d_scale (qz 3) (d_var 0)) (d_num (qz 4)))] in
  match from_docplex m with
  | Ok p => map lc_name (p_lcs p) = ["c0"] /\ map (fun c => lc_rhs c) (p_lcs p) = [qz 3] /\ map qc_name (p_qcs p) = ["q0"] /\
      feas_b p [1; 1; qz 2]%Qc = true /\ feas_b p [1; 1; qz 3]%Qc = false /\ obj_at (p_obj p) [1; 1; qz 2]%Qc = qz 7
  | Err _ => False
  end.
Proof.
  intros m. destruct (from_docplex m) as [p|] eqn:E; [|vm_compute in E; discriminate E]. vm_compute in E. injection E as <-.
  repeat split; try reflexivity; try (vm_compute; reflexivity); try (apply Qc_is_canon; vm_compute; reflexivity).
Qed.
Print Assumptions C54_bounds_refuted.
Print Assumptions C54_names_refuted.
Print Assumptions C54_import_partial.
Print Assumptions C54_solutions_partial.
Print Assumptions C54_accepted_partial.
Print Assumptions C54_usable.
Print Assumptions C54_exact.
