(** * C79: solving with CPLEX *)
From Verif Require Import CplexFacts ConvMore.
Local Open Scope string_scope.
Local Open Scope list_scope.
Local Open Scope nat_scope.

(** The exported model has the same objective, the same sense, and as solutions the points that satisfy everything but the bounds of binary variables.  The export fails exactly if a constraint without coefficients does not hold. *)
Theorem C79_export : forall p, prog_wf p -> exprs_small p ->
  (never p <-> to_docplex p = Err DOcplexException) /\
  (~ never p -> exists m, to_docplex p = Ok m /\ dm_sense m = o_sense (p_obj p) /\ (forall x, dsolution m x <-> loose p x) /\ (forall x, length x = num_vars p -> dval (dm_obj m) x = obj_at (p_obj p) x)).
Proof.
  intros p W E. pose proof (export_spec p W E) as M. destruct (to_docplex p) as [m|e].
  - destruct M as (M1 & M2 & M3 & _ & N). split; [split; [tauto|discriminate]|]. intros _. exists m. auto.
  - destruct M as [-> N]. split; [tauto|]. intro K. contradiction.
Qed.
Definition ex79 : qp := run (new_qp "") [OAddVar 0 1 BINARY (Some "a"); OAddVar 0 1 BINARY (Some "b"); OAddVar 0 1 BINARY (Some "c"); OObjective MAXIMIZE (qz 5) (Some (LDict [(KS "a", qz 2); (KS "b", 1%Qc)])) (Some (QDict [((KS "a", KS "c"), qz (-3))]));
  OLinCon (Some (LDict [(KS "a", 1%Qc); (KS "b", 1%Qc); (KS "c", 1%Qc)])) (SStr "==") (qz 2) (Some "two")].
Example C79_export_case : match to_docplex ex79 with Ok m => forallb (fun x => qeqb (dval (dm_obj m) x) (obj_at (p_obj ex79) x) && Bool.eqb (forallb (dcon_b x) (dm_cons m)) (feas_b ex79 x)) (all_bits 3) | Err _ => false end = true.
Proof. vm_compute. reflexivity. Qed.

(** With a solver that is exact, the answer is best among all points that satisfy everything but the bounds of binary variables; the value reported is its objective, the status tells whether it is feasible, a success is optimal. *)
Theorem C79_answer : forall cplex p r, prog_wf p -> exprs_small p -> shapes (num_vars p) p -> cplex_exact cplex -> cplex_solve cplex p = Ok r ->
  exists x, r_x r = Some x /\ r_fval r = Some (obj_at (p_obj p) x) /\ r_vars r = p_vars p /\ r_dict r = Some (combine (var_names p) x) /\ r_samples r = Some [mkSample x (obj_at (p_obj p) x) 1%Qc (r_status r)] /\
    loose p x /\ (forall y, loose p y -> at_least (o_sense (p_obj p)) (obj_at (p_obj p) x) (obj_at (p_obj p) y)) /\
    (r_status r = SUCCESS <-> optimal p x) /\ (r_status r = INFEASIBLE_ <-> ~ in_bounds p x).
Proof.
  intros cplex p r W E Sh X H. destruct (cplex_answer cplex p r W E Sh X H) as (x & R & L & B & S). exists x. rewrite R. cbn [r_x r_fval r_vars r_dict r_samples r_status].
  do 7 (split; [auto; fail|]). split.
  - split; [|intros [F _]; destruct S as [[S _]|[_ S]]; [exact S|contradiction]]. intro K. destruct S as [[_ F]|[S _]]; [|congruence]. split; [exact F|]. intros y Fy. apply B. now apply feasible_loose.
  - rewrite (loose_feasible p x L). destruct S as [[S F]|[S F]]; rewrite S; split; auto; try discriminate; intro; contradiction.
Qed.
Example C79_answer_case : match cplex_solve search ex79 with Ok r => match r_x r, r_fval r, r_status r with Some x, Some f, SUCCESS => qs_eqb x [1; 1; 0]%Qc && qeqb f (qz 8) | _, _, _ => false end | Err _ => false end = true.
Proof. vm_compute. reflexivity. Qed.

(** The answer is optimal: refuted, bounds of binary variables are not exported. *)
Definition ex79b : qp := run (new_qp "") [OAddVar 0 0 BINARY (Some "a"); OAddVar 0 1 BINARY (Some "b"); OObjective MINIMIZE 0 (Some (LDict [(KS "a", qz (-1)); (KS "b", qz 2)])) None].
Theorem C79_optimal_refuted : exists cplex p r x, cplex_exact cplex /\ prog_wf p /\ exprs_small p /\ shapes (num_vars p) p /\ optimal p [0; 0]%Qc /\ cplex_solve cplex p = Ok r /\ r_x r = Some x /\ r_status r = INFEASIBLE_ /\ ~ feasible p x.
Proof.
  assert (prog_wf ex79b) as W by (apply reachable_wf; repeat constructor).
  assert (shapes (num_vars ex79b) ex79b) as Sh by (unfold shapes, lin_shape, quad_shape, lin_wf, quad_wf; vm_compute; repeat constructor; cbn; intuition discriminate).
  assert (exprs_small ex79b) as E by (unfold exprs_small; vm_compute; repeat constructor).
  destruct (cplex_solve search ex79b) as [r|] eqn:C; [|vm_compute in C; discriminate C].
  assert (match cplex_solve search ex79b with Ok r => match r_status r with INFEASIBLE_ => true | _ => false end | _ => false end = true) as V by (vm_compute; reflexivity). rewrite C in V. destruct (r_status r) eqn:St; try discriminate V.
  destruct (cplex_answer search ex79b r W E Sh search_exact C) as (x & R & _ & _ & [[K _]|[_ K]]); [congruence|]. exists search, ex79b, r, x.
  split; [exact search_exact|]. do 3 (split; [assumption|]). split; [|split; [exact C|split; [now rewrite R|auto]]].
  apply optimal_b; [repeat constructor|vm_compute; reflexivity|vm_compute; reflexivity].
Qed.
(** It is if binary variables have the bounds 0 and 1. *)
Theorem C79_optimal_partial : forall cplex p r, prog_wf p -> exprs_small p -> shapes (num_vars p) p -> Forall plain (p_vars p) -> cplex_exact cplex -> cplex_solve cplex p = Ok r ->
  exists x, r_x r = Some x /\ r_fval r = Some (obj_at (p_obj p) x) /\ r_status r = SUCCESS /\ optimal p x.
Proof.
  intros cplex p r W E Sh P X H. destruct (cplex_answer cplex p r W E Sh X H) as (x & R & L & B & S). exists x. rewrite R. cbn [r_x r_fval r_status]. pose proof (loose_plain p x P L) as F.
  split; [reflexivity|]. split; [reflexivity|]. split; [destruct S as [[S _]|[_ S]]; [exact S|contradiction]|]. split; [exact F|]. intros y Fy. apply B. now apply feasible_loose.
Qed.
Example C79_optimal_case : Forall plain (p_vars ex79) /\ ~ Forall plain (p_vars ex79b).
Proof. split; [repeat constructor|]. intro F. inversion F as [|? ? H]; subst. destruct (H eq_refl) as [_ K]. discriminate K. Qed.

(** A problem that has no answer is reported by a QiskitOptimizationError: refuted, twice.  The export raises an exception of docplex for a constraint without coefficients, and [get_values] one of CPLEX after a search without success. *)
Definition ex79v : qp := run (new_qp "") [OAddVar 0 1 BINARY (Some "a"); OLinCon None (SStr ">=") 1%Qc (Some "c")].
Definition ex79n : qp := run (new_qp "") [OAddVar 0 1 BINARY (Some "a"); OAddVar 0 1 BINARY (Some "b"); OLinCon (Some (LDict [(KS "a", 1%Qc); (KS "b", 1%Qc)])) (SStr ">=") (qz 3) (Some "c")].
Theorem C79_infeasible_refuted : exists cplex p q, cplex_exact cplex /\ prog_wf p /\ prog_wf q /\ (forall x, ~ feasible p x) /\ (forall x, ~ feasible q x) /\ cplex_solve cplex p = Err DOcplexException /\ cplex_solve cplex q = Err CplexSolverError.
Proof.
  exists search, ex79v, ex79n. split; [exact search_exact|]. split; [apply reachable_wf; repeat constructor|]. split; [apply reachable_wf; repeat constructor|]. split; [|split].
  - intro x. apply never_infeasible. left. exists (nth 0 (p_lcs ex79v) (mkLC "" (mkLin 0 false []) EQ 0)). split; [left; reflexivity|]. split; [reflexivity|]. intro K. vm_compute in K. now apply K.
  - intros x F. assert (In x (filter (feas_b ex79n) (all_bits 2))) as K; [|vm_compute in K; contradiction]. apply filter_In. split; [|now apply feas_b_spec]. apply all_bits_in. apply (feasible_bits ex79n x); [repeat constructor|exact F].
  - split; vm_compute; reflexivity.
Qed.
(** Every failure is one of three: a false constraint without coefficients, an exception of the solver, or no best point among those that satisfy everything but the bounds of binary variables; the last one ends in an exception of CPLEX. *)
Theorem C79_failures_partial : forall cplex p, prog_wf p -> exprs_small p -> shapes (num_vars p) p -> cplex_exact cplex ->
  (forall e, cplex_solve cplex p = Err e ->
    (e = DOcplexException /\ never p) \/ (e = QiskitOptimizationError /\ exists m, to_docplex p = Ok m /\ cplex m = CRaises) \/
    (e = CplexSolverError /\ ~ exists x, loose p x /\ forall y, loose p y -> at_least (o_sense (p_obj p)) (obj_at (p_obj p) x) (obj_at (p_obj p) y))) /\
  (Forall plain (p_vars p) -> (forall x, ~ feasible p x) -> exists e, cplex_solve cplex p = Err e) /\
  (never p -> forall x, ~ feasible p x).
Proof.
  intros cplex p W E Sh X. split; [|split].
  - intros e H. destruct (cplex_fails cplex p e W E Sh X H) as [K|(_ & m & Em & [[-> K]|(-> & _ & K)])]; [now left|right; left; eauto|right; right; auto].
  - intros P N. destruct (cplex_solve cplex p) as [r|e] eqn:C; [|eauto]. destruct (cplex_answer cplex p r W E Sh X C) as (x & _ & L & _). destruct (N x). now apply loose_plain.
  - intros H x. now apply never_infeasible.
Qed.
Example C79_failures_case : cplex_solve (fun _ => CRaises) ex79n = Err QiskitOptimizationError /\ cplex_solve search ex79n = Err CplexSolverError /\ never ex79v /\ ~ never ex79n.
Proof.
  split; [vm_compute; reflexivity|]. split; [vm_compute; reflexivity|]. split.
  - left. exists (nth 0 (p_lcs ex79v) (mkLC "" (mkLin 0 false []) EQ 0)). split; [left; reflexivity|]. split; [reflexivity|]. intro K. vm_compute in K. now apply K.
  - intros [(c & [<-|[]] & K & _)|(c & [] & _)]. discriminate K.
Qed.

Print Assumptions C79_export.
Print Assumptions C79_answer.
Print Assumptions C79_optimal_refuted.
Print Assumptions C79_optimal_partial.
Print Assumptions C79_infeasible_refuted.
Print Assumptions C79_failures_partial.
