(** * C78: the point that ADMM reports *)
From Verif Require Import AdmmFacts8 ConvMore P_Admm.
Local Open Scope string_scope.
Local Open Scope list_scope.
Local Open Scope nat_scope.

(** The reported point gives binary variables the values 0 and 1: refuted.  No objective or equality has the binary variable, step 1 is left out, and the values of the
    warm start, from the program with all variables continuous, are reported as a success.  Both optimizers give optimal points only. *)
Definition ex78 : qp := run (new_qp "") [OAddVar 0 1 BINARY (Some "b"); OObjective MINIMIZE (qz 3) None None; OLinCon (Some (LDict [(KS "b", 1%Qc)])) (SStr ">=") (1 / qz 2)%Qc (Some "c")].
Definition pars78 (warm : bool) : admm_params := mkAP 1 1 1 10 (1 / qz 10000)%Qc true 0 (qz 2) (qz 2) (qz 10) (qz 1000) warm.
Theorem C78_types_refuted : exists qubo cont norm late pr p r d s y, exact_solver qubo /\ exact_solver cont /\ (forall v, norm v = sumof qabs v) /\ prog_wf p /\ int_bounds p /\ optimal p [1%Qc] /\
  admm_solve qubo cont norm late pr p = Ok (r, (d, s)) /\ r_x r = Some y /\ r_status r = SUCCESS /\ ~ typed p y.
Proof.
  destruct (admm_solve solve2 solve2 norm1 (fun _ => false) (pars78 true) ex78) as [[r [d s]]|] eqn:E; [|vm_compute in E; discriminate E].
  assert (match admm_solve solve2 solve2 norm1 (fun _ => false) (pars78 true) ex78 with Ok (r, _) => match r_x r, r_status r with Some [a], SUCCESS => qeqb a (1 / qz 2)%Qc | _, _ => false end | _ => false end = true) as V by (vm_compute; reflexivity).
  rewrite E in V. destruct (r_x r) as [[|a [|]]|] eqn:R; try discriminate V. destruct (r_status r) eqn:St; try discriminate V. apply qeqb_iff in V. subst a.
  exists solve2, solve2, norm1, (fun _ => false), (pars78 true), ex78, r, d, s, [(1 / qz 2)%Qc]. split; [exact solve2_exact|]. split; [exact solve2_exact|]. split; [reflexivity|]. split; [apply reachable_wf; repeat constructor|].
  split; [unfold int_bounds; repeat constructor; discriminate|]. split.
  { split; [apply feas_b_spec; vm_compute; reflexivity|]. intros y (B & _). unfold in_bounds in B. change (p_vars ex78) with [mkVar "b" 0 1 BINARY] in B. inversion B as [|? b ? l B1 B2]; subst. inversion B2; subst. rewrite !one_obj. change (o_sense (p_obj ex78)) with MINIMIZE. cbn [at_least].
    change (coef1 (o_lin (p_obj ex78)) 0) with 0%Qc. change (coef2 (o_quad (p_obj ex78)) 0 0) with 0%Qc. qlra. }
  split; [exact E|]. split; [exact R|]. split; [exact St|]. intro T. unfold typed in T. inversion T as [|? ? ? ? T1]; subst. destruct T1 as [K|K]; discriminate K.
Qed.
(** It does so without a warm start or if step 1 has a variable; integer variables then have integral values within their bounds. *)
Theorem C78_types_partial : forall qubo cont norm late pr p r d s, prog_wf p -> int_bounds p -> (forall k q x, qubo k q = Ok x -> typed q x) -> ap_warm pr = false \/ a_abs d <> [] ->
  admm_solve qubo cont norm late pr p = Ok (r, (d, s)) -> exists y, r_x r = Some y /\ typed p y /\ (forall i v, nth_error (p_vars p) i = Some v -> v_type v = INTEGER -> in_range v (at_ y i)).
Proof.
  intros qubo cont norm late pr p r d s W IB Hq Wm H. destruct (reported_typed _ _ _ _ _ _ _ _ _ W IB Hq Wm H) as (y & R & F). apply Forall2_at in F. destruct F as [L F]. exists y. split; [exact R|].
  split; [apply Forall2_at; split; [exact L|]; intros i v Hv; now apply F|]. intros i v Hv. now apply (F i v Hv).
Qed.
Definition ex78i : qp := run (new_qp "") [OAddVar 0 1 BINARY (Some "b"); OAddVar (qz 2) (qz 5) INTEGER (Some "n"); OAddVar 0 (qz 4) CONTINUOUS (Some "u"); OObjective MAXIMIZE 0 (Some (LDict [(KS "b", 1%Qc); (KS "n", qz 2)])) None].
Example C78_types_case : forallb (fun warm => match admm_solve ones third norm1 (fun _ => false) (pars78 warm) ex78i with Ok (r, (d, _)) => match r_x r with Some y => qs_eqb y [1; qz 5; 1 / qz 3]%Qc | None => false end && Nat.eqb (length (a_abs d)) 3 | _ => false end) [false; true] = true.
Proof. vm_compute. reflexivity. Qed.
(** Continuous variables are within their bounds if the second optimizer respects bounds, with and without a warm start. *)
Theorem C78_ranges : forall qubo cont norm late pr p r d s, prog_wf p -> (forall k q x, cont k q = Ok x -> in_bounds q x) ->
  admm_solve qubo cont norm late pr p = Ok (r, (d, s)) -> exists y, r_x r = Some y /\ (forall i v, nth_error (p_vars p) i = Some v -> v_type v = CONTINUOUS -> in_range v (at_ y i)).
Proof.
  intros qubo cont norm late pr p r d s W Hc H. destruct (reported_ranged _ _ _ _ _ _ _ _ _ W Hc H) as (y & R & F). apply Forall2_at in F. destruct F as [L F]. exists y. split; [exact R|]. intros i v Hv T. now apply F.
Qed.
Definition ex78c : qp := run (new_qp "") [OAddVar 0 1 BINARY (Some "b"); OAddVar (qz (-3)) (qz 4) CONTINUOUS (Some "u"); OObjective MINIMIZE 0 (Some (LDict [(KS "b", 1%Qc); (KS "u", 1%Qc)])) None].
Example C78_ranges_case : (forall k q x, low k q = Ok x -> in_bounds q x) /\ match admm_solve ones low norm1 (fun _ => false) (pars78 false) ex78c with Ok (r, _) => match r_x r with Some y => qs_eqb y [0; qz (-3)]%Qc | None => false end | _ => false end = true.
Proof. split; [exact low_bounds|]. vm_compute. reflexivity. Qed.

Print Assumptions C78_types_refuted.
Print Assumptions C78_types_partial.
Print Assumptions C78_ranges.
