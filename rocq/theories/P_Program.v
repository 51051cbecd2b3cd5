(** * C01-C06, C11: the container *)
From Verif Require Import ProgramProps GhostFacts.
Local Open Scope string_scope.
Local Open Scope list_scope.
Local Open Scope nat_scope.

(** ** C01 *)
Theorem C01_lookup : forall name ops,
  let p := run (new_qp name) ops in
  NoDup (map v_name (p_vars p)) /\
  (forall i v, nth_error (p_vars p) i = Some v ->
     get_variable p (KS (v_name v)) = Ok v /\ get_variable p (KI (Z.of_nat i)) = Ok v /\
     dget String.eqb (v_name v) (p_vidx p) = Some i) /\
  NoDup (map lc_name (p_lcs p)) /\
  (forall i c, nth_error (p_lcs p) i = Some c ->
     get_linear_constraint p (KS (lc_name c)) = Ok c /\ get_linear_constraint p (KI (Z.of_nat i)) = Ok c /\
     dget String.eqb (lc_name c) (p_lidx p) = Some i) /\
  NoDup (map qc_name (p_qcs p)) /\
  (forall i c, nth_error (p_qcs p) i = Some c ->
     get_quadratic_constraint p (KS (qc_name c)) = Ok c /\ get_quadratic_constraint p (KI (Z.of_nat i)) = Ok c /\
     dget String.eqb (qc_name c) (p_qidx p) = Some i).
Proof. exact all_lookups. Qed.

(** A history with raising calls (clash of names, unknown variable, crossing bounds), a removal and a reuse of the name. *)
Definition c01_ops : list op :=
  [OAddVars (KCount 3) 0 1 BINARY (Some "x") "{}"; OAddVar 0 1 BINARY (Some "x1"); OAddVar (qz 5) (qz 2) INTEGER (Some "bad");
   OAddVar 0 (qz 7) INTEGER (Some "n"); OLinCon (Some (LDict [(KS "x0", 1%Qc); (KS "n", qz 3)])) (SStr "<=") (qz 4) None;
   OLinCon (Some (LDict [(KS "zzz", 1%Qc)])) (SStr "<=") 1 (Some "ghost");
   OQuadCon None (Some (QDict [((KS "x0", KS "x1"), 1%Qc)])) (SStr "==") 0 (Some "q");
   OLinCon (Some (LDict [(KI 1, qz 2)])) (SStr "GE") 1 (Some "second"); ORemLin (KS "c0");
   OLinCon None (SStr "=") 0 (Some "c0")].
Example C01_case :
  let p := run (new_qp "m") c01_ops in
  map v_name (p_vars p) = ["x0"; "x1"; "x2"; "n"] /\ map lc_name (p_lcs p) = ["second"; "c0"] /\
  is_ok (get_linear_constraint p (KS "c0")) = true.
Proof. vm_compute. auto. Qed.
(** Positions count from the end if they are negative; others raise IndexError. *)
Theorem C01_positions : forall p z,
  (forall i v, nth_error (p_vars p) i = Some v -> (z = Z.of_nat i \/ z = Z.of_nat i - Z.of_nat (length (p_vars p)))%Z -> get_variable p (KI z) = Ok v) /\
  ((z < - Z.of_nat (length (p_vars p)) \/ Z.of_nat (length (p_vars p)) <= z)%Z -> get_variable p (KI z) = Err IndexError) /\
  (forall i c, nth_error (p_lcs p) i = Some c -> (z = Z.of_nat i \/ z = Z.of_nat i - Z.of_nat (length (p_lcs p)))%Z -> get_linear_constraint p (KI z) = Ok c) /\
  ((z < - Z.of_nat (length (p_lcs p)) \/ Z.of_nat (length (p_lcs p)) <= z)%Z -> get_linear_constraint p (KI z) = Err IndexError) /\
  (forall i c, nth_error (p_qcs p) i = Some c -> (z = Z.of_nat i \/ z = Z.of_nat i - Z.of_nat (length (p_qcs p)))%Z -> get_quadratic_constraint p (KI z) = Ok c) /\
  ((z < - Z.of_nat (length (p_qcs p)) \/ Z.of_nat (length (p_qcs p)) <= z)%Z -> get_quadratic_constraint p (KI z) = Err IndexError).
Proof. intros p z. repeat match goal with |- _ /\ _ => split end; intros; try (apply py_nth_out; assumption); eapply py_nth_in; eauto. Qed.
Example C01_positions_case : let p := run (new_qp "m") c01_ops in
  match get_variable p (KI (-1)), get_linear_constraint p (KI (-2)) with Ok v, Ok c => String.eqb (v_name v) "n" && String.eqb (lc_name c) "second" | _, _ => false end = true /\ get_variable p (KI 4) = Err IndexError /\ get_variable p (KI (-5)) = Err IndexError.
Proof. vm_compute. auto. Qed.
Print Assumptions C01_lookup.
Print Assumptions C01_positions.

(** ** C02 *)
(** Refuted in general: after a call that raised, its name is still in the index and finds another variable. *)
Theorem C02_no_ghost_names_refuted : exists ops s,
  let p := run (new_qp "") ops in
  ~ In s (map v_name (p_vars p)) /\
  (exists v, get_variable p (KS s) = Ok v) /\
  snd (add_variable p 0 1 BINARY (Some s)) = Err QiskitOptimizationError.
Proof.
  exists [OAddVar (qz 2) 1 INTEGER (Some "g"); OAddVar 0 1 BINARY (Some "b")], "g".
  split; [|split]; [vm_compute; intros [H|[]]; discriminate|eexists; vm_compute; reflexivity|vm_compute; reflexivity].
Qed.
(** The same for constraints. *)
Theorem C02_no_ghost_constraint_names_refuted : exists ops s,
  let p := run (new_qp "") ops in
  ~ In s (map lc_name (p_lcs p)) /\ (exists c, get_linear_constraint p (KS s) = Ok c) /\
  snd (linear_constraint p None (SVal LE) 0 (Some s)) = Err QiskitOptimizationError.
Proof.
  exists [OLinCon None (SStr "?") 0 (Some "g"); OLinCon None (SStr "<=") 0 (Some "d")], "g".
  split; [|split]; [vm_compute; intros [H|[]]; discriminate|eexists; vm_compute; reflexivity|vm_compute; reflexivity].
Qed.
(** What holds: without raising calls there are no ghosts.  Missing from the full property: histories with raising calls. *)
Theorem C02_no_ghost_names_partial : forall name ops p s,
  run_ok (new_qp name) ops = Ok p ->
  (~ In s (map v_name (p_vars p)) ->
     get_variable p (KS s) = Err KeyError /\
     forall lb ub ty, (lb <= ub)%Qc -> exists q, add_variable p lb ub ty (Some s) = (q, Ok [s]) /\ p_vars q = p_vars p ++ [mkVar s lb ub ty]) /\
  (~ In s (map lc_name (p_lcs p)) -> get_linear_constraint p (KS s) = Err KeyError /\ ~ In s (map fst (p_lidx p))) /\
  (~ In s (map qc_name (p_qcs p)) -> get_quadratic_constraint p (KS s) = Err KeyError /\ ~ In s (map fst (p_qidx p))).
Proof. exact no_ghosts. Qed.
Example C02_case : exists p,
  run_ok (new_qp "m") [OAddVars (KCount 2) 0 1 BINARY None "{}"; OLinCon (Some (LList true [1%Qc; 1%Qc])) (SStr "<=") 1 (Some "a"); ORemLin (KI 0)] = Ok p
  /\ ~ In "a" (map lc_name (p_lcs p)) /\ map v_name (p_vars p) = ["x0"; "x1"].
Proof. eexists. split; [vm_compute; reflexivity|]. split; [simpl; tauto|reflexivity]. Qed.
(** What happens in all histories: a call that returns leaves the ghosts as they were, except that clear() and the removal of a constraint
    drop those of their kind; a call that raises leaves one new ghost at most. *)
Theorem C02_ghosts : forall name ops o q r, let p := run (new_qp name) ops in step p o = (q, r) ->
  (forall e, r = Err e -> (forall k s, ghost k p s -> ghost k q s) /\ exists g, forall k s, ghost k q s -> ghost k p s \/ s = g) /\
  (r = Ok tt -> forall k s, (renews k o -> ~ ghost k q s) /\ (~ renews k o -> (ghost k q s <-> ghost k p s))).
Proof. intros name ops o q r p E. apply step_haunt; [apply run_inv, idx_exact_inv, idx_exact_new|exact E]. Qed.
(** A ghost is never found as itself and its name cannot be given again; every other name nobody has is free. *)
Theorem C02_names : forall name ops s, let p := run (new_qp name) ops in
  (ghost KVars p s -> (get_variable p (KS s) = Err IndexError \/ exists v, get_variable p (KS s) = Ok v /\ In v (p_vars p) /\ v_name v <> s) /\
     forall lb ub ty, add_variable p lb ub ty (Some s) = (p, Err QiskitOptimizationError)) /\
  (ghost KLins p s -> (get_linear_constraint p (KS s) = Err IndexError \/ exists c, get_linear_constraint p (KS s) = Ok c /\ In c (p_lcs p) /\ lc_name c <> s) /\
     (s <> "" -> forall lin sn rhs, linear_constraint p lin sn rhs (Some s) = (p, Err QiskitOptimizationError))) /\
  (ghost KQuads p s -> (get_quadratic_constraint p (KS s) = Err IndexError \/ exists c, get_quadratic_constraint p (KS s) = Ok c /\ In c (p_qcs p) /\ qc_name c <> s) /\
     (s <> "" -> forall lin quad sn rhs, quadratic_constraint p lin quad sn rhs (Some s) = (p, Err QiskitOptimizationError))) /\
  (~ In s (map v_name (p_vars p)) -> ~ ghost KVars p s -> get_variable p (KS s) = Err KeyError /\
     forall lb ub ty, (lb <= ub)%Qc -> exists q, add_variable p lb ub ty (Some s) = (q, Ok [s]) /\ p_vars q = p_vars p ++ [mkVar s lb ub ty]).
Proof.
  intros name ops s p. split; [|split; [|split]].
  - intros [A B]. split; [exact (ghost_lookup v_name _ _ s A B)|]. intros. now apply var_name_taken.
  - intros [A B]. split; [exact (ghost_lookup lc_name _ _ s A B)|]. intros N lin sn rhs. unfold linear_constraint. now rewrite ghost_name_taken.
  - intros [A B]. split; [exact (ghost_lookup qc_name _ _ s A B)|]. intros N lin quad sn rhs. unfold quadratic_constraint. now rewrite ghost_name_taken.
  - intros B G. assert (~ In s (map fst (p_vidx p))) as N by (intro A; apply G; now split). split.
    + unfold get_variable, lookup. now rewrite (proj2 (dget_none _ str_eqb_sp _ _) N).
    + intros. now apply add_variable_named.
Qed.
(** Which calls leave one: a variable with crossed bounds, a constraint that could not be made. *)
Theorem C02_created : forall p s,
  (~ In s (map v_name (p_vars p)) -> forall lb ub ty, ghost KVars (fst (add_variable p lb ub ty (Some s))) s <-> ghost KVars p s \/ (ub < lb)%Qc) /\
  (~ In s (map lc_name (p_lcs p)) -> s <> "" -> forall lin sn rhs,
     ghost KLins (fst (linear_constraint p lin sn rhs (Some s))) s <-> exists e, snd (linear_constraint p lin sn rhs (Some s)) = Err e) /\
  (~ In s (map qc_name (p_qcs p)) -> s <> "" -> forall lin quad sn rhs,
     ghost KQuads (fst (quadratic_constraint p lin quad sn rhs (Some s))) s <-> exists e, snd (quadratic_constraint p lin quad sn rhs (Some s)) = Err e).
Proof.
  intros p s. split; [|split].
  - intros N lb ub ty. now apply var_haunts.
  - intros N Z lin sn rhs. now apply lin_haunts.
  - intros N Z lin quad sn rhs. now apply quad_haunts.
Qed.
Example C02_ghosts_case : let p := run (new_qp "") [OAddVar (qz 2) 1 INTEGER (Some "g"); OAddVar 0 1 BINARY (Some "b"); OLinCon None (SStr "?") 0 (Some "h"); OLinCon None (SStr "<=") 0 (Some "d")] in
  let q := run p [ORemLin (KS "d")] in
  ghost KVars p "g" /\ ghost KLins p "h" /\ ghost KVars q "g" /\ ~ ghost KLins q "h" /\ ~ ghost KVars (run q [OClear]) "g" /\
  match get_variable p (KS "g") with Ok v => v_name v = "b" | Err _ => False end.
Proof.
  intros p q. split; [|split; [|split; [|split; [|split]]]]; try (split; vm_compute; [tauto|intros H; repeat destruct H as [H|H]; try discriminate H; exact H]); try (intros [H _]; vm_compute in H; tauto).
  vm_compute. reflexivity.
Qed.
Print Assumptions C02_ghosts.
Print Assumptions C02_names.
Print Assumptions C02_created.
Print Assumptions C02_no_ghost_names_refuted.
Print Assumptions C02_no_ghost_constraint_names_refuted.
Print Assumptions C02_no_ghost_names_partial.

(** ** C03 *)
(** Numbered variables: [S n] variables with format pre{}post get the first free counters from the number of variables on. *)
Theorem C03_numbered_variables : forall p n lb ub ty name pre post,
  no_brace pre = true -> no_brace post = true -> (lb <= ub)%Qc ->
  exists q ms, add_variables p (KCount (Z.of_nat (S n))) lb ub ty (Some name) (pre ++ "{}" ++ post)%string
                 = (q, Ok (map (slot_name name pre post) ms)) /\
    p_vars q = p_vars p ++ map (fun m => mkVar (slot_name name pre post m) lb ub ty) ms /\ length ms = S n /\
    p_lcs q = p_lcs p /\ p_qcs q = p_qcs p /\ p_obj q = p_obj p /\
    first_free (map fst (p_vidx p)) (slot_name name pre post) (num_vars p) ms.
Proof. exact add_variables_numbered. Qed.
(** One unnamed variable. *)
Theorem C03_unnamed_variable : forall p lb ub ty, (lb <= ub)%Qc ->
  exists q m, add_variable p lb ub ty None = (q, Ok [("x" ++ str_nat m)%string]) /\
    p_vars q = p_vars p ++ [mkVar ("x" ++ str_nat m)%string lb ub ty] /\ num_vars p <= m /\
    ~ In ("x" ++ str_nat m)%string (map fst (p_vidx p)) /\
    forall j, num_vars p <= j < m -> In ("x" ++ str_nat j)%string (map fst (p_vidx p)).
Proof. exact add_variable_unnamed. Qed.
(** Unnamed constraints. *)
Theorem C03_unnamed_linear_constraint : forall p lin s rhs,
  exists m, length (p_lcs p) <= m /\ ~ In ("c" ++ str_nat m)%string (map fst (p_lidx p)) /\
    (forall j, length (p_lcs p) <= j < m -> In ("c" ++ str_nat j)%string (map fst (p_lidx p))) /\
    forall c le, sense_convert s = Ok c -> lin_make (env_of p) (lcoef_or_empty lin) = Ok le ->
    exists q, linear_constraint p lin s rhs None = (q, Ok tt) /\
      p_lcs q = p_lcs p ++ [mkLC ("c" ++ str_nat m)%string le c rhs] /\
      p_vars q = p_vars p /\ p_qcs q = p_qcs p /\ p_obj q = p_obj p.
Proof. exact linear_constraint_unnamed. Qed.
Theorem C03_unnamed_quadratic_constraint : forall p lin quad s rhs,
  exists m, length (p_qcs p) <= m /\ ~ In ("q" ++ str_nat m)%string (map fst (p_qidx p)) /\
    (forall j, length (p_qcs p) <= j < m -> In ("q" ++ str_nat j)%string (map fst (p_qidx p))) /\
    forall c le qe, sense_convert s = Ok c -> lin_make (env_of p) (lcoef_or_empty lin) = Ok le ->
    quad_make (env_of p) (qcoef_or_empty quad) = Ok qe ->
    exists q, quadratic_constraint p lin quad s rhs None = (q, Ok tt) /\
      p_qcs q = p_qcs p ++ [mkQC ("q" ++ str_nat m)%string le qe c rhs] /\
      p_vars q = p_vars p /\ p_lcs q = p_lcs p /\ p_obj q = p_obj p.
Proof. exact quadratic_constraint_unnamed. Qed.
(** Names x2, x3, x5 are taken: three new ones are x4, x6, x7 (counting starts at 3 variables). *)
Example C03_case :
  let p := run (new_qp "") [OAddVars (KSeq ["2"; "3"; "5"]) 0 1 BINARY (Some "x") "{}"] in
  map v_name (p_vars (fst (add_variables p (KCount 3) 0 1 BINARY (Some "x") ("" ++ "{}" ++ "")%string)))
  = ["x2"; "x3"; "x5"; "x4"; "x6"; "x7"] /\ no_brace "" = true.
Proof. vm_compute. auto. Qed.
Print Assumptions C03_numbered_variables.
Print Assumptions C03_unnamed_variable.
Print Assumptions C03_unnamed_linear_constraint.
Print Assumptions C03_unnamed_quadratic_constraint.

(** ** C04 *)
Theorem C04_bounds : forall name ops v,
  In v (p_vars (run (new_qp name) ops)) -> (v_lb v <= v_ub v)%Qc.
Proof. exact bounds_never_cross. Qed.
Example C04_case :
  let p := run (new_qp "") [OAddVar 0 (qz 5) INTEGER (Some "n"); OSetLb (KS "n") (qz 9); OSetUb (KS "n") (qz 2); OSetLb (KI 0) (qz 2); OSetUb (KI 0) 1] in
  p_vars p = [mkVar "n" (qz 2) (qz 2) INTEGER].
Proof. vm_compute. reflexivity. Qed.
Print Assumptions C04_bounds.

(** ** C05 *)
(** Refuted: adding several variables is not all or nothing. *)
Theorem C05_raising_call_refuted : exists p o q e, step p o = (q, Err e) /\ ~ same_content p q.
Proof.
  exists (new_qp ""), (OAddVars (KSeq ["a"; "a"]) 0 1 BINARY (Some "x") "{}").
  do 2 eexists. split; [vm_compute; reflexivity|]. intros (H & _). vm_compute in H. discriminate.
Qed.
(** Every other call that raises leaves variables, constraints and objective alone.
    Missing: calls that add several variables, for which only the next theorem holds. *)
Theorem C05_raising_call_partial : forall p o q e,
  (forall keys lb ub ty name fmt, o <> OAddVars keys lb ub ty name fmt) ->
  step p o = (q, Err e) -> same_content p q.
Proof. exact step_err_same. Qed.
Theorem C05_adding_many_partial : forall p keys lb ub ty name fmt,
  exists l, p_vars (fst (step p (OAddVars keys lb ub ty name fmt))) = p_vars p ++ l /\
  p_lcs (fst (step p (OAddVars keys lb ub ty name fmt))) = p_lcs p /\
  p_qcs (fst (step p (OAddVars keys lb ub ty name fmt))) = p_qcs p /\
  p_obj (fst (step p (OAddVars keys lb ub ty name fmt))) = p_obj p.
Proof. exact step_add_many. Qed.
Example C05_case :
  let p := run (new_qp "m") c01_ops in
  exists q, step p (OLinCon (Some (LDict [(KS "nope", 1%Qc)])) (SStr "<=") 1 None) = (q, Err KeyError) /\ same_content p q /\ num_vars q = 4.
Proof. eexists. split; [vm_compute; reflexivity|]. split; [repeat split|]; vm_compute; reflexivity. Qed.
Print Assumptions C05_raising_call_refuted.
Print Assumptions C05_raising_call_partial.
Print Assumptions C05_adding_many_partial.

(** ** C06 *)
Theorem C06_remove_linear : forall name ops k c,
  let p := run (new_qp name) ops in
  get_linear_constraint p k = Ok c ->
  exists q l1 l2, remove_linear_constraint p k = (q, Ok tt) /\
    p_lcs p = l1 ++ c :: l2 /\ p_lcs q = l1 ++ l2 /\
    p_vars q = p_vars p /\ p_vidx q = p_vidx p /\ p_qcs q = p_qcs p /\ p_qidx q = p_qidx p /\ p_obj q = p_obj p /\
    get_linear_constraint q (KS (lc_name c)) = Err KeyError /\ ~ In (lc_name c) (map fst (p_lidx q)) /\
    forall c', In c' (l1 ++ l2) -> get_linear_constraint q (KS (lc_name c')) = Ok c'.
Proof. exact remove_linear_reachable. Qed.
Theorem C06_remove_quadratic : forall name ops k c,
  let p := run (new_qp name) ops in
  get_quadratic_constraint p k = Ok c ->
  exists q l1 l2, remove_quadratic_constraint p k = (q, Ok tt) /\
    p_qcs p = l1 ++ c :: l2 /\ p_qcs q = l1 ++ l2 /\
    p_vars q = p_vars p /\ p_vidx q = p_vidx p /\ p_lcs q = p_lcs p /\ p_lidx q = p_lidx p /\ p_obj q = p_obj p /\
    get_quadratic_constraint q (KS (qc_name c)) = Err KeyError /\ ~ In (qc_name c) (map fst (p_qidx q)) /\
    forall c', In c' (l1 ++ l2) -> get_quadratic_constraint q (KS (qc_name c')) = Ok c'.
Proof. exact remove_quadratic_reachable. Qed.
(** A removal that does not apply changes nothing and raises. *)
Theorem C06_remove_unknown : forall p k e,
  (get_linear_constraint p k = Err e -> exists e', remove_linear_constraint p k = (p, Err e')) /\
  (get_quadratic_constraint p k = Err e -> exists e', remove_quadratic_constraint p k = (p, Err e')).
Proof. exact remove_unknown. Qed.
Example C06_case :
  let p := run (new_qp "m") c01_ops in
  exists c, get_linear_constraint p (KI (-2)) = Ok c /\ lc_name c = "second" /\ is_ok (get_quadratic_constraint p (KS "q")) = true.
Proof. eexists. split; [vm_compute; reflexivity|]. vm_compute. auto. Qed.
Print Assumptions C06_remove_linear.
Print Assumptions C06_remove_quadratic.
Print Assumptions C06_remove_unknown.

(** ** C11 *)
(** Refuted: a variable added after the objective was set (or never setting it) makes it unevaluable. *)
Theorem C11_evaluable_refuted : exists ops x,
  let p := run (new_qp "") ops in
  length x = num_vars p /\ eval_obj p x = Err ValueError.
Proof. exists [OAddVar 0 1 BINARY None], [1%Qc]. vm_compute. auto. Qed.
(** What holds: all variables first, then the objective, then anything that adds no variable, with
    lists and matrices of the right size.  Missing: other orders of calls, and lists of a wrong length,
    which the library accepts. *)
Theorem C11_evaluable_partial : forall name ops1 s c lin quad q ops2 x,
  let p1 := run (new_qp name) ops1 in
  Forall is_var_op ops1 ->
  lincoef_sized (num_vars p1) (lcoef_or_empty lin) -> quadcoef_sized (num_vars p1) (qcoef_or_empty quad) ->
  step p1 (OObjective s c lin quad) = (q, Ok tt) -> Forall (op_sized (num_vars p1)) ops2 ->
  let p := run q ops2 in length x = num_vars p ->
  eval_obj p x = Ok (obj_at (p_obj p) x) /\
  Forall (fun c => eval_lincon p c x = Ok (lc_at c x)) (p_lcs p) /\
  Forall (fun c => eval_quadcon p c x = Ok (qc_at c x)) (p_qcs p).
Proof. exact build_order. Qed.
Example C11_case :
  let p1 := run (new_qp "") [OAddVars (KCount 2) 0 (qz 3) INTEGER None "{}"] in
  let q := step p1 (OObjective MAXIMIZE 1 (Some (LDict [(KS "x1", qz 2)])) (Some (QList true [[1%Qc; qz 2]; [qz 3; 0%Qc]]))) in
  is_ok (snd q) = true /\
  res_is (eval_obj (run (fst q) [OLinCon (Some (LList true [1%Qc; 1%Qc])) (SStr "<=") (qz 3) None; OObjLinItem (KI 0) (qz 7)]) [1%Qc; qz 2])
         (qz (1 + 7 + 4 + 1 + 10)) = true.
Proof. vm_compute. auto. Qed.
(** In every program the sizes alone decide: a point is evaluated, exactly, if it is as long as the linear and the quadratic part,
    and all other points give ValueError. *)
Theorem C11_sizes : forall p x, exprs_wf p ->
  (length x = le_dim (o_lin (p_obj p)) /\ length x = qe_dim (o_quad (p_obj p)) -> eval_obj p x = Ok (obj_at (p_obj p) x)) /\
  (~ (length x = le_dim (o_lin (p_obj p)) /\ length x = qe_dim (o_quad (p_obj p))) -> eval_obj p x = Err ValueError) /\
  (forall c, In c (p_lcs p) ->
     (length x = le_dim (lc_lin c) -> eval_lincon p c x = Ok (lc_at c x)) /\ (length x <> le_dim (lc_lin c) -> eval_lincon p c x = Err ValueError)) /\
  (forall c, In c (p_qcs p) ->
     (length x = le_dim (qc_lin c) /\ length x = qe_dim (qc_quad c) -> eval_quadcon p c x = Ok (qc_at c x)) /\
     (~ (length x = le_dim (qc_lin c) /\ length x = qe_dim (qc_quad c)) -> eval_quadcon p c x = Err ValueError)).
Proof.
  intros p x (W1 & W2 & W3 & W4). rewrite eval_obj_exact by assumption. rewrite Forall_forall in W3, W4. split; [|split; [|split]].
  - intros [A B]. now rewrite <- A, <- B, Nat.eqb_refl.
  - intro N. destruct (Nat.eqb_spec (length x) (le_dim (o_lin (p_obj p)))); [|reflexivity].
    destruct (Nat.eqb_spec (length x) (qe_dim (o_quad (p_obj p)))); [|reflexivity]. exfalso. auto.
  - intros c Hc. rewrite eval_lincon_exact by auto. destruct (Nat.eqb_spec (length x) (le_dim (lc_lin c))); split; intro; congruence.
  - intros c Hc. destruct (W4 c Hc). rewrite eval_quadcon_exact by assumption.
    destruct (Nat.eqb_spec (length x) (le_dim (qc_lin c))), (Nat.eqb_spec (length x) (qe_dim (qc_quad c))); simpl; split; intro H1; try reflexivity; tauto.
Qed.
(** After the objective was set, and until its coefficients are replaced, it accepts the points of the program as it was then: at the
    points of the program as it is now, it can be evaluated iff the number of variables is still the same. *)
Theorem C11_later_variables : forall name ops1 s c lin quad q ops2 x,
  let p1 := run (new_qp name) ops1 in
  lincoef_sized (num_vars p1) (lcoef_or_empty lin) -> quadcoef_sized (num_vars p1) (qcoef_or_empty quad) ->
  step p1 (OObjective s c lin quad) = (q, Ok tt) -> Forall keeps_objective ops2 ->
  let p := run q ops2 in length x = num_vars p ->
  (num_vars p = num_vars p1 -> eval_obj p x = Ok (obj_at (p_obj p) x)) /\ (num_vars p <> num_vars p1 -> eval_obj p x = Err ValueError).
Proof.
  intros name ops1 s c lin quad q ops2 x p1 S1 S2 E K p L. unfold p. rewrite (later_variables p1 s c lin quad q ops2 x S1 S2 E K).
  fold p. rewrite L. destruct (Nat.eqb_spec (num_vars p) (num_vars p1)); split; intro; congruence.
Qed.
Example C11_later_case :
  let p1 := run (new_qp "") [OAddVars (KCount 2) 0 (qz 3) INTEGER None "{}"] in
  let q := step p1 (OObjective MAXIMIZE 1 (Some (LDict [(KS "x1", qz 2)])) None) in
  let p := run (fst q) [OObjLinItem (KI 0) (qz 7); OAddVar 0 1 BINARY (Some "b"); OLinCon (Some (LDict [(KS "b", 1%Qc)])) (SStr "<=") 1 None] in
  is_ok (snd q) = true /\ eval_obj p [1%Qc; qz 2; 1%Qc] = Err ValueError /\ res_is (eval_obj p [1%Qc; qz 2]) (qz (1 + 7 + 4)) = true /\
  match p_lcs p with c :: _ => res_is (eval_lincon p c [1%Qc; qz 2; 1%Qc]) 1 = true | [] => False end.
Proof. vm_compute. auto. Qed.
Print Assumptions C11_evaluable_refuted.
Print Assumptions C11_sizes.
Print Assumptions C11_later_variables.
Print Assumptions C11_evaluable_partial.
