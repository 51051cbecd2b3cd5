(** * C22 to C27: slack variables and integer encodings *)
From Verif Require ConvTotal.
From Verif Require IneqExact.
From Verif Require Import ConvMore LostFacts.
Local Open Scope string_scope.
Local Open Scope list_scope.
Local Open Scope nat_scope.

(** ** C22 *)
Theorem C22_encoding_exact : forall name lb ub, (lb < ub)%Z -> exists bits, convert_var name (qz lb) (qz ub) = Ok bits /\
  (forall bs, length bs = length bits -> Forall bit bs ->
     let a := (enc_sum bs (map snd bits) + qz lb)%Qc in integral a /\ (qz lb <= a)%Qc /\ (a <= qz ub)%Qc) /\
  (forall a, integral a -> (qz lb <= a)%Qc -> (a <= qz ub)%Qc ->
     exists bs, length bs = length bits /\ Forall bit bs /\ (enc_sum bs (map snd bits) + qz lb)%Qc = a) /\
  Forall integral (map snd bits).
Proof. exact convert_var_exact. Qed.
Example C22_case : match convert_var "x" (qz (-3)) (qz 7) with
  | Ok bits => map fst bits = ["x@0"; "x@1"; "x@2"; "x@3"] /\ co_eqb (combine [0; 1; 2; 3] (map snd bits)) [(0, qz 1); (1, qz 2); (2, qz 4); (3, qz 3)] = true
  | Err _ => False end.
Proof. vm_compute. auto. Qed.
Print Assumptions C22_encoding_exact.

(** ** C23 *)
(** Refuted: fixed integer variables raise, and fractional bounds decode to values that are no integers. *)
Theorem C23_accepts_refuted :
  (exists p, prog_wf p /\ int_to_bin p = Err OverflowError) /\
  (exists p q tbl y x, prog_wf p /\ int_to_bin p = Ok (q, tbl) /\ in_bounds q y /\ typed q y /\
     i2b_interpret p (conv_of tbl) q y = Ok x /\ ~ typed p x).
Proof.
  split.
  - exists (run (new_qp "") [OAddVar (qz 2) (qz 2) INTEGER None]). split; [apply reachable_wf; repeat constructor|]. vm_compute. reflexivity.
  - set (p := run (new_qp "") [OAddVar (1 / qz 2) (qz 2) INTEGER None]).
    assert (match int_to_bin p with
      | Ok (q, tbl) => fits_b (p_vars q) [0%Qc] && res_qs (i2b_interpret p (conv_of tbl) q [0%Qc]) [(1 / qz 2)%Qc] && negb (fits_b (p_vars p) [(1 / qz 2)%Qc])
      | Err _ => false end = true) as V by (vm_compute; reflexivity).
    destruct (int_to_bin p) as [[q tbl]|] eqn:E; [|discriminate].
    apply andb_prop in V. destruct V as [V V3]. apply andb_prop in V. destruct V as [V1 V2].
    apply fits_b_spec in V1. apply res_qs_eq in V2.
    exists p, q, tbl, [0%Qc], [(1 / qz 2)%Qc]. split; [apply reachable_wf; repeat constructor|]. split; auto.
    split; [apply V1|]. split; [apply V1|]. split; [exact V2|].
    intro T. inversion T as [|? ? ? ? T1 _]; subst. change (integral (1 / qz 2)) in T1. apply is_integer_spec in T1. discriminate T1.
Qed.
(** What holds: the non-fixed variables are exactly those with an encoding, and a program with another one is refused; with integral
    bounds the converted points are exactly the points of the original.  Missing: fixed variables and fractional bounds, where it is false. *)
Theorem C23_accepts_partial : forall p,
  (forall v, In v (p_vars p) -> v_type v = INTEGER ->
     ((v_lb v < v_ub v)%Qc -> is_ok (convert_var (v_name v) (v_lb v) (v_ub v)) = true) /\
     (v_lb v = v_ub v -> convert_var (v_name v) (v_lb v) (v_ub v) = Err OverflowError /\ exists e, int_to_bin p = Err e)) /\
  (forall q tbl, prog_wf p -> int_bounds p -> binary_open p -> int_to_bin p = Ok (q, tbl) ->
     (forall y x, in_bounds q y -> typed q y -> i2b_interpret p (conv_of tbl) q y = Ok x -> in_bounds p x /\ typed p x) /\
     (forall x, in_bounds p x -> typed p x -> exists y, in_bounds q y /\ typed q y /\ i2b_interpret p (conv_of tbl) q y = Ok x)).
Proof.
  intro p. split.
  - intros v Hv T. split; [intro L; destruct (ConvTotal.convert_var_total (v_name v) _ _ L) as [bits ->]; reflexivity|].
    intro L. assert (convert_var (v_name v) (v_lb v) (v_ub v) = Err OverflowError) as E by now apply ConvTotal.convert_var_fixed. split; [exact E|].
    eapply ConvTotal.int_to_bin_fixed; eauto.
  - intros q tbl W IB O H. split.
    + intros y x B T E. eapply i2b_decode_fits; eauto.
    + intros x B T. eapply i2b_encode; eauto.
Qed.
Definition ex23 : qp := run (new_qp "")
  [OAddVar (qz (-2)) (qz 3) INTEGER (Some "i"); OAddVar 0 1 BINARY (Some "b"); OAddVar 0 (qz 4) CONTINUOUS (Some "c");
   OObjective MAXIMIZE 1 (Some (LDict [(KS "i", qz 2); (KS "b", qz 3)])) (Some (QDict [((KS "i", KS "i"), 1%Qc); ((KS "i", KS "b"), qz 5)]));
   OLinCon (Some (LDict [(KS "i", qz 1); (KS "c", qz 1)])) (SStr "<=") (qz 4) (Some "a");
   OQuadCon (Some (LDict [(KS "b", qz 1)])) (Some (QDict [((KS "i", KS "c"), 1%Qc)])) (SStr ">=") (qz (-3)) (Some "q")].
Example C23_case : prog_wf ex23 /\ match int_to_bin ex23 with
  | Ok (q, tbl) => var_names q = ["i@0"; "i@1"; "i@2"; "b"; "c"] /\
      match i2b_interpret ex23 (conv_of tbl) q [1; 0; 1; 1; qz 2]%Qc with
      | Ok x => co_eqb (combine [0; 1; 2] x) [(0, qz 1); (1, 1%Qc); (2, qz 2)] = true
      | Err _ => False end
  | Err _ => False end.
Proof. split; [apply reachable_wf; repeat constructor|]. vm_compute. auto. Qed.
Print Assumptions C23_accepts_refuted.
Print Assumptions C23_accepts_partial.

(** ** C24 *)
(** Refuted: in a product of two integer variables the linear terms lack the bit coefficients
    (integer_to_binary.py:154-157), so the objective (and likewise a constraint) changes. *)
Theorem C24_objective_refuted : exists p q tbl y x,
  prog_wf p /\ int_bounds p /\ int_to_bin p = Ok (q, tbl) /\ in_bounds q y /\ typed q y /\
  i2b_interpret p (conv_of tbl) q y = Ok x /\ obj_at (p_obj q) y <> obj_at (p_obj p) x.
Proof.
  set (p := run (new_qp "") [OAddVar 1 (qz 4) INTEGER (Some "x"); OAddVar 1 (qz 4) INTEGER (Some "y");
     OObjective MINIMIZE 0 None (Some (QDict [((KS "x", KS "y"), 1%Qc)]))]).
  assert (match int_to_bin p with
      | Ok (q, tbl) => fits_b (p_vars q) [0; 1; 0; 0]%Qc && res_qs (i2b_interpret p (conv_of tbl) q [0; 1; 0; 0]%Qc) [qz 3; qz 1]
                       && negb (qeqb (obj_at (p_obj q) [0; 1; 0; 0]%Qc) (obj_at (p_obj p) [qz 3; qz 1]))
      | Err _ => false end = true) as V by (vm_compute; reflexivity).
  destruct (int_to_bin p) as [[q tbl]|] eqn:E; [|discriminate].
  apply andb_prop in V. destruct V as [V V3]. apply andb_prop in V. destruct V as [V1 V2].
  apply fits_b_spec in V1. apply res_qs_eq in V2. apply negb_true_iff, qeqb_false in V3.
  exists p, q, tbl, [0; 1; 0; 0]%Qc, [qz 3; qz 1]. split; [apply reachable_wf; repeat constructor|].
  split; [repeat constructor; apply is_integer_spec; vm_compute; reflexivity|]. split; auto. split; [apply V1|]. split; [apply V1|]. split; auto.
Qed.
(** What holds: everything, when in every product of two integer variables the one lower bound is 0 or the
    other variable has at most three values.  Missing: the remaining products, where it is false. *)
Theorem C24_preserved_partial : forall p q tbl, prog_wf p -> safe p -> int_to_bin p = Ok (q, tbl) ->
  (forall y, length y = num_vars q -> exists x, i2b_interpret p (conv_of tbl) q y = Ok x /\ length x = num_vars p /\
     o_sense (p_obj q) = o_sense (p_obj p) /\ obj_at (p_obj q) y = obj_at (p_obj p) x /\
     Forall2 (same_row x y) (p_lcs p) (p_lcs q) /\ Forall2 (same_qrow x y) (p_qcs p) (p_qcs q)) /\
  (int_bounds p ->
     (binary_open p -> forall y, feasible q y -> exists x, i2b_interpret p (conv_of tbl) q y = Ok x /\ feasible p x /\ obj_at (p_obj q) y = obj_at (p_obj p) x) /\
     (forall x, feasible p x -> exists y, feasible q y /\ i2b_interpret p (conv_of tbl) q y = Ok x /\ obj_at (p_obj q) y = obj_at (p_obj p) x)).
Proof.
  intros p q tbl W S H. split.
  - intros y L. destruct (i2b_interpret_ok p q tbl W H y L) as (x & E & Lx). exists x. split; auto. split; auto. eapply i2b_decode; eauto.
  - intro IB. split.
    + intros O y F. eapply i2b_sound; eauto.
    + intros x F. eapply i2b_complete; eauto.
Qed.
(** Exactly, for every program and every point of the right length: a product of two integer variables loses, times its coefficient, the weight of the bits beyond
    their number, times the lower bound of the other variable. *)
Theorem C24_exact : forall p q tbl, prog_wf p -> int_to_bin p = Ok (q, tbl) ->
  forall y, length y = num_vars q -> exists x, i2b_interpret p (conv_of tbl) q y = Ok x /\ length x = num_vars p /\
     o_sense (p_obj q) = o_sense (p_obj p) /\ obj_at (p_obj q) y = (obj_at (p_obj p) x - lost p q tbl (o_quad (p_obj p)) x y)%Qc /\
     Forall2 (same_row x y) (p_lcs p) (p_lcs q) /\ Forall2 (row_less p q tbl x y) (p_qcs p) (p_qcs q).
Proof. intros p q tbl W H y L. exact (i2b_value p q tbl W H y L). Qed.
Example C24_exact_case : let p := run (new_qp "") [OAddVar 1 (qz 5) INTEGER (Some "x"); OAddVar (qz (-2)) (qz 4) INTEGER (Some "y"); OObjective MINIMIZE 0 None (Some (QDict [((KS "x", KS "y"), qz 3)]))] in
  match int_to_bin p with
  | Ok (q, tbl) => qeqb (lost p q tbl (o_quad (p_obj p)) [qz 4; qz 1] [1; 1; 0; 1; 1; 0]%Qc) (qz (-3)) && qeqb (obj_at (p_obj q) [1; 1; 0; 1; 1; 0]%Qc) (qz 15) && res_qs (i2b_interpret p (conv_of tbl) q [1; 1; 0; 1; 1; 0]%Qc) [qz 4; qz 1] = true
  | Err _ => False end.
Proof. vm_compute. reflexivity. Qed.
Definition ex24 : qp := run (new_qp "")
  [OAddVar (qz (-2)) (qz 3) INTEGER (Some "i"); OAddVar 0 1 BINARY (Some "b"); OAddVar 0 (qz 4) INTEGER (Some "k"); OAddVar (qz 3) (qz 5) INTEGER (Some "n");
   OObjective MAXIMIZE 1 (Some (LDict [(KS "i", qz 2); (KS "b", qz 3)])) (Some (QDict [((KS "k", KS "k"), 1%Qc); ((KS "i", KS "b"), qz 5); ((KS "n", KS "n"), qz 2)]));
   OLinCon (Some (LDict [(KS "i", qz 1); (KS "k", qz 1)])) (SStr "<=") (qz 4) (Some "a");
   OQuadCon (Some (LDict [(KS "b", qz 1)])) (Some (QDict [((KS "k", KS "k"), 1%Qc)])) (SStr ">=") (qz (-3)) (Some "q")].
Example C24_case : prog_wf ex24 /\ safe ex24 /\ match int_to_bin ex24 with
  | Ok (q, tbl) => var_names q = ["i@0"; "i@1"; "i@2"; "b"; "k@0"; "k@1"; "k@2"; "n@0"; "n@1"] /\
      res_qs (i2b_interpret ex24 (conv_of tbl) q [1; 0; 1; 1; 1; 1; 0; 1; 1]%Qc) [qz 1; 1%Qc; qz 3; qz 5] = true /\
      qeqb (obj_at (p_obj q) [1; 0; 1; 1; 1; 1; 0; 1; 1]%Qc) (qz 70) = true
  | Err _ => False end.
Proof. split; [apply reachable_wf; repeat constructor|]. split; [apply safe_b_ok; vm_compute; reflexivity|]. vm_compute. auto. Qed.
Print Assumptions C24_objective_refuted.
Print Assumptions C24_preserved_partial.
Print Assumptions C24_exact.

(** ** C25 *)
Theorem C25_feasible_set : forall mode p q, prog_wf p -> ineq_to_eq mode p = Ok q ->
  (o_sense (p_obj q) = o_sense (p_obj p) /\ Forall (fun c => lc_sense c = EQ) (p_lcs q) /\ Forall (fun c => qc_sense c = EQ) (p_qcs q)) /\
  (mode = MContinuous \/ discrete p -> forall x, feasible p x ->
     exists y, feasible q y /\ ineq_interpret p q y = Ok x /\ obj_at (p_obj q) y = obj_at (p_obj p) x) /\
  (binary_open p -> forall y, feasible q y ->
     exists x, ineq_interpret p q y = Ok x /\ feasible p x /\ obj_at (p_obj q) y = obj_at (p_obj p) x).
Proof.
  intros mode p q W H. split; [eapply ineq_shape; eauto|]. split; intros.
  - eapply ineq_complete; eauto.
  - eapply ineq_sound; eauto.
Qed.
Definition ex25 : qp := run (new_qp "")
  [OAddVar 0 1 BINARY (Some "b"); OAddVar (qz (-2)) (qz 3) INTEGER (Some "i");
   OObjective MAXIMIZE 1 (Some (LDict [(KS "i", qz 2)])) None;
   OLinCon (Some (LDict [(KS "i", qz 1); (KS "b", qz 2)])) (SStr "<=") (qz 7 / qz 2) (Some "a");
   OLinCon (Some (LDict [(KS "i", qz 1); (KS "b", qz (-1))])) (SStr "==") 1 (Some "e");
   OQuadCon (Some (LDict [(KS "b", qz 1)])) (Some (QDict [((KS "i", KS "b"), qz 3)])) (SStr ">=") (qz (-5)) (Some "q")].
Example C25_case : prog_wf ex25 /\ discrete ex25 /\ binary_open ex25 /\ match ineq_to_eq MAuto ex25 with
  | Ok q => map v_name (p_vars q) = ["b"; "i"; "a@int_slack"; "q@int_slack"] /\
      feas_b q [0; 1; qz 2; qz 5]%Qc = true /\ feas_b ex25 [0; 1]%Qc = true /\ res_qs (ineq_interpret ex25 q [0; 1; qz 2; qz 5]%Qc) [0; 1]%Qc = true
  | Err _ => False end.
Proof.
  split; [apply reachable_wf; repeat constructor|]. split; [repeat constructor; discriminate|].
  split; [repeat constructor; try discriminate; vm_compute; discriminate|]. vm_compute. auto.
Qed.
Print Assumptions C25_feasible_set.

(** ** C26 *)
(** Refuted: a constraint with integral coefficients gets an integer slack variable also over continuous variables. *)
Theorem C26_auto_refuted : exists p q x,
  prog_wf p /\ ineq_to_eq MAuto p = Ok q /\ feasible p x /\ forall y, feasible q y -> ineq_interpret p q y <> Ok x.
Proof.
  set (p := run (new_qp "") [OAddVar 0 1 CONTINUOUS (Some "x"); OLinCon (Some (LDict [(KS "x", 1%Qc)])) (SStr "<=") 1 (Some "c")]).
  assert (prog_wf p) as W by (apply reachable_wf; repeat constructor).
  assert (match ineq_to_eq MAuto p with
    | Ok q => match p_vars q, p_lcs q with
              | [v; w], [c] => match v_type w, lc_sense c with INTEGER, EQ => true | _, _ => false end && co_eqb (le_co (lc_lin c)) [(0, 1%Qc); (1, 1%Qc)] && qeqb (lc_rhs c) 1
              | _, _ => false end
    | Err _ => false end = true) as V by (vm_compute; reflexivity).
  destruct (ineq_to_eq MAuto p) as [q|] eqn:E; [|discriminate].
  destruct (p_vars q) as [|v [|w [|]]] eqn:Ev; try discriminate. destruct (p_lcs q) as [|c [|]] eqn:Ec; try discriminate.
  apply andb_prop in V. destruct V as [V V3]. apply andb_prop in V. destruct V as [V1 V2]. apply co_eqb_eq in V2.
  destruct (qeqb_spec (lc_rhs c) 1) as [V4|]; [|discriminate].
  destruct (v_type w) eqn:Tw; try discriminate. destruct (lc_sense c) eqn:Sc; try discriminate.
  exists p, q, [(1 / qz 2)%Qc]. split; auto. split; auto. split; [apply feas_b_spec; vm_compute; reflexivity|].
  intros y (B & T & C & _) X. unfold in_bounds, typed, lcs_hold in *. rewrite Ev in *. rewrite Ec in C.
  inversion T as [|? a ? y' T1 T2]; subst. inversion T2 as [|? b ? y'' T3 T4]; subst. inversion T4; subst.
  unfold has_type in T3. rewrite Tw in T3. inversion C as [|? ? C1 _]; subst. rewrite Sc, V4 in C1. simpl in C1.
  change [a; b] with ([a] ++ [b]) in X. rewrite (ineq_interpret_prefix MAuto p q W E [a] [b]) in X; [|reflexivity|unfold num_vars; now rewrite Ev].
  injection X as ->. unfold lc_at in C1. rewrite lin_entries_in in C1.
  - rewrite V2 in C1. unfold dsum, at_ in C1. simpl in C1.
    assert (b = 1 / qz 2)%Qc as -> by (assert (1 / qz 2 + 1 / qz 2 = 1)%Qc by (apply Qc_is_canon; reflexivity); qlra).
    apply is_integer_spec in T3. discriminate T3.
  - rewrite V2. simpl. repeat constructor; simpl; intuition lia.
  - rewrite V2. simpl. repeat constructor.
Qed.
(** What holds in every mode: no new points appear.  Missing: continuous variables in integer and automatic mode,
    where points are lost. *)
Theorem C26_auto_partial : forall mode p q, prog_wf p -> ineq_to_eq mode p = Ok q ->
  (binary_open p -> forall y, feasible q y ->
     exists x, ineq_interpret p q y = Ok x /\ feasible p x /\ obj_at (p_obj q) y = obj_at (p_obj p) x) /\
  (discrete p -> forall x, feasible p x ->
     exists y, feasible q y /\ ineq_interpret p q y = Ok x /\ obj_at (p_obj q) y = obj_at (p_obj p) x).
Proof.
  intros mode p q W H. split; intros.
  - eapply ineq_sound; eauto.
  - eapply ineq_complete; eauto.
Qed.
Example C26_case : match ineq_to_eq MAuto ex23 with
  | Ok q => map v_type (p_vars q) = [INTEGER; BINARY; CONTINUOUS; INTEGER; INTEGER] /\
      feas_b q [1; 1; qz 2; 1; qz 6]%Qc = true /\ feas_b ex23 [1; 1; qz 2]%Qc = true
  | Err _ => False end.
Proof. vm_compute. auto. Qed.
(** Exactly which solutions survive, in every mode: those at which the inequalities with whole coefficients have whole values. *)
Theorem C26_exact : forall mode p q x, prog_wf p -> ineq_to_eq mode p = Ok q -> feasible p x ->
  (exists y, feasible q y /\ ineq_interpret p q y = Ok x) <->
  mode = MContinuous \/
  (forall c, In c (p_lcs p) -> lc_sense c <> EQ -> whole_row (lc_lin c) -> integral (lc_at c x)) /\
  (forall c, In c (p_qcs p) -> qc_sense c <> EQ -> whole_row (qc_lin c) -> whole_square (qc_quad c) -> integral (qc_at c x)).
Proof. exact IneqExact.ineq_survives. Qed.
(** Of the two halves of a continuous range one point survives and the other does not. *)
Definition ex26 : qp := run (new_qp "") [OAddVar 0 (qz 4) CONTINUOUS (Some "x"); OAddVar 0 (qz 4) CONTINUOUS (Some "y");
  OLinCon (Some (LDict [(KS "x", 1%Qc); (KS "y", 1%Qc)])) (SStr "<=") (qz 7 / qz 2)%Qc (Some "c")].
Example C26_exact_case : feas_b ex26 [1 / qz 2; 1 / qz 2]%Qc = true /\ feas_b ex26 [1 / qz 2; 1]%Qc = true /\
  match ineq_to_eq MAuto ex26 with
  | Ok q => existsb (fun z => feas_b q [1 / qz 2; 1 / qz 2; qz z]%Qc) [0; 1; 2; 3; 4]%Z = true /\ existsb (fun z => feas_b q [1 / qz 2; 1; qz z]%Qc) [0; 1; 2; 3; 4]%Z = false
  | Err _ => False end.
Proof. vm_compute. auto. Qed.
Print Assumptions C26_auto_refuted.
Print Assumptions C26_exact.
Print Assumptions C26_auto_partial.

(** ** C27 *)
(** Refuted: the objective is built before the slack variables exist, so it cannot be evaluated at a point of the
    converted program, and is_feasible raises as well when a constraint precedes a later slack variable. *)
Theorem C27_usable_refuted : exists p q x,
  prog_wf p /\ shapes (num_vars p) p /\ ineq_to_eq MInteger p = Ok q /\ feasible q x /\
  eval_obj q x = Err ValueError /\ is_feasible q x = Err ValueError.
Proof.
  set (p := run (new_qp "") [OAddVar 0 1 BINARY (Some "x"); OAddVar 0 1 BINARY (Some "y"); OObjective MINIMIZE 0 (Some (LDict [(KS "x", 1%Qc)])) None;
     OLinCon (Some (LDict [(KS "x", 1%Qc)])) (SStr "==") 1 (Some "e");
     OLinCon (Some (LDict [(KS "x", 1%Qc); (KS "y", 1%Qc)])) (SStr "<=") 1 (Some "c")]).
  assert (match ineq_to_eq MInteger p with
    | Ok q => feas_b q [1; 0; 0]%Qc && value_error (eval_obj q [1; 0; 0]%Qc) && value_error (is_feasible q [1; 0; 0]%Qc)
    | Err _ => false end = true) as V by (vm_compute; reflexivity).
  destruct (ineq_to_eq MInteger p) as [q|] eqn:E; [|discriminate].
  apply andb_prop in V. destruct V as [V V3]. apply andb_prop in V. destruct V as [V1 V2].
  exists p, q, [1; 0; 0]%Qc. split; [apply reachable_wf; repeat constructor|].
  split; [repeat split; simpl; repeat constructor; simpl; intuition (try congruence; lia)|]. split; auto.
  split; [now apply feas_b_spec|]. split; now apply value_error_eq.
Qed.
(** What holds: everything can be evaluated if no slack variable was added.  Missing: programs with slack variables,
    where it is false. *)
Theorem C27_usable_partial : forall mode p q x, prog_wf p -> ineq_to_eq mode p = Ok q -> num_vars q = num_vars p -> length x = num_vars q ->
  eval_obj q x = Ok (obj_at (p_obj q) x) /\ exists b, is_feasible q x = Ok b.
Proof.
  intros mode p q x W H E L. pose proof (ineq_no_slack_shapes mode p q W H E) as S. split.
  - now apply shapes_eval.
  - now apply is_feasible_total.
Qed.
Example C27_case : let p := run (new_qp "") [OAddVar 0 1 BINARY (Some "x"); OObjective MINIMIZE 0 (Some (LDict [(KS "x", qz 4)])) None;
     OLinCon (Some (LDict [(KS "x", 1%Qc)])) (SStr "==") 1 (Some "e")] in
  match ineq_to_eq MAuto p with
  | Ok q => num_vars q = 1 /\ match eval_obj q [1%Qc] with Ok a => qeqb a (qz 4) = true | _ => False end
  | Err _ => False end.
Proof. vm_compute. auto. Qed.
(** Exactly: the objective can be evaluated iff no slack variable was added, and feasibility can be asked iff every constraint has all the
    variables, that is, no slack variable was added after it; everything else is ValueError. *)
Theorem C27_exact : forall mode p q x, prog_wf p -> ineq_to_eq mode p = Ok q -> length x = num_vars q ->
  (num_vars q = num_vars p -> eval_obj q x = Ok (obj_at (p_obj q) x)) /\ (num_vars q <> num_vars p -> eval_obj q x = Err ValueError) /\
  ((exists b, is_feasible q x = Ok b) <-> cons_shapes (num_vars q) q) /\ (forall e, is_feasible q x = Err e -> e = ValueError).
Proof.
  intros mode p q x W H L. pose proof (ineq_to_eq_wf _ _ _ H) as (_ & _ & _ & _ & E & _). pose proof (ineq_wide _ _ _ W H) as (_ & (A & B) & _).
  pose proof E as (W1 & W2 & _). rewrite eval_obj_exact, A, B, andb_diag, L by assumption. split; [|split].
  - intros ->. now rewrite Nat.eqb_refl.
  - intro N. destruct (Nat.eqb_spec (num_vars q) (num_vars p)); congruence.
  - now apply info_sizes.
Qed.
Example C27_exact_case : match ineq_to_eq MInteger (run (new_qp "") [OAddVar 0 1 BINARY (Some "x"); OObjective MINIMIZE 0 (Some (LDict [(KS "x", 1%Qc)])) None;
     OLinCon (Some (LDict [(KS "x", 1%Qc)])) (SStr "<=") 1 (Some "c"); OLinCon (Some (LDict [(KS "x", 1%Qc)])) (SStr "==") 1 (Some "e")]) with
  | Ok q => num_vars q = 2 /\ eval_obj q [1; 0]%Qc = Err ValueError /\ is_feasible q [1; 0]%Qc = Ok true
  | Err _ => False end.
Proof. vm_compute. auto. Qed.
Print Assumptions C27_usable_refuted.
Print Assumptions C27_exact.
Print Assumptions C27_usable_partial.
