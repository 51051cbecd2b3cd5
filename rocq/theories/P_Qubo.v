(** * C32 to C35, C67: the conversion to a QUBO, and converter objects *)
From Verif Require IneqExact.
From Verif Require Import QuboAny ReuseFacts LostFacts.
Local Open Scope string_scope.
Local Open Scope list_scope.
Local Open Scope nat_scope.

Definition ex32 (rhs : Qc) : qp := run (new_qp "")
  [OAddVar 0 1 BINARY (Some "b"); OAddVar (qz (-1)) (qz 2) INTEGER (Some "i"); OAddVar 0 (qz 4) INTEGER (Some "k");
   OObjective MAXIMIZE 1 (Some (LDict [(KS "i", qz 2)])) (Some (QDict [((KS "b", KS "i"), qz 3); ((KS "k", KS "k"), 1%Qc)]));
   OLinCon (Some (LDict [(KS "i", qz 1); (KS "k", qz 2)])) (SStr "<=") rhs (Some "c");
   OLinCon (Some (LDict [(KS "b", qz 1); (KS "k", qz 1)])) (SStr "==") 1 (Some "d")].

(** ** C32 *)
Theorem C32_qubo_shape : forall pen p r, prog_wf p -> to_qubo pen p = Ok r ->
  Forall (fun v => v_type v = BINARY /\ v_lb v = 0%Qc /\ v_ub v = 1%Qc) (p_vars (r_qubo r)) /\
  p_lcs (r_qubo r) = [] /\ p_qcs (r_qubo r) = [] /\ o_sense (p_obj (r_qubo r)) = o_sense (p_obj p).
Proof. intros pen p r W H. exact (qubo_shape pen p r W H). Qed.
Theorem C32_qubo_rejects : forall pen p,
  (exists v, In v (p_vars p) /\ v_type v = CONTINUOUS) \/ p_qcs p <> [] \/
  (exists c kv, In c (p_lcs p) /\ In kv (le_co (lc_lin c)) /\ ~ integral (snd kv)) ->
  to_qubo pen p = Err QiskitOptimizationError.
Proof.
  intros pen p H. unfold to_qubo. destruct (qubo_compatible p) eqn:C; auto. apply qubo_compatible_iff in C. destruct C as (C1 & C2 & C3). exfalso.
  unfold discrete in C1. unfold int_lin in C3. rewrite Forall_forall in C1, C3. destruct H as [(v & Hv & E)|[H|(c & kv & Hc & Hk & N)]].
  - now apply (C1 v).
  - contradiction.
  - specialize (C3 c Hc). rewrite Forall_forall in C3. auto.
Qed.
Example C32_case : prog_wf (ex32 (qz 5 / qz 2)) /\ match to_qubo None (ex32 (qz 5 / qz 2)) with
  | Ok r => var_names (r_qubo r) = ["b"; "i@0"; "i@1"; "k@0"; "k@1"; "k@2"; "c@int_slack@0"; "c@int_slack@1"] | Err _ => False end /\
  to_qubo None (run (new_qp "") [OAddVar 0 1 CONTINUOUS None]) = Err QiskitOptimizationError.
Proof. split; [apply reachable_wf; repeat constructor|]. vm_compute. auto. Qed.
Print Assumptions C32_qubo_shape.
Print Assumptions C32_qubo_rejects.

(** ** C33 *)
(** Refuted by the defect of C24: the QUBO of min x^2 - 4x over 1..4 has its optimum at x = 3. *)
Theorem C33_qubo_solves_refuted : exists p r y x, prog_wf p /\ Forall plain (p_vars p) /\ int_bounds p /\ p_lcs p = [] /\ p_qcs p = [] /\
  to_qubo None p = Ok r /\ optimal (r_qubo r) y /\ qubo_interpret r y = Ok x /\ ~ optimal p x.
Proof.
  set (p := run (new_qp "") [OAddVar 1 (qz 4) INTEGER (Some "x");
     OObjective MINIMIZE 0 (Some (LDict [(KS "x", qz (-4))])) (Some (QDict [((KS "x", KS "x"), 1%Qc)]))]).
  assert (match to_qubo None p with
      | Ok r => feas_b (r_qubo r) [0; 1]%Qc && res_qs (qubo_interpret r [0; 1]%Qc) [qz 3] &&
                forallb (fun z => qleb (obj_at (p_obj (r_qubo r)) [0; 1]%Qc) (obj_at (p_obj (r_qubo r)) z)) [[0; 0]; [0; 1]; [1; 0]; [1; 1]]%Qc &&
                match p_vars (r_qubo r), o_sense (p_obj (r_qubo r)) with [v; w], MINIMIZE => match v_type v, v_type w with BINARY, BINARY => true | _, _ => false end | _, _ => false end
      | Err _ => false end = true) as V by (vm_compute; reflexivity).
  destruct (to_qubo None p) as [r|] eqn:E; [|discriminate].
  apply andb_prop in V. destruct V as [V V4]. apply andb_prop in V. destruct V as [V V3]. apply andb_prop in V. destruct V as [V1 V2].
  exists p, r, [0; 1]%Qc, [qz 3]. split; [apply reachable_wf; repeat constructor|]. split; [repeat constructor; discriminate|].
  split; [repeat constructor; apply is_integer_spec; vm_compute; reflexivity|]. split; auto. split; auto. split; auto.
  destruct (p_vars (r_qubo r)) as [|v [|w [|]]] eqn:Ev; try discriminate V4. destruct (o_sense (p_obj (r_qubo r))) eqn:Es; try discriminate V4.
  destruct (v_type v) eqn:Tv; try discriminate V4. destruct (v_type w) eqn:Tw; try discriminate V4.
  split; [split; [now apply feas_b_spec|]|].
  - intros z (_ & T & _). unfold typed in T. rewrite Ev in T. inversion T as [|? a ? z' T1 T2]; subst. inversion T2 as [|? b ? z'' T3 T4]; subst. inversion T4; subst.
    unfold has_type in T1, T3. rewrite Tv in T1. rewrite Tw in T3. rewrite Es. unfold at_least. rewrite forallb_forall in V3.
    assert (forall c, In c [[0; 0]; [0; 1]; [1; 0]; [1; 1]]%Qc -> (obj_at (p_obj (r_qubo r)) [0; 1] <= obj_at (p_obj (r_qubo r)) c)%Qc) as G.
    { intros c Hc. apply V3 in Hc. now destruct (qleb_spec (obj_at (p_obj (r_qubo r)) [0; 1]%Qc) (obj_at (p_obj (r_qubo r)) c)). }
    apply G. destruct T1 as [-> | ->], T3 as [-> | ->]; simpl; auto.
  - split; [now apply res_qs_eq|]. intros [_ O]. assert (feasible p [qz 2]) as F by (apply feas_b_spec; vm_compute; reflexivity).
    specialize (O _ F). vm_compute in O. now apply O.
Qed.
(** What holds: if in every product of two integer variables the one lower bound is 0 or the other variable has at most
    three values, optimal assignments and optimal points correspond.  Missing: the remaining products, where it is false. *)
Theorem C33_qubo_solves_partial : forall pen p r, prog_wf p -> Forall plain (p_vars p) -> int_bounds p -> products_safe p (o_quad (p_obj p)) ->
  (exists x, feasible p x) -> to_qubo pen p = Ok r ->
  match pen with Some c => (weight (p_obj (r_bin r)) < c)%Qc | None => True end ->
  (forall y, optimal (r_qubo r) y -> exists x, qubo_interpret r y = Ok x /\ optimal p x /\ obj_at (p_obj (r_qubo r)) y = obj_at (p_obj p) x) /\
  (forall x, optimal p x -> exists y, optimal (r_qubo r) y /\ qubo_interpret r y = Ok x /\ obj_at (p_obj (r_qubo r)) y = obj_at (p_obj p) x).
Proof. intros pen p r W P IB SF F H. exact (qubo_exact pen p r W H P IB SF F). Qed.
Example C33_case : let p := ex32 (qz 5 / qz 2) in prog_wf p /\ Forall plain (p_vars p) /\ int_bounds p /\ products_safe p (o_quad (p_obj p)) /\
  feasible p [1; qz 2; 0]%Qc /\ match to_qubo None p with
  | Ok r => feas_b (r_qubo r) [1; 1; 1; 0; 0; 0; 0; 0]%Qc = true /\ res_qs (qubo_interpret r [1; 1; 1; 0; 0; 0; 0; 0]%Qc) [1; qz 2; 0]%Qc = true /\
            qeqb (obj_at (p_obj (r_qubo r)) [1; 1; 1; 0; 0; 0; 0; 0]%Qc) (qz 11) = true
  | Err _ => False end.
Proof.
  cbv zeta. split; [apply reachable_wf; repeat constructor|]. split; [repeat constructor; discriminate|].
  split; [repeat constructor; try discriminate; apply is_integer_spec; vm_compute; reflexivity|].
  split; [apply products_safe_b_ok; vm_compute; reflexivity|]. split; [apply feas_b_spec; vm_compute; reflexivity|]. vm_compute. auto.
Qed.
(** Exactly, for all products: constraints are always respected, every feasible point is there, and an assignment is optimal exactly
    if no other one that stands for a feasible point is worth more, where products are worth less by what they lose (C24). *)
Theorem C33_exact : forall pen p r, prog_wf p -> Forall plain (p_vars p) -> int_bounds p -> (exists x, feasible p x) -> to_qubo pen p = Ok r ->
  (forall y z, bits_mean r y z -> qubo_interpret r y = Ok (firstn (num_vars p) z) /\ feasible p (firstn (num_vars p) z)) /\
  (forall x, feasible p x -> exists y z, bits_mean r y z /\ firstn (num_vars p) z = x) /\
  (match pen with Some c => (weight (p_obj (r_bin r)) < c)%Qc | None => True end ->
   forall y, optimal (r_qubo r) y <-> exists z, bits_mean r y z /\ forall y' z', bits_mean r y' z' -> at_least (o_sense (p_obj p)) (worth p r z y) (worth p r z' y')).
Proof.
  intros pen p r W P IB F H. split; [|split].
  - intros y z M. destruct (stands_point pen p r W H P IB F y z M) as (A & B & _). auto.
  - exact (every_point pen p r W H P IB F).
  - exact (optimal_any pen p r W H P IB F).
Qed.
(** min x^2 - 4x over 1..4 with x <= 3: the assignment for 1 + 2 = 3 is worth -5 where -3 is right, and 2 is worth -4. *)
Example C33_exact_case : let p := run (new_qp "") [OAddVar 1 (qz 4) INTEGER (Some "x"); OObjective MINIMIZE 0 (Some (LDict [(KS "x", qz (-4))])) (Some (QDict [((KS "x", KS "x"), 1%Qc)])); OLinCon (by_name [("x", 1%Qc)]) (SStr "<=") (qz 3) None] in
  prog_wf p /\ Forall plain (p_vars p) /\ int_bounds p /\ feasible p [qz 3] /\
  match to_qubo None p with
  | Ok r => num_vars (r_qubo r) = 4 /\ feas_b (r_qubo r) [0; 1; 0; 0]%Qc = true /\ res_qs (i2b_interpret (r_eq r) (conv_of (r_conv r)) (r_bin r) [0; 1; 0; 0]%Qc) [qz 3; 0]%Qc = true /\ feas_b (r_eq r) [qz 3; 0]%Qc = true /\
            qeqb (worth p r [qz 3; 0]%Qc [0; 1; 0; 0]%Qc) (qz (-5)) && qeqb (obj_at (p_obj (r_qubo r)) [0; 1; 0; 0]%Qc) (qz (-5)) && qeqb (worth p r [qz 2; 1]%Qc [1; 0; 1; 0]%Qc) (qz (-4)) = true
  | Err _ => False end.
Proof.
  cbv zeta. split; [apply reachable_wf; repeat constructor|]. split; [repeat constructor; discriminate|].
  split; [repeat constructor; try discriminate; apply is_integer_spec; vm_compute; reflexivity|]. split; [apply feas_b_spec; vm_compute; reflexivity|]. vm_compute. auto 10.
Qed.
Print Assumptions C33_qubo_solves_refuted.
Print Assumptions C33_exact.
Print Assumptions C33_qubo_solves_partial.

(** ** C34 *)
(** Refuted by the defect of C24: no assignment standing for x = 3 has the objective of x = 3. *)
Theorem C34_represented_refuted : exists p r x, prog_wf p /\ Forall plain (p_vars p) /\ int_bounds p /\ to_qubo None p = Ok r /\ feasible p x /\
  forall y, feasible (r_qubo r) y -> qubo_interpret r y = Ok x -> obj_at (p_obj (r_qubo r)) y <> obj_at (p_obj p) x.
Proof.
  set (p := run (new_qp "") [OAddVar 1 (qz 4) INTEGER (Some "x"); OObjective MINIMIZE 0 None (Some (QDict [((KS "x", KS "x"), 1%Qc)]))]).
  assert (match to_qubo None p with
      | Ok r => forallb (fun z => negb (res_qs (qubo_interpret r z) [qz 3] && qeqb (obj_at (p_obj (r_qubo r)) z) (qz 9))) [[0; 0]; [0; 1]; [1; 0]; [1; 1]]%Qc &&
                match p_vars (r_qubo r) with [v; w] => match v_type v, v_type w with BINARY, BINARY => true | _, _ => false end | _ => false end
      | Err _ => false end = true) as V by (vm_compute; reflexivity).
  destruct (to_qubo None p) as [r|] eqn:E; [|discriminate]. apply andb_prop in V. destruct V as [V3 V4].
  exists p, r, [qz 3]. split; [apply reachable_wf; repeat constructor|]. split; [repeat constructor; discriminate|].
  split; [repeat constructor; apply is_integer_spec; vm_compute; reflexivity|]. split; auto. split; [apply feas_b_spec; vm_compute; reflexivity|].
  destruct (p_vars (r_qubo r)) as [|v [|w [|]]] eqn:Ev; try discriminate V4. destruct (v_type v) eqn:Tv; try discriminate V4. destruct (v_type w) eqn:Tw; try discriminate V4.
  intros z (_ & T & _) I O. unfold typed in T. rewrite Ev in T. inversion T as [|? a ? z' T1 T2]; subst. inversion T2 as [|? b ? z'' T3 T4]; subst. inversion T4; subst.
  unfold has_type in T1, T3. rewrite Tv in T1. rewrite Tw in T3. rewrite forallb_forall in V3.
  assert (In [a; b] [[0; 0]; [0; 1]; [1; 0]; [1; 1]]%Qc) as Hin by (destruct T1 as [-> | ->], T3 as [-> | ->]; simpl; auto).
  apply V3 in Hin. rewrite I, O in Hin. vm_compute in Hin. discriminate.
Qed.
(** What holds: every feasible point is represented with its value, under the restriction of C33, whatever the penalty. *)
Theorem C34_represented_partial : forall pen p r x, prog_wf p -> Forall plain (p_vars p) -> int_bounds p -> products_safe p (o_quad (p_obj p)) ->
  to_qubo pen p = Ok r -> feasible p x ->
  exists y, feasible (r_qubo r) y /\ qubo_interpret r y = Ok x /\ obj_at (p_obj (r_qubo r)) y = obj_at (p_obj p) x.
Proof. intros pen p r x W P IB SF H F. apply (qubo_represents pen p r W H P IB SF); eauto. Qed.
(** Exactly, for every program and every assignment: the value of the QUBO is the objective at the point the assignment stands for, less what products of integer variables lose (C24),
    and the penalty times the squared differences of the two sides of the equations. *)
Theorem C34_value : forall pen p r, prog_wf p -> to_qubo pen p = Ok r -> forall y, length y = num_vars (r_qubo r) ->
  exists z, i2b_interpret (r_eq r) (conv_of (r_conv r)) (r_bin r) y = Ok z /\ length z = num_vars (r_eq r) /\ qubo_interpret r y = Ok (firstn (num_vars p) z) /\
  obj_at (p_obj (r_qubo r)) y = (obj_at (p_obj p) (firstn (num_vars p) z) - lost (r_eq r) (r_bin r) (r_conv r) (o_quad (p_obj (r_eq r))) z y
    + sense_val (o_sense (p_obj p)) * (match pen with Some c => c | None => auto_penalty (r_bin r) end) * violation (p_lcs (r_eq r)) z)%Qc.
Proof. intros pen p r W H y L. exact (qubo_value pen p r W H y L). Qed.
Example C34_value_case : let p := run (new_qp "") [OAddVar 1 (qz 5) INTEGER (Some "x"); OObjective MAXIMIZE 0 None (Some (QDict [((KS "x", KS "x"), qz 3)])); OLinCon (by_name [("x", 1%Qc)]) (SStr "<=") (qz 3) None] in
  match to_qubo (Some (qz 10)) p with
  | Ok r => match i2b_interpret (r_eq r) (conv_of (r_conv r)) (r_bin r) [1; 1; 0; 1; 0]%Qc with
      | Ok z => qs_eqb z [qz 4; qz 1] && qeqb (lost (r_eq r) (r_bin r) (r_conv r) (o_quad (p_obj (r_eq r))) z [1; 1; 0; 1; 0]%Qc) (qz 6) && qeqb (violation (p_lcs (r_eq r)) z) (qz 4) && qeqb (obj_at (p_obj (r_qubo r)) [1; 1; 0; 1; 0]%Qc) (qz 2) = true
      | Err _ => False end
  | Err _ => False end.
Proof. vm_compute. reflexivity. Qed.
Example C34_case : match to_qubo (Some (qz 3)) (ex32 (qz 7)) with
  | Ok r => res_qs (qubo_interpret r [0; 1; 1; 1; 0; 0; 1; 1; 0; 0]%Qc) [0; qz 2; 1]%Qc = true /\
            qeqb (obj_at (p_obj (r_qubo r)) [0; 1; 1; 1; 0; 0; 1; 1; 0; 0]%Qc) (obj_at (p_obj (ex32 (qz 7))) [0; qz 2; 1]%Qc) = true
  | Err _ => False end.
Proof. vm_compute. auto. Qed.
Print Assumptions C34_represented_refuted.
Print Assumptions C34_represented_partial.
Print Assumptions C34_value.

(** ** C35 *)
Theorem C35_reuse : forall c0 ops p, let o := qo_run (new_qubo c0) ops in let c := last_penalty c0 ops in
  match to_qubo c p with
  | Ok r => snd (qo_convert o p) = Ok (r_qubo r) /\ (forall x, qo_interpret (fst (qo_convert o p)) x = qubo_interpret r x) /\
            qo_penalty (fst (qo_convert o p)) = Some (match c with Some c => c | None => auto_penalty (r_bin r) end)
  | Err e => snd (qo_convert o p) = Err e
  end.
Proof. intros c0 ops p o c. apply (qo_convert_spec c o p). apply qo_run_inv, new_qubo_inv. Qed.
Example C35_case : let o := qo_run (new_qubo None) [CConvert (ex32 (qz 5 / qz 2)); CConvert (run (new_qp "") [OAddVar 0 1 CONTINUOUS None]); CPenalty (Some 1%Qc); CPenalty None] in
  match qo_convert o (ex32 (qz 7)), qo_convert (new_qubo None) (ex32 (qz 7)) with
  | (o1, Ok q1), (o2, Ok q2) => num_vars q1 = 10 /\ qeqb (obj_at (p_obj q1) (repeat 1%Qc 10)) (obj_at (p_obj q2) (repeat 1%Qc 10)) = true /\
      match qo_interpret o1 (repeat 1%Qc 10) with Ok x => qs_eqb x [1; qz 2; qz 4]%Qc = true | Err _ => False end
  | _, _ => False end.
Proof. vm_compute. auto. Qed.
(** The same for the three converters used alone: the mode given last decides how InequalityToEquality converts, and changing it changes no interpretation; ... *)
Theorem C35_inequality : forall m0 ops p, let o := io_run (new_ineq m0) ops in let m := last_mode m0 ops in
  snd (io_convert o p) = ineq_to_eq m p /\
  forall q, ineq_to_eq m p = Ok q -> forall x, io_interpret (fst (io_convert o p)) x = ineq_interpret p q x /\
    forall m', io_interpret (io_set_mode m' (fst (io_convert o p))) x = ineq_interpret p q x.
Proof.
  intros m0 ops p o m. assert (snd (io_convert o p) = ineq_to_eq m p) as E. { rewrite io_convert_ok. unfold o. rewrite io_run_mode. reflexivity. }
  split; [exact E|]. intros q Q x. rewrite Q in E. split; [|intro m'; exact (io_convert_interpret o p q E m' x)]. exact (io_convert_interpret o p q E (io_mode (fst (io_convert o p))) x).
Qed.
(** ... IntegerToBinary finds no entry of an earlier conversion; ... *)
Theorem C35_integer : forall ps p, let o := bo_run new_i2b ps in
  match int_to_bin p with
  | Ok (q, tbl) => snd (bo_convert o p) = Ok q /\ forall x, bo_interpret (fst (bo_convert o p)) x = i2b_interpret p (conv_of tbl) q x
  | Err e => snd (bo_convert o p) = Err e
  end.
Proof. intros ps p o. apply (bo_convert_spec o p). apply bo_run_older. intros k []. Qed.
(** ... and LinearEqualityToPenalty uses the penalty given last, or computes a new one for every problem if that was None. *)
Theorem C35_penalty : forall c0 ops p, let o := po_run (new_pen c0) ops in
  let c := match last_penalty c0 ops with Some c => c | None => auto_penalty p end in
  match penalize c p with
  | Ok q => snd (po_convert o p) = Ok q /\ po_penalty (fst (po_convert o p)) = Some c /\ forall x, po_interpret (fst (po_convert o p)) x = pen_interpret p x
  | Err e => snd (po_convert o p) = Err e
  end.
Proof.
  intros c0 ops p o c. destruct (new_pen_good c0) as [G S]. destruct (po_run_setting ops _ G) as [G' S']. destruct (po_convert_spec o p G') as (_ & _ & H).
  unfold c. fold o in S'. rewrite S, <- S in S'. rewrite S in S'. rewrite S' in H. exact H.
Qed.
Example C35_single_case : let p := ex32 (qz 5) in
  let o := io_run (new_ineq MInteger) [IConvert (ex32 (qz 3)); IMode MContinuous; IConvert (ex32 (qz 1 / qz 2)); IInterpret [1%Qc]] in
  match io_convert o p with (o', Ok q) => map v_type (p_vars q) = [BINARY; INTEGER; INTEGER; CONTINUOUS] /\
    res_qs (io_interpret (io_set_mode MInteger o') [1; qz 2; 0; 1]%Qc) [1; qz 2; 0]%Qc = true | _ => False end /\
  match bo_convert (bo_run new_i2b [ex32 (qz 3); ex32 (qz 4)]) p with (o', Ok q) => num_vars q = 6 /\ res_qs (bo_interpret o' [1; 1; 0; 1; 0; 1]%Qc) [1; 0; qz 2]%Qc = true | _ => False end /\
  match po_convert (po_run (new_pen (Some 1%Qc)) [CPenalty (Some (qz 7)); CConvert (ex32 1); CPenalty None; CPenalty (Some (qz 3))]) (run (new_qp "") [OAddVar 0 1 BINARY (Some "a"); OLinCon (by_name [("a", 1%Qc)]) (SStr "==") 1 None]) with
  | (o', Ok q) => qeqb (obj_at (p_obj q) [0%Qc]) (qz 3) = true | _ => False end.
Proof. vm_compute. auto. Qed.
Print Assumptions C35_reuse.
Print Assumptions C35_inequality.
Print Assumptions C35_integer.
Print Assumptions C35_penalty.

(** ** C67 *)
(** Refuted: a binary variable fixed to 1 by its bounds is free again after every conversion. *)
Theorem C67_binary_bounds_refuted : exists p q r y, prog_wf p /\ all_binary p /\ ineq_to_eq MAuto p = Ok q /\ feasible q y /\
  ineq_interpret p q y = Ok y /\ penalize 1 p = Ok r /\ feasible r y /\ ~ in_bounds p y.
Proof.
  set (p := run (new_qp "") [OAddVar 0 1 BINARY (Some "x"); OSetLb (KS "x") 1]).
  assert (match ineq_to_eq MAuto p, penalize 1 p with
    | Ok q, Ok r => feas_b q [0%Qc] && feas_b r [0%Qc] && negb (fits_b (p_vars p) [0%Qc]) && res_qs (ineq_interpret p q [0%Qc]) [0%Qc]
    | _, _ => false end = true) as V by (vm_compute; reflexivity).
  destruct (ineq_to_eq MAuto p) as [q|] eqn:E; [|discriminate]. destruct (penalize 1 p) as [r|] eqn:E2; [|discriminate].
  apply andb_prop in V. destruct V as [V V4]. apply andb_prop in V. destruct V as [V V3]. apply andb_prop in V. destruct V as [V1 V2].
  exists p, q, r, [0%Qc]. split; [apply reachable_wf; repeat constructor|]. split; [repeat constructor|]. split; auto. split; [now apply feas_b_spec|].
  split; [now apply res_qs_eq|]. split; auto. split; [now apply feas_b_spec|]. intro B. inversion B as [|? ? ? ? B1 _]; subst. destruct B1 as [B1 _]. vm_compute in B1. now apply B1.
Qed.
(** What holds: with bounds 0 and 1 on binary variables the converters keep the variables as they are, before any new ones.
    Missing: other bounds, where it is false. *)
Theorem C67_binary_bounds_partial : forall p, prog_wf p -> Forall plain (p_vars p) ->
  (forall mode q, ineq_to_eq mode p = Ok q -> exists slack, p_vars q = p_vars p ++ slack) /\
  (forall pen r, penalize pen p = Ok r -> p_vars r = p_vars p).
Proof.
  intros p W P. split.
  - intros mode q H. destruct (ineq_to_eq_inv _ _ _ W H) as (sv & I & _). rewrite (ie_vars _ _ _ _ _ I), (map_copyv_plain _ P). eauto.
  - intros pen r H. destruct (penalize_spec _ _ _ W H) as (V & _). now rewrite V, (map_copyv_plain _ P).
Qed.
Example C67_case : match ineq_to_eq MAuto (ex32 (qz 7)) with Ok q => firstn 3 (var_names q) = ["b"; "i"; "k"] /\ num_vars q = 4 | Err _ => False end.
Proof. vm_compute. auto. Qed.
(** For every program: the bounds of binary variables, and nothing else, are forgotten. *)
Theorem C67_forgotten : forall p, prog_wf p ->
  (forall mode q, ineq_to_eq mode p = Ok q -> (exists slack, p_vars q = map freed (p_vars p) ++ slack) /\
     forall y, feasible q y -> exists x, ineq_interpret p q y = Ok x /\ feasible (freed_program p) x /\ obj_at (p_obj q) y = obj_at (p_obj p) x) /\
  (forall pen r, penalize pen p = Ok r -> p_vars r = map freed (p_vars p) /\ forall x, feasible r x <-> in_bounds (freed_program p) x /\ typed p x).
Proof.
  intros p W. split.
  - intros mode q H. destruct (ineq_to_eq_inv _ _ _ W H) as (sv & I & _). split; [exists sv; apply (ie_vars _ _ _ _ _ I)|].
    intros y. now apply (IneqExact.ineq_freed mode).
  - intros pen r H. destruct (penalize_spec _ _ _ W H) as (V & L & Q & _). split; [exact V|].
    intro x. unfold feasible, lcs_hold, qcs_hold, in_bounds, typed. rewrite V, L, Q, copy_typed. simpl.
    split; [tauto|]. intros [A B]. split; [exact A|]. split; [exact B|]. split; constructor.
Qed.
(** A binary variable that must be 1 and an integer variable from 1 to 3: only the bounds of the second are kept. *)
Definition ex67 (s : string) : qp := run (new_qp "") [OAddVar 0 1 BINARY (Some "x"); OSetLb (KS "x") 1; OAddVar 1 (qz 3) INTEGER (Some "n");
  OLinCon (Some (LDict [(KS "x", 1%Qc); (KS "n", 1%Qc)])) (SStr s) (qz 3) (Some "c")].
Example C67_forgotten_case : match ineq_to_eq MAuto (ex67 "<="), penalize 1 (ex67 "==") with
  | Ok q, Ok r => feas_b q [0; 1 + 1; 1]%Qc = true /\ feas_b (freed_program (ex67 "<=")) [0; 1 + 1]%Qc = true /\ feas_b (ex67 "<=") [0; 1 + 1]%Qc = false /\
      feas_b q [1; 0; 1 + 1]%Qc = false /\ feas_b r [0; qz 3]%Qc = true /\ feas_b r [0; 0]%Qc = false
  | _, _ => False end.
Proof. vm_compute. auto 9. Qed.
Print Assumptions C67_binary_bounds_refuted.
Print Assumptions C67_forgotten.
Print Assumptions C67_binary_bounds_partial.
