(** * C50 to C52: the ADMM optimizer *)
From Verif Require Import AdmmFacts7 ConvMore.
Local Open Scope string_scope.
Local Open Scope list_scope.
Local Open Scope nat_scope.

(** ** C50 *)
(** The data of the two blocks always exists ... *)
Theorem C50_represented : forall op, shapes (num_vars op) op -> exists d, represents d /\ a_op d = op.
Proof. intros op S. destruct (represent_total op S) as (d & H). exists d. now apply represent_self. Qed.
(** ... and putting the two blocks together gives every variable its own value. *)
Theorem C50_split : forall d b c, represents d -> mixed_binary (a_op d) ->
  length b = length (indices_of BINARY (a_op d)) -> length c = length (indices_of CONTINUOUS (a_op d)) -> joins (a_op d) b c (revert d b c).
Proof. intros d b c R M Lb Lc. pose proof (represents_split d R) as [A B]. apply revert_joins; auto; [now split| |]; congruence. Qed.
Theorem C50_recombine : forall d x, represents d -> mixed_binary (a_op d) -> length x = num_vars (a_op d) ->
  revert d (part BINARY (p_vars (a_op d)) x) (part CONTINUOUS (p_vars (a_op d)) x) = x /\
  (forall b c, joins (a_op d) b c x -> b = map (at_ x) (indices_of BINARY (a_op d)) /\ c = map (at_ x) (indices_of CONTINUOUS (a_op d))).
Proof.
  intros d x R M L. split; [apply revert_part; auto; now apply represents_split|]. intros b c (_ & <- & <-). rewrite <- !coords_indices by auto. split; reflexivity.
Qed.
Definition ex50 : qp := run (new_qp "") [OAddVar 0 1 BINARY (Some "a"); OAddVar 0 (qz 10) CONTINUOUS (Some "u"); OAddVar 0 1 BINARY (Some "b"); OAddVar 0 (qz 5) CONTINUOUS (Some "v");
  OObjective MAXIMIZE (qz 7) (Some (LDict [(KS "a", qz 2); (KS "b", qz 3); (KS "u", 1%Qc)])) (Some (QDict [((KS "a", KS "b"), qz 4); ((KS "v", KS "v"), qz (-1))]));
  OLinCon (Some (LDict [(KS "a", 1%Qc); (KS "u", 1%Qc)])) (SStr "<=") (qz 3) (Some "c0");
  OLinCon (Some (LDict [(KS "a", 1%Qc); (KS "b", 1%Qc)])) (SStr "=") (qz 1) (Some "c1");
  OQuadCon None (Some (QDict [((KS "u", KS "v"), 1%Qc)])) (SStr ">=") (qz 1) (Some "q")].
Definition min50 : qp := match turn_to_minimization ex50 with Ok p => p | Err _ => ex50 end.
Definition data50 : admm_data := match represent min50 (indices_of BINARY min50) (indices_of CONTINUOUS min50) with Ok d => d | Err _ => mkAD min50 [] [] [] [] [] [] [] [] [] [] [] [] [] [] [] end.
Example C50_split_case : qs_eqb (revert data50 [1; qz 2]%Qc [qz 3; qz 4]) [1; qz 3; qz 2; qz 4]%Qc = true /\ (a_bin data50, a_cont data50, a_abs data50, a_rel data50) = ([0; 2], [1; 3], [0; 2], [0; 1]).
Proof. vm_compute. auto. Qed.

(** Compatible programs have no product of a binary and a continuous variable. *)
Theorem C50_compatible : forall p, quad_shape (num_vars p) (o_quad (p_obj p)) -> quad_upper (o_quad (p_obj p)) -> exists b, admm_compatible p = Ok b /\ (b = true <-> separable p).
Proof.
  intros p [W D] U. unfold admm_compatible.
  assert (forall i, In i (indices_of BINARY p) -> mapM (fun j => quad_get (env_of p) (o_quad (p_obj p)) (KI (Z.of_nat i), KI (Z.of_nat j))) (indices_of CONTINUOUS p) =
    Ok (map (fun j => coef2 (o_quad (p_obj p)) (Nat.min i j) (Nat.max i j)) (indices_of CONTINUOUS p))) as G.
  { intros i Hi. apply mapM_all. intros j Hj. apply quad_get_nat. split; [reflexivity|]. rewrite D. apply indices_in, is_var_lt in Hi. apply indices_in, is_var_lt in Hj. lia. }
  rewrite (mapM_all _ (fun i => map (fun j => coef2 (o_quad (p_obj p)) (Nat.min i j) (Nat.max i j)) (indices_of CONTINUOUS p))) by exact G. cbn [bind]. eexists. split; [reflexivity|].
  rewrite forallb_forall. split.
  - intros H i j Hi Hj. assert (coef2 (o_quad (p_obj p)) (Nat.min i j) (Nat.max i j) = 0%Qc) as Z.
    { specialize (H (map (fun j => coef2 (o_quad (p_obj p)) (Nat.min i j) (Nat.max i j)) (indices_of CONTINUOUS p))). rewrite forallb_forall in H.
      assert (qeqb (coef2 (o_quad (p_obj p)) (Nat.min i j) (Nat.max i j)) 0 = true) as E; [|now destruct (qeqb_spec (coef2 (o_quad (p_obj p)) (Nat.min i j) (Nat.max i j)) 0)].
      apply H; [apply in_map_iff; exists i; split; auto; now apply indices_in|apply in_map_iff; exists j; split; auto; now apply indices_in]. }
    assert (i <> j) as N by (intros ->; destruct Hi as (v & A & B), Hj as (w & A' & B'); congruence). destruct (Nat.lt_ge_cases i j).
    + rewrite Nat.min_l, Nat.max_r in Z by lia. split; auto. apply RecurFacts2.upper_zero; auto.
    + rewrite Nat.min_r, Nat.max_l in Z by lia. split; auto. apply RecurFacts2.upper_zero; auto. lia.
  - intros S row Hr. apply in_map_iff in Hr. destruct Hr as (i & <- & Hi). apply forallb_forall. intros v Hv. apply in_map_iff in Hv. destruct Hv as (j & <- & Hj).
    apply indices_in in Hi, Hj. destruct (S i j Hi Hj) as [A B]. destruct (Nat.le_ge_cases i j); [rewrite Nat.min_l, Nat.max_r, A by lia|rewrite Nat.min_r, Nat.max_l, B by lia]; reflexivity.
Qed.
(** For them the objectives of the blocks add up to the objective: refuted.  Step 1 leaves out b in -a*b ... *)
Theorem C50_blocks_refuted : exists d x, shapes (num_vars (a_op d)) (a_op d) /\ mixed_binary (a_op d) /\ admm_compatible (a_op d) = Ok true /\ represents d /\ length x = num_vars (a_op d) /\
  obj_at (p_obj (a_op d)) x <> (o_const (p_obj (a_op d)) + form (a_q0 d) (a_c0 d) (coords x (a_abs d)) + form (a_q1 d) (a_c1 d) (coords x (a_cont d)))%Qc.
Proof.
  destruct (represent ex52 (indices_of BINARY ex52) (indices_of CONTINUOUS ex52)) as [d|] eqn:E; [|vm_compute in E; discriminate E]. exists d, [1; 1]%Qc. destruct (represent_self _ _ E) as [R Eo].
  assert (match represent ex52 (indices_of BINARY ex52) (indices_of CONTINUOUS ex52) with Ok d => negb (qeqb (obj_at (p_obj (a_op d)) [1; 1]%Qc) (o_const (p_obj (a_op d)) + form (a_q0 d) (a_c0 d) (coords [1; 1]%Qc (a_abs d)) + form (a_q1 d) (a_c1 d) (coords [1; 1]%Qc (a_cont d)))) | _ => false end = true) as V by (vm_compute; reflexivity).
  rewrite E in V. rewrite Eo in *. split; [repeat split; simpl; repeat constructor; simpl; try lia; intuition (try congruence; lia)|]. split; [repeat constructor; simpl; discriminate|]. split; [vm_compute; reflexivity|]. split; [exact R|]. split; [reflexivity|].
  intro K. rewrite <- K in V. destruct (qeqb_spec (obj_at (p_obj ex52) [1; 1]%Qc) (obj_at (p_obj ex52) [1; 1]%Qc)); [discriminate V|congruence].
Qed.
(** ... and a product of an integer and a continuous variable, which is accepted, becomes one of binary and continuous variables. *)
Definition exmix : qp := run (new_qp "") [OAddVar 0 (qz 3) INTEGER (Some "i"); OAddVar 0 (qz 10) CONTINUOUS (Some "u"); OObjective MINIMIZE 0 None (Some (QDict [((KS "i", KS "u"), 1%Qc)]))].
Theorem C50_integer_refuted : exists p q tbl i j, prog_wf p /\ admm_compatible p = Ok true /\ int_to_bin p = Ok (q, tbl) /\ is_var BINARY q i /\ is_var CONTINUOUS q j /\ coef2 (o_quad (p_obj q)) i j <> 0%Qc.
Proof.
  destruct (int_to_bin exmix) as [[q tbl]|] eqn:E; [|vm_compute in E; discriminate E]. exists exmix, q, tbl, 0, 2.
  assert (match int_to_bin exmix with Ok (q, _) => match map v_type (p_vars q) with [BINARY; BINARY; CONTINUOUS] => negb (qeqb (coef2 (o_quad (p_obj q)) 0 2) 0) | _ => false end | _ => false end = true) as V by (vm_compute; reflexivity).
  rewrite E in V. split; [apply reachable_wf; repeat constructor|]. split; [vm_compute; reflexivity|]. split; [exact E|]. destruct (p_vars q) as [|v0 [|v1 [|v2 [|]]]] eqn:P; simpl in V; try discriminate V; destruct (v_type v0) eqn:T0; try discriminate V; destruct (v_type v1) eqn:T1; try discriminate V; destruct (v_type v2) eqn:T2; try discriminate V.
  split; [exists v0; rewrite P; auto|]. split; [exists v2; rewrite P; auto|]. intro K. rewrite K in V. discriminate V.
Qed.
(** They add up when there are no such products and step 1 has all binary variables of the objective. *)
Theorem C50_blocks_partial : forall d x, exprs_wf (a_op d) -> quad_upper (o_quad (p_obj (a_op d))) -> mixed_binary (a_op d) -> represents d -> separable (a_op d) ->
  (forall i, is_var BINARY (a_op d) i -> in_obj (a_op d) i -> In i (a_abs d)) -> length x = num_vars (a_op d) ->
  obj_at (p_obj (a_op d)) x = (o_const (p_obj (a_op d)) + form (a_q0 d) (a_c0 d) (coords x (a_abs d)) + form (a_q1 d) (a_c1 d) (coords x (a_cont d)))%Qc.
Proof. exact blocks. Qed.
Example C50_blocks_case : qeqb (obj_at (p_obj min50) [1; qz 2; 1; qz 3]%Qc) (qz (-9)) = true /\ qeqb (form (a_q0 data50) (a_c0 data50) [1; 1]%Qc) (qz (-9)) = true /\ qeqb (form (a_q1 data50) (a_c1 data50) [qz 2; qz 3]) (qz 7) = true /\
  qeqb (o_const (p_obj min50)) (qz (-7)) = true.
Proof. vm_compute. auto. Qed.

(** The constraint residual measures how much the constraints are violated. *)
Theorem C50_residual : forall d x, shapes (num_vars (a_op d)) (a_op d) -> represents d -> length x = num_vars (a_op d) -> exists v, constraint_residual d x = Ok v /\
  v = excess (a_op d) x /\ (0 <= v)%Qc /\ (v = 0%Qc <-> lcs_hold (a_op d) x /\ qcs_hold (a_op d) x).
Proof. intros d x S R L. exists (excess (a_op d) x). split; [now apply residual_total|]. split; [reflexivity|]. split; [apply excess_nonneg|apply excess_zero]. Qed.
Example C50_residual_case : match constraint_residual data50 [1; qz 4; 1; 0]%Qc, constraint_residual data50 [1; qz 2; 0; 1]%Qc with Ok a, Ok b => qeqb a (qz 4) && qeqb b 0 | _, _ => false end = true.
Proof. vm_compute. reflexivity. Qed.

(** Turning to minimization negates the objective of a maximization and changes nothing else. *)
Theorem C50_turn : forall p op, prog_wf p -> turn_to_minimization p = Ok op ->
  p_vars op = p_vars p /\ p_lcs op = p_lcs p /\ p_qcs op = p_qcs p /\ o_sense (p_obj op) = MINIMIZE /\
  (forall x y, at_least MINIMIZE (obj_at (p_obj op) x) (obj_at (p_obj op) y) <-> at_least (o_sense (p_obj p)) (obj_at (p_obj p) x) (obj_at (p_obj p) y)) /\
  (forall x, obj_at (p_obj op) x = match o_sense (p_obj p) with MINIMIZE => obj_at (p_obj p) x | MAXIMIZE => - obj_at (p_obj p) x end)%Qc.
Proof.
  intros p op W H. destruct (turn_inv p op W H) as (_ & A & B & C & D & E & _). repeat (split; [assumption|]). split; [|exact E]. intros x y. rewrite !E. destruct (o_sense (p_obj p)); unfold at_least; [tauto|]. split; intro K; qlra.
Qed.
Example C50_turn_case : o_sense (p_obj ex50) = MAXIMIZE /\ match turn_to_minimization ex50 with Ok q => qeqb (obj_at (p_obj q) [1; qz 2; 1; qz 3]%Qc) (- obj_at (p_obj ex50) [1; qz 2; 1; qz 3])%Qc | _ => false end = true.
Proof. vm_compute. auto. Qed.

(** The result decodes an iterate of smallest merit, measured in the original program. *)
Theorem C50_best : forall qubo cont norm late pr p r d s, prog_wf p -> safe p -> admm_solve qubo cont norm late pr p = Ok (r, (d, s)) ->
  exists q tbl k y, int_to_bin p = Ok (q, tbl) /\
    let decoded j y := exists x, joins q (nth j (i_x0s s) []) (nth j (i_us s) []) x /\ i2b_interpret p (conv_of tbl) q x = Ok y in
    k < length (i_x0s s) /\ decoded k y /\ r_x r = Some y /\ r_fval r = Some (obj_at (p_obj p) y) /\ status_at p y (r_status r) /\
    forall j, j < length (i_x0s s) -> exists y', decoded j y' /\ (merit (ap_mu_merit pr) p y <= merit (ap_mu_merit pr) p y')%Qc.
Proof.
  intros qubo cont norm late pr p r d s W S H. destruct (merits _ _ _ _ _ _ _ _ _ W S H) as (q & tbl & I & Me). destruct (reported _ _ _ _ _ _ _ _ _ W H) as (q' & tbl' & k & x & y & I' & Lk & Mn & J & D & Ly & R1 & R2 & R3).
  assert (q' = q /\ tbl' = tbl) as [-> ->] by (rewrite I in I'; injection I' as -> ->; auto). clear I'.
  assert (length (i_x0s s) = length (i_merits s)) as Ln by (eapply saved_lengths; eauto). rewrite Ln.
  exists q, tbl, k, y. split; [exact I|]. cbv zeta. split; [exact Lk|]. split; [eauto|]. repeat (split; [assumption|]). intros j Hj. destruct (Me j Hj) as (x' & y' & J' & D' & E'). exists y'. split; [eauto|]. rewrite <- E'.
  destruct (Me k Lk) as (x2 & y2 & J2 & D2 & E2). assert (mixed_binary q) as M by exact (mixed_of_i2b p q tbl q W I eq_refl).
  assert (x2 = x) as -> by exact (joins_fun q _ _ _ _ M J2 J). assert (y2 = y) as -> by congruence. rewrite <- E2. now apply Mn.
Qed.
Definition third (k : nat) (q : qp) : result (list Qc) := Ok (repeat (1 / qz 3)%Qc (num_vars q)).
Definition ones (k : nat) (q : qp) : result (list Qc) := Ok (repeat (if Nat.odd k then 1 else 0)%Qc (num_vars q)).
Definition norm1 (v : list Qc) : Qc := sumof qabs v.
Example C50_best_case : safe_b ex50 = true /\ match admm_solve ones third norm1 (fun _ => false) default_params ex50 with
  Ok (r, (_, s)) => Nat.eqb (length (i_merits s)) 10 && qeqb (nth 0 (i_merits s) 0%Qc) (qz 5645 / qz 3)%Qc && qeqb (nth 1 (i_merits s) 0%Qc) (qz 5618 / qz 3)%Qc && match r_x r with Some x => qs_eqb x [1; 1 / qz 3; 1; 1 / qz 3]%Qc | None => false end | _ => false end = true.
Proof. vm_compute. auto. Qed.
(** Without a round there is no result. *)
Theorem C50_no_round : forall qubo cont norm late pr p, ap_maxiter pr = 0 \/ (qz 100 <= ap_tol pr)%Qc \/ late 0 = true -> forall r, admm_solve qubo cont norm late pr p <> Ok r.
Proof. exact no_round. Qed.
Example C50_no_round_case : let pr m := mkAP 1 1 1 m 0 true 0 (qz 2) (qz 2) 1 1 false in
  (match admm_solve ones third norm1 (fun _ => false) (pr 0) ex50 with Err ValueError => true | _ => false end, match admm_solve ones third norm1 (fun _ => false) (pr 1) ex50 with Ok _ => true | _ => false end) = (true, true).
Proof. vm_compute. reflexivity. Qed.

(** ** C51 *)
(** Round k compares the new z with entry k-1 of z0, y0, z1, y1, ...: both kinds are appended to the same list. *)
Theorem C51_stale : forall qubo cont norm late pr p r d s, admm_solve qubo cont norm late pr p = Ok (r, (d, s)) ->
  exists states s0, history qubo cont norm pr d states /\ nth_error states 0 = Some s0 /\ i_zinit s0 = repeat 0%Qc (length (a_bin d)) /\ (ap_warm pr = false -> i_z s0 = i_zinit s0) /\
    length states = S (length (i_dres s)) /\ nth_error states (length (i_dres s)) = Some s /\
    forall k t t', nth_error states k = Some t -> nth_error states (S k) = Some t' -> exists prev, prev_used states (i_zinit s0) k = Some prev /\ nth k (i_dres s) 0%Qc = (i_rho t * norm (minus (i_z t') prev))%Qc.
Proof.
  intros qubo cont norm late pr p r d s H. destruct (solve_history _ _ _ _ _ _ _ _ _ H) as (s0 & k & (states & A & B & C & D & _ & _ & _ & E & _ & _ & _ & F) & Z & Z' & _).
  exists states, s0. rewrite E. repeat (split; [assumption|]). exact F.
Qed.
(** Rounds 0 and 1 compare with the previous z, unless there was a warm start. *)
Theorem C51_dual_partial : forall qubo cont norm late pr p r d s, admm_solve qubo cont norm late pr p = Ok (r, (d, s)) ->
  exists states, history qubo cont norm pr d states /\ length states = S (length (i_dres s)) /\ nth_error states (length (i_dres s)) = Some s /\
    forall k t t', k <= 1 -> k = 1 \/ ap_warm pr = false -> nth_error states k = Some t -> nth_error states (S k) = Some t' -> nth k (i_dres s) 0%Qc = (i_rho t * norm (minus (i_z t') (i_z t)))%Qc.
Proof.
  intros qubo cont norm late pr p r d s H. destruct (C51_stale _ _ _ _ _ _ _ _ _ H) as (states & s0 & A & B & Z & Z' & C & D & F). exists states. repeat (split; [assumption|]).
  intros k t t' Hk Hw T T'. destruct (F k t t' T T') as (prev & P & ->). destruct k as [|[|k]]; [| |lia].
  - destruct Hw as [Hw|Hw]; [discriminate|]. cbn [prev_used] in P. assert (s0 = t) as -> by congruence. assert (prev = i_z t) as -> by (rewrite (Z' Hw); congruence). reflexivity.
  - unfold prev_used in P. change (S (Nat.div2 0)) with 1 in P. rewrite T in P. cbn [option_map Nat.even] in P. congruence.
Qed.
(** Later rounds: refuted.  The subproblems of the witness have one variable, and both solvers give their optimum. *)
Definition clip (v : variable) (x : Qc) : Qc := if qltb x (v_lb v) then v_lb v else if qltb (v_ub v) x then v_ub v else x.
Definition best1 (k : nat) (q : qp) : result (list Qc) :=
  match p_vars q with
  | [v] => let a := coef2 (o_quad (p_obj q)) 0 0 in let b := coef1 (o_lin (p_obj q)) 0 in
           Ok [match v_type v with BINARY => if qltb (a + b) 0 then 1%Qc else 0%Qc | _ => fold_left (fun x c => if qltb (lc_rhs c) x then lc_rhs c else x) (p_lcs q) (clip v (- b / (qz 2 * a))%Qc) end]
  | _ => Err ValueError
  end.
Definition ex51 : qp := run (new_qp "") [OAddVar 0 1 BINARY (Some "a"); OObjective MINIMIZE 0 (Some (LDict [(KS "a", qz (-1))])) None; OLinCon (Some (LDict [(KS "a", 1%Qc)])) (SStr "<=") (1 / qz 2)%Qc (Some "c")].
Definition pars51 (warm : bool) := mkAP 1 (qz 1) (qz 1) 3 (1 / qz 1000000)%Qc true 0 (qz 2) (qz 2) (qz 10) (qz 1000) warm.
Theorem C51_dual_refuted : exists qubo cont norm late pr p r d s, (forall v, norm v = sumof qabs v) /\ ap_warm pr = false /\ prog_wf p /\ admm_solve qubo cont norm late pr p = Ok (r, (d, s)) /\
  exists states t t', history qubo cont norm pr d states /\ nth_error states 2 = Some t /\ nth_error states 3 = Some t' /\ t' = s /\ i_z t' = i_z t /\ nth 2 (i_dres s) 0%Qc <> (i_rho t * norm (minus (i_z t') (i_z t)))%Qc.
Proof.
  destruct (admm_solve best1 best1 norm1 (fun _ => false) (pars51 false) ex51) as [[r [d s]]|] eqn:E; [|vm_compute in E; discriminate E]. exists best1, best1, norm1, (fun _ => false), (pars51 false), ex51, r, d, s.
  split; [reflexivity|]. split; [reflexivity|]. split; [apply reachable_wf; repeat constructor|]. split; [exact E|].
  assert (match admm_solve best1 best1 norm1 (fun _ => false) (pars51 false) ex51 with Ok (r, (d, s)) => Nat.eqb (length (i_dres s)) 3 && negb (qeqb (nth 2 (i_dres s) 0%Qc) 0) && qs_eqb (nth 4 (i_zs s) []) (nth 2 (i_zs s) []) | _ => false end = true) as V by (vm_compute; reflexivity).
  rewrite E in V. apply andb_true_iff in V. destruct V as [V V3]. apply andb_true_iff in V. destruct V as [V1 V2]. apply Nat.eqb_eq in V1. apply qs_eqb_eq in V3.
  destruct (solve_history _ _ _ _ _ _ _ _ _ E) as (s0 & k & (states & A & B & C & D & _ & _ & _ & Ld & _ & _ & Zs & _) & _). assert (k = 3) as -> by congruence.
  destruct (nth_error states 2) as [t|] eqn:T; [|apply nth_error_None in T; lia]. exists states, t, s. repeat (split; [assumption||reflexivity|]).
  destruct (Zs 1 t T) as [Z1 _]. destruct (Zs 2 s D) as [Z2 _]. cbn [plus] in Z1, Z2. apply nth_error_nth with (d := []) in Z1, Z2. assert (i_z s = i_z t) as Ez by congruence. split; [exact Ez|].
  rewrite Ez. intro K. rewrite K in V2. assert (norm1 (minus (i_z t) (i_z t)) = 0%Qc) as Zn.
  { unfold norm1, minus. rewrite sumof_map. apply sumof_zero. intros i _. replace (at_ (i_z t) i - at_ (i_z t) i)%Qc with 0%Qc by ring. reflexivity. }
  rewrite Zn in V2. replace (i_rho t * 0)%Qc with 0%Qc in V2 by ring. destruct (qeqb_spec 0 0); [discriminate V2|congruence].
Qed.
(** With a warm start even the first round compares with zero and not with the start. *)
Theorem C51_warm_refuted : exists qubo cont norm late pr p r d s, (forall v, norm v = sumof qabs v) /\ prog_wf p /\ admm_solve qubo cont norm late pr p = Ok (r, (d, s)) /\
  exists states t t', history qubo cont norm pr d states /\ nth_error states 0 = Some t /\ nth_error states 1 = Some t' /\ nth 0 (i_dres s) 0%Qc <> (i_rho t * norm (minus (i_z t') (i_z t)))%Qc.
Proof.
  destruct (admm_solve best1 third norm1 (fun _ => false) (pars51 true) ex51) as [[r [d s]]|] eqn:E; [|vm_compute in E; discriminate E]. exists best1, third, norm1, (fun _ => false), (pars51 true), ex51, r, d, s.
  split; [reflexivity|]. split; [apply reachable_wf; repeat constructor|]. split; [exact E|].
  assert (match admm_solve best1 third norm1 (fun _ => false) (pars51 true) ex51 with Ok (r, (d, s)) => negb (qeqb (nth 0 (i_dres s) 0%Qc) 0) && negb (Nat.eqb (length (i_dres s)) 0) && qs_eqb (nth 0 (i_zs s) []) [1 / qz 3]%Qc && match start third (pars51 true) (a_op d) (indices_of BINARY (a_op d)) (indices_of CONTINUOUS (a_op d)) with Ok s0 => qs_eqb (i_z s0) [1 / qz 3]%Qc | _ => false end | _ => false end = true) as V by (vm_compute; reflexivity).
  rewrite E in V. apply andb_true_iff in V. destruct V as [V V4]. apply andb_true_iff in V. destruct V as [V V3]. apply andb_true_iff in V. destruct V as [V1 V2]. apply qs_eqb_eq in V3.
  pose proof (solve_inv _ _ _ _ _ _ _ _ _ E) as (q & tbl & s0 & k0 & _ & I & T & St & R & Lp & _). rewrite St in V4. apply qs_eqb_eq in V4. destruct (start_kept best1 _ norm1 _ _ _ _ R St) as (K & _).
  destruct (loop_ind best1 third norm1 (fun _ => false) (pars51 true) (AdmmFacts7.kept best1 third norm1 (pars51 true) d s0) d) with (more := ap_maxiter (pars51 true)) (k := 0) (res := qz 100) (s := s0) (s' := s) as (k & Hk & G); auto; [intros; eapply kept_step; eauto|].
  destruct G as (states & A & B & C & D & _ & _ & _ & Ld & _ & _ & Zs & _). destruct k as [|k]; [rewrite Ld in V2; discriminate V2|].
  destruct (nth_error states 1) as [t|] eqn:T1; [|apply nth_error_None in T1; lia]. exists states, s0, t. repeat (split; [assumption|]). destruct (Zs 0 t T1) as [Z1 _]. cbn [plus] in Z1. apply nth_error_nth with (d := []) in Z1.
  assert (i_z t = i_z s0) as -> by congruence. intro X. rewrite X in V1. assert (norm1 (minus (i_z s0) (i_z s0)) = 0%Qc) as Zn.
  { unfold norm1, minus. rewrite sumof_map. apply sumof_zero. intros i _. replace (at_ (i_z s0) i - at_ (i_z s0) i)%Qc with 0%Qc by ring. reflexivity. }
  rewrite Zn in V1. replace (i_rho s0 * 0)%Qc with 0%Qc in V1 by ring. destruct (qeqb_spec 0 0); [discriminate V1|congruence].
Qed.
Example C51_case : match admm_solve best1 best1 norm1 (fun _ => false) (pars51 false) ex51 with
  Ok (_, (_, s)) => qs_eqb (i_dres s) [1 / qz 2; 0; qz 121 / qz 400]%Qc && forallb (fun k => qs_eqb (nth k (i_zs s) []) [1 / qz 2]%Qc) [0; 2; 4] | _ => false end = true.
Proof. vm_compute. reflexivity. Qed.

(** rho shrinks when the dual residual dominates: refuted with the default tau_decr = 2, by which rho is multiplied and not divided. *)
Theorem C51_shrink_refuted : exists rho primal dual, let pr := mkAP rho (qz 100000) (qz 1000) 10 (1 / qz 10000)%Qc true 1 (ap_incr default_params) (ap_decr default_params) (ap_mu_res default_params) (qz 1000) false in
  (0 < rho)%Qc /\ (0 <= primal)%Qc /\ (ap_mu_res pr * primal < dual)%Qc /\ (rho < update_rho pr rho primal dual)%Qc.
Proof. exists (qz 10000), (qz 1), (qz 11). cbv zeta. repeat split; vm_compute; reflexivity || discriminate. Qed.
(** With the defaults rho is doubled whenever one residual is more than ten times the other, whichever it is. *)
Theorem C51_doubled : forall pr rho primal dual, ap_vary pr = 1 -> ap_incr pr = ap_incr default_params -> ap_decr pr = ap_decr default_params -> ap_mu_res pr = ap_mu_res default_params ->
  ((qz 10 * dual < primal)%Qc \/ (qz 10 * primal < dual)%Qc -> update_rho pr rho primal dual = (rho + rho)%Qc) /\
  ((primal <= qz 10 * dual)%Qc -> (dual <= qz 10 * primal)%Qc -> update_rho pr rho primal dual = rho).
Proof.
  intros pr rho primal dual V I De M. unfold update_rho. rewrite V, I, De, M. cbn [default_params ap_incr ap_decr ap_mu_res]. assert (qz 2 * rho = rho + rho)%Qc as -> by (replace (qz 2) with (1 + 1)%Qc by (apply Qc_is_canon; reflexivity); ring).
  destruct (qltb_spec (qz 10 * dual) primal) as [A|A]; [split; [reflexivity|intro B; exfalso; qlra]|]. destruct (qltb_spec (qz 10 * primal) dual) as [B|B]; [split; [reflexivity|intros _ C; exfalso; qlra]|]. split; [intros [C|C]; contradiction|reflexivity].
Qed.
(** It does for a factor below 1, grows when the primal residual dominates, and stays otherwise ... *)
Theorem C51_rho_partial : forall pr rho primal dual, ap_vary pr = 1 -> (0 < rho)%Qc -> (0 <= primal)%Qc -> (0 <= dual)%Qc -> (1 <= ap_mu_res pr)%Qc -> (1 < ap_incr pr)%Qc -> (ap_decr pr < 1)%Qc ->
  ((ap_mu_res pr * dual < primal)%Qc -> (rho < update_rho pr rho primal dual)%Qc) /\
  ((ap_mu_res pr * primal < dual)%Qc -> (update_rho pr rho primal dual < rho)%Qc) /\
  ((primal <= ap_mu_res pr * dual)%Qc -> (dual <= ap_mu_res pr * primal)%Qc -> update_rho pr rho primal dual = rho).
Proof.
  intros pr rho primal dual V R P D M I De. unfold update_rho. rewrite V.
  destruct (qltb_spec (ap_mu_res pr * dual) primal) as [A|A].
  - split; [intros _; qnra|]. split; [intro B; exfalso|intros B _; exfalso; qlra]. assert (dual <= ap_mu_res pr * dual)%Qc by qnra. assert (primal <= ap_mu_res pr * primal)%Qc by qnra. qlra.
  - destruct (qltb_spec (ap_mu_res pr * primal) dual) as [B|B].
    + split; [intro K; exfalso; qlra|]. split; [intros _; qnra|]. intros _ K. exfalso. qlra.
    + split; [intro K; exfalso; qlra|]. split; [intro K; exfalso; qlra|]. intros _ _. reflexivity.
Qed.
(** ... and without residuals it grows by ten percent up to 1e10. *)
Theorem C51_ten_percent : forall pr rho primal dual, ap_vary pr = 0 -> (0 < rho)%Qc ->
  ((rho < qz 10000000000)%Qc -> (rho < update_rho pr rho primal dual)%Qc /\ (update_rho pr rho primal dual - rho = rho / qz 10)%Qc) /\ ((qz 10000000000 <= rho)%Qc -> update_rho pr rho primal dual = rho).
Proof.
  intros pr rho primal dual V R. unfold update_rho. rewrite V. assert ((qz 11 / qz 10)%Qc = (1 + 1 / qz 10)%Qc) as Ten by (apply Qc_is_canon; reflexivity). assert (0 < 1 / qz 10)%Qc as P by reflexivity.
  destruct (qltb_spec rho (qz 10000000000)) as [A|A].
  - split; [intros _|intro B; exfalso; clear Ten P; qlra]. rewrite Ten. split; [|unfold Qcdiv; ring]. clear Ten. set (t := (1 / qz 10)%Qc) in *. qnra.
  - split; [intro B; exfalso; clear Ten P; qlra|reflexivity].
Qed.
Example C51_doubled_case : let pr := mkAP 1 1 1 10 0 true 1 (ap_incr default_params) (ap_decr default_params) (ap_mu_res default_params) 1 false in
  qs_eqb (map (fun pd => update_rho pr (qz 5) (fst pd) (snd pd)) [(qz 11, 1); (1, qz 11); (qz 10, 1); (1, qz 10)]%Qc) [qz 10; qz 10; qz 5; qz 5] = true.
Proof. vm_compute. reflexivity. Qed.
Example C51_rho_case : let pr v dcr := mkAP 1 1 1 10 0 true v (qz 2) dcr (qz 10) 1 false in
  map (fun q => qeqb (fst q) (snd q)) [(update_rho (pr 1 (qz 2)) (qz 100) (qz 1) (qz 11), qz 200); (update_rho (pr 1 (1 / qz 2)%Qc) (qz 100) (qz 1) (qz 11), qz 50); (update_rho (pr 1 (qz 2)) (qz 100) (qz 11) (qz 1), qz 200); (update_rho (pr 1 (qz 2)) (qz 100) (qz 1) (qz 1), qz 100); (update_rho (pr 0 (qz 2)) (qz 100) (qz 1) (qz 1), qz 110)] = [true; true; true; true; true].
Proof. vm_compute. reflexivity. Qed.

(** ** C52 *)
(** Step 1 gets the binary variables that are alone or first in an objective term or have a positive coefficient in an equality of binary variables. *)
Theorem C52_exactly : forall d, exprs_wf (a_op d) -> represents d ->
  StronglySorted lt (a_abs d) /\
  (forall i, In i (a_abs d) <-> is_var BINARY (a_op d) i /\ (leads (a_op d) i \/ exists c, binary_eq (a_op d) c /\ (0 < coef1 (lc_lin c) i)%Qc)) /\
  Forall2 (fun a j => nth_error (indices_of BINARY (a_op d)) j = Some a) (a_abs d) (a_rel d).
Proof. intros d W R. pose proof (represents_split d R) as [<- _]. now apply step1_spec. Qed.
(** These are all that occur in the objective and in equalities when no variable is only a second factor, and equalities have nonnegative coefficients of binary variables only. *)
Theorem C52_partial : forall d, exprs_wf (a_op d) -> represents d ->
  (forall i, is_var BINARY (a_op d) i -> in_obj (a_op d) i -> leads (a_op d) i) ->
  (forall c i, In c (p_lcs (a_op d)) -> lc_sense c = EQ -> coef1 (lc_lin c) i <> 0%Qc -> binary_eq (a_op d) c /\ (0 <= coef1 (lc_lin c) i)%Qc) ->
  forall i, is_var BINARY (a_op d) i -> in_obj (a_op d) i \/ (exists c, In c (p_lcs (a_op d)) /\ lc_sense c = EQ /\ coef1 (lc_lin c) i <> 0%Qc) -> In i (a_abs d).
Proof.
  intros d W R H1 H2 i V H. apply (proj1 (proj2 (C52_exactly d W R))). split; auto. destruct H as [H|(c & A & B & C)]; [left; auto|right]. destruct (H2 c i A B C) as [D E]. exists c. split; auto.
  destruct (qltb_spec 0 (coef1 (lc_lin c) i)) as [L|L]; [exact L|]. exfalso. apply C. apply Qcle_antisym; qlra.
Qed.
(** All of them: refuted.  The second factor of a product is left out, ... *)
Theorem C52_product_refuted : exists p i, prog_wf p /\ in_obj p i /\ misses p i.
Proof.
  exists ex52, 1. split; [apply reachable_wf; repeat constructor|]. split; [right; exists 0; right; vm_compute; discriminate|].
  destruct (represent ex52 (indices_of BINARY ex52) (indices_of CONTINUOUS ex52)) as [d|] eqn:E; [|vm_compute in E; discriminate E]. eapply (misses_by _ _ [0] d E); [|eexists; split; reflexivity|intros [K|[]]; discriminate].
  assert (match represent ex52 (indices_of BINARY ex52) (indices_of CONTINUOUS ex52) with Ok d => a_abs d | _ => [] end = [0]) as V by (vm_compute; reflexivity). now rewrite E in V.
Qed.
(** ... a negative coefficient of an equality is not seen, ... *)
Definition exneg (t : vartype) (c : Qc) : qp := run (new_qp "") [OAddVar 0 1 BINARY (Some "a"); OAddVar 0 1 BINARY (Some "b"); OAddVar 0 1 t (Some "c"); OObjective MINIMIZE 0 None None; OLinCon (Some (LDict [(KS "a", 1%Qc); (KS "b", qz (-1)); (KS "c", c)])) (SStr "=") 0 (Some "e")].
Theorem C52_negative_refuted : exists p i, prog_wf p /\ in_equality p i /\ misses p i.
Proof.
  exists (exneg BINARY (qz 1)), 1. split; [apply reachable_wf; repeat constructor|]. split; [eexists; split; [left; reflexivity|split; [reflexivity|vm_compute; discriminate]]|].
  destruct (represent (exneg BINARY (qz 1)) (indices_of BINARY (exneg BINARY (qz 1))) (indices_of CONTINUOUS (exneg BINARY (qz 1)))) as [d|] eqn:E; [|vm_compute in E; discriminate E]. eapply (misses_by _ _ [0; 2] d E); [|eexists; split; reflexivity|intros [K|[K|[]]]; discriminate].
  assert (match represent (exneg BINARY (qz 1)) (indices_of BINARY (exneg BINARY (qz 1))) (indices_of CONTINUOUS (exneg BINARY (qz 1))) with Ok d => a_abs d | _ => [] end = [0; 2]) as V by (vm_compute; reflexivity). now rewrite E in V.
Qed.
(** ... and no variable of an equality with a continuous variable is. *)
Theorem C52_mixed_refuted : exists p i, prog_wf p /\ in_equality p i /\ misses p i /\ exists c, In c (p_lcs p) /\ lc_sense c = EQ /\ (0 < coef1 (lc_lin c) i)%Qc.
Proof.
  exists (exneg CONTINUOUS (qz 1)), 0. split; [apply reachable_wf; repeat constructor|]. split; [eexists; split; [left; reflexivity|split; [reflexivity|vm_compute; discriminate]]|]. split; [|eexists; split; [left; reflexivity|split; [reflexivity|vm_compute; reflexivity]]].
  destruct (represent (exneg CONTINUOUS (qz 1)) (indices_of BINARY (exneg CONTINUOUS (qz 1))) (indices_of CONTINUOUS (exneg CONTINUOUS (qz 1)))) as [d|] eqn:E; [|vm_compute in E; discriminate E]. eapply (misses_by _ _ [] d E); [|eexists; split; reflexivity|intros []].
  assert (match represent (exneg CONTINUOUS (qz 1)) (indices_of BINARY (exneg CONTINUOUS (qz 1))) (indices_of CONTINUOUS (exneg CONTINUOUS (qz 1))) with Ok d => a_abs d | _ => [] end = []) as V by (vm_compute; reflexivity). now rewrite E in V.
Qed.
(** A binary variable left out is 0 in every iterate (unless a warm start puts it elsewhere and step 1 is never done) ... *)
Theorem C52_missed : forall qubo cont norm late pr p r d s i, prog_wf p -> admm_solve qubo cont norm late pr p = Ok (r, (d, s)) -> ap_warm pr = false \/ a_abs d <> [] ->
  is_var BINARY (a_op d) i -> ~ In i (a_abs d) -> forall j x, j < length (i_merits s) -> joins (a_op d) (nth j (i_x0s s) []) (nth j (i_us s) []) x -> at_ x i = 0%Qc.
Proof. exact missed_zero. Qed.
(** ... so that no run, whatever the solvers and parameters, finds the optimum of -a*b. *)
Theorem C52_lost_refuted : exists p x, prog_wf p /\ optimal p x /\ (exists r ds, admm_solve ones third norm1 (fun _ => false) default_params p = Ok (r, ds)) /\
  forall qubo cont norm late pr r ds y, admm_solve qubo cont norm late pr p = Ok (r, ds) -> r_x r = Some y -> ~ optimal p y.
Proof.
  assert (prog_wf ex52) as W by (apply reachable_wf; repeat constructor). exists ex52, [1; 1]%Qc. split; auto.
  assert (feasible ex52 [1; 1]%Qc) as F by (apply feas_b_spec; vm_compute; reflexivity). assert (obj_at (p_obj ex52) [1; 1]%Qc = qz (-1)) as O by (apply Qc_is_canon; vm_compute; reflexivity).
  assert (forall y, feasible ex52 y -> exists a b, y = [a; b] /\ obj_at (p_obj ex52) y = (- (a * b))%Qc /\ (a = 0 \/ a = 1)%Qc /\ (b = 0 \/ b = 1)%Qc) as Fe.
  { intros y Fy. pose proof (Forall2_length _ _ _ (proj1 Fy)) as Ly. destruct y as [|a [|b [|]]]; try discriminate Ly. exists a, b. split; auto. split; [apply ex52_at|]. apply ex52_bits in Fy. exact Fy. }
  split. { split; auto. intros y Fy. destruct (Fe y Fy) as (a & b & -> & Oy & A & B). rewrite O, Oy. simpl. destruct A as [->| ->], B as [->| ->]; vm_compute; discriminate. }
  split. { destruct (admm_solve ones third norm1 (fun _ => false) default_params ex52) as [[r ds]|] eqn:E; [eauto|]. vm_compute in E. discriminate E. }
  intros qubo cont norm late pr r [d s] y H Ry [Fy Oy]. specialize (Oy _ F). change (obj_at (p_obj ex52) y <= obj_at (p_obj ex52) [1; 1]%Qc)%Qc in Oy. destruct (reported _ _ _ _ _ _ _ _ _ W H) as (q & tbl & k & x & y' & I & Lk & _ & J & D & Ly & R1 & _).
  assert (y' = y) as -> by congruence.
  pose proof (solve_inv _ _ _ _ _ _ _ _ _ H) as (q' & tbl' & s0 & k0 & _ & I' & T & _ & R & _). assert (q' = q) as -> by congruence.
  assert (match int_to_bin ex52 with Ok (q, t) => match turn_to_minimization q with Ok op => match represent op (indices_of BINARY op) (indices_of CONTINUOUS op) with Ok d => match a_abs d with [0] => true | _ => false end && match map v_type (p_vars op) with [BINARY; BINARY] => true | _ => false end | _ => false end | _ => false end | _ => false end = true) as V by (vm_compute; reflexivity).
  rewrite I in V. rewrite T in V. unfold represents in R. rewrite R in V. apply andb_true_iff in V. destruct V as [V1 V2].
  destruct (a_abs d) as [|[|] [|]] eqn:Ea; try discriminate V1. destruct (p_vars (a_op d)) as [|v0 [|v1 [|]]] eqn:Ev; simpl in V2; try discriminate V2; destruct (v_type v0) eqn:T0; try discriminate V2; destruct (v_type v1) eqn:T1; try discriminate V2.
  assert (p_vars (a_op d) = p_vars q) as Eq by exact (proj1 (proj2 (turn_inv _ _ (int_to_bin_wf _ _ _ W I) T))).
  assert (at_ x 1 = 0%Qc) as Z.
  { apply (missed_zero _ _ _ _ _ _ _ _ _ 1 W H) with (j := k); auto; [right; congruence|exists v1; rewrite Ev; auto|rewrite Ea; intros [K|[]]; discriminate|]. destruct J as (J1 & J2 & J3). unfold joins, num_vars. rewrite Eq. auto. }
  assert (int_to_bin ex52 = Ok (ex52, [])) as I2 by reflexivity. rewrite I2 in I. injection I as <- <-. rewrite (i2b_id_interpret ex52 W) in D; [|repeat constructor|apply J]. assert (x = y) as <- by congruence.
  destruct (Fe x Fy) as (a & b & -> & Ox & _). unfold at_ in Z. cbn [nth] in Z. subst b. rewrite O, Ox in Oy. revert Oy. replace (- (a * 0))%Qc with 0%Qc by ring. vm_compute. intro K. apply K. reflexivity.
Qed.
Example C52_case : a_abs data50 = [0; 2] /\ match represent ex52 (indices_of BINARY ex52) (indices_of CONTINUOUS ex52) with Ok d => (a_abs d, a_rel d) | Err _ => ([], []) end = ([0], [0]) /\
  match admm_solve ones ones norm1 (fun _ => false) default_params ex52 with Ok (r, _) => match r_x r with Some x => qs_eqb x [0; 0]%Qc | None => false end | Err _ => false end = true.
Proof. vm_compute. auto. Qed.

Print Assumptions C50_represented.
Print Assumptions C50_split.
Print Assumptions C50_recombine.
Print Assumptions C50_compatible.
Print Assumptions C50_blocks_refuted.
Print Assumptions C50_integer_refuted.
Print Assumptions C50_blocks_partial.
Print Assumptions C50_residual.
Print Assumptions C50_turn.
Print Assumptions C50_best.
Print Assumptions C50_no_round.
Print Assumptions C51_stale.
Print Assumptions C51_dual_partial.
Print Assumptions C51_dual_refuted.
Print Assumptions C51_warm_refuted.
Print Assumptions C51_shrink_refuted.
Print Assumptions C51_doubled.
Print Assumptions C51_rho_partial.
Print Assumptions C51_ten_percent.
Print Assumptions C52_exactly.
Print Assumptions C52_partial.
Print Assumptions C52_product_refuted.
Print Assumptions C52_negative_refuted.
Print Assumptions C52_mixed_refuted.
Print Assumptions C52_missed.
Print Assumptions C52_lost_refuted.
