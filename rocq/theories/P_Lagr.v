(** * C75: the subproblems of the ADMM optimizer are the blocks of its augmented Lagrangian *)
From Verif Require Import LagrFacts3 ConvMore.
Local Open Scope string_scope.
Local Open Scope list_scope.
Local Open Scope nat_scope.

(** ** Step 1 *)
(** Up to a constant the QUBO of step 1 is the Lagrangian as a function of the binary variables that it has. *)
Theorem C75_step1 : forall pr d s, two_blocks (a_op d) -> represents d -> sized_blocks d s ->
  exists op1, step1_problem pr d s = Ok op1 /\ free_block (a_op d) (a_abs d) BINARY 0 1 op1 /\
  forall rows u, picks (binary_eq (a_op d)) (p_lcs (a_op d)) rows -> exists K, forall x0 x, joins (a_op d) x0 u x -> rest_zero d x ->
    lagrangian (a_op d) rows (i_rho s) (ap_c pr) (ap_beta pr) (i_lam s) x0 (i_z s) (i_y s) x = (obj_at (p_obj op1) (map (at_ x) (a_abs d)) + K)%Qc.
Proof. intros pr d s T R Sz. pose proof T as (W & Sh & U & P & M & Sep & Mn). apply step1_lagr; auto; [now apply two_names|now apply two_exprs]. Qed.
(** a - 2b + u^2 - 3u + 1, a + u <= 3, a + b = 1, b + u >= 1, and a variable c that occurs nowhere *)
Definition op75 : qp := run (new_qp "") [OAddVar 0 1 BINARY (Some "a"); OAddVar 0 (qz 10) CONTINUOUS (Some "u"); OAddVar 0 1 BINARY (Some "b"); OAddVar 0 1 BINARY (Some "c");
  OObjective MINIMIZE 1%Qc (Some (LDict [(KS "a", 1%Qc); (KS "b", qz (-2)); (KS "u", qz (-3))])) (Some (QDict [((KS "u", KS "u"), 1%Qc)]));
  OLinCon (Some (LDict [(KS "a", 1%Qc); (KS "u", 1%Qc)])) (SStr "<=") (qz 3) (Some "c0");
  OLinCon (Some (LDict [(KS "a", 1%Qc); (KS "b", 1%Qc)])) (SStr "=") 1%Qc (Some "c1");
  OLinCon (Some (LDict [(KS "b", 1%Qc); (KS "u", 1%Qc)])) (SStr ">=") 1%Qc (Some "c2")].
Definition no_data (p : qp) : admm_data := mkAD p [] [] [] [] [] [] [] [] [] [] [] [] [] [] [].
Definition data_of (p : qp) : admm_data := match represent p (indices_of BINARY p) (indices_of CONTINUOUS p) with Ok d => d | Err _ => no_data p end.
Definition state75 : admm_iter := mkAI [1; 0; 0]%Qc [qz 2] [1 / qz 2; 1 / qz 4; 0]%Qc [qz 3; qz (-1); qz 2] [qz 5; qz 7; qz 4] (qz 6) [0; 0; 0]%Qc [] [] [] [] [] [] [] [].
Definition pr75 : admm_params := mkAP (qz 6) (qz 10) (qz 4) 10 (1 / qz 10000)%Qc true 0 (qz 2) (qz 2) (qz 10) (qz 1000) false.
Definition at75 (x0 z y x : list Qc) : Qc := lagrangian op75 [nth 1 (p_lcs op75) (mkLC "" (mkLin 0 false []) LE 0)] (qz 6) (qz 10) (qz 4) (i_lam state75) x0 z y x.
Definition obj_of (r : result qp) (x : list Qc) : Qc := match r with Ok q => obj_at (p_obj q) x | Err _ => 0%Qc end.
Lemma op75_ready : two_blocks op75 /\ float_objective op75 /\ no_binary_products op75.
Proof.
  split; [|split; [split; reflexivity|apply no_products_b; vm_compute; reflexivity]]. split; [apply reachable_wf; repeat constructor|].
  split; [unfold shapes, lin_shape, quad_shape, lin_wf, quad_wf; vm_compute; repeat constructor; cbn; intuition discriminate|]. split; [vm_compute; repeat constructor|]. split; [apply plain_b_spec; vm_compute; reflexivity|].
  split; [repeat constructor; discriminate|]. split; [apply separable_b; vm_compute; reflexivity|reflexivity].
Qed.
(** For all four choices of a and b the difference is the same. *)
Example C75_step1_case : (a_abs (data_of op75), a_rel (data_of op75)) = ([0; 2], [0; 1]) /\
  forallb (fun ab => qeqb (at75 [fst ab; snd ab; 0]%Qc (i_z state75) (i_y state75) [fst ab; qz 2; snd ab; 0]%Qc - obj_of (step1_problem pr75 (data_of op75) state75) [fst ab; snd ab])
                          (at75 [0; 0; 0]%Qc (i_z state75) (i_y state75) [0; qz 2; 0; 0]%Qc)) [(0, 0); (0, 1); (1, 0); (1, 1)]%Qc = true /\
  qeqb (obj_of (step1_problem pr75 (data_of op75) state75) [1; 0]%Qc) (qz (-17)) = true.
Proof. vm_compute. auto. Qed.

(** ** Step 2 *)
(** Its points are those of the second block ... *)
Theorem C75_step2_points : forall d s, two_blocks (a_op d) -> represents d -> exists op2, step2_problem d s = Ok op2 /\ o_sense (p_obj op2) = MINIMIZE /\ forall x, feasible op2 x <-> block2 (a_op d) x.
Proof.
  intros d s T R. pose proof T as (W & Sh & U & P & M & Sep & Mn). destruct (step2_shape d s Sh (proj1 (proj2 W)) P M R) as (op2 & E & F & Se & _). exists op2. rewrite Se. auto.
Qed.
(** ... and up to a constant and the products of binary variables, which remain with z in the place of x0, its objective is the Lagrangian as a function of z and u. *)
Theorem C75_step2_products_partial : forall pr d s, two_blocks (a_op d) -> float_objective (a_op d) -> represents d -> sized_blocks d s ->
  exists op2, step2_problem d s = Ok op2 /\ forall rows, picks (binary_eq (a_op d)) (p_lcs (a_op d)) rows -> exists K, forall z u x x2, joins (a_op d) (i_x0 s) u x -> joins (a_op d) z u x2 ->
    (lagrangian (a_op d) rows (i_rho s) (ap_c pr) (ap_beta pr) (i_lam s) (i_x0 s) z (i_y s) x + bit_products (a_op d) x2 = obj_at (p_obj op2) x2 + K)%Qc.
Proof.
  intros pr d s T F R Sz. pose proof T as (W & Sh & U & P & M & Sep & Mn). destruct (step2_lagr pr d s Sh (proj1 (proj2 W)) P M Sep F R Sz) as (op2 & E & _ & _ & H). exists op2. auto.
Qed.
Example C75_step2_case : option_map (fun q => map lc_name (p_lcs q)) (match step2_problem (data_of op75) state75 with Ok q => Some q | Err _ => None end) = Some ["c0"; "c2"] /\
  forallb (fun z => qeqb (at75 (i_x0 state75) (firstn 3 z) (i_y state75) [1; nth 3 z 0; 0; 0]%Qc - obj_of (step2_problem (data_of op75) state75) [nth 0 z 0; nth 3 z 0; nth 1 z 0; nth 2 z 0]%Qc)
                         (at75 (i_x0 state75) [0; 0; 0]%Qc (i_y state75) [1; 0; 0; 0]%Qc - 1)%Qc) [[0; 0; 0; 0]; [1; 0; 1; qz 2]; [1 / qz 2; 1 / qz 3; 0; qz 3]; [qz 1; 1; 1; qz 7]]%Qc = true /\
  qeqb (obj_of (step2_problem (data_of op75) state75) [1; qz 2; 1; 1]%Qc) (qz 10) = true.
Proof. vm_compute. auto. Qed.
(** Without the second summand: refuted, for a*b + a + b ... *)
Definition ex75p : qp := run (new_qp "") [OAddVar 0 1 BINARY (Some "a"); OAddVar 0 1 BINARY (Some "b");
  OObjective MINIMIZE 0%Qc (Some (LDict [(KS "a", 1%Qc); (KS "b", 1%Qc)])) (Some (QDict [((KS "a", KS "b"), 1%Qc)]))].
Definition zero75 (n : nat) : admm_iter := mkAI (repeat 0%Qc n) [] (repeat 0%Qc n) (repeat 0%Qc n) (repeat 0%Qc n) 1%Qc (repeat 0%Qc n) [] [] [] [] [] [] [] [].
Definition never_lagrangian (pr : admm_params) (d : admm_data) (s : admm_iter) (op2 : qp) : Prop :=
  ~ exists K, forall z u x x2, joins (a_op d) (i_x0 s) u x -> joins (a_op d) z u x2 ->
    (lagrangian (a_op d) [] (i_rho s) (ap_c pr) (ap_beta pr) (i_lam s) (i_x0 s) z (i_y s) x = obj_at (p_obj op2) x2 + K)%Qc.
Theorem C75_products_refuted : exists pr d s op2, two_blocks (a_op d) /\ float_objective (a_op d) /\ represents d /\ sized_blocks d s /\ p_lcs (a_op d) = [] /\
  step2_problem d s = Ok op2 /\ never_lagrangian pr d s op2.
Proof.
  exists pr75, (data_of ex75p), (zero75 2). destruct (step2_problem (data_of ex75p) (zero75 2)) as [op2|] eqn:E; [|vm_compute in E; discriminate E]. exists op2.
  split. { split; [apply reachable_wf; repeat constructor|]. split; [unfold shapes, lin_shape, quad_shape, lin_wf, quad_wf; vm_compute; repeat constructor; cbn; intuition discriminate|]. split; [vm_compute; repeat constructor|].
    split; [apply plain_b_spec; vm_compute; reflexivity|]. split; [repeat constructor; discriminate|]. split; [apply separable_b; vm_compute; reflexivity|reflexivity]. }
  split; [split; reflexivity|]. split; [vm_compute; reflexivity|]. split; [repeat split|]. split; [reflexivity|]. split; [reflexivity|].
  intros (K & H). assert (forall a b, joins ex75p [a; b] [] [a; b]) as J by (intros; repeat split). change (a_op (data_of ex75p)) with ex75p in H.
  pose proof (H [0; 0]%Qc [] [0; 0]%Qc [0; 0]%Qc (J _ _) (J _ _)) as H0. pose proof (H [1; 1]%Qc [] [0; 0]%Qc [1; 1]%Qc (J _ _) (J _ _)) as H1. pose proof (H [1; 0]%Qc [] [0; 0]%Qc [1; 0]%Qc (J _ _) (J _ _)) as H2. pose proof (H [0; 1]%Qc [] [0; 0]%Qc [0; 1]%Qc (J _ _) (J _ _)) as H3.
  assert (forall A B C D a b c e k : Qc, A = (a + k)%Qc -> B = (b + k)%Qc -> C = (c + k)%Qc -> D = (e + k)%Qc -> qeqb (A - C - (B - D)) (a - c - (b - e)) = true) as Q. { intros A B C D a b c e k -> -> -> ->. apply qeqb_iff. ring. }
  specialize (Q _ _ _ _ _ _ _ _ _ H1 H2 H3 H0). assert (match step2_problem (data_of ex75p) (zero75 2) with Ok op2 => qeqb
    (lagrangian ex75p [] (i_rho (zero75 2)) (ap_c pr75) (ap_beta pr75) (i_lam (zero75 2)) (i_x0 (zero75 2)) [1; 1]%Qc (i_y (zero75 2)) [0; 0]%Qc - lagrangian ex75p [] (i_rho (zero75 2)) (ap_c pr75) (ap_beta pr75) (i_lam (zero75 2)) (i_x0 (zero75 2)) [0; 1]%Qc (i_y (zero75 2)) [0; 0]%Qc -
     (lagrangian ex75p [] (i_rho (zero75 2)) (ap_c pr75) (ap_beta pr75) (i_lam (zero75 2)) (i_x0 (zero75 2)) [1; 0]%Qc (i_y (zero75 2)) [0; 0]%Qc - lagrangian ex75p [] (i_rho (zero75 2)) (ap_c pr75) (ap_beta pr75) (i_lam (zero75 2)) (i_x0 (zero75 2)) [0; 0]%Qc (i_y (zero75 2)) [0; 0]%Qc))
    (obj_at (p_obj op2) [1; 1]%Qc - obj_at (p_obj op2) [0; 1]%Qc - (obj_at (p_obj op2) [1; 0]%Qc - obj_at (p_obj op2) [0; 0]%Qc)) | _ => true end = false) as V by (vm_compute; reflexivity).
  rewrite E in V. rewrite Q in V. discriminate V.
Qed.
(** ... and for an objective given by lists of integers, in which 1/2 is stored as 0. *)
Definition ex75i : qp := run (new_qp "") [OAddVar 0 1 BINARY (Some "a"); OObjective MINIMIZE 0%Qc (Some (LList true [1%Qc])) (Some (QList true [[1%Qc]]))].
Theorem C75_integers_refuted : exists pr d s op2, two_blocks (a_op d) /\ no_binary_products (a_op d) /\ represents d /\ sized_blocks d s /\ p_lcs (a_op d) = [] /\
  step2_problem d s = Ok op2 /\ never_lagrangian pr d s op2.
Proof.
  exists pr75, (data_of ex75i), (zero75 1). destruct (step2_problem (data_of ex75i) (zero75 1)) as [op2|] eqn:E; [|vm_compute in E; discriminate E]. exists op2.
  split. { split; [apply reachable_wf; repeat constructor|]. split; [unfold shapes, lin_shape, quad_shape, lin_wf, quad_wf; vm_compute; repeat constructor; cbn; intuition discriminate|]. split; [vm_compute; repeat constructor|].
    split; [apply plain_b_spec; vm_compute; reflexivity|]. split; [repeat constructor; discriminate|]. split; [apply separable_b; vm_compute; reflexivity|reflexivity]. }
  split; [apply no_products_b; vm_compute; reflexivity|].
  split; [vm_compute; reflexivity|]. split; [repeat split|]. split; [reflexivity|]. split; [reflexivity|].
  intros (K & H). assert (forall a, joins ex75i [a] [] [a]) as J by (intros; repeat split). change (a_op (data_of ex75i)) with ex75i in H.
  pose proof (H [0]%Qc [] [0]%Qc [0]%Qc (J _) (J _)) as H0. pose proof (H [1]%Qc [] [0]%Qc [1]%Qc (J _) (J _)) as H1.
  assert (forall A B a b k : Qc, A = (a + k)%Qc -> B = (b + k)%Qc -> qeqb (A - B) (a - b) = true) as Q. { intros A B a b k -> ->. apply qeqb_iff. ring. }
  specialize (Q _ _ _ _ _ H1 H0). assert (match step2_problem (data_of ex75i) (zero75 1) with Ok op2 => qeqb
    (lagrangian ex75i [] (i_rho (zero75 1)) (ap_c pr75) (ap_beta pr75) (i_lam (zero75 1)) (i_x0 (zero75 1)) [1]%Qc (i_y (zero75 1)) [0]%Qc - lagrangian ex75i [] (i_rho (zero75 1)) (ap_c pr75) (ap_beta pr75) (i_lam (zero75 1)) (i_x0 (zero75 1)) [0]%Qc (i_y (zero75 1)) [0]%Qc)
    (obj_at (p_obj op2) [1]%Qc - obj_at (p_obj op2) [0]%Qc) | _ => true end = false) as V by (vm_compute; reflexivity).
  rewrite E in V. rewrite Q in V. discriminate V.
Qed.

(** ** Step 3 and the multipliers *)
Theorem C75_step3 : forall pr d s, two_blocks (a_op d) -> represents d -> sized_blocks d s -> exists op3, step3_problem pr d s = Ok op3 /\
  free_block (a_op d) (indices_of BINARY (a_op d)) CONTINUOUS (- INFINITY)%Qc INFINITY op3 /\
  forall rows x, exists K, forall y, length y = length (i_x0 s) ->
    lagrangian (a_op d) rows (i_rho s) (ap_c pr) (ap_beta pr) (i_lam s) (i_x0 s) (i_z s) y x = (obj_at (p_obj op3) y + K)%Qc.
Proof. intros pr d s T R Sz. pose proof Sz as (L0 & _). rewrite L0. apply step3_lagr; auto. now apply two_names. Qed.
Example C75_step3_case :
  forallb (fun y => qeqb (at75 (i_x0 state75) (i_z state75) y [1; qz 2; 0; 0]%Qc - obj_of (step3_problem pr75 (data_of op75) state75) y) (at75 (i_x0 state75) (i_z state75) [0; 0; 0]%Qc [1; qz 2; 0; 0]%Qc))
    [[0; 0; 0]; [1; qz (-3); qz 2]; [1 / qz 2; 1 / qz 5; 0]]%Qc = true /\
  qeqb (obj_of (step3_problem pr75 (data_of op75) state75) [1; 0; qz 2]%Qc) (qz 9) = true.
Proof. vm_compute. auto. Qed.
Theorem C75_multipliers : forall qubo cont norm pr d s k s', sized_blocks d s -> admm_round qubo cont norm pr d s k = Ok s' ->
  sized_blocks d s' /\ forall i, i < length (i_lam s) -> at_ (i_lam s') i = (at_ (i_lam s) i + i_rho s * split_gap (i_x0 s') (i_z s') (i_y s') i)%Qc.
Proof.
  intros qubo cont norm pr d s k s' (L0 & Lz & Ly & Ll) H. apply round_inv in H. destruct H as [H1 (op2 & x1 & _ & _ & _ & _ & H2) H3 H4 _ _ _].
  pose proof (x0_length _ _ _ _ _ _ L0 H1) as L0'. pose proof (take_length _ _ _ H2) as Lz'. pose proof (y_length _ _ d (set_uz (i_u s') (i_z s') (set_x0 (i_x0 s') s)) _ _ Ly H3) as Ly'.
  assert (length (arr_sub (i_x0 s') (i_z s')) = length (a_bin d)) as E1 by (rewrite sub_length; congruence). assert (length (arr_sub (arr_sub (i_x0 s') (i_z s')) (i_y s')) = length (a_bin d)) as E2 by (rewrite sub_length; congruence).
  split; [repeat split; auto; rewrite H4, add_length; rewrite ?scale_length; congruence|]. intros i _. rewrite H4, at_add, at_scale, !at_sub; try congruence; [reflexivity|]. rewrite scale_length. congruence.
Qed.

(** ** Rounds with exact optimizers *)
(** Each step of a round minimises the Lagrangian over its block. *)
Theorem C75_round_partial : forall qubo cont norm pr d s k s', two_blocks (a_op d) -> float_objective (a_op d) -> no_binary_products (a_op d) -> represents d -> sized_blocks d s ->
  exact_solver qubo -> exact_solver cont -> ap_three pr = true -> a_abs d <> [] -> admm_round qubo cont norm pr d s k = Ok s' ->
  forall rows, picks (binary_eq (a_op d)) (p_lcs (a_op d)) rows ->
  let L := lagrangian (a_op d) rows (i_rho s) (ap_c pr) (ap_beta pr) (i_lam s) in
  zero_or_one (i_x0 s') /\ (forall u x, joins (a_op d) (i_x0 s') u x -> rest_zero d x) /\
  (forall u b x x', zero_or_one b -> joins (a_op d) b u x -> rest_zero d x -> joins (a_op d) (i_x0 s') u x' -> (L (i_x0 s') (i_z s) (i_y s) x' <= L b (i_z s) (i_y s) x)%Qc) /\
  (exists x2, joins (a_op d) (i_z s') (i_u s') x2 /\ block2 (a_op d) x2) /\
  (forall z u y x x', joins (a_op d) z u y -> block2 (a_op d) y -> joins (a_op d) (i_x0 s') u x -> joins (a_op d) (i_x0 s') (i_u s') x' -> (L (i_x0 s') (i_z s') (i_y s) x' <= L (i_x0 s') z (i_y s) x)%Qc) /\
  (forall x y, length y = length (i_x0 s') -> Forall (fun a => - INFINITY <= a /\ a <= INFINITY)%Qc y -> (L (i_x0 s') (i_z s') (i_y s') x <= L (i_x0 s') (i_z s') y x)%Qc).
Proof.
  intros qubo cont norm pr d s k s' T F N R Sz Q C Th Ne H rows Pk. cbv zeta. destruct (block1_min _ _ _ _ _ _ _ _ T R Sz Q Ne H) as (A1 & A2 & A3). destruct (block2_min _ _ _ _ _ _ _ _ T F N R Sz C H) as (x2 & B1 & B2 & B3).
  repeat split; auto; [intros; eapply A3; eauto|exists x2; auto|intros; eapply B3; eauto|intros; eapply block3_min; eauto].
Qed.
(** So a round never makes the Lagrangian larger. *)
Theorem C75_descent_partial : forall qubo cont norm pr d s k s', two_blocks (a_op d) -> float_objective (a_op d) -> no_binary_products (a_op d) -> represents d -> sized_blocks d s ->
  exact_solver qubo -> exact_solver cont -> ap_three pr = true -> a_abs d <> [] -> admm_round qubo cont norm pr d s k = Ok s' ->
  forall rows x x2 x', picks (binary_eq (a_op d)) (p_lcs (a_op d)) rows ->
    zero_or_one (i_x0 s) -> joins (a_op d) (i_x0 s) (i_u s) x -> rest_zero d x -> joins (a_op d) (i_z s) (i_u s) x2 -> block2 (a_op d) x2 -> Forall (fun a => - INFINITY <= a /\ a <= INFINITY)%Qc (i_y s) ->
    joins (a_op d) (i_x0 s') (i_u s') x' ->
    (lagrangian (a_op d) rows (i_rho s) (ap_c pr) (ap_beta pr) (i_lam s) (i_x0 s') (i_z s') (i_y s') x' <= lagrangian (a_op d) rows (i_rho s) (ap_c pr) (ap_beta pr) (i_lam s) (i_x0 s) (i_z s) (i_y s) x)%Qc.
Proof. exact descends. Qed.
(** a with the objective 3 - 5a and an exact optimizer: one round from 0 *)
Definition one75 : qp := run (new_qp "") [OAddVar 0 1 BINARY (Some "a"); OObjective MINIMIZE (qz 3) (Some (LDict [(KS "a", qz (-5))])) None].
Definition round75 : result admm_iter := admm_round solve1 solve1 (sumof qabs) pr75 (data_of one75) (zero75 1) 0.
Example C75_round_case : exact_solver solve1 /\ match round75 with Ok s => qs_eqb (i_x0 s) [1%Qc] && qs_eqb (i_z s) [1%Qc] && qs_eqb (i_y s) [0%Qc] && qs_eqb (i_lam s) [0%Qc] | Err _ => false end = true /\
  qeqb (lagrangian one75 [] 1 (qz 10) (qz 4) [0%Qc] [1%Qc] [1%Qc] [0%Qc] [1%Qc]) (qz (-2)) = true /\ qeqb (lagrangian one75 [] 1 (qz 10) (qz 4) [0%Qc] [0%Qc] [0%Qc] [0%Qc] [0%Qc]) (qz 3) = true.
Proof. split; [exact solve1_exact|]. vm_compute. auto. Qed.

Print Assumptions C75_step1.
Print Assumptions C75_step2_points.
Print Assumptions C75_step2_products_partial.
Print Assumptions C75_products_refuted.
Print Assumptions C75_integers_refuted.
Print Assumptions C75_step3.
Print Assumptions C75_multipliers.
Print Assumptions C75_round_partial.
Print Assumptions C75_descent_partial.
