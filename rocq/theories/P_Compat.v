(** * C90, C91: compatibility messages, and the settings of the optimizers *)
From Verif Require Import CompatFacts AdmmFacts7.
From Verif Require P_Admm.
Local Open Scope string_scope.
Local Open Scope list_scope.
Local Open Scope nat_scope.

(** ** C90 *)
(** The message of the QUBO converter and of the optimizers built on it names exactly what is wrong. *)
Theorem C90_qubo_message : forall p, exprs_wf p ->
  (says (qubo_msg p) "Continuous variables are not supported" <-> has_continuous p) /\
  (says (qubo_msg p) "Quadratic constraints are not supported" <-> has_quadratic p) /\
  (says (qubo_msg p) "float coefficients are in constraints" <-> has_fraction p) /\
  (is_compatible (qubo_msg p) = true <-> qubo_able p).
Proof.
  intros p W. rewrite <- !says_b_iff, <- continuous_iff, <- quadratic_iff, <- (fraction_iff p W), <- qubo_msg_compatible, (qubo_able_iff p W). unfold qubo_msg.
  destruct (0 <? count_type CONTINUOUS p), (0 <? length (p_qcs p)), (existsb _ (p_lcs p) || existsb _ (p_qcs p)); vm_compute; tauto.
Qed.
Example C90_qubo_message_case : let p := run (new_qp "") [OAddVar 0 1 BINARY (Some "a"); OAddVar 0 1 CONTINUOUS (Some "u"); OLinCon (by_name [("a", (1 / qz 2)%Qc)]) (SStr "<=") 1 None] in
  qubo_msg p = "Continuous variables are not supported! Can not convert inequality constraints to equality constraint because                     float coefficients are in constraints. ".
Proof. vm_compute. reflexivity. Qed.
(** Problems it refuses are refused with the documented error before any solver is called, and are left as they are. *)
Theorem C90_qubo_refused : forall p, exprs_wf p -> ~ qubo_able p ->
  (forall c, to_qubo c p = Err QiskitOptimizationError) /\
  (forall solver cs, min_eigen_solve solver cs p = Err QiskitOptimizationError) /\
  (forall w, warm_solve w p = Err QiskitOptimizationError) /\
  (forall up inner final min cs, recursive_solve up inner final min cs p = (p, Err QiskitOptimizationError)) /\
  (forall nv ni root spin measure fuel cs, grover_solve nv ni root spin measure fuel cs p = (p, Err QiskitOptimizationError)).
Proof.
  intros p W N. assert (qubo_compatible p = false) as C. { destruct (qubo_compatible p) eqn:C; auto. exfalso. apply N. now apply (qubo_able_iff p W). }
  unfold to_qubo, min_eigen_solve, warm_solve, recursive_solve, grover_solve. rewrite C. repeat split.
Qed.
(** Every other problem is handed to the converters: what a converter raises comes out. *)
Theorem C90_qubo_accepted : forall p, exprs_wf p -> qubo_able p -> verify (qubo_msg p) = Ok tt /\
  forall (c : converter) cs e, c p = Err e ->
  (forall solver, min_eigen_solve solver (c :: cs) p = Err e) /\
  (forall w, w_convs w = c :: cs -> warm_solve w p = Err e) /\
  (forall up inner final min, recursive_solve up inner final min (c :: cs) p = (p, Err e)) /\
  (forall nv ni root spin measure fuel, grover_solve nv ni root spin measure fuel (c :: cs) p = (p, Err e)).
Proof.
  intros p W H. apply (qubo_able_iff p W) in H. split.
  - rewrite verify_iff, <- qubo_msg_compatible, H. reflexivity.
  - intros c cs e E. assert (convert_all (c :: cs) p = Err e) as F by (unfold convert_all; cbn [foldM fst snd]; rewrite E; reflexivity).
    unfold min_eigen_solve, warm_solve, recursive_solve, grover_solve. rewrite H, F. repeat split. intros w Ew. rewrite Ew, F. reflexivity.
Qed.
(** COBYLA and SLSQP accept exactly the problems without discrete variables. *)
Theorem C90_continuous : forall p,
  (forall who, is_compatible (continuous_msg who p) = true <-> all_of CONTINUOUS p) /\
  (~ all_of CONTINUOUS p -> (forall routine trials clip draw, cobyla_solve routine trials clip draw p = Err QiskitOptimizationError) /\
                            (forall routine trials clip draw, slsqp_solve routine trials clip draw p = Err QiskitOptimizationError)) /\
  (all_of CONTINUOUS p -> forall e trials clip draw, 0 < trials -> cobyla_solve (fun _ _ _ _ => Err e) trials clip draw p = Err e /\ slsqp_solve (fun _ _ _ => Err e) trials clip draw p = Err e).
Proof.
  intro p. split. { intro who. rewrite is_compatible_iff. apply continuous_all. }
  split; [|intros A e trials clip draw T; assert (continuous_only p = true) as C by (rewrite (continuous_msg_compatible ""); apply is_compatible_iff, continuous_all, A); unfold cobyla_solve, slsqp_solve, multi_start; rewrite C; destruct trials; [lia|split; reflexivity]].
  intro N. assert (continuous_only p = false) as C. { rewrite (continuous_msg_compatible ""). destruct (is_compatible _) eqn:C; auto. exfalso. apply N, (continuous_all ""), is_compatible_iff, C. }
  unfold cobyla_solve, slsqp_solve. rewrite C. auto.
Qed.
Example C90_continuous_case : let p := run (new_qp "") [OAddVar 0 1 CONTINUOUS (Some "u"); OAddVar 0 1 INTEGER (Some "i")] in
  continuous_msg "COBYLA" p = "The COBYLA optimizer supports only continuous variables" /\ continuous_msg "SLSQP" (run (new_qp "") [OAddVar 0 1 CONTINUOUS (Some "u")]) = "".
Proof. vm_compute. auto. Qed.
(** Goemans-Williamson accepts exactly the problems with binary variables only, whatever the constraints. *)
Theorem C90_goemans : forall p, (is_compatible (gw_msg p) = true <-> all_of BINARY p) /\
  (~ all_of BINARY p -> says (gw_msg p) ("total number of variables " ++ str_nat (length (p_vars p)) ++ " and there are " ++ str_nat (num_binary p) ++ " binary variables")%string) /\
  (~ all_of BINARY p -> forall sort unique sdp mineig chol normal, gw_solve sort unique sdp mineig chol normal p = Err QiskitOptimizationError) /\
  (all_of BINARY p -> forall e sort unique mineig chol normal, gw_solve sort unique (fun _ => SdpRaises e) mineig chol normal p = Err e).
Proof.
  intro p. split. { rewrite is_compatible_iff. apply gw_all. }
  split. { intro N. apply gw_counts. intro E. now apply N, gw_all. }
  split; [|intros A e sort unique mineig chol normal; unfold gw_solve; rewrite gw_msg_compatible, (proj2 (gw_all p) A); reflexivity].
  intros N sort unique sdp mineig chol normal. unfold gw_solve. rewrite gw_msg_compatible. destruct (is_compatible (gw_msg p)) eqn:C; [|reflexivity]. exfalso. apply N, gw_all, is_compatible_iff, C.
Qed.
Example C90_goemans_case : gw_msg (run (new_qp "") [OAddVar 0 1 BINARY (Some "a"); OAddVar 0 1 INTEGER (Some "i"); OAddVar 0 1 CONTINUOUS None; OAddVar 0 1 BINARY None]) =
  "Only binary variables are supported, while the total number of variables 4 and there are 2 binary variables across them".
Proof. vm_compute. reflexivity. Qed.
(** ADMM accepts exactly the problems without a product of a binary and a continuous variable; products with integer variables pass (C50). *)
Theorem C90_admm : forall p, quad_shape (num_vars p) (o_quad (p_obj p)) -> quad_upper (o_quad (p_obj p)) ->
  exists msg, admm_msg p = Ok msg /\ (is_compatible msg = true <-> separable p) /\
    (~ separable p -> forall qubo cont norm late pr, admm_solve qubo cont norm late pr p = Err QiskitOptimizationError).
Proof.
  intros p S U. destruct (P_Admm.C50_compatible p S U) as (b & E & B). pose proof E as E'. rewrite admm_msg_compatible in E'. destruct (admm_msg p) as [msg|]; [|discriminate E']. cbn [bind] in E'. injection E' as E'.
  exists msg. split; [reflexivity|]. rewrite E'. split; [exact B|]. intros N qubo cont norm late pr. unfold admm_solve. rewrite E. cbn [bind]. destruct b; [exfalso; apply N, B; reflexivity|reflexivity].
Qed.
Example C90_admm_case : admm_msg (run (new_qp "") [OAddVar 0 1 BINARY (Some "a"); OAddVar 0 1 CONTINUOUS (Some "u"); OAddVar 0 1 BINARY (Some "b");
    OObjective MINIMIZE 0%Qc None (by_name2 [(("a", "u"), 1%Qc); (("b", "a"), 1%Qc); (("u", "b"), 1%Qc)])]) =
  Ok "Binary and continuous variables are not separable in the objective. Binary and continuous variables are not separable in the objective. ".
Proof. vm_compute. reflexivity. Qed.
Print Assumptions C90_qubo_message.
Print Assumptions C90_qubo_refused.
Print Assumptions C90_qubo_accepted.
Print Assumptions C90_continuous.
Print Assumptions C90_goemans.
Print Assumptions C90_admm.

(** ** C91 *)
(** Refuted: RecursiveMinimumEigenOptimizer refuses min_num_vars < 1 with a ValueError, not with the documented QiskitOptimizationError ... *)
Theorem C91_recursive_refuted : exists min, (min < 1)%Z /\ forall pen a, new_recursive min pen a = Err ValueError.
Proof. exists 0%Z. split; [lia|]. intros pen a. unfold new_recursive. destruct (0 <? 1)%Z eqn:E; [reflexivity|discriminate E]. Qed.
(** ... and a penalty given together with converters is not used. *)
Theorem C91_penalty_refuted : exists a c p, (forall c', prepare_converters a (Some c') = prepare_converters a (Some c)) /\
  match prepare_converters a (Some c), to_qubo (Some c) p with
  | Ok cs, Ok r => match convert_all cs p with Ok (q, _) => exists x, obj_at (p_obj q) x <> obj_at (p_obj (r_qubo r)) x | Err _ => False end
  | _, _ => False end.
Proof.
  exists (COne (qubo_converter None)), (qz 10), (run (new_qp "") [OAddVar 0 1 BINARY (Some "a"); OLinCon (by_name [("a", 1%Qc)]) (SStr "==") 1 None]). split; [reflexivity|].
  set (p := run _ _). destruct (to_qubo (Some (qz 10)) p) as [r|e] eqn:E; [|vm_compute in E; discriminate E]. cbn [prepare_converters]. destruct (convert_all _ _) as [[q fs]|e] eqn:F; [|vm_compute in F; discriminate F].
  exists [0%Qc]. assert (match to_qubo (Some (qz 10)) p, convert_all [qubo_converter None] p with Ok r, Ok (q, _) => qeqb (obj_at (p_obj q) [0%Qc]) (obj_at (p_obj (r_qubo r)) [0%Qc]) | _, _ => true end = false) as V by (vm_compute; reflexivity).
  rewrite E, F in V. intro X. rewrite X in V. destruct (qeqb_spec (obj_at (p_obj (r_qubo r)) [0%Qc]) (obj_at (p_obj (r_qubo r)) [0%Qc])); [discriminate V|congruence].
Qed.
(** What holds: the settings accepted are exactly the valid ones, and otherwise something is raised; ... *)
Theorem C91_accepted_partial : forall pen a,
  ((exists cs, prepare_converters a pen = Ok cs) <-> all_converters a) /\ (~ all_converters a -> prepare_converters a pen = Err TypeError) /\
  (forall eig cs, new_min_eigen eig pen a = Ok cs <-> eig = true /\ prepare_converters a pen = Ok cs) /\
  (forall min n cs, new_recursive min pen a = Ok (n, cs) <-> (1 <= min)%Z /\ n = Z.to_nat min /\ prepare_converters a pen = Ok cs) /\
  (forall pre relax qaoa eps num agg eig w, new_warm_start eig pre relax qaoa eps num agg pen a = Ok w ->
     (0 <= eps /\ eps <= 1 / qz 2)%Qc /\ w_eps w = eps /\ w_num w = num /\ prepare_converters a pen = Ok (w_convs w) /\ (1 < num -> w_agg w <> None)) /\
  (forall nv ni r, new_grover nv ni a pen = Ok r <-> fst r = (nv, ni) /\ prepare_converters a pen = Ok (snd r)).
Proof.
  intros pen a.
  assert (forall l, (exists cs, mapM (fun o : option converter => match o with Some c => Ok c | None => Err TypeError end) l = Ok cs) <-> Forall (fun o => o <> None) l) as ML.
  { induction l as [|o l IH]; cbn [mapM]; [split; [constructor|eexists; reflexivity]|]. rewrite Forall_cons_iff, <- IH. destruct o as [c|]; cbn [bind].
    - destruct (mapM _ l) as [cs|e]; cbn [bind]; split; [intros _; split; [discriminate|eauto]|intros _; eexists; reflexivity|intros (cs & H); discriminate H|intros (_ & cs & H); discriminate H].
    - split; [intros (cs & H); discriminate H|intros (H & _); congruence]. }
  assert (forall l e, mapM (fun o : option converter => match o with Some c => Ok c | None => Err TypeError end) l = Err e -> e = TypeError) as ME.
  { induction l as [|o l IH]; intros e; cbn [mapM]; [discriminate|]. destruct o; cbn [bind]; [|congruence]. destruct (mapM _ l); cbn [bind]; [discriminate|]. intro H. apply IH. congruence. }
  split; [|split; [|split; [|split; [|split]]]].
  - destruct a as [|c|l|]; cbn [prepare_converters all_converters]; [split; eauto|split; eauto|apply ML|split; [intros (cs & H); discriminate H|intros []]].
  - destruct a as [|c|l|]; cbn [prepare_converters all_converters]; try tauto. intro N. destruct (mapM _ l) as [cs|e] eqn:E; [exfalso; apply N, ML; eauto|]. now rewrite (ME l e E).
  - intros eig cs. unfold new_min_eigen. destruct eig; [split; [intro H; auto|intros (_ & H); exact H]|split; [discriminate|intros (H & _); discriminate H]].
  - intros min n cs. unfold new_recursive. destruct (Z.ltb_spec min 1) as [L|L]; [split; [intro H; discriminate H|intros (H & _); lia]|]. destruct (prepare_converters a pen); cbn [bind]; split.
    + intro H. injection H as <- <-. auto.
    + intros (_ & -> & H). injection H as <-. reflexivity.
    + discriminate.
    + intros (_ & _ & H). discriminate H.
  - intros pre relax qaoa eps num agg eig w. unfold new_warm_start. destruct (qltb_spec eps 0) as [L|L]; cbn [orb negb check bind]; [discriminate|]. destruct (qltb_spec (1 / qz 2)%Qc eps) as [L'|L']; cbn [orb negb check bind]; [discriminate|].
    unfold new_min_eigen. destruct eig; [|discriminate]. destruct (prepare_converters a pen) as [cs|]; cbn [bind]; [|discriminate]. unfold new_warm.
    destruct (check _ _); cbn [bind]; [|discriminate]. intro H. injection H as <-. cbn. split; [split; apply Qcnot_lt_le; assumption|]. split; [reflexivity|]. split; [reflexivity|]. split; [reflexivity|].
    intro N. destruct agg; [discriminate|]. destruct num as [|[|num]]; [lia|lia|cbn; discriminate].
  - intros nv ni [k cs]. unfold new_grover. destruct (prepare_converters a pen); cbn [bind fst snd]; split; [intro H; injection H as <- <-; auto|intros (-> & H); injection H as <-; reflexivity|discriminate|intros (_ & H); discriminate H].
Qed.
(** ... and without converters the penalty given is the one used by the conversion. *)
Theorem C91_penalty_partial : forall pen cs p, prepare_converters CNone pen = Ok cs ->
  match to_qubo pen p with
  | Ok r => exists f, convert_all cs p = Ok (r_qubo r, [f]) /\ forall x, f x = qubo_interpret r x
  | Err e => convert_all cs p = Err e end.
Proof.
  intros pen cs p H. injection H as <-. unfold convert_all, qubo_converter. cbn [foldM fst snd]. destruct (to_qubo pen p) as [r|e]; cbn [bind fst snd app]; [|reflexivity]. eexists. split; [reflexivity|]. reflexivity.
Qed.
Example C91_case : match prepare_converters (CList [Some (qubo_converter None); None]) None, new_recursive 3 (Some 1%Qc) CNone, new_min_eigen false None CNone with
  | Err TypeError, Ok (3, [_]), Err QiskitOptimizationError => True | _, _, _ => False end.
Proof. vm_compute. exact I. Qed.
Print Assumptions C91_recursive_refuted.
Print Assumptions C91_penalty_refuted.
Print Assumptions C91_accepted_partial.
Print Assumptions C91_penalty_partial.
