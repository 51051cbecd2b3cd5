(** * C48 and C49: the warm start QAOA optimizer *)
From Verif Require Import WarmFacts4 WarmFacts3.
Local Open Scope string_scope.
Local Open Scope list_scope.
Local Open Scope nat_scope.

(** ** C48 *)
(** Only epsilons between 0 and 1/2 are accepted ... *)
Theorem C48_epsilon : forall pre relax qaoa eps num agg cs,
  ((0 <= eps)%Qc /\ (eps <= 1 / qz 2)%Qc <-> exists w, new_warm pre relax qaoa eps num agg cs = Ok w) /\
  (forall e, new_warm pre relax qaoa eps num agg cs = Err e -> e = QiskitOptimizationError).
Proof.
  intros. unfold new_warm. destruct (qltb_spec eps 0) as [A|A]; cbn [orb negb check bind].
  - split; [|congruence]. split; [intros [X _]; exfalso; qlra|intros [w E]; discriminate E].
  - destruct (qltb_spec (1 / qz 2) eps) as [B|B]; cbn [orb negb check bind].
    + split; [|congruence]. split; [intros [_ X]; exfalso; qlra|intros [w E]; discriminate E].
    + split; [|discriminate]. split; [intros _; eauto|intros _; split; qlra].
Qed.
(** ... and then every initial value lies between epsilon and 1 - epsilon, and no value there is nearer to the solution. *)
Theorem C48_range : forall eps x, (0 <= eps)%Qc -> (eps <= 1 / qz 2)%Qc -> length (initial_variables eps x) = length x /\
  forall i, i < length x -> let v := at_ (initial_variables eps x) i in (eps <= v)%Qc /\ (v <= 1 - eps)%Qc /\
    (forall u, (eps <= u)%Qc -> (u <= 1 - eps)%Qc -> (gap v (at_ x i) <= gap u (at_ x i))%Qc) /\
    ((eps <= at_ x i)%Qc -> (at_ x i <= 1 - eps)%Qc -> v = at_ x i).
Proof.
  intros eps x H1 H2. unfold initial_variables. split; [apply map_length|]. intros i Hi. cbv zeta. unfold at_.
  rewrite (nth_indep _ 0%Qc (into eps 0)) by now rewrite map_length. change (map _ x) with (map (into eps) x). rewrite map_nth. destruct (into_range eps (nth i x 0%Qc) H1 H2) as [A B]. split; auto. split; auto. split; [intros; now apply into_nearest|apply into_inside].
Qed.
(** With epsilon 1/2 this is plain QAOA. *)
Theorem C48_half : forall x, initial_variables (1 / qz 2) x = repeat (1 / qz 2)%Qc (length x).
Proof.
  intro x. assert (1 - 1 / qz 2 = 1 / qz 2)%Qc as E by (apply Qc_is_canon; reflexivity). induction x as [|v x IH]; [reflexivity|]. change (initial_variables (1 / qz 2) (v :: x)) with (into (1 / qz 2) v :: initial_variables (1 / qz 2) x). cbn [length repeat]. rewrite IH. f_equal.
  destruct (into_range (1 / qz 2) v) as [A B]; [vm_compute; discriminate|apply Qcle_refl|]. rewrite E in B. now apply Qcle_antisym.
Qed.
Example C48_values : initial_variables (1 / qz 4) [qz (-1); 0; 1 / qz 3; 1; 4 / qz 5]%Qc = [1 / qz 4; 1 / qz 4; 1 / qz 3; qz 3 / qz 4; qz 3 / qz 4]%Qc.
Proof. vm_compute. reflexivity. Qed.
(** The relaxed problem keeps the objective, and every feasible point stays feasible. *)
Theorem C48_relaxed : forall p x, feasible p x -> feasible (relax_problem p) x /\ p_obj (relax_problem p) = p_obj p /\ Forall (fun v => v_type v = CONTINUOUS) (p_vars (relax_problem p)).
Proof. intros p x F. split; [now apply relax_feasible|]. split; [reflexivity|]. unfold relax_problem, set_vars. cbn [p_vars]. apply Forall_map, Forall_forall. reflexivity. Qed.
Definition ex49 (rows : list op) : qp := run (new_qp "") ([OAddVar 0 1 BINARY (Some "a"); OAddVar 0 1 BINARY (Some "b"); OObjective MAXIMIZE 0 (Some (LDict [(KS "a", qz 1); (KS "b", qz 1)])) None] ++ rows).
Example C48_relaxed_case : feas_b (ex49 []) [1; 0]%Qc = true /\ feas_b (relax_problem (ex49 [])) [1; 0]%Qc = true /\ feas_b (relax_problem (ex49 [])) [1 / qz 2; 0]%Qc = true /\ feas_b (ex49 []) [1 / qz 2; 0]%Qc = false.
Proof. vm_compute. auto. Qed.
(** The probabilities of the aggregated samples sum to the mean of the sums of the results. *)
Theorem C48_total : forall results ls out, results <> [] -> samples_are results ls -> mean_aggregate results = Ok out ->
  total_prob out = (sumof total_prob ls / qn (length results))%Qc /\ (Forall (fun l => total_prob l = 1%Qc) ls -> total_prob out = 1%Qc).
Proof.
  intros results ls out Ne S E. pose proof (aggregate_total results ls out S E) as T. split; auto. intro F. rewrite T.
  assert (length results = length ls) as -> by (clear -S; induction S; cbn; congruence). assert (sumof total_prob ls = qn (length ls)) as ->.
  { clear -F. induction F as [|l ls El F IH]; [reflexivity|]. rewrite sumof_cons, El, IH. cbn [length]. rewrite qn_S. ring. }
  destruct ls as [|l ls]; [inversion S; subst; easy|]. cbn [length]. unfold Qcdiv. apply Qcmult_inv_r. rewrite qn_S. pose proof (qn_nonneg (length ls)). intro X. assert (qn (length ls) < qn (length ls) + 1)%Qc by qlra. qlra.
Qed.
(** Each point seen gets the mean of its probabilities: refuted, as points are looked up by the digits of their coordinates run together,
    and (1, 11) and (11, 1) have the same. *)
Theorem C48_mean_refuted : exists results ls out x, samples_are results ls /\ mean_aggregate results = Ok out /\
  (exists t, In t (concat ls) /\ s_x t = x) /\ (forall s, In s out -> s_x s <> x) /\ length (concat ls) = 2 /\ NoDup (map s_x (concat ls)) /\ length out = 1.
Proof.
  set (res := fun l => mkRes None None [] None SUCCESS (Some l)). set (l1 := [mkSample [qz 1; qz 11] 0 1 SUCCESS]). set (l2 := [mkSample [qz 11; qz 1] 0 1 SUCCESS]).
  assert (match mean_aggregate [res l1; res l2] with Ok [s] => qs_eqb (s_x s) [qz 1; qz 1; qz 1] | _ => false end = true) as V by (vm_compute; reflexivity).
  destruct (mean_aggregate [res l1; res l2]) as [[|s [|]]|] eqn:E; try discriminate V. exists [res l1; res l2], [l1; l2], [s], [qz 1; qz 11].
  split; [repeat constructor|]. split; auto. split; [exists (mkSample [qz 1; qz 11] 0 1 SUCCESS); split; [left; reflexivity|reflexivity]|]. split. { intros t [<-|[]]. apply qs_eqb_eq in V. rewrite V. intro X. apply (f_equal (@length Qc)) in X. discriminate X. }
  split; [reflexivity|]. split; [|reflexivity]. constructor; [|constructor; [intros []|constructor]]. intros [X|[]]. injection X as X _. discriminate X.
Qed.
(** It holds if all coordinates are single digits, in particular for binary problems; negative coordinates, fractions and numbers from 10 on are missing. *)
Theorem C48_mean_partial : forall results ls, samples_are results ls -> Forall (Forall (fun s => decimal (s_x s))) ls -> exists out, mean_aggregate results = Ok out /\ NoDup (map s_x out) /\
  (forall s, In s out -> s_status s = SUCCESS /\ exists m, picks (fun t => s_x t = s_x s) (concat ls) m /\ m <> [] /\ s_prob s = (total_prob m / qn (length results))%Qc /\ exists t, In t m /\ s_fval t = s_fval s) /\
  forall t, In t (concat ls) -> exists s, In s out /\ s_x s = s_x t.
Proof. exact aggregate_points. Qed.
(** Fractions are dropped, towards zero: points with coordinates between -1 and 10 count as the points of the digits before the point, and these are returned. *)
Theorem C48_fractions : forall results ls ts, samples_are results ls -> Forall2 (Forall2 (fun s t => digits_of (s_x s) (s_x t) /\ s_fval t = s_fval s /\ s_prob t = s_prob s)) ls ts ->
  exists out, mean_aggregate results = Ok out /\ NoDup (map s_x out) /\
  (forall s, In s out -> s_status s = SUCCESS /\ exists m, picks (fun t => s_x t = s_x s) (concat ts) m /\ m <> [] /\ s_prob s = (total_prob m / qn (length results))%Qc /\ exists t, In t m /\ s_fval t = s_fval s) /\
  forall t, In t (concat ts) -> exists s, In s out /\ s_x s = s_x t.
Proof. exact digits_aggregate. Qed.
Example C48_fractions_case : let res := fun l => mkRes None None [] None SUCCESS (Some l) in
  match mean_aggregate [res [mkSample [1 / qz 2; qz 5 / qz 2]%Qc (qz 3) (1 / qz 4) SUCCESS; mkSample [- (1 / qz 3); qz 2]%Qc (qz 5) (qz 3 / qz 4) SUCCESS]] with
  | Ok [s] => qs_eqb (s_x s) [0; qz 2]%Qc && qeqb (s_prob s) 1 && qeqb (s_fval s) (qz 5) | _ => false end = true /\ digits_of [1 / qz 2; qz 5 / qz 2]%Qc [0; qz 2]%Qc.
Proof.
  split; [vm_compute; reflexivity|]. constructor; [exists 0|constructor; [exists 2|constructor]]; (split; [lia|]; split; [apply Qc_is_canon; vm_compute; reflexivity|]; left; split; [apply qleb_iff|apply qltb_iff]; vm_compute; reflexivity).
Qed.
(** And for all coordinates: samples count as the same exactly if the digits of their coordinates, without fractions and run together, are the same,
    and the point returned has these digits as its coordinates; a coordinate of -1 or less gives ValueError. *)
Theorem C48_exact : forall results ls, samples_are results ls ->
  ((forall t, In t (concat ls) -> Forall (fun v => (- (1) < v)%Qc) (s_x t)) ->
     (exists ts, Forall2 (Forall2 (fun s t => run_together (s_x s) (s_x t) /\ s_fval t = s_fval s /\ s_prob t = s_prob s)) ls ts) /\
     (forall ts, Forall2 (Forall2 (fun s t => run_together (s_x s) (s_x t) /\ s_fval t = s_fval s /\ s_prob t = s_prob s)) ls ts ->
      exists out, mean_aggregate results = Ok out /\ NoDup (map s_x out) /\
        (forall s, In s out -> s_status s = SUCCESS /\ exists m, picks (fun t => s_x t = s_x s) (concat ts) m /\ m <> [] /\ s_prob s = (total_prob m / qn (length results))%Qc /\ exists t, In t m /\ s_fval t = s_fval s) /\
        forall t, In t (concat ts) -> exists s, In s out /\ s_x s = s_x t)) /\
  (forall t v, In t (concat ls) -> In v (s_x t) -> (v <= - (1))%Qc -> mean_aggregate results = Err ValueError).
Proof.
  intros results ls S. split; [|intros; eapply minus_aggregate; eauto]. intro H. split; [now apply run_all|]. intros ts F. eapply run_aggregate; eauto.
Qed.
(** (1, 11.5) and (11, 1) are the same, and returned as (1, 1, 1); (-2) is not accepted. *)
Example C48_exact_case : let res := fun l => mkRes None None [] None SUCCESS (Some l) in
  match mean_aggregate [res [mkSample [1; qz 23 / qz 2]%Qc (qz 3) (1 / qz 4) SUCCESS; mkSample [qz 11; 1]%Qc (qz 5) (qz 1 / qz 4) SUCCESS; mkSample [0; qz 205]%Qc (qz 7) (1 / qz 2) SUCCESS]] with
  | Ok [s; t] => qs_eqb (s_x s) [1; 1; 1]%Qc && qeqb (s_prob s) (1 / qz 2) && qeqb (s_fval s) (qz 5) && qs_eqb (s_x t) [0; qz 2; 0; qz 5]%Qc && qeqb (s_prob t) (1 / qz 2) | _ => false end = true /\
  mean_aggregate [res [mkSample [qz (-2)] 0 1 SUCCESS]] = Err ValueError /\ run_together [1; qz 23 / qz 2]%Qc [1; 1; 1]%Qc.
Proof.
  split; [vm_compute; reflexivity|]. split; [vm_compute; reflexivity|]. exists [[1]; [1; 1]]. split; [|apply qs_eqb_eq; vm_compute; reflexivity].
  constructor; [exists 1|constructor; [exists 11|constructor]];
    (split; [left; split; [apply qleb_iff|apply qltb_iff]; vm_compute; reflexivity|]; split; [repeat (constructor; [lia|]); constructor|]; split; [reflexivity|]; split; [discriminate|discriminate]).
Qed.
Example C48_case : let res := fun l => mkRes None None [] None SUCCESS (Some l) in
  match mean_aggregate [res [mkSample [0; 1]%Qc (qz 3) (1 / qz 4) SUCCESS; mkSample [1; 1]%Qc (qz 5) (qz 3 / qz 4) SUCCESS]; res [mkSample [qz 7; 1]%Qc (qz 9) (1 / qz 2) SUCCESS; mkSample [0; 1]%Qc (qz 3) (1 / qz 2) FAILURE]] with
  | Ok l => qs_eqb (concat (map s_x l)) [0; 1; 1; 1; qz 7; 1]%Qc && qs_eqb (map s_prob l) [qz 3 / qz 8; qz 3 / qz 8; 1 / qz 4]%Qc && qeqb (total_prob l) 1 = true | Err _ => False end.
Proof. vm_compute. reflexivity. Qed.
Print Assumptions C48_epsilon.
Print Assumptions C48_range.
Print Assumptions C48_half.
Print Assumptions C48_relaxed.
Print Assumptions C48_total.
Print Assumptions C48_fractions.
Print Assumptions C48_exact.
Print Assumptions C48_mean_refuted.
Print Assumptions C48_mean_partial.

(** ** C49 *)
(** A pre-solver with two answers, and a QAOA with given outcomes that finds an optimum whatever the initial values *)
Definition pre49 (q : qp) : result opt_result := Ok (mkRes None None [] None SUCCESS (Some [mkSample (repeat 0%Qc (num_vars q)) 0 (1 / qz 2) SUCCESS; mkSample (repeat 1%Qc (num_vars q)) 0 (1 / qz 2) SUCCESS])).
Definition qaoa49 (l : list (list bool)) (iv : list Qc) : eigensolver := fun _ => Ok (Some (EDict (map (fun b => (b, 1%Qc)) l))).
Lemma qaoa49_sized n l iv op : l <> [] -> Forall (fun b => length b = n) l -> exists e, qaoa49 l iv op = Ok (Some e) /\ sized_state n e.
Proof.
  intros Ne F. exists (EDict (map (fun b => (b, 1%Qc)) l)). split; [reflexivity|]. split; [apply Forall_map; exact F|]. rewrite sumof_map. cbn [snd]. rewrite sumof_const. destruct l as [|b l]; [easy|]. cbn [length]. rewrite qn_S, Qcmult_1_r. pose proof (qn_nonneg (length l)) as X. intro Y. assert (0 < 1)%Qc by reflexivity. assert (0 < 1 + qn (length l))%Qc as Z by qlra. rewrite Y in Z. discriminate Z.
Qed.
Definition warm49 (l : list (list bool)) : warm_opt := mkWarm pre49 false (qaoa49 l) (1 / qz 4) 2 (Some mean_aggregate) (default_converters None).
Lemma warm49_new l : new_warm pre49 false (qaoa49 l) (1 / qz 4) 2 None (default_converters None) = Ok (warm49 l).
Proof. reflexivity. Qed.
(** a + b <= 1 or a + b = 1 *)
Definition row49 (s : csense) : list op := [OLinCon (Some (LDict [(KS "a", qz 1); (KS "b", qz 1)])) (SVal s) 1%Qc (Some "c")].
Definition int49 (l u : Z) : qp := run (new_qp "") [OAddVar (qz l) (qz u) INTEGER (Some "x"); OObjective MAXIMIZE 0 (Some (LDict [(KS "x", qz 1)])) None].
(** Each run alone gives a feasible point. *)
Definition runs_succeed (w : warm_opt) (p : qp) : Prop := forall iv, exists m y, min_eigen_solve (w_qaoa w iv) (default_converters None) p = Ok m /\ r_x (m_res m) = Some y /\ feasible p y /\ r_status (m_res m) = SUCCESS.
Lemma runs49 l p x : match min_eigen_solve (qaoa49 l []) (default_converters None) p with Ok m => match r_x (m_res m), r_status (m_res m) with Some y, SUCCESS => qs_eqb y x && feas_b p x | _, _ => false end | Err _ => false end = true -> runs_succeed (warm49 l) p.
Proof.
  intros V iv. change (w_qaoa (warm49 l) iv) with (qaoa49 l []). destruct (min_eigen_solve (qaoa49 l []) (default_converters None) p) as [m|]; [|discriminate V]. destruct (r_x (m_res m)) as [y|] eqn:Ey; [|discriminate V]. destruct (r_status (m_res m)) eqn:Es; try discriminate V.
  apply andb_prop in V. destruct V as [Vy Vf]. apply qs_eqb_eq in Vy. subst y. apply feas_b_spec in Vf. eauto 10.
Qed.
(** Refuted if the conversion adds variables (here a slack variable for a + b <= 1): each run gives a feasible point, but combining two of them raises. *)
Theorem C49_slack_refuted : exists p w r, prog_wf p /\ shapes (num_vars p) p /\ all_binary p /\ to_qubo None p = Ok r /\ (exists qaoa, new_warm pre49 false qaoa (1 / qz 4) 2 None (default_converters None) = Ok w) /\
  (forall iv op, exists e, w_qaoa w iv op = Ok (Some e) /\ sized_state (num_vars (r_qubo r)) e) /\ runs_succeed w p /\ warm_solve w p = Err QiskitOptimizationError.
Proof.
  set (l := [[false; true; false]; [false; false; true]]). assert (match to_qubo None (ex49 (row49 LE)) with Ok r => Nat.eqb (num_vars (r_qubo r)) 3 | Err _ => false end = true) as V by (vm_compute; reflexivity).
  destruct (to_qubo None (ex49 (row49 LE))) as [r|] eqn:E; [|discriminate V]. apply Nat.eqb_eq in V. exists (ex49 (row49 LE)), (warm49 l), r. split; [apply reachable_wf; repeat constructor|]. split; [repeat split; simpl; repeat constructor; simpl; try lia; intuition (try congruence; lia)|]. split; [repeat constructor|].
  split; auto. split; [eexists; apply warm49_new|]. split; [intros iv op; rewrite V; apply qaoa49_sized; [discriminate|repeat constructor]|]. split; [apply (runs49 l _ [0; 1]%Qc); vm_compute; reflexivity|]. vm_compute. reflexivity.
Qed.
(** ... and so it is for every binary problem and all answers of the pre-solver and of QAOA. *)
Theorem C49_slack_raises : forall pre relax qaoa eps num pen p r w pr pres, prog_wf p -> all_binary p -> to_qubo pen p = Ok r -> num_vars (r_qubo r) <> num_vars p -> 0 < num_vars (r_qubo r) ->
  new_warm pre relax qaoa eps num None (default_converters pen) = Ok w -> 1 < num -> pre (if relax then relax_problem (r_qubo r) else r_qubo r) = Ok pr -> r_samples pr = Some pres -> 1 < length pres ->
  (forall iv op off o, to_ising (r_qubo r) = Ok (op, off) -> qaoa iv op = Ok o -> exists e, o = Some e /\ sized_state (num_vars (r_qubo r)) e) -> forall m, warm_solve w p <> Ok m.
Proof.
  intros pre relax qaoa eps num pen p r w pr pres W B H Ne Pos Nw Num Pre Ps Lp Sv. unfold new_warm in Nw. apply bind_ok in Nw. destruct Nw as (u & _ & Nw). assert (1 <? num = true) as En by now apply Nat.ltb_lt. rewrite En in Nw.
  assert (w = mkWarm pre relax qaoa eps num (Some mean_aggregate) (default_converters pen)) as -> by congruence. eapply (slack_fails pen p r); eauto.
Qed.
(** Refuted for integer variables: a sample of the original problem is interpreted once more, and x = 3 (for 2 <= x <= 3) becomes 2 + 3. *)
Theorem C49_twice_refuted : exists p w m x l, prog_wf p /\ shapes (num_vars p) p /\ qubo_compatible p = true /\ (exists qaoa, new_warm pre49 false qaoa (1 / qz 4) 2 None (default_converters None) = Ok w) /\ runs_succeed w p /\
  warm_solve w p = Ok m /\ r_x (m_res m) = Some x /\ r_samples (m_res m) = Some l /\ (forall s, In s l -> s_x s <> x) /\ ~ in_bounds p x.
Proof.
  assert (match warm_solve (warm49 [[true]]) (int49 2 3) with Ok m => match r_x (m_res m), r_samples (m_res m) with Some x, Some l => qs_eqb x [qz 5] && forallb (fun s => negb (qs_eqb (s_x s) x)) l | _, _ => false end | Err _ => false end = true) as V by (vm_compute; reflexivity).
  destruct (warm_solve (warm49 [[true]]) (int49 2 3)) as [m|] eqn:E; [|discriminate V]. destruct (r_x (m_res m)) as [x|] eqn:Ex; [|discriminate V]. destruct (r_samples (m_res m)) as [l|] eqn:El; [|discriminate V]. apply andb_prop in V. destruct V as [V1 V2]. apply qs_eqb_eq in V1.
  exists (int49 2 3), (warm49 [[true]]), m, x, l. split; [apply reachable_wf; repeat constructor|]. split; [repeat split; simpl; repeat constructor; simpl; try lia; intuition (try congruence; lia)|]. split; [reflexivity|]. split; [eexists; apply warm49_new|].
  split; [apply (runs49 _ _ [qz 3]); vm_compute; reflexivity|]. split; auto. split; auto. split; auto. split.
  - intros s Hs Y. rewrite forallb_forall in V2. specialize (V2 s Hs). rewrite Y in V2. assert (qs_eqb x x = true) as R by now apply qs_eqb_eq. rewrite R in V2. discriminate V2.
  - rewrite V1. intro F. inversion F as [|? ? ? ? [_ U] _]; subst. revert U. vm_compute. intro U. now apply U.
Qed.
(** Refuted for negative numbers, whose sign is not a digit: ValueError. *)
Theorem C49_digits_refuted : exists p w, prog_wf p /\ shapes (num_vars p) p /\ qubo_compatible p = true /\ (exists qaoa, new_warm pre49 false qaoa (1 / qz 4) 2 None (default_converters None) = Ok w) /\ runs_succeed w p /\ warm_solve w p = Err ValueError.
Proof.
  exists (int49 (-2) (-1)), (warm49 [[true]]). split; [apply reachable_wf; repeat constructor|]. split; [repeat split; simpl; repeat constructor; simpl; try lia; intuition (try congruence; lia)|]. split; [reflexivity|]. split; [eexists; apply warm49_new|].
  split; [apply (runs49 _ _ [qz (-1)]); vm_compute; reflexivity|]. vm_compute. reflexivity.
Qed.
(** The result may be infeasible although every run found a feasible point: the samples are ordered by the objective of the original problem,
    without the penalties, and marked SUCCESS whether feasible or not.  Here a + b is maximised under a + b = 1. *)
Theorem C49_feasible_refuted : exists p w m x l s, prog_wf p /\ shapes (num_vars p) p /\ all_binary p /\ (exists qaoa, new_warm pre49 false qaoa (1 / qz 4) 2 None (default_converters None) = Ok w) /\ runs_succeed w p /\
  warm_solve w p = Ok m /\ r_x (m_res m) = Some x /\ r_status (m_res m) = INFEASIBLE_ /\ ~ feasible p x /\ r_samples (m_res m) = Some (s :: l) /\ s_x s = x /\ s_status s = SUCCESS.
Proof.
  set (c := [[false; true]; [true; true]]).
  assert (match warm_solve (warm49 c) (ex49 (row49 EQ)) with Ok m => match r_x (m_res m), r_samples (m_res m), r_status (m_res m) with Some x, Some (s :: _), INFEASIBLE_ => qs_eqb (s_x s) x && negb (feas_b (ex49 (row49 EQ)) x) && match s_status s with SUCCESS => true | _ => false end | _, _, _ => false end | Err _ => false end = true) as V by (vm_compute; reflexivity).
  destruct (warm_solve (warm49 c) (ex49 (row49 EQ))) as [m|] eqn:E; [|discriminate V]. destruct (r_x (m_res m)) as [x|] eqn:Ex; [|discriminate V]. destruct (r_samples (m_res m)) as [[|s l]|] eqn:El; [discriminate V| |discriminate V]. destruct (r_status (m_res m)) eqn:Es; try discriminate V.
  apply andb_prop in V. destruct V as [V V3]. apply andb_prop in V. destruct V as [V1 V2]. apply qs_eqb_eq in V1. exists (ex49 (row49 EQ)), (warm49 c), m, x, l, s.
  split; [apply reachable_wf; repeat constructor|]. split; [repeat split; simpl; repeat constructor; simpl; try lia; intuition (try congruence; lia)|]. split; [repeat constructor|]. split; [eexists; apply warm49_new|].
  split; [apply (runs49 _ _ [0; 1]%Qc); vm_compute; reflexivity|]. split; auto. split; auto. split; auto. split. { intro F. apply feas_b_spec in F. rewrite F in V2. discriminate V2. } split; auto. split; auto. destruct (s_status s); auto; discriminate V3.
Qed.
(** With one initial solution the result is that of MinimumEigenOptimizer with the QAOA started there, for any converters; see C36 to C40. *)
Theorem C49_single : forall w p q fs pr s rest, convert_all (w_convs w) p = Ok (q, fs) -> w_pre w (if w_relax w then relax_problem q else q) = Ok pr -> r_status pr = SUCCESS -> r_samples pr = Some (s :: rest) ->
  w_num w = 1 \/ (rest = [] /\ 0 < w_num w) -> warm_solve w p = min_eigen_solve (w_qaoa w (initial_variables (w_eps w) (s_x s))) (w_convs w) p.
Proof.
  intros w p q fs pr s rest C Pre St Ps N. unfold warm_solve, min_eigen_solve. destruct (qubo_compatible p); [|reflexivity]. cbn [check bind]. rewrite C. cbn [bind fst snd]. cbv zeta. rewrite Pre. cbn [bind]. rewrite St. cbn [check bind]. rewrite Ps. cbn [bind].
  assert (firstn (Nat.min (w_num w) (length (s :: rest))) (s :: rest) = [s]) as ->. { destruct N as [->|[-> Nn]]; cbn [length]; [reflexivity|]. rewrite Nat.min_r by lia. reflexivity. }
  destruct (to_ising q) as [[op off]|]; [|reflexivity]. cbn [bind fst snd mapM]. destruct (solve_internal _ op off q p fs); reflexivity.
Qed.
(** A pre-solver that does not report success is never built upon: solve raises QiskitOptimizationError whatever samples it returned, and a
    returned result comes from a successful pre-solution with at least one sample, or from asking for none. *)
Theorem C49_unsolved : forall w p q fs pr, convert_all (w_convs w) p = Ok (q, fs) -> w_pre w (if w_relax w then relax_problem q else q) = Ok pr ->
  (r_status pr <> SUCCESS -> warm_solve w p = Err QiskitOptimizationError) /\
  (forall m, warm_solve w p = Ok m -> r_status pr = SUCCESS /\ (0 < w_num w -> exists pres, r_samples pr = Some pres)).
Proof.
  intros w p q fs pr C Pre. unfold warm_solve. destruct (qubo_compatible p); cbn [check bind]; [|split; [reflexivity|discriminate]]. rewrite C. cbn [bind fst snd]. cbv zeta. rewrite Pre. cbn [bind].
  destruct (r_status pr); cbn [check bind]; (split; [intro Ne|intros m Hm]); try reflexivity; try discriminate Hm; [destruct (Ne eq_refl)|]. split; [reflexivity|]. intro Pos.
  destruct (r_samples pr) as [l|]; [eauto|]. destruct (w_num w); [lia|]. cbn in Hm. discriminate Hm.
Qed.
(** With several initial solutions, for binary problems to which the default converter adds no variables (below: no inequalities): there is a
    result, its point is the point of one of the samples, no sample and no outcome of a run with probability 1e-6 or more has a better objective, values and status are those of the point, and each sample has
    the mean of its probabilities.  Missing: the problems of the refutations above, and that the result is feasible if a sample is. *)
Theorem C49_partial : forall pre relax qaoa eps num pen p r w pr pres op off, prog_wf p -> shapes (num_vars p) p -> all_binary p -> to_qubo pen p = Ok r -> num_vars (r_qubo r) = num_vars p -> 0 < num_vars p ->
  new_warm pre relax qaoa eps num None (default_converters pen) = Ok w -> 1 < num -> pre (if relax then relax_problem (r_qubo r) else r_qubo r) = Ok pr -> r_status pr = SUCCESS -> r_samples pr = Some pres -> 1 < length pres ->
  to_ising (r_qubo r) = Ok (op, off) -> (forall iv, exists e, qaoa iv op = Ok (Some e) /\ sized_state (num_vars p) e /\ exists x f, kept (r_qubo r) e x f) ->
  exists m x l, warm_solve w p = Ok m /\ r_x (m_res m) = Some x /\ r_samples (m_res m) = Some l /\ (exists s, In s l /\ s_x s = x) /\ bits (num_vars p) x /\ r_fval (m_res m) = Some (obj_at (p_obj p) x) /\ status_at p x (r_status (m_res m)) /\ NoDup (map s_x l) /\
    (forall s, In s l -> bits (num_vars p) (s_x s) /\ s_fval s = obj_at (p_obj p) (s_x s) /\ at_least (o_sense (p_obj p)) (obj_at (p_obj p) x) (s_fval s)) /\
    (forall s0 e y f, In s0 (firstn num pres) -> qaoa (initial_variables eps (s_x s0)) op = Ok (Some e) -> kept (r_qubo r) e y f -> at_least (o_sense (p_obj p)) (obj_at (p_obj p) x) (obj_at (p_obj p) y) /\ exists s, In s l /\ s_x s = y).
Proof.
  intros pre relax qaoa eps num pen p r w pr pres op off W Sh B H Sz Pos Nw Num Pre St Ps Lp Hi Sv. unfold new_warm in Nw. apply bind_ok in Nw. destruct Nw as (u & _ & Nw). assert (1 <? num = true) as En by now apply Nat.ltb_lt. rewrite En in Nw.
  assert (w = mkWarm pre relax qaoa eps num (Some mean_aggregate) (default_converters pen)) as -> by congruence. set (w0 := mkWarm pre relax qaoa eps num (Some mean_aggregate) (default_converters pen)).
  assert (0 < num_vars (r_qubo r)) as Pq by (rewrite Sz; auto). destruct (qubo_wf pen p r H) as (_ & _ & Wq). pose proof (qubo_obj_shaped pen p r W H) as Sq.
  destruct (same_total pen p r w0 W H eq_refl B Pq eq_refl Num pr pres Pre Ps Lp op off Sh Sz St Hi) as (m & M). { intro iv. destruct (Sv iv) as (e & E1 & E2 & E3). rewrite Sz. eauto. }
  assert (forall iv o, w_qaoa w0 iv op = Ok o -> exists e, o = Some e /\ sized_state (num_vars (r_qubo r)) e) as Sv'. { intros iv o Eo. destruct (Sv iv) as (e & E1 & E2 & _). exists e. rewrite Sz. split; auto. cbn [w_qaoa w0] in Eo. congruence. }
  pose proof (same_keeps pen p r W H B Sz) as Kb. pose proof (fun x y => warm_bits pen p r W H B x y) as Kd. destruct (qubo_unconstrained pen p r W H) as [_ Sn].
  destruct (several_valid w0 p (r_qubo r) [qubo_interpret r] op off pr pres W Wq (warm_convert pen p r w0 H eq_refl) Hi Sq Pq Kd eq_refl Num Sv' Pre Ps m Sz Sn Kb Lp M) as (results & ls & l & x & E & S & Rs & Rx & I & Bx & F & Sx & Nd & A & _ & Cov).
  exists m, x, l. split; auto. split; auto. split; auto. split; auto. split; auto. split; auto. split; auto. split; auto. split; auto.
  intros s0 e y f I0 Ee K. assert (bits (num_vars p) y) as By. { destruct (Sv (initial_variables eps (s_x s0))) as (e' & Ee' & Se & _). assert (e' = e) by congruence. subst e'. destruct K as [O T]. rewrite <- Sz in Se. destruct (solutions_spec e (r_qubo r) MIN_PROB Pq Sq Se) as (l0 & _ & A0 & B0). destruct (B0 y f O T) as (t & Ht & Ex & _). destruct (A0 t Ht) as (_ & _ & _ & _ & Bt). rewrite Ex, Sz in Bt. exact Bt. }
  destruct (runs_cover w0 p (r_qubo r) [qubo_interpret r] op off W Wq Hi Sq Pq Sv' _ _ _ s0 e y f y E S I0 Ee K (Kb y By)) as (t & Ht & Et). destruct (Cov t Ht) as (s & Hs & Es). rewrite Et in Es.
  split; [|eauto]. destruct (A s Hs) as (_ & Fs & As). rewrite Fs, Es in As. exact As.
Qed.
(** Equality constraints need no further variables. *)
Theorem C49_equalities : forall pen p r, prog_wf p -> all_binary p -> equalities p -> to_qubo pen p = Ok r -> num_vars (r_qubo r) = num_vars p.
Proof. intros pen p r W B E H. eapply equalities_same_size; eauto. Qed.
Example C49_case : let p := ex49 (row49 EQ) in prog_wf p /\ all_binary p /\ equalities p /\ match to_qubo None p, warm_solve (warm49 [[false; true]; [true; false]]) p with
  | Ok r, Ok m => num_vars (r_qubo r) = 2 /\ match r_x (m_res m), r_samples (m_res m) with Some x, Some l => qs_eqb x [0; 1]%Qc = true /\ length l = 2 | _, _ => False end /\ r_status (m_res m) = SUCCESS
  | _, _ => False end.
Proof. split; [apply reachable_wf; repeat constructor|]. split; [repeat constructor|]. split; [repeat constructor|]. vm_compute. auto. Qed.
Print Assumptions C49_slack_refuted.
Print Assumptions C49_slack_raises.
Print Assumptions C49_twice_refuted.
Print Assumptions C49_digits_refuted.
Print Assumptions C49_feasible_refuted.
Print Assumptions C49_single.
Print Assumptions C49_unsolved.
Print Assumptions C49_partial.
Print Assumptions C49_equalities.
