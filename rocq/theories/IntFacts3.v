(** * The applications are answered by the optimizers *)
From Verif Require Export IntFacts2.
From Verif Require Import NumFacts PyFacts.
Local Open Scope string_scope.
Local Open Scope list_scope.
Local Open Scope nat_scope.

Lemma answers (m : result qp) good g : grid g -> (exists p, m = Ok p /\ answerable p good) -> (forall p, m = Ok p -> ready_app p -> (exists x, feasible p x) -> whole_src (multiple g) p /\ shapes (num_vars p) p) ->
  exists p, m = Ok p /\ eigen_solved p good /\ (g = 1%Qc -> grover_solved p good).
Proof. intros G (p & E & A) W. exists p. split; [exact E|]. pose proof (W p E (proj1 A) (proj1 (proj2 A))) as K. split; [now apply (answer_eigen p good g)|]. intros ->. now apply answer_grover. Qed.

Section Grid.
Variable g : Qc.
Hypothesis G : grid g.
Let P := multiple g.
Let P1 : P 1%Qc := proj1 G.
Let PA : forall a b, P a -> P b -> P (a + b)%Qc := multiple_add g.
Let PM : forall a z, P a -> P (a * qz z)%Qc := fun a z => multiple_mul g a z.
Let I1 : integral 1%Qc := integral_1.
Let IA : forall a b, integral a -> integral b -> integral (a + b)%Qc := integral_add.
Lemma int_mult a z : integral a -> integral (a * qz z)%Qc.
Proof. intros H. apply integral_mul; [exact H|apply integral_qz]. Qed.
Let IM : forall a z, integral a -> integral (a * qz z)%Qc := int_mult.
Lemma num_rhs nm s e c : integral (de_const e) -> integral c -> whole_rhs (DLinear nm s e (d_num c)).
Proof. intros A B _. cbn. now apply integral_sub. Qed.
Lemma ineq_rhs nm s l r : s <> EQ -> whole_rhs (DLinear nm s l r).
Proof. intros A B. contradiction. Qed.
Lemma sum_const l : Forall (fun e => integral (de_const e)) l -> integral (de_const (d_sum l)).
Proof.
  unfold d_sum. assert (integral (de_const (d_num 0))) as Z by apply integral_0. revert Z. generalize (d_num 0). intros e E F. revert e E. induction F as [|a l A F IH]; intros e E; cbn [fold_left]; [exact E|]. apply IH. cbn. now apply integral_add.
Qed.
Lemma vars_const {A} (f : A -> nat) l : integral (de_const (d_sum (map (fun a => d_var (f a)) l))).
Proof. apply sum_const, Forall_map, Forall_forall. intros a _. apply integral_0. Qed.
Lemma ivar i : de_all integral (d_var i). Proof. now apply all_var. Qed.

Lemma maxcut_whole q p : graph_wf q -> (forall e, In e (g_edges q) -> P (edge_weight e)) -> maxcut_program q = Ok p -> ready_app p -> whole_src P p /\ shapes (num_vars p) p.
Proof using G.
  intros W H E R. revert E. apply simple_whole; auto; [apply edges_wf; [exact W|apply cut_term_wf]|]. apply all_sum; auto. apply Forall_map, Forall_forall. intros e Ie. specialize (H e Ie). unfold cut_term.
  apply all_add; auto; apply all_mul; auto; try (apply all_scale; auto; apply ivar); apply all_sub; auto; try apply ivar; apply all_num, integral_1.
Qed.
Lemma gpart_whole q p : graph_wf q -> (forall e, In e (g_edges q) -> P (edge_weight e)) -> gpart_program q = Ok p -> ready_app p -> whole_src P p /\ shapes (num_vars p) p.
Proof using G.
  intros W H E R. revert E. apply simple_whole; auto; [apply edges_wf; [exact W|apply gpart_term_wf]| | |].
  - constructor; [|constructor]. apply num_con; [apply sum_all_wf|apply sum_all_lin].
  - apply all_sum; auto. apply Forall_map, Forall_forall. intros e Ie. specialize (H e Ie). unfold gpart_term. apply all_scale; auto. apply all_sub; auto; [apply all_add; auto; apply ivar|]. apply all_mul; auto; try apply ivar. apply all_scale'; auto; try apply ivar. apply integral_qz.
  - constructor; [|constructor]. apply num_rhs; [apply (vars_const id)|apply integral_qz].
Qed.
Lemma cover_whole q p : graph_wf q -> cover_program q = Ok p -> ready_app p -> whole_src P p /\ shapes (num_vars p) p.
Proof using G.
  intros W E R. revert E. apply simple_whole; auto; [apply sum_all_wf|apply (pairs_con (g_n q) GE (fun e : (nat * nat) * option Qc => fst (fst e)) (fun e => snd (fst e)) (g_edges q) W)|now apply all_sum_all|].
  apply Forall_map, Forall_forall. intros e _. apply ineq_rhs. discriminate.
Qed.
Lemma stable_whole q p : graph_wf q -> stable_program q = Ok p -> ready_app p -> whole_src P p /\ shapes (num_vars p) p.
Proof using G.
  intros W E R. revert E. apply simple_whole; auto; [apply sum_all_wf|apply (pairs_con (g_n q) LE (fun e : (nat * nat) * option Qc => fst (fst e)) (fun e => snd (fst e)) (g_edges q) W)|now apply all_sum_all|].
  apply Forall_map, Forall_forall. intros e _. apply ineq_rhs. discriminate.
Qed.
Lemma clique_whole q size p : clique_program q size = Ok p -> ready_app p -> whole_src P p /\ shapes (num_vars p) p.
Proof using G.
  intros E R. revert E. pose proof (pairs_con (g_n q) LE (@fst nat nat) (@snd nat nat) (co_edges q) (co_edges_wf q)) as C.
  assert (Forall whole_rhs (map (fun e => DLinear None LE (d_add (d_var (fst e)) (d_var (snd e))) (d_num 1)) (co_edges q))) as D by (apply Forall_map, Forall_forall; intros e _; apply ineq_rhs; discriminate).
  unfold clique_program, clique_model. destruct size as [k|]; apply simple_whole; auto using sum_all_wf, de_wf_num.
  - apply Forall_app. split; [exact C|]. constructor; [|constructor]. apply num_con; [apply sum_all_wf|apply sum_all_lin].
  - apply all_num. apply (P0' P P1 PM).
  - apply Forall_app. split; [exact D|]. constructor; [|constructor]. apply num_rhs; [apply (vars_const id)|apply integral_qz].
  - now apply all_sum_all.
Qed.
Lemma holders_rhs s e subs : whole_rhs (DLinear None s (holders e subs) (d_num 1)).
Proof. apply num_rhs; [apply (vars_const (fun iu : nat * list Z => fst iu))|apply integral_1]. Qed.
Lemma packing_whole subs p : packing_program subs = Ok p -> ready_app p -> whole_src P p /\ shapes (num_vars p) p.
Proof using G. intros E R. revert E. apply simple_whole; auto; [apply sum_all_wf| |now apply all_sum_all|]; apply Forall_map, Forall_forall; intros e _; [apply holders_con|apply holders_rhs]. Qed.
Lemma exact_whole subs p : exact_program subs = Ok p -> ready_app p -> whole_src P p /\ shapes (num_vars p) p.
Proof using G. intros E R. revert E. apply simple_whole; auto; [apply sum_all_wf| |now apply all_sum_all|]; apply Forall_map, Forall_forall; intros e _; [apply holders_con|apply holders_rhs]. Qed.
Lemma knapsack_whole values weights limit p : Forall P values -> knapsack_program values weights limit = Ok p -> ready_app p -> whole_src P p /\ shapes (num_vars p) p.
Proof using G.
  intros V E R. unfold knapsack_program in E. destruct (length weights <? length values) eqn:L; [discriminate E|]. revert E. apply simple_whole; auto; [apply weighted_wf| | |].
  - constructor; [|constructor]. apply num_con; apply weighted_wf.
  - apply all_sum; auto. apply Forall_map, Forall_forall. intros i _. apply all_scale; auto; [|apply ivar]. destruct (nth_in_or_default i values 0%Qc) as [K| ->]; [|apply (P0' P P1 PM)]. rewrite Forall_forall in V. auto.
  - constructor; [|constructor]. apply ineq_rhs. discriminate.
Qed.
Lemma partition_whole nums p : integral (total nums) -> partition_program nums = Ok p -> ready_app p -> whole_src P p /\ shapes (num_vars p) p.
Proof using G.
  intros V E R. revert E. apply simple_whole; auto; [apply de_wf_num| |apply all_num, (P0' P P1 PM)|]; (constructor; [|constructor]).
  - apply num_con.
    + apply de_wf_sum, Forall_map, Forall_forall. intros [i u] K. apply in_combine_l in K. apply in_seq in K. apply de_wf_scale, de_wf_add; [apply de_wf_scale, de_wf_var; cbn; lia|apply de_wf_num].
    + apply linear_sum, Forall_map, Forall_forall. reflexivity.
  - apply num_rhs; [|apply integral_0]. replace (de_const _) with (total nums); [exact V|]. unfold d_sum.
    assert (forall l k e, de_const (fold_left d_add (map (fun ia : nat * Qc => d_scale (snd ia) (d_add (d_scale (- qz 2) (d_var (fst ia))) (d_num 1))) (combine (seq k (length l)) l)) e) = (de_const e + total l)%Qc) as K.
    { induction l as [|u l IH]; intros k e; cbn [combine seq map fold_left length].
      - unfold total, sumof. cbn. ring.
      - rewrite IH. cbn [d_add d_scale d_var d_num de_const fst snd]. change (total (u :: l)) with (u + total l)%Qc. ring. }
    rewrite K. cbn. ring.
Qed.
Lemma tsp_whole q w p : complete q w -> 0 < g_n q -> (forall i j, i < g_n q -> j < g_n q -> i <> j -> P (w i j)) -> tsp_program q = Ok p -> ready_app p -> whole_src P p /\ shapes (num_vars p) p.
Proof using G.
  intros C Hn V E R. set (n := g_n q) in *. revert E. unfold tsp_program. fold n. rewrite (mapM_all (tsp_term q) (triple_expr n w)).
  2:{ intros [[i j] k] I. apply triples_in in I as (Hi & Hj & Hk & N). unfold tsp_term. rewrite (weight_of_spec q w i j C Hi Hj N). reflexivity. }
  cbn [bind]. apply model_whole; auto; rewrite ?tsp_names_length.
  - apply de_wf_sum, Forall_map, Forall_forall. intros [[i j] k] I. apply triples_in in I as (Hi & Hj & Hk & N). unfold triple_expr.
    apply de_wf_mul; [apply de_wf_scale|]; apply de_wf_var; apply block_lt; auto. apply Nat.mod_upper_bound. lia.
  - apply Forall_app. split; apply Forall_map, Forall_forall; intros i Ii; apply in_seq in Ii; apply num_con;
      try (apply linear_sum, Forall_map, Forall_forall; reflexivity); apply de_wf_sum, Forall_map, Forall_forall; intros k Ik; apply in_seq in Ik; apply de_wf_var, block_lt; lia.
  - apply all_sum; auto. apply Forall_map, Forall_forall. intros [[i j] k] I. apply triples_in in I as (Hi & Hj & Hk & N). unfold triple_expr. apply all_mul; auto; [apply all_scale; auto|]; apply ivar.
  - apply Forall_app. split; apply Forall_map, Forall_forall; intros i _; apply num_rhs; try apply integral_1; [apply (vars_const (fun k => i * n + k))|apply (vars_const (fun k => k * n + i))].
Qed.
Lemma vrp_whole q w vehicles depot p : complete q w -> depot < g_n q -> (forall i j, i < g_n q -> j < g_n q -> i <> j -> P (w i j)) -> vrp_program q vehicles depot = Ok p -> ready_app p -> whole_src P p /\ shapes (num_vars p) p.
Proof using G.
  intros C Hd V E R. set (n := g_n q) in *. revert E. unfold vrp_program. fold n. cbv zeta. rewrite (mapM_all _ (fun a => d_scale (w (fst a) (snd a)) (d_var (arc_idx n (fst a) (snd a))))).
  2:{ intros [i j] I. apply arcs_in in I as (Hi & Hj & N). cbn [fst snd]. rewrite (weight_of_spec q w i j C Hi Hj N). reflexivity. }
  cbn [bind]. rewrite (proj2 (Nat.ltb_lt depot n) Hd). cbn [negb]. apply (model_whole _ P1 PA PM _ _ _ _ (vrp_cons n vehicles depot)); rewrite ?map_length, ?arcs_length; auto.
  - apply de_wf_sum, Forall_map, Forall_forall. intros [i j] I. apply arcs_in in I as (Hi & Hj & N). cbn [fst snd]. apply de_wf_scale, arc_var_wf; assumption.
  - now apply vrp_cons_wf.
  - apply all_sum; auto. apply Forall_map, Forall_forall. intros [i j] I. apply arcs_in in I as (Hi & Hj & N). cbn [fst snd]. apply all_scale; auto. apply ivar.
  - unfold vrp_cons. cbv zeta. apply Forall_app. split; [|apply Forall_app; split; [|apply Forall_app; split]].
    + apply Forall_map, Forall_forall. intros i _. apply num_rhs; [apply (vars_const (fun j => arc_idx n i j))|apply integral_1].
    + apply Forall_map, Forall_forall. intros j _. apply num_rhs; [apply (vars_const (fun i => arc_idx n i j))|apply integral_1].
    + constructor; [|constructor; [|constructor]]; apply num_rhs; try apply integral_qz; [apply (vars_const (fun i => arc_idx n i depot))|apply (vars_const (fun j => arc_idx n depot j))].
    + apply Forall_map, Forall_forall. intros c _. apply ineq_rhs. discriminate.
Qed.
End Grid.
Lemma total_app a b : total (a ++ b) = (total a + total b)%Qc.
Proof. unfold total. induction a as [|u a IH]; cbn [app sumof fold_right]; [unfold sumof; cbn; ring|]. change (sumof (fun a : Qc => a) (u :: a ++ b)) with (u + sumof (fun a : Qc => a) (a ++ b))%Qc. rewrite IH. change (sumof (fun a : Qc => a) (u :: a)) with (u + sumof (fun a : Qc => a) a)%Qc. ring. Qed.
Lemma total_double l : Forall (fun u => integral (qz 2 * u)) l -> integral (qz 2 * total l)%Qc.
Proof. induction 1 as [|u l H F IH]; [exists 0%Z; unfold total, sumof; cbn; rewrite qz_0; ring|]. change (total (u :: l)) with (u + total l)%Qc. replace (qz 2 * (u + total l))%Qc with (qz 2 * u + qz 2 * total l)%Qc by ring. now apply integral_add. Qed.
Lemma partition_total nums y : Forall (fun u => integral (qz 2 * u)) nums -> bits (length nums) y -> total (left_out nums y) = total (chosen nums y) -> integral (total nums).
Proof.
  intros D B E. destruct (partition_spec nums) as (p & _ & _ & F). destruct (F y (proj1 B)) as (a & b & Ei & Pm & _). rewrite (partition_interpret_spec nums y (proj1 B)) in Ei. injection Ei as <- <-. set (a := left_out nums y) in *. set (b := chosen nums y) in *.
  unfold total in *. rewrite <- (sumof_perm (fun a => a) _ _ Pm). fold (total (a ++ b)). rewrite total_app. unfold total in E |- *. rewrite E. fold (total b). replace (total b + total b)%Qc with (qz 2 * total b)%Qc.
  - apply total_double. apply Forall_forall. intros u I. rewrite Forall_forall in D. apply D. eapply Permutation_in; [exact Pm|]. apply in_or_app. now right.
  - replace (qz 2) with (1 + 1)%Qc by (apply Qc_is_canon; vm_compute; reflexivity). ring.
Qed.
