(** * The programs of the applications can be converted *)
From Verif Require Export SolveFacts VrpFacts3 TspFacts.
From Verif Require Import NumFacts PyFacts.
Local Open Scope string_scope.
Local Open Scope list_scope.
Local Open Scope nat_scope.

(** ** Names *)
Lemma plain_app a b : plain_name a -> plain_name b -> plain_name (a ++ b)%string.
Proof. unfold plain_name. induction a as [|c a IH]; cbn; [auto|]. intros H K. apply andb_prop in H. destruct H as [-> H]. cbn. auto. Qed.
Lemma plain_digits n : plain_name (str_nat n).
Proof.
  unfold plain_name. pose proof (str_nat_digits n) as H. revert H. generalize (str_nat n). induction s as [|c s IH]; cbn; [auto|]. intros H. apply andb_prop in H. destruct H as [D H]. rewrite (IH H), andb_true_r.
  destruct (Ascii.eqb_spec c "@") as [-> |]; [discriminate D|reflexivity].
Qed.
Lemma x_names_plain n : Forall plain_name (map x_name (seq 0 n)).
Proof. apply Forall_map, Forall_forall. intros i _. apply plain_app; [reflexivity|apply plain_digits]. Qed.
Lemma x_name2_plain i j : plain_name (x_name2 i j).
Proof. apply plain_app; [reflexivity|]. apply plain_app; [apply plain_digits|]. apply plain_app; [reflexivity|apply plain_digits]. Qed.
Lemma simple_ready name n s obj cons p : de_wf n obj -> Forall (app_con n) cons -> Forall (int_con n) cons -> binary_model name (map x_name (seq 0 n)) s obj cons = Ok p -> ready_app p.
Proof. intros A B C. apply model_ready; rewrite ?x_names_length; auto using x_names_nodup, x_names_full, x_names_plain. Qed.

(** ** Integral constraints *)
Lemma int_lcon n s e c : int_de n e -> int_con n (DLinear None s e (d_num c)).
Proof. intros H. split; [exact H|apply int_num]. Qed.
Lemma int_vars {A} n (f : A -> nat) l : int_de n (d_sum (map (fun a => d_var (f a)) l)).
Proof. apply int_sum, Forall_map, Forall_forall. intros a _. apply int_var. Qed.
Lemma int_sum_all n k : int_de n (sum_all k).
Proof. unfold sum_all. change (map d_var (seq 0 k)) with (map (fun a => d_var (id a)) (seq 0 k)). apply int_vars. Qed.
Lemma int_pairs {A} n s (f g : A -> nat) l c : Forall (int_con n) (map (fun e => DLinear None s (d_add (d_var (f e)) (d_var (g e))) (d_num c)) l).
Proof. apply Forall_map, Forall_forall. intros e _. apply int_lcon, int_add; apply int_var. Qed.
Lemma int_holders n s c e subs : int_con n (DLinear None s (holders e subs) (d_num c)).
Proof. apply int_lcon. apply (int_vars n (fun iu : nat * list Z => fst iu)). Qed.

Lemma maxcut_ready g p : graph_wf g -> maxcut_program g = Ok p -> ready_app p.
Proof. intros W. apply simple_ready; [apply edges_wf; [exact W|apply cut_term_wf]|constructor|constructor]. Qed.
Lemma gpart_ready g p : graph_wf g -> gpart_program g = Ok p -> ready_app p.
Proof.
  intros W. apply simple_ready; [apply edges_wf; [exact W|apply gpart_term_wf]| |]; (constructor; [|constructor]); [apply num_con; [apply sum_all_wf|apply sum_all_lin]|]. apply int_lcon, int_sum_all.
Qed.
Lemma cover_ready g p : graph_wf g -> cover_program g = Ok p -> ready_app p.
Proof. intros W. apply simple_ready; [apply sum_all_wf|apply (pairs_con (g_n g) GE (fun e : (nat * nat) * option Qc => fst (fst e)) (fun e => snd (fst e)) (g_edges g) W)|apply (int_pairs _ GE (fun e : (nat * nat) * option Qc => fst (fst e)) (fun e => snd (fst e)))]. Qed.
Lemma stable_ready g p : graph_wf g -> stable_program g = Ok p -> ready_app p.
Proof. intros W. apply simple_ready; [apply sum_all_wf|apply (pairs_con (g_n g) LE (fun e : (nat * nat) * option Qc => fst (fst e)) (fun e => snd (fst e)) (g_edges g) W)|apply (int_pairs _ LE (fun e : (nat * nat) * option Qc => fst (fst e)) (fun e => snd (fst e)))]. Qed.
Lemma clique_ready g size p : clique_program g size = Ok p -> ready_app p.
Proof.
  pose proof (pairs_con (g_n g) LE (@fst nat nat) (@snd nat nat) (co_edges g) (co_edges_wf g)) as C. pose proof (int_pairs (g_n g) LE (@fst nat nat) (@snd nat nat) (co_edges g) 1%Qc) as I.
  unfold clique_program, clique_model. destruct size as [k|]; apply simple_ready; auto using sum_all_wf, de_wf_num.
  - apply Forall_app. split; [exact C|]. constructor; [|constructor]. apply num_con; [apply sum_all_wf|apply sum_all_lin].
  - apply Forall_app. split; [exact I|]. constructor; [|constructor]. apply int_lcon, int_sum_all.
Qed.
Lemma packing_ready subs p : packing_program subs = Ok p -> ready_app p.
Proof. apply simple_ready; [apply sum_all_wf| |]; apply Forall_map, Forall_forall; intros e _; [apply holders_con|apply int_holders]. Qed.
Lemma exact_ready subs p : exact_program subs = Ok p -> ready_app p.
Proof. apply simple_ready; [apply sum_all_wf| |]; apply Forall_map, Forall_forall; intros e _; [apply holders_con|apply int_holders]. Qed.
Lemma knapsack_ready values weights limit p : Forall integral weights -> knapsack_program values weights limit = Ok p -> ready_app p.
Proof.
  intros I E. unfold knapsack_program in E. destruct (length weights <? length values) eqn:L; [discriminate E|]. revert E. apply simple_ready; [apply weighted_wf| |]; (constructor; [|constructor]).
  - apply num_con; apply weighted_wf.
  - apply int_lcon, int_sum, Forall_map, Forall_forall. intros i _. apply int_scale; [|apply int_var]. destruct (nth_in_or_default i weights 0%Qc) as [K| ->]; [|apply integral_0]. rewrite Forall_forall in I. auto.
Qed.
Lemma partition_ready nums p : Forall (fun u => integral (qz 2 * u)) nums -> partition_program nums = Ok p -> ready_app p.
Proof.
  intros I. apply simple_ready; [apply de_wf_num| |]; (constructor; [|constructor]).
  - apply num_con.
    + apply de_wf_sum, Forall_map, Forall_forall. intros [i u] K. apply in_combine_l in K. apply in_seq in K. apply de_wf_scale, de_wf_add; [apply de_wf_scale, de_wf_var; cbn; lia|apply de_wf_num].
    + apply linear_sum, Forall_map, Forall_forall. reflexivity.
  - apply int_lcon, int_sum, Forall_map, Forall_forall. intros [i u] K. apply in_combine_r in K. rewrite Forall_forall in I. specialize (I u K). intros x y Bx By. cbn [fst snd].
    rewrite !dval_scale, !dval_add, !dval_scale, !dval_var, !dval_num. replace (_ - _)%Qc with (- (qz 2 * u * (at_ x i - at_ y i)))%Qc by ring. apply integral_opp, integral_mul; [exact I|]. apply integral_sub; eapply bit_integral; eassumption.
Qed.
Lemma tsp_ready g w p : complete g w -> 0 < g_n g -> tsp_program g = Ok p -> ready_app p.
Proof.
  intros C Hn. set (n := g_n g) in *. unfold tsp_program. fold n. rewrite (mapM_all (tsp_term g) (triple_expr n w)).
  2:{ intros [[i j] k] I. apply triples_in in I as (Hi & Hj & Hk & N). unfold tsp_term. rewrite (weight_of_spec g w i j C Hi Hj N). reflexivity. }
  cbn [bind]. apply model_ready; rewrite ?tsp_names_length; auto using tsp_names_nodup, tsp_names_full.
  - unfold tsp_names. apply Forall_forall. intros s I. apply in_flat_map in I as (i & _ & I). apply in_map_iff in I as (k & <- & _). apply x_name2_plain.
  - apply de_wf_sum, Forall_map, Forall_forall. intros [[i j] k] I. apply triples_in in I as (Hi & Hj & Hk & N). unfold triple_expr.
    apply de_wf_mul; [apply de_wf_scale|]; apply de_wf_var; apply block_lt; auto. apply Nat.mod_upper_bound. lia.
  - apply Forall_app. split; apply Forall_map, Forall_forall; intros i Ii; apply in_seq in Ii; apply num_con;
      try (apply linear_sum, Forall_map, Forall_forall; reflexivity); apply de_wf_sum, Forall_map, Forall_forall; intros k Ik; apply in_seq in Ik; apply de_wf_var, block_lt; lia.
  - apply Forall_app. split; apply Forall_map, Forall_forall; intros i _; apply int_lcon; [apply (int_vars _ (fun k => i * n + k))|apply (int_vars _ (fun k => k * n + i))].
Qed.
Lemma vrp_ready g w vehicles depot p : complete g w -> depot < g_n g -> vrp_program g vehicles depot = Ok p -> ready_app p.
Proof.
  intros C Hd. set (n := g_n g) in *. unfold vrp_program. fold n. cbv zeta. rewrite (mapM_all _ (fun a => d_scale (w (fst a) (snd a)) (d_var (arc_idx n (fst a) (snd a))))).
  2:{ intros [i j] I. apply arcs_in in I as (Hi & Hj & N). cbn [fst snd]. rewrite (weight_of_spec g w i j C Hi Hj N). reflexivity. }
  cbn [bind]. rewrite (proj2 (Nat.ltb_lt depot n) Hd). cbn [negb]. apply (model_ready _ _ _ _ (vrp_cons n vehicles depot)); rewrite ?map_length, ?arcs_length; auto using arc_names_nodup, arc_names_full.
  - apply Forall_map, Forall_forall. intros a _. apply x_name2_plain.
  - apply de_wf_sum, Forall_map, Forall_forall. intros [i j] I. apply arcs_in in I as (Hi & Hj & N). cbn [fst snd]. apply de_wf_scale, arc_var_wf; assumption.
  - now apply vrp_cons_wf.
  - unfold vrp_cons. cbv zeta. apply Forall_app. split; [|apply Forall_app; split; [|apply Forall_app; split]].
    + apply Forall_map, Forall_forall. intros i _. apply int_lcon, (int_vars _ (fun j => arc_idx n i j)).
    + apply Forall_map, Forall_forall. intros j _. apply int_lcon, (int_vars _ (fun i => arc_idx n i j)).
    + constructor; [|constructor; [|constructor]]; apply int_lcon; [apply (int_vars _ (fun i => arc_idx n i depot))|apply (int_vars _ (fun j => arc_idx n depot j))].
    + apply Forall_map, Forall_forall. intros c _. apply int_lcon, int_sum, Forall_forall. intros e I. apply in_flat_map in I as (i & _ & I). apply in_map_iff in I as (j & <- & _). apply int_var.
Qed.
