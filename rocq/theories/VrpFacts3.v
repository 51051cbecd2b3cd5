(** * Vehicle routing: program and routes *)
From Verif Require Export VrpFacts2.
Local Open Scope string_scope.
Local Open Scope list_scope.
Local Open Scope nat_scope.

Definition vrp_cons (n : nat) (vehicles : Z) (depot : nat) : list dcon :=
  let x i j := d_var (arc_idx n i j) in
  map (fun i => DLinear None EQ (d_sum (map (fun j => x i j) (others n i))) (d_num 1)) (others n depot) ++
  map (fun j => DLinear None EQ (d_sum (map (fun i => x i j) (others n j))) (d_num 1)) (others n depot) ++
  [DLinear None EQ (d_sum (map (fun i => x i depot) (others n depot))) (d_num (qz vehicles));
   DLinear None EQ (d_sum (map (fun j => x depot j) (others n depot))) (d_num (qz vehicles))] ++
  map (fun c => DLinear None LE (d_sum (flat_map (fun i => map (fun j => x i j) (filter (fun j => negb (Nat.eqb i j)) c)) c)) (d_num (qn (length c) - 1)%Qc))
      (node_sets n depot).
Lemma arc_var_wf n i j : i < n -> j < n -> i <> j -> de_wf (n * (n - 1)) (d_var (arc_idx n i j)).
Proof. intros A B N. apply de_wf_var. apply (arcs_at n i j A B N). Qed.
Lemma vrp_cons_wf n vehicles depot : depot < n -> Forall (app_con (n * (n - 1))) (vrp_cons n vehicles depot).
Proof.
  intros Hd. unfold vrp_cons. cbv zeta.
  apply Forall_app. split; [|apply Forall_app; split; [|apply Forall_app; split]].
  - apply Forall_map, Forall_forall. intros i Ii. apply others_in in Ii as (Hi & Ni). apply num_con; [apply de_wf_sum|apply linear_sum]; apply Forall_map, Forall_forall; intros j Ij; [|reflexivity].
    apply others_in in Ij as (Hj & Nj). apply arc_var_wf; auto.
  - apply Forall_map, Forall_forall. intros i Ii. apply others_in in Ii as (Hi & Ni). apply num_con; [apply de_wf_sum|apply linear_sum]; apply Forall_map, Forall_forall; intros j Ij; [|reflexivity].
    apply others_in in Ij as (Hj & Nj). apply arc_var_wf; auto.
  - constructor; [|constructor; [|constructor]]; (apply num_con; [apply de_wf_sum|apply linear_sum]); apply Forall_map, Forall_forall; intros j Ij; try reflexivity;
      apply others_in in Ij as (Hj & Nj); apply arc_var_wf; auto.
  - apply Forall_map, Forall_forall. intros c Ic. apply node_sets_in in Ic as (_ & _ & Hc).
    apply num_con; [apply de_wf_sum|apply linear_sum]; apply Forall_forall; intros e Ie; apply in_flat_map in Ie as (i & Ii & Ie); apply in_map_iff in Ie as (j & <- & Ij); [|reflexivity].
    apply filter_In in Ij as (Ij & Nj). apply arc_var_wf; [apply Hc; exact Ii|apply Hc; exact Ij|]. destruct (Nat.eqb_spec i j); [discriminate Nj|assumption].
Qed.
Lemma vars_val {A} (f : A -> nat) l x : dval (d_sum (map (fun a => d_var (f a)) l)) x = sumof (fun a => at_ x (f a)) l.
Proof. rewrite dval_sum_of, sumof_map. apply sumof_ext. intros; apply dval_var. Qed.
Lemma vrp_cons_rules n vehicles depot x : depot < n -> bits (n * (n - 1)) x -> (Forall (dcon_holds x) (vrp_cons n vehicles depot) <-> vrp_rules n vehicles depot x).
Proof.
  intros Hd B. unfold vrp_cons, vrp_rules. cbv zeta. rewrite !Forall_app, !Forall_map_iff, !Forall_forall.
  assert (forall i, i < n -> (dcon_holds x (DLinear None EQ (d_sum (map (fun j => d_var (arc_idx n i j)) (others n i))) (d_num 1)) <-> outs i (picked_arcs n x) = 1)) as HO.
  { intros i Hi. cbn [dcon_holds]. rewrite (vars_val (fun j => arc_idx n i j)), dval_num. cbn [holds]. change (sumof (fun j => at_ x (arc_idx n i j)) (others n i)) with (sumof (fun j => arc_at n x i j) (others n i)).
    rewrite <- (outs_sum n x i B Hi). split; [apply (qn_inj _ 1)|]. intros ->. reflexivity. }
  assert (forall i, i < n -> (dcon_holds x (DLinear None EQ (d_sum (map (fun j => d_var (arc_idx n j i)) (others n i))) (d_num 1)) <-> ins i (picked_arcs n x) = 1)) as HI.
  { intros i Hi. cbn [dcon_holds]. rewrite (vars_val (fun j => arc_idx n j i)), dval_num. cbn [holds]. change (sumof (fun j => at_ x (arc_idx n j i)) (others n i)) with (sumof (fun j => arc_at n x j i) (others n i)).
    rewrite <- (ins_sum n x i B Hi). split; [apply (qn_inj _ 1)|]. intros ->. reflexivity. }
  assert (dcon_holds x (DLinear None EQ (d_sum (map (fun i => d_var (arc_idx n i depot)) (others n depot))) (d_num (qz vehicles))) <-> Z.of_nat (ins depot (picked_arcs n x)) = vehicles) as HDi.
  { cbn [dcon_holds]. rewrite (vars_val (fun j => arc_idx n j depot)), dval_num. cbn [holds]. change (sumof (fun j => at_ x (arc_idx n j depot)) (others n depot)) with (sumof (fun j => arc_at n x j depot) (others n depot)).
    rewrite <- (ins_sum n x depot B Hd). unfold qn. split; [apply qz_inj|]. intros ->. reflexivity. }
  assert (dcon_holds x (DLinear None EQ (d_sum (map (fun i => d_var (arc_idx n depot i)) (others n depot))) (d_num (qz vehicles))) <-> Z.of_nat (outs depot (picked_arcs n x)) = vehicles) as HDo.
  { cbn [dcon_holds]. rewrite (vars_val (fun j => arc_idx n depot j)), dval_num. cbn [holds]. change (sumof (fun j => at_ x (arc_idx n depot j)) (others n depot)) with (sumof (fun j => arc_at n x depot j) (others n depot)).
    rewrite <- (outs_sum n x depot B Hd). unfold qn. split; [apply qz_inj|]. intros ->. reflexivity. }
  assert (forall c, dcon_holds x (DLinear None LE (d_sum (flat_map (fun i => map (fun j => d_var (arc_idx n i j)) (filter (fun j => negb (Nat.eqb i j)) c)) c)) (d_num (qn (length c) - 1)%Qc)) <->
            (inside n x c <= qn (length c) - 1)%Qc) as HS.
  { intros c. cbn [dcon_holds]. rewrite dval_sum_of, sumof_flat_map, dval_num. cbn [holds]. unfold inside.
    rewrite (sumof_ext _ (fun i => sumof (fun j => arc_at n x i j) (filter (fun j => negb (Nat.eqb i j)) c))); [reflexivity|].
    intros i _. rewrite sumof_map. apply sumof_ext. intros j _. apply dval_var. }
  split.
  - intros (A1 & A2 & A3 & A4). split; [|split; [|split]].
    + intros v Hv Nv. split; [apply HO; [exact Hv|]; apply A1|apply HI; [exact Hv|]; apply A2]; apply others_in; auto.
    + apply HDo, A3. right; left; reflexivity.
    + apply HDi, A3. left; reflexivity.
    + intros c Ic. apply HS, A4, Ic.
  - intros (R1 & R2 & R3 & R4). split; [|split; [|split]].
    + intros i Ii. apply others_in in Ii as (Hi & Ni). apply HO; [exact Hi|]. apply R1; assumption.
    + intros i Ii. apply others_in in Ii as (Hi & Ni). apply HI; [exact Hi|]. apply R1; assumption.
    + intros c [<-|[<-|[]]]; [apply HDi|apply HDo]; assumption.
    + intros c Ic. apply HS, R4, Ic.
Qed.

Lemma vrp_spec g w vehicles depot : complete g w -> depot < g_n g -> exists p, vrp_program g vehicles depot = Ok p /\
  binary_program p (g_n g * (g_n g - 1)) MINIMIZE /\
  (forall x, feasible p x <-> bits (g_n g * (g_n g - 1)) x /\ exists routes, good_routes (g_n g) vehicles depot routes /\ marks p x (concat routes)) /\
  forall x, feasible p x -> exists routes, vrp_interpret g vehicles depot x = Ok routes /\ good_routes (g_n g) vehicles depot routes /\
    marks p x (concat routes) /\ obj_at (p_obj p) x = sumof (fun e => w (fst e) (snd e)) (concat routes).
Proof.
  intros C Hd. set (n := g_n g) in *. unfold vrp_program. fold n. cbv zeta.
  rewrite (mapM_all _ (fun a => d_scale (w (fst a) (snd a)) (d_var (arc_idx n (fst a) (snd a))))).
  2:{ intros [i j] I. apply arcs_in in I as (Hi & Hj & N). cbn [fst snd]. rewrite (weight_of_spec g w i j C Hi Hj N). reflexivity. }
  cbn [bind]. rewrite (proj2 (Nat.ltb_lt depot n) Hd). cbn [negb]. set (obj := d_sum _).
  destruct (binary_model_spec "Vehicle routing" (map (fun a => x_name2 (fst a) (snd a)) (arcs n)) MINIMIZE obj (vrp_cons n vehicles depot) (arc_names_nodup n) (arc_names_full n))
    as (p & E & _ & V & Bp & S & L & Q & O & F); rewrite ?map_length, ?arcs_length in *.
  - apply de_wf_sum, Forall_map, Forall_forall. intros [i j] I. apply arcs_in in I as (Hi & Hj & N). cbn [fst snd]. apply de_wf_scale, arc_var_wf; assumption.
  - apply vrp_cons_wf. exact Hd.
  - assert (forall x used, marks p x used <-> forall i j, i < n -> j < n -> i <> j -> (arc_at n x i j = 1%Qc <-> In (i, j) used)) as HM.
    { intros x used. unfold marks. rewrite V. split.
      - intros H i j Hi Hj N. apply H. apply (arc_names_at n i j). auto.
      - intros H i j k E'. apply (arc_names_at n i j) in E' as (Hi & Hj & N & ->). apply H; assumption. }
    exists p. split; [exact E|]. split.
    { split; [|auto]. unfold num_vars. rewrite <- (map_length v_name). change (map v_name (p_vars p)) with (var_names p). rewrite V, map_length. apply arcs_length. }
    assert (forall x, feasible p x -> exists routes, bits (n * (n - 1)) x /\ vrp_interpret g vehicles depot x = Ok routes /\ good_routes n vehicles depot routes /\
              marks p x (concat routes) /\ obj_at (p_obj p) x = sumof (fun e => w (fst e) (snd e)) (concat routes)) as Main.
    { intros x H. apply F in H as (Bx & H). apply (vrp_cons_rules n vehicles depot x Hd Bx) in H. destruct (vrp_rules_routes n vehicles depot x Hd Bx H) as (routes & Er & Gr & P).
      exists routes. split; [exact Bx|]. split; [|split; [exact Gr|split]].
      - unfold vrp_interpret. fold n. rewrite (chosen_arcs_spec n x (proj1 Bx)). cbn [bind]. rewrite Er. reflexivity.
      - apply HM. intros i j Hi Hj N. split.
        + intros A. apply (Permutation_in _ (Permutation_sym P)). apply (picked_arcs_in n x i j Bx). auto.
        + intros I. apply (Permutation_in _ P) in I. apply (picked_arcs_in n x i j Bx) in I. tauto.
      - rewrite (O x Bx). unfold obj. rewrite dval_sum_of, sumof_map, (sumof_perm _ _ _ P), (picked_sum_arcs n x _ Bx). apply sumof_ext. intros a _. rewrite dval_scale, dval_var. reflexivity. }
    split.
    + intros x. split.
      * intros H. destruct (Main x H) as (routes & Bx & _ & Gr & M & _). split; [exact Bx|]. eauto.
      * intros (Bx & routes & Gr & M). apply F. split; [exact Bx|]. apply (vrp_cons_rules n vehicles depot x Hd Bx). apply (routes_rules n vehicles depot x routes Hd Bx Gr). apply HM. exact M.
    + intros x H. destruct (Main x H) as (routes & _ & A). eauto.
Qed.
