(** * The recursive optimizer as a whole *)
From Verif Require Export RecurFacts5 AlgoFacts3.
Local Open Scope nat_scope.

Lemma interpret_x p fs samples x r : interpret p fs samples x = Ok r -> exists y, decodes fs x y /\ r_x r = Some y.
Proof.
  intro H. unfold interpret in H. apply bind_ok in H. destruct H as (y & H1 & H). apply bind_ok in H. destruct H as (f & H2 & H). apply bind_ok in H. destruct H as (s & H3 & H).
  apply decodes_iff in H1. exists y. split; auto. unfold make_result in H. destruct (length y =? length (p_vars p)); [|discriminate H]. cbn [bind] in H. injection H as <-. reflexivity.
Qed.
Lemma base_known vars x d val : NoDup (map v_name vars) -> base_values vars x = Ok d -> (forall i w, nth_error vars i = Some w -> val (v_name w) = at_ (match x with Some x' => x' | None => [] end) i) ->
  knows val d /\ (forall t, In t (map v_name vars) -> In t (map fst d)) /\ length vars <= length (match x with Some x' => x' | None => [] end).
Proof.
  intros N H V. destruct vars as [|v vs].
  - cbn in H. injection H as <-. split; [intros s v; discriminate|]. split; [intros t []|cbn; lia].
  - destruct (base_values_spec _ _ _ H) as (x' & -> & L & E & K); [discriminate|]. split; [|split; auto; intro t; apply K].
    intros s a Ha. destruct (E s a Ha) as (i & w & Hw & <- & ->). symmetry. now apply V.
Qed.
Lemma names_values (vars : list variable) (x : list Qc) : NoDup (map v_name vars) -> exists f : string -> Qc, forall i w, nth_error vars i = Some w -> f (v_name w) = at_ x i.
Proof.
  revert x. induction vars as [|v vs IH]; intros x N; [exists (fun _ => 0%Qc); intros [|i]; discriminate|]. inversion N as [|? ? Nv Ns]; subst. destruct (IH (tl x) Ns) as [f Hf].
  exists (fun s => if String.eqb s (v_name v) then at_ x 0 else f s). intros [|i] w Hw; cbn in Hw.
  - injection Hw as <-. destruct (str_eqb_sp (v_name v) (v_name v)); [reflexivity|congruence].
  - destruct (str_eqb_sp (v_name w) (v_name v)) as [E|_]; [exfalso; apply Nv; rewrite <- E; apply in_map; eapply nth_error_In; eauto|]. rewrite (Hf _ _ Hw). destruct x; [destruct i; reflexivity|reflexivity].
Qed.

(** ** The conversion gives programs of the required kind *)
Lemma penalize_plain pen p q : penalize pen p = Ok q -> quad_upper (o_quad (p_obj q)) /\ le_int (o_lin (p_obj q)) = false.
Proof.
  intro H. unfold penalize in H. apply bind_ok in H. destruct H as (d0 & H0 & H1).
  apply bind_ok in H1. destruct H1 as ([[o l] k] & Hst & H1). apply set_objective_inv in H1. destruct H1 as (e & e2 & E1 & E2 & ->). cbn [set_obj p_obj o_lin o_quad].
  unfold by_index in E1. apply lin_make_dict in E1. unfold by_index2 in E2. apply quad_make_spec in E2. tauto.
Qed.
Lemma qubo_plain pen p r : prog_wf p -> to_qubo pen p = Ok r -> ~ In CONST (var_names (r_qubo r)) -> plain_qubo (r_qubo r).
Proof.
  intros W H C. destruct (qubo_inv pen p r H) as (_ & _ & _ & _ & H3). destruct (qubo_wf pen p r H) as (_ & _ & W3). destruct (qubo_shape pen p r W H) as (B & L & Q & S).
  destruct (penalize_plain _ _ _ H3) as [U I]. split; [exact W3|]. split; [exact L|]. split; [exact Q|]. split; [eapply Forall_impl; [|exact B]; intros v (_ & E1 & E2); unfold in_range; rewrite E1, E2; split; [apply Qcle_refl|discriminate]|].
  split; [exact C|]. split; [exact (qubo_obj_shaped pen p r W H)|]. split; assumption.
Qed.

Lemma firstn_nth {A} (d : A) : forall k l i, i < k -> nth i (firstn k l) d = nth i l d.
Proof. induction k as [|k IH]; intros [|a l] [|i] H; cbn; auto; try lia. apply IH. lia. Qed.
Section Solve.
Variables (kz : bool) (inner : nat -> qp -> result opt_result) (final : qp -> result opt_result) (min : nat) (cs : list converter) (p q : qp) (fs : list interp).
Hypothesis Hc : convert_all cs p = Ok (q, fs).
Hypothesis G : plain_qubo q.
Definition point (r : opt_result) : list Qc := match r_x r with Some x => x | None => [] end.

Lemma solve_spec p' res rep : recursive_solve kz inner final min cs p = (p', Ok (res, rep)) ->
  exists red r val y, final red = Ok r /\ eliminates (var_names q) rep (var_names red) /\ num_vars red = Nat.min min (num_vars q) /\ o_sense (p_obj red) = o_sense (p_obj q) /\ plain_qubo red /\
    num_vars red <= length (point r) /\ map val (var_names red) = firstn (num_vars red) (point r) /\ respects rep val /\ keeps_value (length rep) q red val /\
    decodes fs (map val (var_names q)) y /\ r_x res = Some y /\
    (cs <> [] -> p' = p /\ interpret p fs [] (map val (var_names q)) = Ok res).
Proof using Hc G.
  unfold recursive_solve. intro H. destruct (qubo_compatible p); [|discriminate H]. rewrite Hc in H.
  destruct (reduce_loop _ _ _ _ _ _) as [s [[]|]] eqn:E; [|discriminate H].
  match type of H with (_, ?e) = _ => assert (e = Ok (res, rep) /\ p' = rs_orig s) as [H' Ep] by (injection H; auto) end. clear H.
  apply bind_ok in H'. destruct H' as (r & Hr & H'). apply bind_ok in H'. destruct H' as (vals & Hv & H'). apply bind_ok in H'. destruct H' as (x & Hx & H').
  apply bind_ok in H'. destruct H' as (res' & Hi & H'). assert (res' = res /\ rs_repl s = rep) as [-> Er] by (injection H'; auto). clear H'.
  apply loop_spec in E; [|exact G|intros a []]. destruct E as (rep' & R & El & Pl & Se & Nv & Or & Va). cbn [rs_repl rs_cur rs_same rs_orig app] in *. rewrite Er in R. subst rep'.
  pose proof (prog_wf_nodup _ (proj1 G)) as Nq. destruct (el_nodup _ _ _ El Nq) as (Nr & _).
  destruct (names_values (p_vars (rs_cur s)) (point r) Nr) as [f Hf]. destruct (el_extend _ _ _ El Nq f) as (val & Rv & Av).
  assert (forall i w, nth_error (p_vars (rs_cur s)) i = Some w -> val (v_name w) = at_ (point r) i) as Hval.
  { intros i w Hw. rewrite Av by (apply in_map; eapply nth_error_In; eauto). now apply Hf. }
  destruct (base_known _ _ _ val Nr Hv Hval) as (K & C & L). rewrite Er in Hx. rewrite (unroll_spec _ _ _ val vals Nq El Rv K C) in Hx. injection Hx as <-.
  destruct (interpret_x _ _ _ _ _ Hi) as (y & Dy & Ey). exists (rs_cur s), r, val, y. split; auto. split; auto. split; auto. split; auto. split; auto. split; auto.
  split.
  { apply nth_ext with (d := 0%Qc) (d' := 0%Qc); unfold num_vars, var_names in *.
    - rewrite firstn_length, !map_length. fold (point r) in L. lia.
    - intros i Hi'. rewrite !map_length in Hi'. destruct (nth_error (p_vars (rs_cur s)) i) as [w|] eqn:Ew; [|apply nth_error_None in Ew; lia].
      rewrite map_map. rewrite (nth_indep _ 0%Qc (val (v_name w))) by (rewrite map_length; lia). rewrite (map_nth (fun v => val (v_name v))).
      rewrite (nth_error_nth _ _ _ Ew), (Hval i w Ew). unfold at_. symmetry. apply firstn_nth. lia. }
  split; auto. split; auto. split; auto. split; auto.
  intro Nc. destruct cs as [|c l]; [congruence|]. rewrite (Or eq_refl) in *. auto.
Qed.
Lemma solve_total : qubo_compatible p = true -> samples_sized inner -> answers_sized final -> 1 <= min -> cs <> [] -> shapes (num_vars p) p ->
  (forall x, length x = num_vars q -> exists y, decodes fs x y /\ length y = num_vars p) -> exists res rep, recursive_solve kz inner final min cs p = (p, Ok (res, rep)).
Proof using Hc G.
  intros Qc Si Sf Hm Nc Sh Dec. unfold recursive_solve. rewrite Qc, Hc.
  destruct (loop_total kz inner min Si Hm (num_vars q) 0 (mkR p q (match cs with [] => true | _ => false end) []) G (le_n _)) as [s E]. rewrite E.
  apply loop_spec in E; [|exact G|intros a []]. destruct E as (rep & R & El & Pl & Se & Nv & Or & Va). cbn [rs_repl rs_cur rs_same rs_orig app] in *.
  destruct (Sf (rs_cur s)) as (r & x & Er & Ex & Lx). rewrite Er. cbn [bind]. rewrite Ex. destruct (base_values_total (p_vars (rs_cur s)) x Lx) as [d Ed]. rewrite Ed. cbn [bind].
  pose proof (prog_wf_nodup _ (proj1 G)) as Nq. destruct (el_nodup _ _ _ El Nq) as (Nr & _).
  destruct (names_values (p_vars (rs_cur s)) x Nr) as [f Hf]. destruct (el_extend _ _ _ El Nq f) as (val & Rv & Av).
  destruct (base_known _ _ _ val Nr Ed) as (K & C & L). { intros i w Hw. rewrite Av by (apply in_map; eapply nth_error_In; eauto). now apply Hf. }
  rewrite R, (unroll_spec _ _ _ val d Nq El Rv K C). cbn [bind]. destruct (Dec (map val (var_names q))) as (y & Dy & Ly); [now rewrite map_length, names_length|].
  destruct cs as [|c l]; [congruence|]. rewrite (Or eq_refl). destruct (interpret_total p fs [] _ y Sh Dy Ly) as [res Hres]. rewrite Hres. cbn [bind]. eauto.
Qed.
End Solve.
(** Whatever happens, a conversion protects the caller's program. *)
Lemma round_keeps kz s res s' e : rs_same s = false -> reduce_round kz s res = (s', e) -> rs_orig s' = rs_orig s /\ rs_same s' = false.
Proof.
  intros Sm H. assert (forall t i j xi xj b t' e', rs_same t = false -> reduce_subst kz t i j xi xj b = (t', e') -> rs_orig t' = rs_orig t /\ rs_same t' = false) as Sub.
  { intros t i j xi xj b t' e' St Ht. unfold reduce_subst in Ht. destruct (substitute _ _ _ _) as [q'|]; [destruct (p_status q')|]; injection Ht as <- _; auto. }
  unfold reduce_round in H. cbv zeta in H. match type of H with match ?x with _ => _ end = _ => destruct x as [[[[m [i j]] xi] xj]|]; [|injection H as <- _; auto] end.
  destruct (qltb 0 (get2 m i j)); [eauto|]. destruct (shift_objective (rs_cur s) i) as [p' [[]|]].
  - apply Sub in H; [|exact Sm]. cbn in H. now rewrite Sm in H.
  - injection H as <- _. cbn. now rewrite Sm.
Qed.
Lemma loop_keeps kz inner min : forall fuel k s s' e, rs_same s = false -> reduce_loop kz fuel inner min k s = (s', e) -> rs_orig s' = rs_orig s.
Proof.
  induction fuel as [|f IH]; intros k s s' e Sm H; cbn [reduce_loop] in H; destruct (min <? num_vars (rs_cur s)); try (injection H as <- _; auto).
  destruct (reduce_round kz s (inner k (rs_cur s))) as [s1 [[]|]] eqn:E; destruct (round_keeps _ _ _ _ _ Sm E) as [O S1]; [rewrite <- O; eauto|]. injection H as <- _. auto.
Qed.
Lemma solve_keeps kz inner final min cs p p' e : cs <> [] -> recursive_solve kz inner final min cs p = (p', e) -> p' = p.
Proof.
  intros Nc H. unfold recursive_solve in H. destruct (qubo_compatible p); [|injection H as <- _; auto]. destruct (convert_all cs p) as [[q fs]|]; [|injection H as <- _; auto].
  destruct cs as [|c l]; [congruence|]. destruct (reduce_loop _ _ _ _ _ _) as [s [[]|]] eqn:E; apply loop_keeps in E; auto; cbn in E; injection H as <- _; auto.
Qed.
