(** * C42 and C43: the recursive optimizer *)
From Verif Require Import RecurFacts6 RecurKeep.
Local Open Scope string_scope.
Local Open Scope list_scope.
Local Open Scope nat_scope.

(** ** C42 *)
(** Refuted without a conversion: an integer list of linear coefficients is stored with an integer type, and 1/2 of a
    product is lost when it is moved to the linear part. *)
Theorem C42_consistent_refuted : exists p s val, prog_wf p /\ unconstrained_binary p /\ on_grid (1 / qz 2) p /\ samples_sized (fun _ q =>
    Ok (mkRes None None [] None SUCCESS (Some [mkSample (firstn (num_vars q) [1; 0]%Qc ++ repeat 0%Qc (num_vars q - 2)) 0 1 SUCCESS]))) /\
  reduce_loop true (num_vars p) (fun _ q =>
    Ok (mkRes None None [] None SUCCESS (Some [mkSample (firstn (num_vars q) [1; 0]%Qc ++ repeat 0%Qc (num_vars q - 2)) 0 1 SUCCESS]))) 1 0 (mkR p p true []) = (s, Ok tt) /\
  respects (rs_repl s) val /\ obj_val (rs_cur s) val <> obj_val p val.
Proof.
  set (inner := fun (_ : nat) (q : qp) => Ok (mkRes None None [] None SUCCESS (Some [mkSample (firstn (num_vars q) [1; 0]%Qc ++ repeat 0%Qc (num_vars q - 2)) 0 1 SUCCESS])) : result opt_result).
  set (p := run (new_qp "") [OAddVar 0 1 BINARY (Some "a"); OAddVar 0 1 BINARY (Some "b");
    OObjective MINIMIZE 1 (Some (LList true [1; qz 2]%Qc)) (Some (QDict [((KI 1, KI 0), 1 / qz 2)]%Qc))]).
  set (val := fun s => if String.eqb s "a" then 1%Qc else 0%Qc).
  assert (match reduce_loop true (num_vars p) inner 1 0 (mkR p p true []) with
     | (s, Ok _) => negb (qeqb (obj_val (rs_cur s) val) (obj_val p val)) && match rs_repl s with [(a, (b, false))] => String.eqb a "b" && String.eqb b "a" | _ => false end | _ => false end = true) as V by (vm_compute; reflexivity).
  destruct (reduce_loop true (num_vars p) inner 1 0 (mkR p p true [])) as [s [[]|]] eqn:E; [|discriminate V]. apply andb_prop in V. destruct V as [V1 V2].
  destruct (rs_repl s) as [|[a [b [|]]] [|]] eqn:Er; try discriminate V2. apply andb_prop in V2. destruct V2 as [Ea Eb]. apply String.eqb_eq in Ea, Eb. subst a b.
  exists p, s, val. split; [apply reachable_wf; repeat constructor|]. split; [split; [vm_compute; repeat constructor|split; reflexivity]|].
  split. { split.
    - intro i. destruct i as [|[|i]]; [exists 2%Z|exists 4%Z|exists 0%Z]; apply Qc_is_canon; vm_compute; reflexivity.
    - intros i j. destruct i as [|i]; [destruct j as [|[|j]]; [exists 0%Z|exists 1%Z|exists 0%Z]|exists 0%Z]; apply Qc_is_canon; vm_compute; try reflexivity. }
  split. { intros k q. eexists _, _, []. split; [reflexivity|]. split; [reflexivity|]. constructor; [|constructor]. cbn [s_x]. rewrite app_length, firstn_length, repeat_length. cbn [length]. lia. }
  split; [exact E|]. rewrite Er. split; [constructor; [apply Qc_is_canon; vm_compute; reflexivity|constructor]|].
  intro H. rewrite H in V1. destruct (qeqb_spec (obj_val p val) (obj_val p val)); [discriminate V1|congruence].
Qed.
(** Refuted, also with the default converter, for a variable with the reserved name "__CONSTANT__": replaced by that variable,
    b becomes the constant 1. *)
Theorem C42_reserved_refuted : exists p qr inner s val, prog_wf p /\ shapes (num_vars p) p /\ unconstrained_binary p /\ samples_sized inner /\
  to_qubo None p = Ok qr /\ on_grid 1 (r_qubo qr) /\ reduce_loop true (num_vars (r_qubo qr)) inner 1 0 (mkR p (r_qubo qr) false []) = (s, Ok tt) /\
  respects (rs_repl s) val /\ obj_val (rs_cur s) val <> obj_val (r_qubo qr) val.
Proof.
  set (p := run (new_qp "") [OAddVar 0 1 BINARY (Some "__CONSTANT__"); OAddVar 0 1 BINARY (Some "b"); OObjective MINIMIZE 1 (Some (LDict [(KI 1, 1%Qc)])) None]).
  set (inner := fun (_ : nat) (q : qp) => Ok (mkRes None None [] None SUCCESS (Some [mkSample (repeat 1%Qc (num_vars q)) 0 1 SUCCESS])) : result opt_result). set (val := fun _ : string => 0%Qc).
  assert (match to_qubo None p with Ok qr => negb (qeqb (coef1 (o_lin (p_obj (r_qubo qr))) 0) 1) && forallb (fun kv => qeqb (snd kv) 1) (le_co (o_lin (p_obj (r_qubo qr)))) && match qe_co (o_quad (p_obj (r_qubo qr))) with [] => true | _ => false end &&
     match reduce_loop true (num_vars (r_qubo qr)) inner 1 0 (mkR p (r_qubo qr) false []) with
     | (s, Ok _) => negb (qeqb (obj_val (rs_cur s) val) (obj_val (r_qubo qr) val)) && forallb (fun e => snd (snd e)) (rs_repl s) | _ => false end | Err _ => false end = true) as V by (vm_compute; reflexivity).
  destruct (to_qubo None p) as [qr|] eqn:Eq; [|discriminate V]. apply andb_prop in V. destruct V as [V0 V]. apply andb_prop in V0. destruct V0 as [V0 Vq]. apply andb_prop in V0. destruct V0 as [_ Vl].
  destruct (reduce_loop true (num_vars (r_qubo qr)) inner 1 0 (mkR p (r_qubo qr) false [])) as [s [[]|]] eqn:E; [|discriminate V]. apply andb_prop in V. destruct V as [V1 V2].
  exists p, qr, inner, s, val. split; [apply reachable_wf; repeat constructor|]. split. { repeat split; simpl; repeat constructor; simpl; try lia; intuition (try congruence; lia). }
  split; [split; [vm_compute; repeat constructor|split; reflexivity]|].
  split. { intros k q. eexists _, _, []. split; [reflexivity|]. split; [reflexivity|]. constructor; [apply repeat_length|constructor]. }
  split; [exact Eq|]. split.
  { split.
    - intro i. unfold coef1, dgetq. destruct (dget Nat.eqb i (le_co (o_lin (p_obj (r_qubo qr))))) as [v|] eqn:Ev; [|exists 0%Z; apply Qc_is_canon; reflexivity].
      apply (dget_in _ nat_eqb_sp) in Ev. rewrite forallb_forall in Vl. apply Vl in Ev. cbn [snd] in Ev. destruct (qeqb_spec v 1) as [Hv|]; [|discriminate Ev]. rewrite Hv. exists 1%Z. apply Qc_is_canon. reflexivity.
    - intros i j. exists 0%Z. unfold coef2. destruct (qe_co (o_quad (p_obj (r_qubo qr)))); [|discriminate Vq]. apply Qc_is_canon. reflexivity. }
  split; [exact E|]. split.
  { unfold respects. rewrite Forall_forall. rewrite forallb_forall in V2. intros e He. rewrite (V2 e He). reflexivity. }
  intro H. rewrite H in V1. destruct (qeqb_spec (obj_val (r_qubo qr) val) (obj_val (r_qubo qr) val)); [discriminate V1|congruence].
Qed.
(** What holds, for every converter list whose result is a QUBO with fractional coefficients and without the reserved name,
    and all answers of the inner optimizers: [red] is the reduced problem, [x] the point found for it and [val] the unrolled values. *)
Theorem C42_consistent_partial : forall kz inner final min cs p q fs p' res rep, convert_all cs p = Ok (q, fs) -> plain_qubo q ->
  recursive_solve kz inner final min cs p = (p', Ok (res, rep)) ->
  exists red r val y, let x := firstn (num_vars red) (point r) in let xv := map val (map v_name (p_vars q)) in
    final red = Ok r /\ eliminates (map v_name (p_vars q)) rep (map v_name (p_vars red)) /\
    num_vars red = Nat.min min (num_vars q) /\ length rep = num_vars q - min /\ o_sense (p_obj red) = o_sense (p_obj q) /\
    map val (map v_name (p_vars red)) = x /\ length x = num_vars red /\ respects rep val /\
    (forall g, (1 / qz 10000000000 < g)%Qc -> on_grid g q -> obj_at (p_obj red) x = obj_at (p_obj q) xv) /\
    ((forall a, In a xv -> (0 <= a <= 1)%Qc) ->
       (qabs (obj_at (p_obj red) x - obj_at (p_obj q) xv) <= qn (length rep) * qn (num_vars q) * (1 / qz 10000000000))%Qc) /\
    decodes fs xv y /\ r_x res = Some y /\
    (cs <> [] -> prog_wf p -> r_fval res = Some (obj_at (p_obj p) y) /\ status_at p y (r_status res)).
Proof.
  intros kz inner final min cs p q fs p' res rep Hc G H. destruct (solve_spec kz inner final min cs p q fs Hc G p' res rep H) as (red & r & val & y & Hr & El & Nv & Se & Pl & Lx & Ex & Rv & (eps & E1 & E2 & E3) & Dy & Ey & Hcs).
  exists red, r, val, y. cbv zeta. destruct (el_nodup _ _ _ El (prog_wf_nodup _ (proj1 G))) as (_ & _ & _ & _ & _ & Ln). rewrite !names_length in Ln. unfold var_names in *.
  split; auto. split; auto. split; auto. split; [lia|]. split; auto. split; auto. split; [rewrite firstn_length; lia|]. split; auto. unfold obj_val in E1. rewrite Ex in E1.
  split. { intros g Hg Og. rewrite E1, (E3 g Hg Og). ring. }
  split. { intro U. rewrite E1. match goal with |- (qabs ?e <= _)%Qc => replace e with eps by ring end. apply E2. intros s Hs. apply U. apply in_map. exact Hs. }
  split; auto. split; auto. intros Nc Wp. destruct (Hcs Nc) as [_ Hi]. destruct (interpret_spec _ _ _ _ _ Wp Hi) as (y' & D & L & X & _ & F & S & _). rewrite X in Ey. injection Ey as <-. auto.
Qed.
(** The default converter: with answers of the right size it goes through, and eliminates all but [min] variables. *)
Theorem C42_default_partial : forall kz inner final min pen p qr, prog_wf p -> shapes (num_vars p) p -> to_qubo pen p = Ok qr ->
  ~ In CONST (map v_name (p_vars (r_qubo qr))) -> samples_sized inner -> answers_sized final -> 1 <= min ->
  exists res rep red val, recursive_solve kz inner final min (default_converters pen) p = (p, Ok (res, rep)) /\
    eliminates (map v_name (p_vars (r_qubo qr))) rep (map v_name (p_vars red)) /\ num_vars red = Nat.min min (num_vars (r_qubo qr)) /\ respects rep val /\
    (forall r x, final red = Ok r -> r_x r = Some x -> length x = num_vars red -> map val (map v_name (p_vars red)) = x) /\
    (forall g, (1 / qz 10000000000 < g)%Qc -> on_grid g (r_qubo qr) ->
       obj_at (p_obj red) (map val (map v_name (p_vars red))) = obj_at (p_obj (r_qubo qr)) (map val (map v_name (p_vars (r_qubo qr))))).
Proof.
  intros kz inner final min pen p qr W Sh Hq C Si Sf Hm. pose proof (qubo_plain pen p qr W Hq C) as G.
  assert (convert_all (default_converters pen) p = Ok (r_qubo qr, [qubo_interpret qr])) as Hc by (unfold convert_all, default_converters, qubo_converter; cbn [foldM fst snd]; rewrite Hq; reflexivity).
  destruct (solve_total kz inner final min (default_converters pen) p (r_qubo qr) [qubo_interpret qr] Hc G) as (res & rep & E); auto; [unfold to_qubo in Hq; destruct (qubo_compatible p); [reflexivity|discriminate Hq]|discriminate| |].
  { intros x Lx. destruct (qubo_interpret_total pen p qr W Hq x Lx) as (y & Ey & Ly). exists y. split; auto. exists x. split; [reflexivity|exact Ey]. }
  destruct (C42_consistent_partial _ _ _ _ _ _ _ _ _ _ _ Hc G E) as (red & r & val & y & Hr & El & Nv & Ln & Se & Ex & Lx & Rv & Gr & _).
  exists res, rep, red, val. split; auto. split; auto. split; auto. split; auto. split; [|rewrite Ex; exact Gr].
  intros r' x' Hr' Ex' Lx'. rewrite Hr in Hr'. injection Hr' as <-. rewrite Ex. unfold point. rewrite Ex', <- Lx'. apply firstn_all.
Qed.
(** One variable goes in each round, so no more rounds than variables are ever made. *)
Theorem C42_rounds : forall kz inner min p more, plain_qubo p -> let s := mkR p p true [] in
  reduce_loop kz (num_vars p + more) inner min 0 s = reduce_loop kz (num_vars p) inner min 0 s.
Proof. intros kz inner min p more G s. apply loop_fuel; cbn; auto. Qed.
(** The pair of a round has the largest absolute correlation. *)
Theorem C42_strongest : forall r s ss m i j, r_samples r = Some (s :: ss) -> 2 <= length (s_x s) -> get_correlations r = Ok m -> strongest m = Ok (i, j) ->
  i < length (s_x s) /\ j < length (s_x s) /\ i <> j /\
  forall i' j', i' < length (s_x s) -> j' < length (s_x s) -> i' <> j' -> (qabs (get2 m i' j') <= qabs (get2 m i j))%Qc.
Proof.
  intros r s ss m i j Hs L2 Hm Hj. unfold get_correlations in Hm. rewrite Hs in Hm. pose proof (correlations_spec s ss) as C. cbv zeta in C. destruct (proj2 C m Hm) as (L & F & _).
  destruct (strongest_spec m _ L F i j Hj) as (A & B & D). destruct (D L2). auto.
Qed.

(** Three rounds on four variables, with alternating answers. *)
Definition ex42 : qp := run (new_qp "") [OAddVars (KCount 4) 0 1 BINARY None "{}";
   OObjective MAXIMIZE 1 (Some (LDict [(KI 0, qz 2); (KI 3, qz (-1))])) (Some (QDict [((KI 0, KI 1), qz 3); ((KI 1, KI 2), qz (-2)); ((KI 2, KI 3), 1%Qc)]))].
Definition inner42 : nat -> qp -> result opt_result := fun k p =>
  Ok (mkRes None None [] None SUCCESS (Some [mkSample (firstn (num_vars p) (if Nat.even k then [1; 0; 0; 1] else [1; 1; 1; 0])%Qc ++ repeat 0%Qc (num_vars p - 4)) 0 (1 / qz 2) SUCCESS;
                                             mkSample (firstn (num_vars p) [0; 1; 1; 1]%Qc ++ repeat 0%Qc (num_vars p - 4)) 0 (1 / qz 2) SUCCESS])).
Definition final42 : qp -> result opt_result := fun p => Ok (mkRes (Some (repeat 1%Qc (num_vars p))) None [] None SUCCESS None).
Lemma ex42_wf : prog_wf ex42 /\ shapes (num_vars ex42) ex42.
Proof. split; [apply reachable_wf; repeat constructor|repeat split; simpl; repeat constructor; simpl; try lia; intuition (try congruence; lia)]. Qed.
Example C42_case : samples_sized inner42 /\ answers_sized final42 /\
  match to_qubo None ex42 with
  | Ok r => ~ In CONST (map v_name (p_vars (r_qubo r))) /\ num_vars (r_qubo r) = 4 /\
      match recursive_solve true inner42 final42 1 (default_converters None) ex42 with
      | (_, Ok (res, rep)) => rep = [("x1", ("x0", false)); ("x3", ("x2", true)); ("x2", ("x0", false))] /\ match r_x res with Some x => qs_eqb x [1; 0; 0; 0]%Qc = true | None => False end /\ match r_fval res with Some f => qeqb f (qz 3) = true | None => False end
      | _ => False end
  | Err _ => False end.
Proof.
  split. { intros k p. eexists _, _, _. split; [reflexivity|]. split; [reflexivity|]. constructor; [|constructor; [|constructor]]; cbn [s_x]; rewrite app_length, firstn_length, repeat_length; destruct (Nat.even k); cbn [length]; lia. }
  split. { intro p. eexists _, _. split; [reflexivity|]. split; [reflexivity|]. apply repeat_length. }
  vm_compute. intuition discriminate.
Qed.
Example C42_rounds_case : plain_qubo ex42 /\ match reduce_loop true 4 inner42 2 0 (mkR ex42 ex42 true []) with (s, Ok _) => num_vars (rs_cur s) = 2 | _ => False end.
Proof.
  split; [|vm_compute; reflexivity]. split; [apply ex42_wf|]. split; [reflexivity|]. split; [reflexivity|]. split; [repeat constructor; discriminate|]. split; [vm_compute; intuition discriminate|].
  split; [split; (split; [split|]); vm_compute; try reflexivity; repeat constructor; simpl; intuition congruence|]. split; [repeat constructor|reflexivity].
Qed.
Example C42_strongest_case : match inner42 1 ex42 with
  | Ok r => match get_correlations r with Ok m => strongest m = Ok (2, 1) /\ qeqb (get2 m 2 1) 1 && qeqb (get2 m 3 0) (- (1)) = true | Err _ => False end | Err _ => False end.
Proof. vm_compute. auto. Qed.
Print Assumptions C42_consistent_refuted.
Print Assumptions C42_reserved_refuted.
Print Assumptions C42_consistent_partial.
Print Assumptions C42_default_partial.
Print Assumptions C42_rounds.
Print Assumptions C42_strongest.

(** ** C43 *)
(** Refuted for an empty list of converters: the steps x_i = 1 - x_j are written into the caller's problem, and the reported value
    is that of the changed problem. *)
Theorem C43_unmodified_refuted : exists p inner final p' res rep y, prog_wf p /\ unconstrained_binary p /\ samples_sized inner /\ answers_sized final /\
  recursive_solve true inner final 1 [] p = (p', Ok (res, rep)) /\ p' <> p /\ r_x res = Some y /\ length y = num_vars p /\
  obj_at (p_obj p') y <> obj_at (p_obj p) y /\ r_fval res <> Some (obj_at (p_obj p) y).
Proof.
  set (p := run (new_qp "") [OAddVar 0 1 BINARY (Some "a"); OAddVar 0 1 BINARY (Some "b"); OObjective MINIMIZE 1 (Some (LDict [(KI 0, 1%Qc); (KI 1, qz 2)])) None]).
  set (inner := fun (_ : nat) (q : qp) => Ok (mkRes None None [] None SUCCESS (Some [mkSample (firstn (num_vars q) [1; 0]%Qc ++ repeat 0%Qc (num_vars q - 2)) 0 1 SUCCESS])) : result opt_result).
  set (final := fun q => Ok (mkRes (Some (repeat 1%Qc (num_vars q))) None [] None SUCCESS None) : result opt_result).
  assert (match recursive_solve true inner final 1 [] p with
     | (p', Ok (res, rep)) => match r_x res, r_fval res with Some y, Some f => Nat.eqb (length y) 2 && negb (qeqb (obj_at (p_obj p') y) (obj_at (p_obj p) y)) && negb (qeqb f (obj_at (p_obj p) y)) | _, _ => false end
     | _ => false end = true) as V by (vm_compute; reflexivity).
  destruct (recursive_solve true inner final 1 [] p) as [p' [[res rep]|]] eqn:E; [|discriminate V]. destruct (r_x res) as [y|] eqn:Ex; [|discriminate V]. destruct (r_fval res) as [f|] eqn:Ef; [|discriminate V].
  apply andb_prop in V. destruct V as [V V3]. apply andb_prop in V. destruct V as [V1 V2]. apply Nat.eqb_eq in V1.
  destruct (qeqb_spec (obj_at (p_obj p') y) (obj_at (p_obj p) y)) as [|N2]; [discriminate V2|]. destruct (qeqb_spec f (obj_at (p_obj p) y)) as [|N3]; [discriminate V3|].
  exists p, inner, final, p', res, rep, y. split; [apply reachable_wf; repeat constructor|]. split; [split; [vm_compute; repeat constructor|split; reflexivity]|].
  split. { intros k q. eexists _, _, []. split; [reflexivity|]. split; [reflexivity|]. constructor; [|constructor]. cbn [s_x]. rewrite app_length, firstn_length, repeat_length. cbn [length]. lia. }
  split. { intro q. eexists _, _. split; [reflexivity|]. split; [reflexivity|]. apply repeat_length. }
  split; [exact E|]. split; [intros ->; congruence|]. split; [exact Ex|]. split; [exact V1|]. split; [exact N2|]. rewrite Ef. congruence.
Qed.
(** What holds: with at least one converter the problem is left alone, also when the call fails. *)
Theorem C43_unmodified_partial : forall kz inner final min cs p, cs <> [] -> fst (recursive_solve kz inner final min cs p) = p.
Proof. intros kz inner final min cs p Nc. destruct (recursive_solve kz inner final min cs p) as [p' e] eqn:E. exact (solve_keeps _ _ _ _ _ _ _ _ Nc E). Qed.
Example C43_case : default_converters None <> [] /\ is_ok (snd (recursive_solve true inner42 final42 1 (default_converters None) ex42)) = true /\
  qeqb (o_const (p_obj (fst (recursive_solve true inner42 final42 1 [] ex42)))) 1 && qeqb (o_const (p_obj (fst (recursive_solve true inner42 final42 1 (default_converters None) ex42)))) 1 = true.
Proof. split; [discriminate|]. vm_compute. auto. Qed.
(** Without converters, for a problem with fractional coefficients: only the first round can write into the caller's problem, and
    does so exactly if its strongest correlation is not positive; the objective is then the one of the point raised by one in that place. *)
Theorem C43_exact : forall kz inner final min p, obj_shaped p -> quad_upper (o_quad (p_obj p)) -> le_int (o_lin (p_obj p)) = false ->
  let p' := fst (recursive_solve kz inner final min [] p) in
  (qubo_compatible p = false \/ num_vars p <= min -> p' = p) /\
  (qubo_compatible p = true -> min < num_vars p -> (forall i, first_apart inner p i -> moved_up i p p') /\ ((forall i, ~ first_apart inner p i) -> p' = p)).
Proof. intros kz inner final min p Ob Up Fr p'. split; [apply solve_idle|]. intros Q L. exact (solve_fate kz inner final min p Ob Up Fr Q L). Qed.
Definition ex43 : qp := run (new_qp "") [OAddVar 0 1 BINARY (Some "a"); OAddVar 0 1 BINARY (Some "b");
  OObjective MINIMIZE 1 (Some (LDict [(KI 0, 1%Qc); (KI 1, qz 2)])) (Some (QDict [((KI 0, KI 1), qz 3)]))].
Definition inner43 : nat -> qp -> result opt_result := fun _ q =>
  Ok (mkRes None None [] None SUCCESS (Some [mkSample (firstn (num_vars q) [1; 0]%Qc ++ repeat 0%Qc (num_vars q - 2)) 0 1 SUCCESS])).
Example C43_exact_case : first_apart inner43 ex43 1 /\
  let p' := fst (recursive_solve true inner43 final42 1 [] ex43) in
  o_const (p_obj p') = qz 3 /\ obj_at (p_obj p') [1; 0]%Qc = obj_at (p_obj ex43) [1; 1]%Qc /\ obj_at (p_obj p') [1; 0]%Qc = qz 7 /\ obj_at (p_obj ex43) [1; 0]%Qc = qz 2.
Proof.
  split.
  - eexists _, _, 0. split; [reflexivity|]. split; [vm_compute; reflexivity|]. split; [vm_compute; reflexivity|]. split; [vm_compute; lia|]. split; [vm_compute; lia|].
    apply qleb_iff. vm_compute. reflexivity.
  - cbv zeta. repeat split; apply Qc_is_canon; vm_compute; reflexivity.
Qed.
Print Assumptions C43_exact.
Print Assumptions C43_unmodified_refuted.
Print Assumptions C43_unmodified_partial.
