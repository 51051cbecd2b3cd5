(** * C15 to C17: substitution of variables *)
From Verif Require Import SubstExact ConvMore.
Local Open Scope string_scope.
Local Open Scope list_scope.
Local Open Scope nat_scope.

(** ** C15 *)
(** Refuted: a variable may have the name that marks constants (quadratic_program.py:1516); its terms become constants. *)
Theorem C15_objective_refuted : forall kz, exists p q x, prog_wf p /\ substitute kz p [] [] = Ok q /\
  num_vars q = num_vars p /\ length x = num_vars p /\ obj_at (p_obj q) x <> obj_at (p_obj p) x.
Proof.
  intro kz. set (p := run (new_qp "") [OAddVar 0 1 BINARY (Some "__CONSTANT__"); OObjective MINIMIZE 0 (Some (LDict [(KI 0, qz 2)])) None]).
  assert (match substitute kz p [] [] with
    | Ok q => Nat.eqb (num_vars q) (num_vars p) && negb (qeqb (obj_at (p_obj q) [0%Qc]) (obj_at (p_obj p) [0%Qc]))
    | Err _ => false end = true) as V by (destruct kz; vm_compute; reflexivity).
  destruct (substitute kz p [] []) as [q|] eqn:E; [|discriminate]. apply andb_prop in V. destruct V as [V1 V2].
  apply Nat.eqb_eq in V1. apply negb_true_iff, qeqb_false in V2.
  exists p, q, [0%Qc]. split; [apply reachable_wf; repeat constructor|]. auto.
Qed.
(** What holds: for programs without a variable of that name the objective is preserved at every point, every point of the
    new program is the rest of some point of the old one, and the remaining variables keep name, type and order. *)
Theorem C15_objective_partial : forall kz p cs vs q, prog_wf p -> ~ In "__CONSTANT__" (var_names p) -> keys_denote p cs vs ->
  substitute kz p cs vs = Ok q ->
  o_sense (p_obj q) = o_sense (p_obj p) /\ keeps_rest p cs vs q /\
  (forall x y, agrees p cs vs x -> restricts p cs vs x y -> length y = num_vars q /\ obj_at (p_obj q) y = obj_at (p_obj p) x) /\
  (forall y, length y = num_vars q -> exists x, agrees p cs vs x /\ restricts p cs vs x y).
Proof.
  intros kz p cs vs q W NC K H. destruct (substitute_inv kz p cs vs q W K H) as [subs D].
  split; [apply D|]. split; [eapply keeps_rest_holds; eauto|]. split.
  - intros x y A R. apply (consistent_agrees p cs vs q W NC K subs D) in A. apply (restricts_iff p cs vs q W K subs D) in R; [|apply A]. subst y. split.
    + rewrite reduced_length, <- names_length, (sd_names _ _ _ _ _ D). unfold kept_names. now rewrite map_length.
    + apply (sd_obj _ _ _ _ _ D); auto. apply matches_reduced. exact W.
  - intros y L. eapply extends; eauto.
Qed.
Definition ex15 : qp := run (new_qp "")
  [OAddVar 0 (qz 10) INTEGER (Some "x"); OAddVar (qz (-6)) (qz 5) CONTINUOUS (Some "y"); OAddVar 0 1 BINARY (Some "z"); OAddVar 0 INFINITY CONTINUOUS (Some "w");
   OObjective MAXIMIZE 1 (Some (LDict [(KS "x", qz 2); (KS "y", qz (-1))])) (Some (QDict [((KS "x", KS "y"), 1%Qc); ((KS "z", KS "w"), qz 3); ((KS "z", KS "z"), qz 7)]));
   OLinCon (Some (LDict [(KS "x", qz 1); (KS "y", qz 1); (KS "w", qz 1)])) (SStr "<=") (qz 8) (Some "a");
   OLinCon (Some (LDict [(KS "z", qz 2)])) (SStr ">=") (qz 1) (Some "b");
   OQuadCon (Some (LDict [(KS "w", qz 1)])) (Some (QDict [((KS "x", KS "z"), 1%Qc)])) (SStr ">=") (qz 1) (Some "q")].
Definition ex15_cs : list (key * Qc) := [(KS "z", 1%Qc)].
Definition ex15_vs : list (key * (key * Qc)) := [(KI 1, (KS "x", qz (-2)))].
Lemma ex15_wf : prog_wf ex15.
Proof. apply reachable_wf. repeat constructor. Qed.
Lemma ex15_keys : keys_denote ex15 ex15_cs ex15_vs.
Proof.
  split.
  - intros k v [[= <- <-]|[]]. exists 2. split; [vm_compute; lia|reflexivity].
  - intros k j v [[= <- <- <-]|[]]. split; [exists 1|exists 0]; (split; [vm_compute; lia|]); [left|]; reflexivity.
Qed.
Example C15_case : prog_wf ex15 /\ ~ In "__CONSTANT__" (var_names ex15) /\ keys_denote ex15 ex15_cs ex15_vs /\
  match substitute false ex15 ex15_cs ex15_vs with
  | Ok q => var_names q = ["x"; "w"] /\ qeqb (obj_at (p_obj q) [qz 2; qz 5]) (obj_at (p_obj ex15) [qz 2; qz (-4); 1%Qc; qz 5]) = true /\
            qeqb (obj_at (p_obj q) [qz 2; qz 5]) (qz 23) = true
  | Err _ => False end.
Proof.
  split; [exact ex15_wf|]. split; [vm_compute; intuition discriminate|]. split; [exact ex15_keys|]. vm_compute. auto.
Qed.
(** And for every program, whatever the names: a variable with the reserved name that is not replaced itself is read as 1 wherever
    it occurs, as is one that replaces another; with that reading the objective is preserved at every point, every point of the new
    program is the rest of such a point of the old one, and the variables that are not replaced keep name, type and order. *)
Theorem C15_exact : forall kz p cs vs q, prog_wf p -> keys_denote p cs vs -> substitute kz p cs vs = Ok q ->
  o_sense (p_obj q) = o_sense (p_obj p) /\ keeps_rest p cs vs q /\
  (forall x y, agrees_marked p cs vs x -> restricts_marked p cs vs x y -> length y = num_vars q /\ obj_at (p_obj q) y = obj_at (p_obj p) x) /\
  (forall y, length y = num_vars q -> exists x, agrees_marked p cs vs x /\ restricts_marked p cs vs x y).
Proof.
  intros kz p cs vs q W K H. destruct (substitute_inv kz p cs vs q W K H) as [subs D].
  split; [apply D|]. split; [eapply keeps_rest_holds; eauto|]. split.
  - intros x y A R. apply (consistent_marked p cs vs q W K subs D) in A. apply (restricts_matches p cs vs q W K subs D) in R; [|apply A]. split.
    + rewrite (proj1 R), <- names_length, (sd_names _ _ _ _ _ D). reflexivity.
    + now apply (sd_obj _ _ _ _ _ D).
  - intros y L. eapply extends_marked; eauto.
Qed.
Definition ex15_one : qp := run (new_qp "")
  [OAddVar 0 (qz 10) INTEGER (Some "x"); OAddVar 0 (qz 9) INTEGER (Some "__CONSTANT__"); OAddVar 0 (qz 9) INTEGER (Some "y"); OAddVar 0 (qz 9) INTEGER (Some "z");
   OObjective MINIMIZE (qz 5) (Some (LDict [(KS "x", qz 2); (KI 1, qz 3); (KS "y", 1%Qc)])) (Some (QDict [((KI 1, KI 1), qz 4); ((KS "y", KI 1), qz 10); ((KS "x", KS "z"), qz 100)]))].
(** [x] becomes 7 times the variable with the reserved name: [x] is 7, that variable counts as 1 and its own value is not looked at. *)
Example C15_exact_case : prog_wf ex15_one /\ keys_denote ex15_one [] [(KS "x", (KI 1, qz 7))] /\
  match substitute false ex15_one [] [(KS "x", (KI 1, qz 7))] with
  | Ok q => var_names q = ["__CONSTANT__"; "y"; "z"] /\
            forallb (fun a => qeqb (obj_at (p_obj q) [qz a; qz 2; qz 3]) (obj_at (p_obj ex15_one) [qz 7; 1%Qc; qz 2; qz 3])) [0%Z; 1%Z; 9%Z] = true /\
            qeqb (obj_at (p_obj q) [qz 9; qz 2; qz 3]) (qz 2148) = true
  | Err _ => False end.
Proof.
  split; [apply reachable_wf; repeat constructor|]. split; [|vm_compute; auto].
  split; [intros k v []|]. intros k j v [[= <- <- <-]|[]]. split; [exists 0|exists 1]; (split; [vm_compute; lia|]); [|left]; reflexivity.
Qed.
Print Assumptions C15_objective_refuted.
Print Assumptions C15_objective_partial.
Print Assumptions C15_exact.

(** ** C16 *)
(** Refuted for numbers of the size of the constant INFINITY: the bound 1e20 / 1000 of the replacing variable is finite although
    the bound of the replaced one was not (and vice versa), or, as here, a finite bound divided by 1/1000 counts as none. *)
Theorem C16_feasible_set_refuted : forall kz, exists p cs vs q x y, prog_wf p /\ ~ In "__CONSTANT__" (var_names p) /\ keys_denote p cs vs /\
  substitute kz p cs vs = Ok q /\ agrees p cs vs x /\ restricts p cs vs x y /\ p_status q = VALID /\ satisfies q y /\ ~ satisfies p x.
Proof.
  intro kz. set (big := (INFINITY / qz 10)%Qc). set (r := (1 / qz 100)%Qc).
  set (p := run (new_qp "") [OAddVar 0 big CONTINUOUS (Some "a"); OAddVar 0 INFINITY CONTINUOUS (Some "b")]).
  set (vs := [(KS "a", (KS "b", r))]).
  set (y := [(INFINITY * qz 20)%Qc]). set (x := [(INFINITY / qz 5)%Qc; (INFINITY * qz 20)%Qc]).
  assert (match substitute kz p [] vs with
    | Ok q => match p_vars q, p_lcs q, p_qcs q, p_status q with
              | [v], [], [], VALID => (qleb (v_lb v) (- INFINITY) || qleb (v_lb v) (at_ y 0)) && (qleb INFINITY (v_ub v) || qleb (at_ y 0) (v_ub v))
              | _, _, _, _ => false end
    | Err _ => false end = true) as V by (destruct kz; vm_compute; reflexivity).
  destruct (substitute kz p [] vs) as [q|] eqn:E; [|discriminate].
  destruct (p_vars q) as [|v [|? ?]] eqn:Ev; try discriminate V. destruct (p_lcs q) eqn:El; try discriminate V.
  destruct (p_qcs q) eqn:Eq; try discriminate V. destruct (p_status q) eqn:Es; try discriminate V.
  apply andb_prop in V. destruct V as [V1 V2]. apply orb_prop in V1, V2. rewrite !qleb_iff in V1, V2.
  assert (prog_wf p) as W by (apply reachable_wf; repeat constructor).
  assert (~ In CONST (var_names p)) as NC by (vm_compute; intuition discriminate).
  assert (keys_denote p [] vs) as K.
  { split; [intros k w []|]. intros k j w [[= <- <- <-]|[]]. split; [exists 0|exists 1]; (split; [vm_compute; lia|reflexivity]). }
  destruct (substitute_inv kz p [] vs q W K E) as [subs D].
  exists p, [], vs, q, x, y. split; auto. split; auto. split; auto. split; auto. split.
  { split; auto. split; [intros k w i []|]. intros k j w i i' [[= <- <- <-]|[]] [_ D1] [_ D2]. cbn in D1, D2.
    destruct i as [|[|i]]; try discriminate D1; [|destruct i; discriminate D1]. destruct i' as [|[|i']]; try discriminate D2; [|destruct i'; discriminate D2].
    apply qeqb_true. vm_compute. reflexivity. }
  split.
  { exists [1]. split; [repeat constructor|]. split; [|reflexivity]. intro i. split.
    - intros [<-|[]]. split; [vm_compute; lia|]. intros [(k & w & [] & _)|(k & j & w & [[= <- <- <-]|[]] & [_ D1])]. discriminate D1.
    - intros [Hi R]. change (i < 2) in Hi. destruct i as [|[|i]]; [|now left|lia]. exfalso. apply R. right. exists (KS "a"), (KS "b"), r. split; [now left|].
      split; [vm_compute; lia|reflexivity]. }
  split; auto. split.
  - split; [|split; [unfold lcs_hold; rewrite El; auto|unfold qcs_hold; rewrite Eq; auto]]. rewrite Ev. unfold y. constructor; [split; [exact V1|exact V2]|constructor].
  - intros [F _]. inversion F as [|? ? ? ? [_ F1] _]. subst. rewrite <- !qleb_iff in F1. vm_compute in F1. destruct F1; discriminate.
Qed.
(** What holds: with numbers for which 1e20 works as infinity ([moderate]), the new program is valid and satisfied exactly when the
    old one is; so an infeasible status means that no point agreeing with the substitution satisfies the old program. *)
Theorem C16_feasible_set_partial : forall kz p cs vs q, prog_wf p -> ~ In "__CONSTANT__" (var_names p) -> keys_denote p cs vs -> moderate p cs vs ->
  substitute kz p cs vs = Ok q -> prog_wf q /\
  (forall x y, agrees p cs vs x -> restricts p cs vs x y -> (p_status q = VALID /\ satisfies q y) <-> satisfies p x) /\
  (p_status q = INFEASIBLE -> forall x, agrees p cs vs x -> ~ satisfies p x).
Proof.
  intros kz p cs vs q W NC K M H. destruct (substitute_inv kz p cs vs q W K H) as [subs D].
  assert (forall x y, agrees p cs vs x -> restricts p cs vs x y -> (p_status q = VALID /\ satisfies q y) <-> satisfies p x) as G.
  { intros x y A R. apply (consistent_agrees p cs vs q W NC K subs D) in A. apply (restricts_iff p cs vs q W K subs D) in R; [|apply A]. subst y.
    apply (sd_sat _ _ _ _ _ D); auto. exact (const_finite p cs vs q subs D NC M). }
  split; [apply D|]. split; auto. intros I x A Sx. assert (length x = num_vars p) as L by apply A.
  pose proof (proj2 (restricts_iff p cs vs q W K subs D x _ L) eq_refl) as R. apply (G _ _ A R) in Sx. destruct Sx as [V _]. rewrite I in V. discriminate.
Qed.
Definition ex15_vars : list variable :=
  [mkVar "x" 0 (qz 10) INTEGER; mkVar "y" (qz (-6)) (qz 5) CONTINUOUS; mkVar "z" 0 1 BINARY; mkVar "w" 0 INFINITY CONTINUOUS].
Lemma ex15_vars_eq : p_vars ex15 = ex15_vars.
Proof. vm_compute. reflexivity. Qed.
Lemma ex15_moderate : moderate ex15 ex15_cs ex15_vs.
Proof.
  split; [|split].
  - rewrite ex15_vars_eq. repeat apply Forall_cons; try apply Forall_nil; split; vm_compute; reflexivity.
  - intros k v [[= <- <-]|[]]. vm_compute. reflexivity.
  - intros k j v i w [[= <- <- <-]|[]] [Hi D] Hw. change (i < 4) in Hi. unfold points_to in D. change (num_vars ex15) with 4 in D.
    assert (i = 1) as -> by lia. rewrite ex15_vars_eq in Hw. unfold ex15_vars in Hw. cbn [nth_error] in Hw.
    apply (f_equal (fun o => match o with Some a => a | None => w end)) in Hw. subst w. cbn [v_lb v_ub].
    split; intros _; vm_compute; reflexivity.
Qed.
Example C16_case : prog_wf ex15 /\ keys_denote ex15 ex15_cs ex15_vs /\ moderate ex15 ex15_cs ex15_vs /\
  match substitute true ex15 ex15_cs ex15_vs with
  | Ok q => p_status q = VALID /\ length (p_lcs q) = 2 /\ length (p_qcs q) = 0 /\
            match p_vars q with [v; w] => qeqb (v_lb v) 0 && qeqb (v_ub v) (qz 3) && qeqb (v_ub w) INFINITY = true | _ => False end
  | Err _ => False end /\
  match substitute true ex15 [(KS "z", 0%Qc)] [] with Ok q => p_status q = INFEASIBLE | Err _ => False end.
Proof. split; [exact ex15_wf|]. split; [exact ex15_keys|]. split; [exact ex15_moderate|]. vm_compute. repeat split. Qed.
Print Assumptions C16_feasible_set_refuted.
Print Assumptions C16_feasible_set_partial.

(** ** C17 *)
Definition ex17 : qp := run (new_qp "") [OAddVar 0 1 CONTINUOUS (Some "x"); OAddVar 0 1 CONTINUOUS (Some "y"); OAddVar (qz 5) (qz 6) CONTINUOUS (Some "z")].
Lemma ex17_wf : prog_wf ex17.
Proof. apply reachable_wf. repeat constructor. Qed.
(** Refuted: replacing x by y and y by z, in this order, raises KeyError. *)
Theorem C17_replaced_variable_refuted : exists p vs, prog_wf p /\ ~ In "__CONSTANT__" (var_names p) /\ keys_denote p [] vs /\ by_replaced p [] vs /\
  forall kz, substitute kz p [] vs = Err KeyError.
Proof.
  exists ex17, [(KS "x", (KS "y", 1%Qc)); (KS "y", (KS "z", 1%Qc))]. split; [exact ex17_wf|]. split; [vm_compute; intuition discriminate|]. split.
  { split; [intros k v []|]. intros k j v [[= <- <- <-]|[[= <- <- <-]|[]]].
    - split; [exists 0|exists 1]; (split; [vm_compute; lia|reflexivity]).
    - split; [exists 1|exists 2]; (split; [vm_compute; lia|reflexivity]). }
  split.
  { exists (KS "x"), (KS "y"), 1%Qc, 1. split; [now left|]. split; [split; [vm_compute; lia|reflexivity]|]. right. exists (KS "y"), (KS "z"), 1%Qc.
    split; [right; now left|]. split; [vm_compute; lia|reflexivity]. }
  intros []; vm_compute; reflexivity.
Qed.
(** Refuted: bounds that contradict each other raise instead of giving a program with status INFEASIBLE. *)
Theorem C17_contradictory_bounds_refuted : exists p vs, prog_wf p /\ ~ In "__CONSTANT__" (var_names p) /\ keys_denote p [] vs /\ moderate p [] vs /\
  (forall x, agrees p [] vs x -> ~ satisfies p x) /\ forall kz, substitute kz p [] vs = Err QiskitOptimizationError.
Proof.
  exists ex17, [(KS "x", (KS "z", 1%Qc))]. split; [exact ex17_wf|]. split; [vm_compute; intuition discriminate|]. split.
  { split; [intros k v []|]. intros k j v [[= <- <- <-]|[]]. split; [exists 0|exists 2]; (split; [vm_compute; lia|reflexivity]). }
  split.
  { split; [repeat constructor|]. split; [intros k v []|]. intros k j v i w [[= <- <- <-]|[]] [_ D] Hw. cbn in D.
    destruct i as [|[|[|i]]]; try discriminate D; [|destruct i; discriminate D]. injection Hw as <-. split; intros _; vm_compute; reflexivity. }
  split.
  { intros x (L & _ & A) (F & _). assert (at_ x 0 = (1 * at_ x 2)%Qc) as E.
    { apply (A (KS "x") (KS "z") 1%Qc 0 2); [now left|split; [vm_compute; lia|reflexivity]|split; [vm_compute; lia|reflexivity]]. }
    pose proof (Forall2_nth _ _ _ 0 _ F eq_refl) as [_ F0]. pose proof (Forall2_nth _ _ _ 2 _ F eq_refl) as [F2 _]. cbn [v_lb v_ub] in F0, F2.
    destruct F0 as [F0|F0]; [vm_compute in F0; now elim F0|]. destruct F2 as [F2|F2]; [vm_compute in F2; now elim F2|].
    rewrite E in F0. qlra. }
  intros []; vm_compute; reflexivity.
Qed.
(** What holds: a variable given twice, scaled by zero, replaced by itself, or by a variable replaced by a constant or earlier in the
    dictionary is rejected with QiskitOptimizationError; replacement by any replaced variable is rejected with some error. *)
Theorem C17_rejected_partial : forall kz p cs vs, prog_wf p -> keys_denote p cs vs ->
  (given_twice p cs vs \/ by_zero vs \/ by_itself p vs \/ by_replaced_before p cs vs -> substitute kz p cs vs = Err QiskitOptimizationError) /\
  (~ In "__CONSTANT__" (var_names p) -> by_replaced p cs vs -> exists e, substitute kz p cs vs = Err e).
Proof.
  intros kz p cs vs W K. split.
  - intros [H|[H|[H|H]]]; [apply twice_rejected|apply zero_rejected|apply itself_rejected|apply replaced_before_rejected]; auto.
  - intros NC H. destruct (substitute kz p cs vs) as [q|e] eqn:E; eauto. exfalso. eapply replaced_rejected; eauto.
Qed.
Example C17_case : prog_wf ex17 /\ keys_denote ex17 [] [(KS "y", (KS "z", 1%Qc)); (KS "x", (KS "y", 1%Qc))] /\
  by_replaced_before ex17 [] [(KS "y", (KS "z", 1%Qc)); (KS "x", (KS "y", 1%Qc))].
Proof.
  split; [exact ex17_wf|]. split.
  - split; [intros k v []|]. intros k j v [[= <- <- <-]|[[= <- <- <-]|[]]].
    + split; [exists 1|exists 2]; (split; [vm_compute; lia|reflexivity]).
    + split; [exists 0|exists 1]; (split; [vm_compute; lia|reflexivity]).
  - exists 1, (KS "x"), (KS "y"), 1%Qc, 1. split; auto. split; [split; [vm_compute; lia|reflexivity]|]. right. exists (KS "y"), (KS "z"), 1%Qc.
    split; [now left|]. split; [vm_compute; lia|reflexivity].
Qed.
(** And every other substitution that agrees with some point within the bounds is carried out. *)
Theorem C17_accepted : forall kz p cs vs x, prog_wf p -> exprs_small p -> ~ In "__CONSTANT__" (var_names p) -> keys_denote p cs vs ->
  ~ given_twice p cs vs -> ~ by_zero vs -> ~ by_itself p vs -> ~ by_replaced p cs vs ->
  agrees p cs vs x -> Forall2 fits (p_vars p) x -> Forall finite x -> exists q, substitute kz p cs vs = Ok q.
Proof. intros kz p cs vs x. apply substitute_total. Qed.
Lemma ex15_denotes k i : denotes ex15 k i -> (k = KS "z" -> i = 2) /\ (k = KI 1 -> i = 1) /\ (k = KS "x" -> i = 0).
Proof.
  intros [Hi D]. change (i < 4) in Hi. repeat split; intros ->; cbn [points_to] in D.
  - destruct i as [|[|[|[|i]]]]; try reflexivity; try lia; vm_compute in D; discriminate.
  - change (num_vars ex15) with 4 in D. lia.
  - destruct i as [|[|[|[|i]]]]; try reflexivity; try lia; vm_compute in D; discriminate.
Qed.
Definition ex15_x : list Qc := [qz 2; qz (-4); 1%Qc; qz 5].
Example C17_accepted_case : prog_wf ex15 /\ exprs_small ex15 /\ ~ In "__CONSTANT__" (var_names ex15) /\ keys_denote ex15 ex15_cs ex15_vs /\
  ~ given_twice ex15 ex15_cs ex15_vs /\ ~ by_zero ex15_vs /\ ~ by_itself ex15 ex15_vs /\ ~ by_replaced ex15 ex15_cs ex15_vs /\
  agrees ex15 ex15_cs ex15_vs ex15_x /\ Forall2 fits (p_vars ex15) ex15_x /\ Forall finite ex15_x.
Proof.
  split; [exact ex15_wf|]. split. { vm_compute. repeat split; repeat constructor. }
  split; [vm_compute; intuition discriminate|]. split; [exact ex15_keys|]. split.
  { intros (a & b & k & k' & i & L & Ha & Hb & Da & Db). destruct a as [|[|a]]; destruct b as [|[|b]]; try lia; try (destruct b; discriminate Hb); try (destruct a; discriminate Ha).
    injection Ha as <-. injection Hb as <-. apply ex15_denotes in Da, Db. destruct Da as [Da _], Db as (_ & Db & _). specialize (Da eq_refl). specialize (Db eq_refl). lia. }
  split. { intros (k & j & [E|[]]). discriminate E. }
  split. { intros (k & j & v & i & [[= <- <- <-]|[]] & D1 & D2). apply ex15_denotes in D1, D2. destruct D1 as (_ & D1 & _), D2 as (_ & _ & D2). specialize (D1 eq_refl). specialize (D2 eq_refl). lia. }
  split. { intros (k & j & v & i & [[= <- <- <-]|[]] & D1 & R). apply ex15_denotes in D1. destruct D1 as (_ & _ & D1). specialize (D1 eq_refl). subst i.
    destruct R as [(k & w & [[= <- <-]|[]] & D)|(k & j & w & [[= <- <- <-]|[]] & D)]; apply ex15_denotes in D; destruct D as (A & B & _);
      [specialize (A eq_refl)|specialize (B eq_refl)]; discriminate. }
  split. { split; [reflexivity|]. split.
    - intros k v i [[= <- <-]|[]] D. apply ex15_denotes in D. destruct D as [D _]. rewrite (D eq_refl). reflexivity.
    - intros k j v i i' [[= <- <- <-]|[]] D D'. apply ex15_denotes in D, D'. destruct D as (_ & D & _), D' as (_ & _ & D'). rewrite (D eq_refl), (D' eq_refl).
      apply qeqb_true. vm_compute. reflexivity. }
  split. { rewrite ex15_vars_eq. unfold ex15_vars, ex15_x. repeat apply Forall2_cons; try apply Forall2_nil; split; right; vm_compute; discriminate. }
  unfold ex15_x. repeat apply Forall_cons; try apply Forall_nil; vm_compute; reflexivity.
Qed.
(** Exactly: of the substitutions that are none of these, those are carried out that leave a value to every remaining variable, the
    others give QiskitOptimizationError; one by a variable that is replaced later gives KeyError if a value is left to every variable. *)
Theorem C17_exact : forall kz p cs vs, prog_wf p -> exprs_small p -> ~ In "__CONSTANT__" (var_names p) -> keys_denote p cs vs ->
  ~ given_twice p cs vs -> ~ by_zero vs -> ~ by_itself p vs -> ~ by_replaced_before p cs vs ->
  (~ by_replaced p cs vs -> leaves_room p cs vs -> exists q, substitute kz p cs vs = Ok q) /\
  (~ by_replaced p cs vs -> ~ leaves_room p cs vs -> substitute kz p cs vs = Err QiskitOptimizationError) /\
  (by_replaced p cs vs -> leaves_room p cs vs -> substitute kz p cs vs = Err KeyError) /\
  (by_replaced p cs vs -> substitute kz p cs vs = Err KeyError \/ substitute kz p cs vs = Err QiskitOptimizationError).
Proof. intros kz p cs vs W S NC K A1 A2 A3 A4. destruct (substitute_cases kz p cs vs W S NC K A1 A2 A3 A4) as (B1 & B2 & B3 & B4). auto. Qed.
Lemma ex17_denotes k i : denotes ex17 k i -> (k = KS "z" -> i = 2) /\ (k = KS "x" -> i = 0).
Proof.
  intros [Hi D]. change (i < 3) in Hi. split; intros ->; cbn [points_to] in D;
    destruct i as [|[|[|i]]]; try reflexivity; try lia; vm_compute in D; discriminate.
Qed.
Definition ex17_vs (v : Qc) : list (key * (key * Qc)) := [(KS "x", (KS "z", v))].
(** A sixth of z leaves a value to z, z itself does not. *)
Example C17_exact_case : forall v, v <> 0%Qc -> prog_wf ex17 /\ exprs_small ex17 /\ ~ In "__CONSTANT__" (var_names ex17) /\ keys_denote ex17 [] (ex17_vs v) /\
  ~ given_twice ex17 [] (ex17_vs v) /\ ~ by_zero (ex17_vs v) /\ ~ by_itself ex17 (ex17_vs v) /\ ~ by_replaced_before ex17 [] (ex17_vs v) /\
  ~ by_replaced ex17 [] (ex17_vs v) /\ ~ leaves_room ex17 [] (ex17_vs 1) /\ leaves_room ex17 [] (ex17_vs (1 / qz 6)).
Proof.
  intros v Nz. split; [exact ex17_wf|]. split. { vm_compute. repeat split; repeat constructor. }
  split; [vm_compute; intuition discriminate|]. split.
  { split; [intros k w []|]. intros k j w [[= <- <- <-]|[]]. split; [exists 0|exists 2]; (split; [vm_compute; lia|reflexivity]). }
  split. { intros (a & b & k & k' & i & L & Ha & Hb & _). destruct b as [|[|b]]; [lia|discriminate Hb|destruct b; discriminate Hb]. }
  split. { intros (k & j & [E|[]]). now injection E. }
  split. { intros (k & j & w & i & [[= <- <- <-]|[]] & D1 & D2). apply ex17_denotes in D1, D2. destruct D1 as [_ D1], D2 as [D2 _]. specialize (D1 eq_refl). specialize (D2 eq_refl). lia. }
  split. { intros ([|[|n]] & k & j & w & i & Hn & _ & R); try (destruct n; discriminate Hn); try discriminate Hn. destruct R as [(? & ? & [] & _)|(? & ? & ? & [] & _)]. }
  split. { intros (k & j & w & i & [[= <- <- <-]|[]] & D1 & R). apply ex17_denotes in D1. destruct D1 as [D1 _]. specialize (D1 eq_refl). subst i.
    destruct R as [(? & ? & [] & _)|(k & j & u & [[= <- <- <-]|[]] & D)]. apply ex17_denotes in D. destruct D as [_ D]. specialize (D eq_refl). discriminate. }
  split.
  { intro R. destruct (nth_error (p_vars ex17) 2) as [wz|] eqn:Ez; [|discriminate Ez]. destruct (nth_error (p_vars ex17) 0) as [wx|] eqn:Ex; [|discriminate Ex].
  destruct (R 2 wz Ez) as (a & [Ra _] & Ha).
  { intros [(? & ? & [] & _)|(k & j & u & [[= <- <- <-]|[]] & D)]. apply ex17_denotes in D. destruct D as [_ D]. specialize (D eq_refl). discriminate. }
  destruct (Ha (KS "x") (KS "z") 1%Qc 0 wx (or_introl eq_refl)) as [_ Hu]; auto; [split; [vm_compute; lia|reflexivity]|split; [vm_compute; lia|reflexivity]|].
  assert (v_ub wx = 1%Qc) as U by (injection Ex as <-; apply Qc_is_canon; vm_compute; reflexivity).
  assert (v_lb wz = qz 5) as L by (injection Ez as <-; apply Qc_is_canon; vm_compute; reflexivity).
  rewrite U in Hu. rewrite L in Ra. replace (turned 1 1 a) with (1 * a)%Qc in Hu by reflexivity.
  assert (1 < qz 5)%Qc by (apply qltb_iff; reflexivity). qlra. }
  intros i w Hi R. assert (i < 3) as Li by (change 3 with (length (p_vars ex17)); apply nth_error_Some; congruence).
  destruct i as [|[|[|i]]]; [| | |lia].
  - elim R. right. exists (KS "x"), (KS "z"), (1 / qz 6)%Qc. split; [now left|]. split; [vm_compute; lia|reflexivity].
  - injection Hi as <-. exists 0%Qc. split; [split; apply qleb_iff; reflexivity|]. intros k j v0 n u [[= <- <- <-]|[]] D. apply ex17_denotes in D. destruct D as [D _]. now specialize (D eq_refl).
  - injection Hi as <-. exists (qz 6). split; [split; apply qleb_iff; reflexivity|]. intros k j v0 n u [[= <- <- <-]|[]] _ D Hu. apply ex17_denotes in D. destruct D as [_ D]. specialize (D eq_refl). subst n.
    injection Hu as <-. split; apply qleb_iff; vm_compute; reflexivity.
Qed.
Print Assumptions C17_exact.
Print Assumptions C17_accepted.
Print Assumptions C17_replaced_variable_refuted.
Print Assumptions C17_contradictory_bounds_refuted.
Print Assumptions C17_rejected_partial.
