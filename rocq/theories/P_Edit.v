(** * C92: assignments change what they name; C93: gradients and values *)
From Verif Require Import EditFacts ExprProps ConvMore.
From Coq Require Import Lia.
Local Open Scope string_scope.
Local Open Scope list_scope.
Local Open Scope nat_scope.

(** ** C92 *)
(** Whatever call succeeds, the program after it differs from the one before in what the call is for and in nothing else. *)
Theorem C92_assigned : forall p o q, step p o = (q, Ok tt) -> assigned p o q.
Proof. exact step_assigned. Qed.
(** A cleared program holds nothing, and whatever is done with it afterwards gives what it gives on a new program. *)
Theorem C92_clear : forall p, nothing_found (clear p) /\ num_vars (clear p) = 0 /\ eval_obj (clear p) [] = Ok 0%Qc /\
  forall ops, run (clear p) ops = run (new_qp "") ops /\ forall o, snd (step (run (clear p) ops) o) = snd (step (run (new_qp "") ops) o).
Proof.
  intro p. split; [|split; [reflexivity|split]].
  - split; [intro s; repeat split; reflexivity|]. intro z.
    assert (py_index 0 z = None) as Z0. { unfold py_index. destruct (Z.leb_spec 0 z); [destruct (Z.ltb_spec z (Z.of_nat 0)); [lia|reflexivity]|destruct (Z.leb_spec (- Z.of_nat 0) z); [lia|reflexivity]]. }
    unfold get_variable, get_linear_constraint, get_quadratic_constraint, lookup, py_nth. cbn [clear p_vars p_lcs p_qcs set_obj set_qidx set_qcs set_lidx set_lcs set_vidx set_vars length]. rewrite Z0. auto.
  - rewrite (clear_new p). unfold eval_obj, obj_eval. cbn. f_equal.
  - intro ops. rewrite (clear_new p). auto.
Qed.
(** The right-hand side of the last of two constraints, the bounds of a variable, one coefficient of the objective. *)
Definition ex92 : qp := run (new_qp "n") [OAddVar 0 1 BINARY (Some "a"); OAddVar 0 (qz 7) INTEGER (Some "b");
  OLinCon (by_name [("a", 1%Qc)]) (SStr "<=") 1 (Some "r"); OLinCon (by_name [("b", qz 2)]) (SStr "==") (qz 4) (Some "t"); OObjective MAXIMIZE 1 (by_name [("b", 1%Qc)]) None].
Example C92_case :
  let q := run ex92 [OLinRhs (KI (-1)) (qz 6); OSetUb (KS "b") (qz 3); OObjLinItem (KS "a") (qz 5)] in
  map (fun c => qeqb (lc_rhs c) (qz 6)) (p_lcs q) = [false; true] /\ map lc_sense (p_lcs q) = [LE; EQ] /\ map (fun v => qeqb (v_ub v) (qz 3)) (p_vars q) = [false; true] /\
  match eval_obj q [1; qz 2]%Qc with Ok v => qeqb v (qz 8) | Err _ => false end = true /\ snd (step q (OSetLb (KS "b") (qz 4))) = Err QiskitOptimizationError /\
  snd (step (clear q) (OSetLb (KS "b") 0)) = Err KeyError /\ p_name (clear q) = "".
Proof. cbv zeta. repeat split; vm_compute; reflexivity. Qed.
Print Assumptions C92_assigned.
Print Assumptions C92_clear.

(** ** C93 *)
(** Refuted: the linear part is assigned when there is one variable, the quadratic part when there are three; the
    objective has no value at any point, and still a gradient is returned, the one coefficient added everywhere. *)
Theorem C93_gradient_refuted : exists ops x g, let p := run (new_qp "") ops in length x = num_vars p /\ length g = num_vars p /\
  obj_grad (env_of p) (p_obj p) (XList x) = Ok g /\ forall y, eval_obj p y = Err ValueError.
Proof.
  set (ops := [OAddVar 0 1 BINARY None; OObjLin (LList true [qz 7]); OAddVars (KCount 2) 0 1 BINARY None "{}"; OObjQuad (QDict [((KI 0, KI 1), 1%Qc)])]).
  set (p := run (new_qp "") ops). set (x := [1; 0; 0]%Qc).
  assert (match obj_grad (env_of p) (p_obj p) (XList x) with Ok g => Nat.eqb (length g) 3 | Err _ => false end = true) as V by (vm_compute; reflexivity).
  destruct (obj_grad (env_of p) (p_obj p) (XList x)) as [g|e] eqn:G; [|discriminate V].
  exists ops, x, g. cbv zeta. fold p. split; [reflexivity|]. split; [apply Nat.eqb_eq, V|]. split; [exact G|]. intro y.
  unfold eval_obj, obj_eval, lin_eval, quad_eval. cbn [lin_make bind le_dim cast_array]. assert (le_dim (o_lin (p_obj p)) = 1) as -> by (vm_compute; reflexivity).
  assert (qe_dim (o_quad (p_obj p)) = 3) as -> by (vm_compute; reflexivity).
  destruct (Nat.eqb_spec (length y) 1) as [L|L]; cbn [bind]; [|reflexivity]. destruct (Nat.eqb_spec (length y) 3) as [L3|L3]; cbn [bind]; [congruence|reflexivity].
Qed.
(** What holds: exactly when a gradient is returned and when a value, and which error there is otherwise; ... *)
Theorem C93_when_partial : forall env o x,
  ((exists g, obj_grad env o (XList x) = Ok g) <-> length x = qe_dim (o_quad o) /\ (le_dim (o_lin o) = qe_dim (o_quad o) \/ le_dim (o_lin o) = 1 \/ qe_dim (o_quad o) = 1)) /\
  ((exists v, obj_eval env o (XList x) = Ok v) <-> length x = qe_dim (o_quad o) /\ le_dim (o_lin o) = qe_dim (o_quad o)) /\
  (forall e, obj_grad env o (XList x) = Err e \/ obj_eval env o (XList x) = Err e -> e = ValueError).
Proof.
  intros env o x. split; [|split].
  - unfold obj_grad, quad_grad. cbn [cast_array bind]. destruct (Nat.eqb_spec (length x) (qe_dim (o_quad o))) as [L|L]; cbn [bind].
    + set (b := map _ _). assert (length b = qe_dim (o_quad o)) as Lb by (unfold b; now rewrite map_length, seq_length).
      pose proof (lin_grad_length (o_lin o)) as La. set (a := lin_grad (o_lin o)) in *. rewrite <- La, <- Lb. unfold np_add. destruct (Nat.eqb_spec (length a) (length b)) as [E|E].
      * split; [intros _; split; [congruence|now left]|eauto].
      * split.
        -- intros (g & G). split; [congruence|right]. destruct a as [|u [|u' a]]; destruct b as [|w [|w' b]]; cbn in *; try discriminate G; try lia; auto.
        -- intros (_ & [F|[F|F]]); [congruence| |]; destruct a as [|u [|u' a]]; destruct b as [|w [|w' b]]; cbn in *; try lia; eauto.
    + split; [intros (g & G); discriminate G|intros (F & _); congruence].
  - unfold obj_eval, lin_eval, quad_eval. cbn [lin_make bind le_dim cast_array].
    destruct (Nat.eqb_spec (length x) (le_dim (o_lin o))) as [L|L]; cbn [bind]; [|split; [intros (v & V); discriminate V|intros (A & B); congruence]].
    destruct (Nat.eqb_spec (length x) (qe_dim (o_quad o))) as [M|M]; cbn [bind]; split; try (intros (v & V); discriminate V); [intros _; split; congruence|eauto|intros (A & _); congruence].
  - intros e [G|G].
    + unfold obj_grad, quad_grad in G. cbn [cast_array bind] in G. destruct (Nat.eqb (length x) (qe_dim (o_quad o))); cbn [bind] in G; [|congruence].
      unfold np_add in G. destruct (Nat.eqb _ _); [discriminate G|]. destruct (lin_grad (o_lin o)) as [|u [|u' a]]; destruct (map _ _) as [|w [|w' b]]; congruence.
    + unfold obj_eval, lin_eval, quad_eval in G. cbn [lin_make bind le_dim cast_array] in G. destruct (Nat.eqb (length x) (le_dim (o_lin o))); cbn [bind] in G; [|congruence].
      destruct (Nat.eqb (length x) (qe_dim (o_quad o))); cbn [bind] in G; congruence.
Qed.
(** ... an objective given in one call by dictionaries has a gradient exactly where it has a value, whatever is added later. *)
Theorem C93_whole_partial : forall env env' c s d d2 o x, obj_make env c (Some (LDict d)) (Some (QDict d2)) s = Ok o ->
  ((exists g, obj_grad env' o (XList x) = Ok g) <-> length x = ve_n env) /\ ((exists v, obj_eval env' o (XList x) = Ok v) <-> length x = ve_n env).
Proof.
  intros env env' c s d d2 o x M. unfold obj_make in M. destruct (lin_make env (LDict d)) as [le|] eqn:L; cbn [bind] in M; [|discriminate M]. destruct (quad_make env (QDict d2)) as [qe|] eqn:Q; cbn [bind] in M; [|discriminate M]. injection M as <-.
  destruct (C93_when_partial env' (mkObj c le qe s) x) as (A & B & _). cbn [o_lin o_quad] in A, B.
  assert (le_dim le = ve_n env) as D1. { cbn [lin_make] in L. rewrite lin_put_fold in L. apply bind_ok in L. destruct L as (co & _ & [= <-]). reflexivity. }
  assert (qe_dim qe = ve_n env) as D2. { apply quad_make_spec in Q. destruct Q as (_ & _ & _ & D & _). exact D. }
  rewrite D1, D2 in A, B. rewrite A, B. tauto.
Qed.
Example C93_case : let p := run (new_qp "") [OAddVars (KCount 2) 0 1 BINARY None "{}"; OObjective MINIMIZE 1 (Some (LDict [(KI 1, qz 3)])) (Some (QDict [((KI 0, KI 1), qz 2)]))] in
  match obj_grad (env_of p) (p_obj p) (XList [qz 1; qz 2]) with Ok g => qs_eqb g [qz 4; qz 5] | Err _ => false end = true /\ obj_grad (env_of p) (p_obj p) (XList [qz 1]) = Err ValueError /\ eval_obj p [qz 1] = Err ValueError.
Proof. cbv zeta. repeat split; vm_compute; reflexivity. Qed.
Print Assumptions C93_gradient_refuted.
Print Assumptions C93_when_partial.
Print Assumptions C93_whole_partial.
