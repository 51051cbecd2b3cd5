(** * C89: what a conversion that raises leaves in the converter *)
From Verif Require Import ReuseFacts.
Local Open Scope string_scope.
Local Open Scope list_scope.
Local Open Scope nat_scope.

(** Refuted: after a conversion that raised, the converter answers for the problem that could not be converted.
    Three binary variables are converted; then a problem is tried whose slack variable would get a name that is taken. *)
Definition ex89a : qp := run (new_qp "") [OAddVar 0 1 BINARY (Some "a"); OAddVar 0 1 BINARY (Some "b"); OAddVar 0 1 BINARY (Some "c")].
Definition ex89b : qp := run (new_qp "") [OAddVar 0 1 BINARY (Some "c0@int_slack"); OAddVar 0 1 BINARY (Some "d");
  OLinCon (by_name [("c0@int_slack", 1%Qc); ("d", 1%Qc)]) (SStr "<=") 1 (Some "c0")].
Theorem C89_qubo_refuted : exists o p e x y y', o = fst (qo_convert (new_qubo None) ex89a) /\ snd (qo_convert o p) = Err e /\
  qo_interpret o x = Ok y /\ qo_interpret (fst (qo_convert o p)) x = Ok y' /\ y <> y'.
Proof.
  set (o := fst (qo_convert (new_qubo None) ex89a)). set (o' := fst (qo_convert o ex89b)).
  assert (match snd (qo_convert o ex89b), qo_interpret o [1; 0; 1]%Qc, qo_interpret o' [1; 0; 1]%Qc with
    | Err QiskitOptimizationError, Ok [_; _; _], Ok [_; _] => true | _, _, _ => false end = true) as V by (vm_compute; reflexivity).
  destruct (snd (qo_convert o ex89b)) as [|e] eqn:E; [discriminate V|].
  destruct (qo_interpret o [1; 0; 1]%Qc) as [y|] eqn:I; [|destruct e; discriminate V]. destruct (qo_interpret o' [1; 0; 1]%Qc) as [y'|] eqn:I'; [|destruct e, y as [|? [|? [|? [|]]]]; discriminate V].
  exists o, ex89b, e, [1; 0; 1]%Qc, y, y'. do 4 (split; [assumption || reflexivity|]). intros <-.
  destruct e; try discriminate V. destruct y as [|? [|? [|? [|]]]]; discriminate V.
Qed.
(** InequalityToEquality alone: a coefficient 1/2 cannot be given an integer slack variable. *)
Definition ex89c : qp := run (new_qp "") [OAddVar 0 1 BINARY (Some "d"); OLinCon (by_name [("d", (1 / qz 2)%Qc)]) (SStr "<=") 1 (Some "c0")].
Theorem C89_inequality_refuted : exists o p e x y y', o = fst (io_convert (new_ineq MInteger) ex89a) /\ snd (io_convert o p) = Err e /\
  io_interpret o x = Ok y /\ io_interpret (fst (io_convert o p)) x = Ok y' /\ y <> y'.
Proof.
  set (o := fst (io_convert (new_ineq MInteger) ex89a)). set (o' := fst (io_convert o ex89c)).
  assert (match snd (io_convert o ex89c), io_interpret o [1; 0; 1]%Qc, io_interpret o' [1; 0; 1]%Qc with
    | Err QiskitOptimizationError, Ok [_; _; _], Ok [_] => true | _, _, _ => false end = true) as V by (vm_compute; reflexivity).
  destruct (snd (io_convert o ex89c)) as [|e] eqn:E; [discriminate V|].
  destruct (io_interpret o [1; 0; 1]%Qc) as [y|] eqn:I; [|destruct e; discriminate V]. destruct (io_interpret o' [1; 0; 1]%Qc) as [y'|] eqn:I'; [|destruct e, y as [|? [|? [|? [|]]]]; discriminate V].
  exists o, ex89c, e, [1; 0; 1]%Qc, y, y'. do 4 (split; [assumption || reflexivity|]). intros <-.
  destruct e; try discriminate V. destruct y as [|? [|? [|? [|]]]]; discriminate V.
Qed.
(** IntegerToBinary alone: the name of a bit is taken.  The first converted problem has one integer variable in [0, 3]. *)
Definition ex89d : qp := run (new_qp "") [OAddVar 0 (qz 3) INTEGER (Some "n")].
Definition ex89e : qp := run (new_qp "") [OAddVar (qz 2) (qz 5) INTEGER (Some "m"); OAddVar 0 1 BINARY (Some "m@0")].
Theorem C89_integer_refuted : exists o p e x y y', o = fst (bo_convert new_i2b ex89d) /\ snd (bo_convert o p) = Err e /\
  bo_interpret o x = Ok y /\ bo_interpret (fst (bo_convert o p)) x = Ok y' /\ y <> y'.
Proof.
  set (o := fst (bo_convert new_i2b ex89d)). set (o' := fst (bo_convert o ex89e)).
  assert (match snd (bo_convert o ex89e), bo_interpret o [1; 1]%Qc, bo_interpret o' [1; 1]%Qc with
    | Err QiskitOptimizationError, Ok [_], Ok [_; _] => true | _, _, _ => false end = true) as V by (vm_compute; reflexivity).
  destruct (snd (bo_convert o ex89e)) as [|e] eqn:E; [discriminate V|].
  destruct (bo_interpret o [1; 1]%Qc) as [y|] eqn:I; [|destruct e; discriminate V]. destruct (bo_interpret o' [1; 1]%Qc) as [y'|] eqn:I'; [|destruct e, y as [|? [|]]; discriminate V].
  exists o, ex89e, e, [1; 1]%Qc, y, y'. do 4 (split; [assumption || reflexivity|]). intros <-.
  destruct e; try discriminate V. destruct y as [|? [|]]; discriminate V.
Qed.
(** What holds.  A problem that the QUBO converter refuses at once (a continuous variable, a quadratic constraint or a
    fractional coefficient) changes nothing: solutions are interpreted as before. *)
Theorem C89_refused_partial : forall o p, (exists v, In v (p_vars p) /\ v_type v = CONTINUOUS) \/ p_qcs p <> [] \/ (exists c i, In c (p_lcs p) /\ ~ integral (coef1 (lc_lin c) i)) ->
  snd (qo_convert o p) = Err QiskitOptimizationError /\ (forall x, qo_interpret (fst (qo_convert o p)) x = qo_interpret o x) /\ qo_penalty (fst (qo_convert o p)) = qo_penalty o.
Proof.
  intros o p H. unfold qo_convert. destruct (qubo_compatible p) eqn:C; [|repeat split; auto]. exfalso. apply qubo_compatible_iff in C. destruct C as (D & Q & L).
  destruct H as [(v & I & T)|[N|(c & i & I & N)]]; [|now apply N|].
  - unfold discrete in D. rewrite Forall_forall in D. now apply (D v I).
  - rewrite Forall_forall in L. apply N. now apply int_lin_coef, L.
Qed.
(** Otherwise a conversion that raises leaves the converter answering for the problem it could not convert, or raising. *)
Theorem C89_attempted_partial : forall p e,
  (forall o x y, snd (io_convert o p) = Err e -> io_interpret (fst (io_convert o p)) x = Ok y -> length y = num_vars p) /\
  (forall o x y, snd (bo_convert o p) = Err e -> bo_interpret (fst (bo_convert o p)) x = Ok y -> length y = num_vars p) /\
  (forall o x y, snd (po_convert o p) = Err e -> po_interpret (fst (po_convert o p)) x = Ok y -> y = x /\ length y = num_vars p).
Proof.
  intros p e. split; [|split]; intros o x y.
  - unfold io_convert. destruct (ineq_build _ _) as [d r]. cbn [fst snd]. unfold io_interpret. cbn. intros _ H. unfold ineq_interpret in H. destruct (solution_dict _ _); [|discriminate]. apply mapM_length in H. exact H.
  - unfold bo_convert. cbv zeta. destruct (0 <? _).
    + destruct (bo_declare _ _ _ _ _) as [cv r]. destruct (then_build _ _) as [d r']. cbn [fst snd]. unfold bo_interpret. cbn. intros _ H. unfold i2b_interpret in H. destruct (solution_dict _ _); [|discriminate]. apply mapM_length in H.
      rewrite H, combine_length, seq_length. unfold num_vars. lia.
    + cbn. discriminate.
  - unfold po_convert. intros _. unfold po_interpret. destruct (if po_auto o then _ else _).
    + destruct (pen_build _ _) as [q [[]|]]; cbn; unfold pen_interpret; destruct (Nat.eqb_spec (length x) (num_vars p)); intro H; inversion H; subst; auto.
    + cbn; unfold pen_interpret; destruct (Nat.eqb_spec (length x) (num_vars p)); intro H; inversion H; subst; auto.
Qed.
(** The next conversion that succeeds sets the converter right (C35).  A case of the refusal: three variables are converted,
    a problem with a continuous variable is refused, and the three values are still given back; and of the raising conversion above. *)
Example C89_case : let o := fst (qo_convert (new_qubo None) ex89a) in
  let o' := fst (qo_convert o (run (new_qp "") [OAddVar 0 1 CONTINUOUS (Some "u")])) in let o2 := fst (qo_convert o ex89b) in
  res_qs (qo_interpret o' [1; 0; 1]%Qc) [1; 0; 1]%Qc = true /\ res_qs (qo_interpret o2 [1; 0; 1]%Qc) [1; 0]%Qc = true /\
  res_qs (qo_interpret (fst (qo_convert o2 ex89a)) [1; 0; 1]%Qc) [1; 0; 1]%Qc = true.
Proof. vm_compute. auto. Qed.
Print Assumptions C89_qubo_refuted.
Print Assumptions C89_inequality_refuted.
Print Assumptions C89_integer_refuted.
Print Assumptions C89_refused_partial.
Print Assumptions C89_attempted_partial.
