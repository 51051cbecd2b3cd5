(** * C18 to C21: Ising operators *)
From Verif Require Import IsingProps IsingLast ConvMore.
Local Open Scope string_scope.
Local Open Scope list_scope.
Local Open Scope nat_scope.

(** ** C18 *)
(** Refuted: if the objective has no coefficient the sum of no terms is the integer 0 and the identity, whose energy is 1, is
    returned in its place (quadratic_program.py:1323-1330). *)
Theorem C18_constant_objective_refuted : exists p op off, prog_wf p /\ unconstrained_binary p /\ obj_fits p /\ to_ising p = Ok (op, off) /\
  forall x, bits (num_vars p) x -> (energy op x + off = 1 + sign (o_sense (p_obj p)) * obj_at (p_obj p) x)%Qc.
Proof.
  set (p := run (new_qp "") [OAddVar 0 1 BINARY (Some "a"); OObjective MINIMIZE (qz 3) None None]).
  exists p, (mkOp 1 [(([false], [false]), 1%Qc)]), (qz 3).
  split; [apply reachable_wf; repeat constructor|]. split; [repeat constructor|]. split; [split; vm_compute; lia|].
  split; [vm_compute; reflexivity|]. intros x [L F]. change (num_vars p) with 1 in L. destruct x as [|a [|b x]]; try discriminate L.
  inversion F; subst. destruct H1 as [-> | ->]; vm_compute; reflexivity.
Qed.
(** Refuted also for tiny coefficients, which [reduce] takes for zero. *)
Theorem C18_small_coefficient_refuted : exists p op off x, prog_wf p /\ unconstrained_binary p /\ obj_fits p /\ obj_nonempty p /\ to_ising p = Ok (op, off) /\
  bits (num_vars p) x /\ (energy op x + off)%Qc <> (sign (o_sense (p_obj p)) * obj_at (p_obj p) x)%Qc.
Proof.
  set (p := run (new_qp "") [OAddVar 0 1 BINARY (Some "a"); OAddVar 0 1 BINARY (Some "b");
    OObjective MINIMIZE 0 (Some (LDict [(KI 0, (1 / qz 1000000000)%Qc); (KI 1, qz 1)])) None]).
  assert (match to_ising p with Ok (op, off) => negb (qeqb (energy op [1%Qc; 1%Qc] + off) (sign (o_sense (p_obj p)) * obj_at (p_obj p) [1%Qc; 1%Qc])) | Err _ => false end = true) as V by (vm_compute; reflexivity).
  destruct (to_ising p) as [[op off]|] eqn:E; [|discriminate V]. apply negb_true_iff, qeqb_false in V.
  exists p, op, off, [1%Qc; 1%Qc]. split; [apply reachable_wf; repeat constructor|]. split; [repeat constructor|]. split; [split; vm_compute; lia|].
  split. { left. exists 1. intro H. apply (f_equal this) in H. vm_compute in H. discriminate H. }
  split; [exact E|]. split; [|exact V]. split; [reflexivity|]. repeat constructor; right; reflexivity.
Qed.
(** What holds: if the objective has a coefficient, the energy plus the offset is the objective up to 10^-8 for each pair of
    variables, and exactly the objective if the coefficients are whole multiples of some g > 4*10^-8 (integers, for instance). *)
Theorem C18_energy_partial : forall p op off, prog_wf p -> to_ising p = Ok (op, off) -> obj_nonempty p ->
  op_n op = num_vars p /\
  forall x, bits (num_vars p) x ->
    (qabs (energy op x + off - sign (o_sense (p_obj p)) * obj_at (p_obj p) x) <= 1 / qz 100000000 * qn (num_vars p * num_vars p))%Qc /\
    forall g, on_grid g p -> (4 / qz 100000000 < g)%Qc -> (energy op x + off = sign (o_sense (p_obj p)) * obj_at (p_obj p) x)%Qc.
Proof.
  intros p op off W H N. assert (exprs_wf p) as E by apply W. split; [now apply (to_ising_terms p op off E H N)|].
  intros x X. split; [exact (to_ising_energy p op off x E H N X)|]. intros g G Hg. apply (to_ising_exact p op off g x E H N G); auto.
Qed.
Definition ex18 : qp := run (new_qp "") [OAddVars (KCount 3) 0 1 BINARY None "{}";
  OObjective MAXIMIZE (qz 5) (Some (LDict [(KI 0, qz 2); (KI 2, qz (-7))])) (Some (QDict [((KI 0, KI 1), qz 3); ((KI 2, KI 1), qz (-4)); ((KI 1, KI 1), qz 6)]))].
Example C18_case : prog_wf ex18 /\ obj_nonempty ex18 /\ on_grid 1%Qc ex18 /\
  match to_ising ex18 with
  | Ok (op, off) => length (op_terms op) = 5 /\ op_n op = 3 /\ qeqb (energy op [1; 1; 0]%Qc + off) (qz (-16)) = true /\ qeqb (obj_at (p_obj ex18) [1; 1; 0]%Qc) (qz 16) = true
  | Err _ => False end.
Proof.
  split; [apply reachable_wf; repeat constructor|]. split. { left. exists 0. intro H. apply (f_equal this) in H. vm_compute in H. discriminate H. }
  split; [apply int_grid; vm_compute; reflexivity|]. vm_compute. auto.
Qed.
Print Assumptions C18_constant_objective_refuted.
Print Assumptions C18_small_coefficient_refuted.
Print Assumptions C18_energy_partial.

(** ** C19 *)
(** Refuted: a coefficient vector longer than the number of variables is accepted by minimize, and to_ising then indexes a
    too short array. *)
Theorem C19_rejects_refuted : exists p, prog_wf p /\ unconstrained_binary p /\ to_ising p = Err IndexError.
Proof.
  set (p := run (new_qp "") [OAddVar 0 1 BINARY (Some "a"); OObjective MINIMIZE 0 (Some (LList true [qz 1; qz 2])) None]).
  exists p. split; [apply reachable_wf; repeat constructor|]. split; [repeat constructor|]. vm_compute. reflexivity.
Qed.
(** What holds: QiskitOptimizationError is raised exactly for non-binary variables and constraints, and an operator is
    returned for all other programs whose objective is not larger than the program. *)
Theorem C19_rejects_partial : forall p, prog_wf p ->
  (to_ising p = Err QiskitOptimizationError <-> (exists v, In v (p_vars p) /\ v_type v <> BINARY) \/ p_lcs p <> [] \/ p_qcs p <> []) /\
  (all_binary p -> p_lcs p = [] -> p_qcs p = [] -> obj_fits p -> exists op off, to_ising p = Ok (op, off)).
Proof.
  intros p W. split.
  - rewrite to_ising_rejects. unfold unconstrained_binary, all_binary. split.
    + intro H. destruct (p_lcs p) eqn:E1; [|right; left; congruence]. destruct (p_qcs p) eqn:E2; [|right; right; congruence]. left.
      destruct (Exists_dec (fun v => v_type v <> BINARY) (p_vars p)) as [X|X].
      * intro v. destruct (v_type v); [left|right|left]; congruence.
      * apply Exists_exists in X. exact X.
      * exfalso. apply H. split; auto. apply Forall_forall. intros v Hv. destruct (v_type v) eqn:T; auto; exfalso; apply X, Exists_exists; exists v; split; auto; congruence.
    + intros H (B & E1 & E2). destruct H as [(v & Hv & T)|[H|H]]; auto. rewrite Forall_forall in B. auto.
  - intros B E1 E2 F. apply to_ising_ok; [apply W|repeat split; auto|exact F].
Qed.
Definition ex19 : qp := run (new_qp "") [OAddVars (KCount 2) 0 1 BINARY None "{}"; OObjective MINIMIZE 0 None (Some (QDict [((KI 0, KI 1), qz 4)]));
  OLinCon (Some (LDict [(KI 0, qz 1)])) (SStr "<=") 1%Qc None].
Example C19_case : prog_wf ex18 /\ all_binary ex18 /\ obj_fits ex18 /\ is_ok (to_ising ex18) = true /\
  prog_wf ex19 /\ to_ising ex19 = Err QiskitOptimizationError.
Proof.
  split; [apply reachable_wf; repeat constructor|]. split; [repeat constructor|]. split; [split; vm_compute; lia|]. split; [vm_compute; reflexivity|].
  split; [apply reachable_wf; repeat constructor|]. vm_compute. reflexivity.
Qed.
(** Exactly the programs that give an operator: among those with binary variables only and no constraints, the ones whose objective
    has no entry at a position that is not a variable; the others give IndexError. *)
Theorem C19_exact : forall p,
  ((exists op off, to_ising p = Ok (op, off)) <->
   all_binary p /\ p_lcs p = [] /\ p_qcs p = [] /\
   (forall i v, In (i, v) (lin_to_dict (o_lin (p_obj p))) -> i < num_vars p) /\
   (forall i j v, In ((i, j), v) (quad_to_dict false (o_quad (p_obj p))) -> i < num_vars p /\ j < num_vars p)) /\
  (forall e, to_ising p = Err e -> e = QiskitOptimizationError /\ ~ unconstrained_binary p \/ e = IndexError /\ unconstrained_binary p).
Proof.
  intro p. assert (unconstrained_binary p \/ ~ unconstrained_binary p) as [U|U].
  { unfold unconstrained_binary. rewrite <- count_all_binary. destruct (count_type BINARY p <? num_vars p); [right; intros [H _]; discriminate H|].
    destruct (p_lcs p); [|right; intros (_ & H & _); discriminate H]. destruct (p_qcs p); [|right; intros (_ & _ & H); discriminate H]. auto. }
  - destruct (to_ising_iff p U) as [H1 H2]. split.
    + rewrite H1. destruct U as (B & E1 & E2). tauto.
    + intros e H. right. split; [exact (H2 e H)|exact U].
  - pose proof (proj2 (to_ising_rejects p) U) as E. rewrite E. split.
    + split; [intros (op & off & H); discriminate H|]. intros (B & E1 & E2 & _). exfalso. apply U. repeat split; auto.
    + intros e [= <-]. auto.
Qed.
Definition ex19b : qp := run (new_qp "") [OAddVars (KCount 2) 0 1 BINARY None "{}"; OObjective MINIMIZE 0 (Some (LList true [qz 1; qz 2; 0%Qc])) None].
Definition ex19c : qp := run (new_qp "") [OAddVars (KCount 2) 0 1 BINARY None "{}"; OObjective MINIMIZE 0 None (Some (QList true [[0; 0; 0]; [0; 0; 1]; [0; 0; 0]]%Qc))].
Example C19_exact_case : le_dim (o_lin (p_obj ex19b)) = 3 /\ is_ok (to_ising ex19b) = true /\ to_ising ex19c = Err IndexError.
Proof. vm_compute. auto. Qed.
Print Assumptions C19_rejects_refuted.
Print Assumptions C19_exact.
Print Assumptions C19_rejects_partial.

(** ** C20 *)
(** Refuted for a list of terms with a repeated Pauli string: the later coefficient replaces the earlier one
    (quadratic_program.py:1391-1393). *)
Theorem C20_repeated_terms_refuted : exists op q x, Forall (ising_term (op_n op)) (op_terms op) /\
  from_ising (new_qp "") op 0%Qc false = (q, Ok tt) /\ bits (op_n op) x /\ obj_at (p_obj q) x <> (energy op x + 0)%Qc.
Proof.
  set (op := mkOp 1 [(([true], [false]), 1%Qc); (([true], [false]), qz 2)]).
  assert (match from_ising (new_qp "") op 0%Qc false with (q, Ok _) => negb (qeqb (obj_at (p_obj q) [0%Qc]) (energy op [0%Qc] + 0)) | _ => false end = true) as V by (vm_compute; reflexivity).
  destruct (from_ising (new_qp "") op 0%Qc false) as [q [[]|]] eqn:E; [|discriminate V]. apply negb_true_iff, qeqb_false in V.
  exists op, q, [0%Qc]. split; [repeat constructor|]. split; [exact E|]. split; [|exact V]. split; [reflexivity|]. repeat constructor.
Qed.
(** What holds: for all sums of distinct Z and ZZ terms, with zero coefficients allowed, the new program has the binary
    variables x_0, x_1, ... and the energies as its objective; squares go into the linear part iff [linear] is set; and
    every operator with any other kind of term is refused. *)
Theorem C20_energies_partial : forall s n terms off linear,
  (Forall (ising_term n) terms -> NoDup (map fst terms) ->
   exists q, from_ising (new_qp s) (mkOp n terms) off linear = (q, Ok tt) /\
     p_vars q = map (fun i => mkVar ("x_" ++ str_nat i) 0 1 BINARY) (seq 0 n) /\ p_lcs q = [] /\ p_qcs q = [] /\ o_sense (p_obj q) = MINIMIZE /\
     (linear = true -> forall i, coef2 (o_quad (p_obj q)) i i = 0%Qc) /\ (linear = false -> forall i, coef1 (o_lin (p_obj q)) i = 0%Qc) /\
     forall x, bits n x -> obj_at (p_obj q) x = (energy (mkOp n terms) x + off)%Qc) /\
  (forall t, Forall (fun t => length (fst (fst t)) = n /\ length (snd (fst t)) = n) terms -> In t terms -> ~ ising_term n t ->
   snd (from_ising (new_qp s) (mkOp n terms) off linear) = Err QiskitOptimizationError).
Proof.
  intros s n terms off linear. split; [intros G N; exact (from_ising_ok s n terms off linear G N)|].
  intros t F Hin Ht. exact (from_ising_rejects s n terms off linear t F Hin Ht).
Qed.
Definition ex20 : list (pauli * Qc) :=
  [(([true; false; true], no_flags 3), qz 3); (([false; true; false], no_flags 3), qz (-2)); (([true; true; false], no_flags 3), 0%Qc); (([false; false; true], no_flags 3), qz 5)].
Example C20_case : Forall (ising_term 3) ex20 /\ NoDup (map fst ex20) /\
  (let (q, r) := from_ising (new_qp "") (mkOp 3 ex20) (qz 10) false in
   var_names q = ["x_0"; "x_1"; "x_2"] /\ qeqb (obj_at (p_obj q) [1; 0; 1]%Qc) (qz 6) = true /\ qeqb (energy (mkOp 3 ex20) [1; 0; 1]%Qc + qz 10) (qz 6) = true) /\
  snd (from_ising (new_qp "") (mkOp 1 [(([false], [false]), 1%Qc)]) 0%Qc true) = Err QiskitOptimizationError.
Proof.
  split. { repeat apply Forall_cons; try apply Forall_nil; (split; [reflexivity|]); (split; [reflexivity|]); (split; [reflexivity|]); vm_compute; auto. }
  split. { repeat apply NoDup_cons; try apply NoDup_nil; simpl; intuition discriminate. } split; vm_compute; auto.
Qed.
(** With repeated Pauli strings exactly the last coefficient of each counts. *)
Theorem C20_repeated : forall s n terms d off linear, Forall (ising_term n) terms -> last_counts terms d ->
  exists q, from_ising (new_qp s) (mkOp n terms) off linear = (q, Ok tt) /\
    forall x, bits n x -> obj_at (p_obj q) x = (energy (mkOp n d) x + off)%Qc.
Proof. intros s n terms d off linear G L. exact (from_ising_last s n terms d off linear G L). Qed.
Definition ex20r : list (pauli * Qc) :=
  [(([true; false], no_flags 2), qz 3); (([true; true], no_flags 2), qz 4); (([true; false], no_flags 2), qz 7)].
Definition ex20d : list (pauli * Qc) := [(([true; true], no_flags 2), qz 4); (([true; false], no_flags 2), qz 7)].
Example C20_repeated_case : Forall (ising_term 2) ex20r /\ last_counts ex20r ex20d /\ qeqb (energy (mkOp 2 ex20d) [0; 0]%Qc + qz 1) (qz 12) = true /\
  (let (q, r) := from_ising (new_qp "") (mkOp 2 ex20r) (qz 1) false in qeqb (obj_at (p_obj q) [0; 0]%Qc) (qz 12) = true).
Proof.
  split. { repeat apply Forall_cons; try apply Forall_nil; (split; [reflexivity|]); (split; [reflexivity|]); (split; [reflexivity|]); vm_compute; auto. }
  split; [|split; vm_compute; reflexivity]. split. { repeat apply NoDup_cons; try apply NoDup_nil; simpl; intuition discriminate. }
  intros k c. unfold ex20d, ex20r. split.
  - intros [[= <- <-]|[[= <- <-]|[]]].
    + exists [(([true; false], no_flags 2), qz 3)], [(([true; false], no_flags 2), qz 7)]. split; [reflexivity|]. simpl. intuition discriminate.
    + exists [(([true; false], no_flags 2), qz 3); (([true; true], no_flags 2), qz 4)], []. split; [reflexivity|]. simpl. tauto.
  - intros ([|b1 [|b2 [|b3 b]]] & a & E & N).
    + injection E as E1 E2 E3. subst. exfalso. apply N. right. left. reflexivity.
    + injection E as E0 E1 E2 E3. subst. left. reflexivity.
    + injection E as E00 E0 E1 E2 E3. subst. right. left. reflexivity.
    + exfalso. injection E as _ _ _ E. now destruct b.
Qed.
Print Assumptions C20_repeated_terms_refuted.
Print Assumptions C20_repeated.
Print Assumptions C20_energies_partial.

(** ** C21 *)
(** Refuted: the operator of a constant objective is a multiple of the identity, which from_ising refuses as if it had more
    than two Z factors.  The same happens when coefficients cancel on all assignments. *)
Theorem C21_round_trip_refuted : forall linear, exists p q op off, prog_wf p /\ unconstrained_binary p /\ obj_fits p /\ to_ising p = Ok (op, off) /\
  from_ising (new_qp "") op off linear = (q, Err QiskitOptimizationError).
Proof.
  intro linear. set (p := run (new_qp "") [OAddVar 0 1 BINARY (Some "a"); OObjective MINIMIZE (qz 3) None None]).
  assert (match to_ising p with Ok (op, off) => match snd (from_ising (new_qp "") op off linear) with Err QiskitOptimizationError => true | _ => false end | Err _ => false end = true) as V by (destruct linear; vm_compute; reflexivity).
  destruct (to_ising p) as [[op off]|] eqn:E; [|discriminate V]. destruct (from_ising (new_qp "") op off linear) as [q [|[]]] eqn:F; try discriminate V.
  exists p, q, op, off. split; [apply reachable_wf; repeat constructor|]. split; [repeat constructor|]. split; [split; vm_compute; lia|]. auto.
Qed.
Theorem C21_cancelling_refuted : forall linear, exists p q op off, prog_wf p /\ unconstrained_binary p /\ obj_fits p /\ obj_nonempty p /\ to_ising p = Ok (op, off) /\
  from_ising (new_qp "") op off linear = (q, Err QiskitOptimizationError).
Proof.
  intro linear. set (p := run (new_qp "") [OAddVars (KCount 2) 0 1 BINARY None "{}";
    OObjective MINIMIZE 0 (Some (LDict [(KI 0, qz 2); (KI 1, 1%Qc)])) (Some (QDict [((KI 0, KI 0), qz (-2)); ((KI 1, KI 1), qz (-1))]))]).
  assert (match to_ising p with Ok (op, off) => match snd (from_ising (new_qp "") op off linear) with Err QiskitOptimizationError => true | _ => false end | Err _ => false end = true) as V by (destruct linear; vm_compute; reflexivity).
  destruct (to_ising p) as [[op off]|] eqn:E; [|discriminate V]. destruct (from_ising (new_qp "") op off linear) as [q [|[]]] eqn:F; try discriminate V.
  exists p, q, op, off. split; [apply reachable_wf; repeat constructor|]. split; [repeat constructor|]. split; [split; vm_compute; lia|].
  split. { left. exists 0. intro H. apply (f_equal this) in H. vm_compute in H. discriminate H. } auto.
Qed.
(** What holds: if the objective varies by more than twice the tolerance the round trip succeeds and keeps the objective up
    to the tolerance, and if it varies at all and its coefficients lie on a grid the objective is kept exactly. *)
Theorem C21_round_trip_partial : forall p op off s linear x1 x2, prog_wf p -> to_ising p = Ok (op, off) ->
  bits (num_vars p) x1 -> bits (num_vars p) x2 ->
  ((2 / qz 100000000 * qn (num_vars p * num_vars p) < qabs (obj_at (p_obj p) x1 - obj_at (p_obj p) x2))%Qc ->
   exists q, from_ising (new_qp s) op off linear = (q, Ok tt) /\ num_vars q = num_vars p /\ all_binary q /\ p_lcs q = [] /\ p_qcs q = [] /\ o_sense (p_obj q) = MINIMIZE /\
     forall x, bits (num_vars p) x ->
       (qabs (obj_at (p_obj q) x - sign (o_sense (p_obj p)) * obj_at (p_obj p) x) <= 1 / qz 100000000 * qn (num_vars p * num_vars p))%Qc) /\
  (forall g, on_grid g p -> (4 / qz 100000000 < g)%Qc -> obj_at (p_obj p) x1 <> obj_at (p_obj p) x2 ->
   exists q, from_ising (new_qp s) op off linear = (q, Ok tt) /\ num_vars q = num_vars p /\ all_binary q /\ p_lcs q = [] /\ p_qcs q = [] /\ o_sense (p_obj q) = MINIMIZE /\
     forall x, bits (num_vars p) x -> obj_at (p_obj q) x = (sign (o_sense (p_obj p)) * obj_at (p_obj p) x)%Qc).
Proof.
  intros p op off s linear x1 x2 W H X1 X2. assert (exprs_wf p) as E by apply W. split.
  - intro D. destruct (to_ising_nonzero p op off x1 x2 E H X1 X2) as (N & On & G & Nd).
    { eapply Qcle_lt_trans; [|exact D]. rewrite Qcmult_assoc. apply Qcle_refl || (apply Qcmult_le_compat_r; [apply Qcle_refl|apply qn_nonneg]). }
    destruct (from_ising_ok s (num_vars p) (op_terms op) off linear G Nd) as (q & F & V & A & B & C & _ & _ & O).
    exists q. destruct op as [n terms]. cbn [op_n op_terms] in *. subst n. split; [exact F|].
    split; [unfold num_vars; now rewrite V, map_length, seq_length|]. split; [unfold all_binary; rewrite V; apply Forall_forall; intros v Hv; apply in_map_iff in Hv; destruct Hv as (i & <- & _); reflexivity|].
    split; auto. split; auto. split; auto. intros x X. rewrite (O x X). exact (to_ising_energy p _ off x E H N X).
  - intros g Gr Hg D. destruct (to_ising_nonzero_grid p op off g x1 x2 E H Gr Hg X1 X2 D) as (N & On & G & Nd).
    destruct (from_ising_ok s (num_vars p) (op_terms op) off linear G Nd) as (q & F & V & A & B & C & _ & _ & O).
    exists q. destruct op as [n terms]. cbn [op_n op_terms] in *. subst n. split; [exact F|].
    split; [unfold num_vars; now rewrite V, map_length, seq_length|]. split; [unfold all_binary; rewrite V; apply Forall_forall; intros v Hv; apply in_map_iff in Hv; destruct Hv as (i & <- & _); reflexivity|].
    split; auto. split; auto. split; auto. intros x X. rewrite (O x X). exact (to_ising_exact p _ off g x E H N Gr Hg X).
Qed.
Example C21_case : prog_wf ex18 /\ on_grid 1%Qc ex18 /\ obj_at (p_obj ex18) [1; 0; 0]%Qc <> obj_at (p_obj ex18) [0; 1; 1]%Qc /\
  match to_ising ex18 with
  | Ok (op, off) => let (q, r) := from_ising (new_qp "") op off true in r = Ok tt /\ qeqb (obj_at (p_obj q) [0; 1; 1]%Qc) 0 = true /\ qeqb (obj_at (p_obj ex18) [0; 1; 1]%Qc) 0 = true /\
                    qeqb (obj_at (p_obj q) [1; 0; 0]%Qc) (qz (-7)) = true
  | Err _ => False end.
Proof.
  split; [apply reachable_wf; repeat constructor|]. split; [apply int_grid; vm_compute; reflexivity|].
  split. { intro H. apply (f_equal this) in H. vm_compute in H. discriminate H. } vm_compute. auto.
Qed.
Print Assumptions C21_round_trip_refuted.
Print Assumptions C21_cancelling_refuted.
Print Assumptions C21_round_trip_partial.
