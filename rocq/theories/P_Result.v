(** * C36 to C41: results, samples, measurement outcomes and MinimumEigenOptimizer *)
From Verif Require Import AlgoAny.
Local Open Scope string_scope.
Local Open Scope list_scope.
Local Open Scope nat_scope.

(** ** C36 *)
Theorem C36_result_consistent : forall p fs samples x r, prog_wf p -> interpret p fs samples x = Ok r ->
  exists y, decodes fs x y /\ length y = num_vars p /\ r_x r = Some y /\ r_vars r = p_vars p /\
    r_fval r = Some (obj_at (p_obj p) y) /\
    (r_status r = SUCCESS <-> accepts p y) /\ (r_status r = INFEASIBLE_ <-> ~ accepts p y) /\
    (forall i v, nth_error (p_vars p) i = Some v ->
       getitem r (KI (Z.of_nat i)) = Ok (at_ y i) /\ getitem r (KI (Z.of_nat i - Z.of_nat (num_vars p))) = Ok (at_ y i) /\
       getitem r (KS (v_name v)) = Ok (at_ y i) /\ exists d, r_dict r = Some d /\ dget String.eqb (v_name v) d = Some (at_ y i)) /\
    (forall s, ~ In s (map v_name (p_vars p)) -> getitem r (KS s) = Err KeyError) /\
    (forall z, (z < - Z.of_nat (num_vars p) \/ Z.of_nat (num_vars p) <= z)%Z -> getitem r (KI z) = Err IndexError) /\
    r_samples r = Some (match samples with [] => [mkSample y (obj_at (p_obj p) y) 1%Qc (r_status r)] | _ => samples end).
Proof.
  intros p fs samples x r W H. destruct (interpret_spec _ _ _ _ _ W H) as (y & D & L & X & V & F & St & Dd & Sm). exists y.
  split; auto. split; auto. split; auto. split; auto. split; auto.
  split. { destruct St as [[E A]|[E A]]; rewrite E; split; auto; try discriminate; contradiction. }
  split. { destruct St as [[E A]|[E A]]; rewrite E; split; auto; try discriminate; contradiction. }
  pose proof (prog_wf_nodup p W) as N. assert (length y = length (var_names p)) as Ln by (unfold var_names; now rewrite map_length).
  split. { intros i v Hv. assert (i < length y) as Hi by (rewrite L; apply nth_error_Some; congruence). destruct (py_nth_at y i Hi) as [P1 P2]. rewrite L in P2.
    assert (dget String.eqb (v_name v) (combine (var_names p) y) = Some (at_ y i)) as G.
    { apply combine_dget; auto. unfold var_names. rewrite nth_error_map, Hv. reflexivity. }
    unfold getitem. rewrite X, Dd, G. split; auto. split; auto. split; auto. eauto. }
  split; [|split; [intros z Hz; unfold getitem; rewrite X; apply py_nth_out; rewrite L; exact Hz|exact Sm]].
  intros s Hs. unfold getitem. rewrite Dd. destruct (dget String.eqb s (combine (var_names p) y)) eqn:G; auto. exfalso. apply Hs.
  apply (dget_in _ str_eqb_sp) in G. apply in_combine_l in G. exact G.
Qed.
Theorem C36_result_exists : forall p fs samples x y, shapes (num_vars p) p -> decodes fs x y -> length y = num_vars p -> exists r, interpret p fs samples x = Ok r.
Proof. intros. eapply interpret_total; eauto. Qed.
(** Several converters: the interpretations run backwards through the list. *)
Theorem C36_converters : forall cs p q fs x r, prog_wf p -> convert_all cs p = Ok (q, fs) -> interpret p fs [] x = Ok r ->
  exists z, stands_for cs p z q x /\ r_x r = Some z /\ r_fval r = Some (obj_at (p_obj p) z) /\ forall z', stands_for cs p z' q x -> z' = z.
Proof.
  intros cs p q fs x r W H Hr. destruct (interpret_spec _ _ _ _ _ W Hr) as (y & D & _ & X & _ & F & _). exists y. apply decodes_iff in D. pose proof D as D'.
  apply (converted_points _ _ _ _ _ _ H) in D'. split; auto. split; auto. split; auto. intros z' Hz. apply (converted_points _ _ _ _ _ _ H) in Hz. rewrite D in Hz. now injection Hz.
Qed.
Definition ex36 : qp := run (new_qp "") [OAddVar 0 1 BINARY (Some "b"); OAddVar (qz (-1)) (qz 2) INTEGER (Some "i");
   OObjective MAXIMIZE 1 (Some (LDict [(KS "i", qz 2)])) (Some (QDict [((KS "b", KS "i"), qz 3)]));
   OLinCon (Some (LDict [(KS "i", qz 1); (KS "b", qz 1)])) (SStr "<=") (qz 2) (Some "c")].
Lemma ex36_shapes : shapes (num_vars ex36) ex36.
Proof. repeat split; simpl; repeat constructor; simpl; try lia; intuition (try congruence; lia). Qed.
Example C36_case : prog_wf ex36 /\ shapes (num_vars ex36) ex36 /\
  match to_qubo None ex36 with
  | Ok q => match interpret ex36 [qubo_interpret q] [] [1; 1; 0; 0; 1]%Qc with
            | Ok r => res_is (getitem r (KS "i")) 0 && res_is (getitem r (KI (-1))) 0 && res_is (getitem r (KI 0)) 1 && negb (is_ok (getitem r (KS "z"))) = true /\ r_status r = SUCCESS
            | Err _ => False end
  | Err _ => False end /\
  match interpret ex36 [] [] [1; qz 2]%Qc with Ok r => r_status r = INFEASIBLE_ /\ match r_fval r with Some f => qeqb f (qz 11) = true | None => False end | Err _ => False end.
Proof. split; [apply reachable_wf; repeat constructor|]. split; [exact ex36_shapes|]. vm_compute. auto. Qed.
(** First to integers without inequalities, then to a QUBO: x = 3 as 1 + 1*1 + 1*1, with two converters of different sizes. *)
Definition ineq_converter : converter := fun p => do q <- ineq_to_eq MInteger p; Ok (q, ineq_interpret p q).
Example C36_converters_case : match convert_all [ineq_converter; qubo_converter None] ex36 with
  | Ok (q, fs) => num_vars q = 5 /\ match interpret ex36 fs [] [1; 1; 0; 0; 1]%Qc with Ok r => match r_x r with Some z => qs_eqb z [1; 0]%Qc = true | None => False end | Err _ => False end
  | Err _ => False end.
Proof. vm_compute. auto. Qed.
Print Assumptions C36_converters.
Print Assumptions C36_result_consistent.
Print Assumptions C36_result_exists.

(** ** C37 *)
Theorem C37_samples_mass : forall p fs raw l, prog_wf p -> interpret_samples p fs raw = Ok l ->
  NoDup (map s_x l) /\ total_prob l = total_prob raw /\
  (forall s, In s l -> s_fval s = obj_at (p_obj p) (s_x s) /\ length (s_x s) = num_vars p /\ status_at p (s_x s) (s_status s) /\
     exists m, picks (fun t => decodes fs (s_x t) (s_x s)) raw m /\ m <> [] /\ s_prob s = total_prob m) /\
  (forall t, In t raw -> exists s, In s l /\ decodes fs (s_x t) (s_x s)).
Proof. intros p fs raw l W H. exact (samples_mass p fs raw l W H). Qed.
Theorem C37_samples_exist : forall p fs raw, shapes (num_vars p) p ->
  Forall (fun s => exists y, decodes fs (s_x s) y /\ length y = num_vars p) raw -> exists l, interpret_samples p fs raw = Ok l.
Proof. exact samples_total. Qed.
(** Raw samples of the QUBO of ex36: bits b, i@0, i@1, slack; two of them decode to the same point. *)
Definition raw37 : list sample :=
  [mkSample [1; 1; 0; 0; 0]%Qc 0 (1 / qz 4) SUCCESS; mkSample [1; 1; 1; 0; 0]%Qc 0 (1 / qz 8) SUCCESS;
   mkSample [0; 1; 0; 1; 0]%Qc 0 (1 / qz 4) SUCCESS; mkSample [1; 1; 0; 1; 1]%Qc 0 (qz 3 / qz 8) SUCCESS].
Example C37_case : match to_qubo None ex36 with
  | Ok q => match interpret_samples ex36 [qubo_interpret q] raw37 with
            | Ok [a; b; c] => (qs_eqb (s_x a) [1; 0]%Qc && qeqb (s_prob a) (qz 5 / qz 8) && qs_eqb (s_x b) [0; 0]%Qc && qeqb (s_prob b) (1 / qz 4) && qs_eqb (s_x c) [1; qz 2]%Qc && qeqb (s_prob c) (1 / qz 8))%Qc = true /\
                map s_status [a; b; c] = [SUCCESS; SUCCESS; INFEASIBLE_]
            | _ => False end
  | Err _ => False end.
Proof. vm_compute. auto. Qed.
Print Assumptions C37_samples_mass.
Print Assumptions C37_samples_exist.

(** ** C38 *)
Theorem C38_samples_sorted : forall p fs raw l, prog_wf p -> interpret_samples p fs raw = Ok l ->
  StronglySorted (ranked (o_sense (p_obj p))) l /\
  forall s l', l = s :: l' -> (exists t y, In t raw /\ decodes fs (s_x t) y /\ accepts p y) ->
    accepts p (s_x s) /\ s_status s = SUCCESS /\
    forall t y, In t raw -> decodes fs (s_x t) y -> accepts p y -> at_least (o_sense (p_obj p)) (s_fval s) (obj_at (p_obj p) y).
Proof. intros p fs raw l W H. split; [exact (samples_ranked p fs raw l W H)|exact (samples_first p fs raw l W H)]. Qed.
Example C38_case : o_sense (p_obj ex36) = MAXIMIZE /\ match interpret_samples ex36 [] [mkSample [0; 0]%Qc 0 (1 / qz 4) SUCCESS; mkSample [1; qz 2]%Qc 0 (1 / qz 4) SUCCESS; mkSample [0; qz 2]%Qc 0 (1 / qz 2) SUCCESS] with
  | Ok [a; b; c] => qeqb (s_fval a) (qz 5) && qeqb (s_fval b) 1 && qeqb (s_fval c) (qz 11) = true /\ map s_status [a; b; c] = [SUCCESS; SUCCESS; INFEASIBLE_]
  | _ => False end.
Proof. vm_compute. auto. Qed.
Print Assumptions C38_samples_sorted.

(** ** C39 *)
Theorem C39_state_vector : forall n v q thr, 0 < n -> length v = 2 ^ n -> num_vars q = n -> obj_shaped q ->
  exists ks, picks (fun i => exists a, nth_error v i = Some a /\ (thr <= abs2 a)%Qc) (seq 0 (2 ^ n)) ks /\
    eigenvector_to_solutions (EVec v) q thr =
      Ok (map (fun i => mkSample (basis_point n i) (obj_at (p_obj q) (basis_point n i)) (abs2 (nth i v (0, 0)%Qc)) SUCCESS) ks).
Proof. exact vec_solutions. Qed.
Theorem C39_dictionary : forall d q thr, obj_shaped q -> Forall (fun bc => length (fst bc) = num_vars q) d -> sumof snd d <> 0%Qc ->
  exists ks, picks (fun bc => (thr <= snd bc / sumof snd d)%Qc) d ks /\
    eigenvector_to_solutions (EDict d) q thr =
      Ok (map (fun bc => mkSample (map digit_q (fst bc)) (obj_at (p_obj q) (map digit_q (fst bc))) (snd bc / sumof snd d)%Qc SUCCESS) ks).
Proof. exact dict_solutions. Qed.
(** A DictStateFn with (real) amplitudes: the probabilities are the squares, normalised. *)
Theorem C39_dict_state : forall d q thr, obj_shaped q -> Forall (fun bc => length (fst bc) = num_vars q) d -> sumof (fun bc => snd bc * snd bc)%Qc d <> 0%Qc ->
  exists ks, picks (fun bc => (thr <= snd bc * snd bc / sumof (fun bc => snd bc * snd bc) d)%Qc) d ks /\
    eigenvector_to_solutions (EDictFn d) q thr =
      Ok (map (fun bc => mkSample (map digit_q (fst bc)) (obj_at (p_obj q) (map digit_q (fst bc))) (snd bc * snd bc / sumof (fun bc => snd bc * snd bc) d)%Qc SUCCESS) ks).
Proof. exact dictfn_solutions. Qed.
(** Anything else, and a dictionary that cannot be normalised, is rejected. *)
Theorem C39_rejected : forall d q thr, eigenvector_to_solutions EOther q thr = Err TypeError /\
  (d <> [] -> sumof snd d = 0%Qc -> eigenvector_to_solutions (EDict d) q thr = Err ZeroDivisionError).
Proof.
  intros d q thr. split; [reflexivity|]. intros N Z. unfold eigenvector_to_solutions, state_outcomes, dict_outcomes. rewrite total_sum, Z.
  destruct d; [congruence|reflexivity].
Qed.
Definition ex39 : qp := run (new_qp "") [OAddVars (KCount 2) 0 1 BINARY None "{}"; OObjective MINIMIZE 0 (Some (LDict [(KI 0, qz 5); (KI 1, qz 7)])) None].
Example C39_case : obj_shaped ex39 /\
  match eigenvector_to_solutions (EVec [(0, 0); (qz 3 / qz 5, 0); (1 / qz 10000, 0); (0, qz (-4) / qz 5)]%Qc) ex39 MIN_PROB with
  | Ok [a; b] => qs_eqb (s_x a) [1; 0]%Qc && qeqb (s_fval a) (qz 5) && qeqb (s_prob a) (qz 9 / qz 25) && qs_eqb (s_x b) [1; 1]%Qc && qeqb (s_prob b) (qz 16 / qz 25) = true
  | _ => False end /\
  match eigenvector_to_solutions (EDict [([false; true], qz 3); ([true; true], qz 1)]) ex39 MIN_PROB with
  | Ok [a; b] => qs_eqb (s_x a) [0; 1]%Qc && qeqb (s_fval a) (qz 7) && qeqb (s_prob a) (qz 3 / qz 4) && qs_eqb (s_x b) [1; 1]%Qc = true
  | _ => False end.
Proof. split; [split; (split; [split|]); vm_compute; try reflexivity; repeat constructor; simpl; intuition congruence|]. vm_compute. auto. Qed.
Example C39_case2 : match eigenvector_to_solutions (EDictFn [([false; true], qz (-3)); ([true; true], qz 4); ([true; false], 0%Qc)]) ex39 MIN_PROB with
  | Ok [a; b] => qs_eqb (s_x a) [0; 1]%Qc && qeqb (s_prob a) (qz 9 / qz 25) && qs_eqb (s_x b) [1; 1]%Qc && qeqb (s_prob b) (qz 16 / qz 25) = true
  | _ => False end /\ eigenvector_to_solutions (EDict [([true; true], 1%Qc); ([true; false], qz (-1))]) ex39 MIN_PROB = Err ZeroDivisionError.
Proof. vm_compute. auto. Qed.
Print Assumptions C39_state_vector.
Print Assumptions C39_dictionary.
Print Assumptions C39_dict_state.
Print Assumptions C39_rejected.

(** ** C40 *)
(** Refuted for the optimum by the defect of C24: for min x^2 - 4x over 1..4 the ground state stands for x = 3. *)
Theorem C40_ground_state_refuted : exists p r solver e m y, prog_wf p /\ shapes (num_vars p) p /\ Forall plain (p_vars p) /\ int_bounds p /\
  to_qubo None p = Ok r /\ sized_state (num_vars (r_qubo r)) e /\
  (forall op off, to_ising (r_qubo r) = Ok (op, off) -> solver op = Ok (Some e) /\ forall x pr, outcome (num_vars (r_qubo r)) e x pr -> ground (num_vars (r_qubo r)) op x) /\
  min_eigen_solve solver (default_converters None) p = Ok m /\ r_x (m_res m) = Some y /\ ~ optimal p y.
Proof.
  set (p := run (new_qp "") [OAddVar 1 (qz 4) INTEGER (Some "x");
     OObjective MINIMIZE 0 (Some (LDict [(KS "x", qz (-4))])) (Some (QDict [((KS "x", KS "x"), 1%Qc)]))]).
  set (e := EDict [([false; true], 1%Qc)]). set (solver := (fun _ => Ok (Some e)) : eigensolver).
  assert (match to_qubo None p with
      | Ok r => Nat.eqb (num_vars (r_qubo r)) 2 && match to_ising (r_qubo r) with
          | Ok (op, off) => forallb (fun z => qleb (energy op [0; 1]%Qc) (energy op z)) [[0; 0]; [0; 1]; [1; 0]; [1; 1]]%Qc
          | Err _ => false end
      | Err _ => false end = true) as V by (vm_compute; reflexivity).
  assert (match min_eigen_solve solver (default_converters None) p with Ok m => match r_x (m_res m) with Some [y] => qeqb y (qz 3) | _ => false end | Err _ => false end = true) as V2 by (vm_compute; reflexivity).
  destruct (to_qubo None p) as [r|] eqn:E; [|discriminate V]. apply andb_prop in V. destruct V as [Vn V]. apply Nat.eqb_eq in Vn.
  destruct (min_eigen_solve solver (default_converters None) p) as [m|] eqn:Em; [|discriminate V2].
  destruct (r_x (m_res m)) as [[|y [|]]|] eqn:Ex; try discriminate V2. destruct (qeqb_spec y (qz 3)) as [->|]; [|discriminate V2].
  exists p, r, solver, e, m, [qz 3]. split; [apply reachable_wf; repeat constructor|].
  split. { repeat split; simpl; repeat constructor; simpl; try lia; intuition (try congruence; lia). }
  split; [repeat constructor; discriminate|]. split; [repeat constructor; apply is_integer_spec; vm_compute; reflexivity|]. split; auto.
  rewrite Vn. split. { split; [repeat constructor|]. intro S. apply (f_equal this) in S. vm_compute in S. discriminate S. }
  split.
  - intros op off Eo. rewrite Eo in V. split; [reflexivity|]. intros x pr O. inversion O as [d b c Hin| |]; subst. destruct Hin as [[= <- <-]|[]]. rewrite forallb_forall in V. split.
    + split; [reflexivity|]. constructor; [left; reflexivity|constructor; [right; reflexivity|constructor]].
    + intros z [Lz Fz]. destruct z as [|a [|b [|]]]; try discriminate Lz. inversion Fz as [|? ? A F1]; subst. inversion F1 as [|? ? B _]; subst.
      assert (In [a; b] [[0; 0]; [0; 1]; [1; 0]; [1; 1]]%Qc) as Hin by (destruct A as [-> | ->], B as [-> | ->]; simpl; auto). apply V in Hin.
      change (map digit_q [false; true]) with [0; 1]%Qc. destruct (qleb_spec (energy op [0; 1]%Qc) (energy op [a; b])); [assumption|discriminate Hin].
  - split; auto. split; auto. intros [_ O]. assert (feasible p [qz 2]) as F by (apply feas_b_spec; vm_compute; reflexivity).
    specialize (O _ F). vm_compute in O. now apply O.
Qed.
(** What holds, first part: for any converters, a returned point decodes an outcome of best QUBO value. *)
Theorem C40_best_outcome : forall solver cs p q fs op off e m, prog_wf p -> prog_wf q -> obj_shaped q -> 0 < num_vars q -> sized_state (num_vars q) e ->
  convert_all cs p = Ok (q, fs) -> to_ising q = Ok (op, off) -> solver op = Ok (Some e) -> min_eigen_solve solver cs p = Ok m ->
  exists x y, best_kept q e x /\ decodes fs x y /\ length y = num_vars p /\ r_x (m_res m) = Some y /\
    r_fval (m_res m) = Some (obj_at (p_obj p) y) /\ status_at p y (r_status (m_res m)).
Proof.
  intros solver cs p q fs op off e m W Wq S Pos Se C I Sv M. unfold min_eigen_solve in M. destruct (qubo_compatible p); [|discriminate M]. rewrite C in M. cbn [bind fst snd] in M. rewrite I in M. cbn [bind fst snd] in M.
  destruct (internal_best _ _ _ _ _ _ e W (to_ising_n _ _ _ Wq I) Pos S Se Sv m M) as (x & y & B & _ & D & L & X & F & St). exists x, y. auto 10.
Qed.
(** With the default converter a result is returned whenever some outcome reaches the threshold, and it decodes an outcome
    of best QUBO value; without such an outcome IndexError is raised. *)
Theorem C40_default_partial : forall solver pen p r e, prog_wf p -> shapes (num_vars p) p -> to_qubo pen p = Ok r -> 0 < num_vars (r_qubo r) ->
  sized_state (num_vars (r_qubo r)) e -> (forall op off, to_ising (r_qubo r) = Ok (op, off) -> solver op = Ok (Some e)) ->
  ((exists x pr, kept (r_qubo r) e x pr) ->
   exists m x y, min_eigen_solve solver (default_converters pen) p = Ok m /\ best_kept (r_qubo r) e x /\ qubo_interpret r x = Ok y /\ r_x (m_res m) = Some y /\
     r_fval (m_res m) = Some (obj_at (p_obj p) y) /\ status_at p y (r_status (m_res m))) /\
  ((forall x pr, ~ kept (r_qubo r) e x pr) -> min_eigen_solve solver (default_converters pen) p = Err IndexError).
Proof.
  intros solver pen p r e W S H Pos Se Sv. split.
  - intro K. destruct (default_total solver pen p r e W H Pos Se Sv S K) as [m M]. destruct (default_best solver pen p r e W H Pos Se Sv m M) as (x & y & B & _ & D & X & F & St). exists m, x, y. auto 10.
  - intro K. exact (default_none solver pen p r e W H Pos Se Sv K).
Qed.
(** Second part: one ground state among the kept outcomes is enough for an optimal result.  Missing: the products of
    integer variables excluded in C33, where it is false, and QUBO coefficients not on a grid coarser than 4e-8 (C18). *)
Theorem C40_ground_state_partial : forall solver pen p r e g, prog_wf p -> shapes (num_vars p) p -> to_qubo pen p = Ok r -> 0 < num_vars (r_qubo r) ->
  sized_state (num_vars (r_qubo r)) e -> (forall op off, to_ising (r_qubo r) = Ok (op, off) -> solver op = Ok (Some e)) ->
  Forall plain (p_vars p) -> int_bounds p -> products_safe p (o_quad (p_obj p)) -> (exists x, feasible p x) ->
  match pen with Some c => (weight (p_obj (r_bin r)) < c)%Qc | None => True end -> on_grid g (r_qubo r) -> (4 / qz 100000000 < g)%Qc ->
  (exists op off x pr, to_ising (r_qubo r) = Ok (op, off) /\ kept (r_qubo r) e x pr /\ ground (num_vars (r_qubo r)) op x) ->
  exists m y, min_eigen_solve solver (default_converters pen) p = Ok m /\ r_x (m_res m) = Some y /\ optimal p y /\
    r_fval (m_res m) = Some (obj_at (p_obj p) y) /\ r_status (m_res m) = SUCCESS.
Proof.
  intros solver pen p r e g W S H Pos Se Sv P IB SF F Pen G Hg X. assert (exists x pr, kept (r_qubo r) e x pr) as K by (destruct X as (op & off & x & pr & _ & K & _); eauto).
  destruct (default_total solver pen p r e W H Pos Se Sv S K) as [m M].
  destruct (default_optimal solver pen p r e W H Pos Se Sv g m P IB SF F Pen G Hg X S M) as (y & Y). exists m, y. auto.
Qed.
Example C40_case : let p := ex36 in prog_wf p /\ shapes (num_vars p) p /\ match to_qubo None p with
  | Ok r => num_vars (r_qubo r) = 5 /\ match min_eigen_solve (fun _ => Ok (Some (EDict [([true; false; true; false; false], qz 5); ([true; true; false; true; false], qz 3); ([true; true; true; true; true], qz 2)]))) (default_converters None) p with
    | Ok m => match r_x (m_res m), m_raw m with Some y, Some raw => qs_eqb y [1; 1]%Qc = true /\ length raw = 3 | _, _ => False end /\ r_status (m_res m) = SUCCESS
    | Err _ => False end
  | Err _ => False end.
Proof. cbv zeta. split; [apply reachable_wf; repeat constructor|]. split; [exact ex36_shapes|]. vm_compute. auto. Qed.
(** Exactly, for all products: with a ground state among the kept outcomes the result is a feasible point reported with its own objective and
    as a success, and it is the best point by the objective less what products of integer variables lose (C24). *)
Theorem C40_exact : forall solver pen p r e g, prog_wf p -> shapes (num_vars p) p -> to_qubo pen p = Ok r -> 0 < num_vars (r_qubo r) ->
  sized_state (num_vars (r_qubo r)) e -> (forall op off, to_ising (r_qubo r) = Ok (op, off) -> solver op = Ok (Some e)) ->
  Forall plain (p_vars p) -> int_bounds p -> (exists x, feasible p x) ->
  match pen with Some c => (weight (p_obj (r_bin r)) < c)%Qc | None => True end -> on_grid g (r_qubo r) -> (4 / qz 100000000 < g)%Qc ->
  (exists op off x pr, to_ising (r_qubo r) = Ok (op, off) /\ kept (r_qubo r) e x pr /\ ground (num_vars (r_qubo r)) op x) ->
  exists m x z, let y := firstn (num_vars p) z in min_eigen_solve solver (default_converters pen) p = Ok m /\ r_x (m_res m) = Some y /\ feasible p y /\
    r_fval (m_res m) = Some (obj_at (p_obj p) y) /\ r_status (m_res m) = SUCCESS /\ bits_mean r x z /\
    forall x' z', bits_mean r x' z' -> at_least (o_sense (p_obj p)) (worth p r z x) (worth p r z' x').
Proof.
  intros solver pen p r e g W S H Pos Se Sv P IB F Pen G Hg X. assert (exists x pr, kept (r_qubo r) e x pr) as K by (destruct X as (op & off & x & pr & _ & K & _); eauto).
  destruct (default_total solver pen p r e W H Pos Se Sv S K) as [m M].
  destruct (default_any solver pen p r e W H Pos Se Sv g m P IB F Pen G Hg X S M) as (x & z & Y). exists m, x, z. split; [exact M|exact Y].
Qed.
(** min x^2 - 4x over 1..4 with x <= 3 has its optimum -4 at 2.  The ground state stands for 3, worth -5 where -3 is right: 3 is reported, with -3. *)
Example C40_exact_case : let p := run (new_qp "") [OAddVar 1 (qz 4) INTEGER (Some "x"); OObjective MINIMIZE 0 (Some (LDict [(KS "x", qz (-4))])) (Some (QDict [((KS "x", KS "x"), 1%Qc)])); OLinCon (by_name [("x", 1%Qc)]) (SStr "<=") (qz 3) None] in
  prog_wf p /\ shapes (num_vars p) p /\ Forall plain (p_vars p) /\ int_bounds p /\ feasible p [qz 2] /\
  match to_qubo None p with
  | Ok r => num_vars (r_qubo r) = 4 /\ qeqb (worth p r [qz 3; 0]%Qc [0; 1; 0; 0]%Qc) (qz (-5)) && qeqb (worth p r [qz 2; 1]%Qc [1; 0; 1; 0]%Qc) (qz (-4)) = true
  | Err _ => False end /\
  match min_eigen_solve (fun _ => Ok (Some (EDict [([true; false; true; false], qz 5); ([false; true; false; false], qz 3)]))) (default_converters None) p with
  | Ok m => match r_x (m_res m), r_fval (m_res m) with Some y, Some v => qs_eqb y [qz 3] && qeqb v (qz (-3)) = true | _, _ => False end /\ r_status (m_res m) = SUCCESS
  | Err _ => False end.
Proof.
  cbv zeta. split; [apply reachable_wf; repeat constructor|]. split; [vm_compute; repeat split; repeat constructor; simpl; try lia; intuition (try congruence; lia)|].
  split; [repeat constructor; discriminate|]. split; [repeat constructor; try discriminate; apply is_integer_spec; vm_compute; reflexivity|].
  split; [apply feas_b_spec; vm_compute; reflexivity|]. vm_compute. auto.
Qed.
Print Assumptions C40_ground_state_refuted.
Print Assumptions C40_best_outcome.
Print Assumptions C40_default_partial.
Print Assumptions C40_ground_state_partial.
Print Assumptions C40_exact.

(** ** C41 *)
Theorem C41_correlations : forall s0 l, let samples := s0 :: l in let n := length (s_x s0) in
  (Forall (fun s => length (s_x s) = n) samples -> exists m, correlations samples = Ok m) /\
  forall m, correlations samples = Ok m -> length m = n /\ Forall (fun r => length r = n) m /\
    forall i j, (j < i /\ i < n ->
        (forall eqs nes, picks (fun s => at_ (s_x s) i = at_ (s_x s) j) samples eqs -> picks (fun s => at_ (s_x s) i <> at_ (s_x s) j) samples nes ->
           get2 m i j = (total_prob eqs - total_prob nes)%Qc) /\
        (Forall (fun s => (0 <= s_prob s)%Qc) samples -> (qabs (get2 m i j) <= total_prob samples)%Qc)) /\
      (~ (j < i /\ i < n) -> get2 m i j = 0%Qc).
Proof. exact correlations_spec. Qed.
Example C41_case : match correlations [mkSample [0; 1; 1]%Qc 0 (1 / qz 2) SUCCESS; mkSample [1; 1; 1]%Qc 0 (1 / qz 4) SUCCESS; mkSample [1; 0; 1]%Qc 0 (1 / qz 4) SUCCESS] with
  | Ok m => qeqb (get2 m 1 0) (qz (-1) / qz 2) && qeqb (get2 m 2 0) 0 && qeqb (get2 m 2 1) (1 / qz 2) && qeqb (get2 m 1 2) 0 = true
  | Err _ => False end.
Proof. vm_compute. auto. Qed.
(** The same for the results of all optimizers: one without samples of its own has correlations of 1 or -1, and a failure without a point has
    neither correlations nor values. *)
Theorem C41_result : forall vars st,
  (forall x f r, make_result (Some x) (Some f) vars st [] = Ok r -> exists m, get_correlations r = Ok m /\ length m = length x /\
     forall i j, j < i /\ i < length x -> (at_ x i = at_ x j -> get2 m i j = 1%Qc) /\ (at_ x i <> at_ x j -> get2 m i j = (- (1))%Qc)) /\
  (forall x f s0 l r, make_result x f vars st (s0 :: l) = Ok r -> get_correlations r = correlations (s0 :: l)) /\
  (forall r, make_result None None vars st [] = Ok r -> get_correlations r = Err TypeError /\ forall k, getitem r k = Err TypeError).
Proof.
  intros vars st. split; [|split].
  - intros x f r H. unfold make_result in H. apply bind_ok in H. destruct H as (d & _ & H). injection H as <-. unfold get_correlations. cbn [r_samples].
    destruct (correlations_spec (mkSample x f 1%Qc st) []) as [C1 C2]. cbn [s_x] in *. destruct C1 as [m Em]; [repeat constructor|]. exists m. split; auto.
    destruct (C2 m Em) as (L & _ & C). split; auto. intros i j Hij. destruct (proj1 (C i j) Hij) as [C3 _].
    split; intro E.
    + rewrite (C3 [mkSample x f 1%Qc st] []); [vm_compute; reflexivity| |]; repeat constructor; auto.
    + rewrite (C3 [] [mkSample x f 1%Qc st]); [vm_compute; reflexivity| |]; repeat constructor; auto.
  - intros x f s0 l r H. unfold make_result in H. apply bind_ok in H. destruct H as (d & _ & H). injection H as <-. reflexivity.
  - intros r H. injection H as <-. split; [reflexivity|]. intros []; reflexivity.
Qed.
Example C41_result_case : match make_result (Some [0; 1; 1]%Qc) (Some 0%Qc) (map (fun n => mkVar n 0 1 BINARY) ["a"; "b"; "c"]) SUCCESS [] with
  | Ok r => match get_correlations r with Ok m => qeqb (get2 m 1 0) (- (1)) && qeqb (get2 m 2 1) 1 = true | Err _ => False end
  | Err _ => False end.
Proof. vm_compute. auto. Qed.
Print Assumptions C41_correlations.
Print Assumptions C41_result.
