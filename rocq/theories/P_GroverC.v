(** * C81: the circuits of the Grover search *)
From Verif Require Import GroverCFacts.
From Coq Require Import Lra Lia.
Local Open Scope string_scope.
Local Open Scope list_scope.
Local Open Scope R_scope.

(** Minimise - a b: the values are 0, 0, 0 and -1. *)
Definition ex81 : qp := run (new_qp "") [OAddVar 0 1 BINARY (Some "a"); OAddVar 0 1 BINARY (Some "b"); OObjective MINIMIZE 0 None (Some (QDict [((KS "a", KS "b"), qz (-1))]))].
Example ex81_values : le_dim (o_lin (p_obj ex81)) = 2%nat /\ qe_dim (o_quad (p_obj ex81)) = 2%nat /\ whole_values 2 ex81 /\ values_fit 2 2 ex81 /\ marked 2 (negative ex81) = 1%nat.
Proof.
  split; [vm_compute; reflexivity|]. split; [vm_compute; reflexivity|].
  assert (forallb (fun k => is_integer (obj_at (p_obj ex81) (point_of k)) && qleb (- half 2) (obj_at (p_obj ex81) (point_of k)) && qltb (obj_at (p_obj ex81) (point_of k)) (half 2)) (all_bools 2) = true) as V by (vm_compute; reflexivity).
  rewrite forallb_forall in V. assert (forall k, length k = 2%nat -> In k (all_bools 2)) as A. { intros [|x [|y [|]]]; cbn; try discriminate. intros _. destruct x, y; auto. }
  split; [|split; [|vm_compute; reflexivity]]; intros k Hk; specialize (V k (A k Hk)); rewrite !andb_true_iff in V; destruct V as [[V1 V2] V3].
  - now apply is_integer_spec.
  - split; [now apply qleb_iff|now apply qltb_iff].
Qed.

(** The oracle turns the sign of exactly those amplitudes whose value register reads as a negative number; is_good_state, given the optimizer too, accepts the same ones. *)
Theorem C81_oracle : forall n m s b, (0 < m)%nat -> length b = (n + m)%nat ->
  run_circuit (grover_oracle n) s b = (if (twos (value_register n m b) <? 0)%Z then Copp (s b) else s b) /\
  forall optimizer, is_good_state n m [optimizer; b] = Ok (twos (value_register n m b) <? 0)%Z.
Proof.
  intros n m s b P L. assert (value_register n m b = skipn n b) as E. { unfold value_register. apply firstn_all2. rewrite skipn_length. lia. }
  assert (skipn n b <> []) as Ne. { intro K. apply (f_equal (@length bool)) in K. rewrite skipn_length in K. cbn in K. lia. }
  assert ((twos (value_register n m b) <? 0)%Z = nth n b false) as T. { rewrite E, twos_sign by exact Ne. rewrite <- (firstn_skipn n b) at 2. rewrite app_nth2 by (rewrite firstn_length; lia). f_equal. rewrite firstn_length. lia. }
  split.
  - rewrite T. cbn [grover_oracle run_circuit fold_left]. rewrite apply_diag by reflexivity. destruct (nth n b false); cbn [m_z m00 m11]; apply C_eq; unfold Cmul, RC, C1, Copp; cbn; ring.
  - intro optimizer. cbn [is_good_state]. fold (value_register n m b). rewrite E, twos_sign by exact Ne. destruct (skipn n b); [easy|reflexivity].
Qed.
Example C81_oracle_case : run_circuit (grover_oracle 1) (fun _ => C1) [true; true; false] = Copp C1 /\ run_circuit (grover_oracle 1) (fun _ => C1) [true; false; true] = C1 /\ is_good_state 1 2 [[]; [true; true; false]] = Ok true.
Proof. split; [|split; [|reflexivity]]; match goal with |- run_circuit _ ?s ?b = _ => rewrite (proj1 (C81_oracle 1 2 s b ltac:(lia) eq_refl)); reflexivity end. Qed.
(** But it takes two arguments, and is called with the measurement alone. *)
Theorem C81_good_state_refuted : exists n m b, length b = (n + m)%nat /\ nth n b false = true /\ is_good_state n m [b] = Err TypeError.
Proof. exists 1%nat, 2%nat, [true; true; false]. repeat split. Qed.

(** Whatever is measured, after any number of rotations, the value register holds the value of the objective at the assignment measured, modulo its size. *)
Theorem C81_modulo : forall q n m r b z, le_dim (o_lin (p_obj q)) = n -> qe_dim (o_quad (p_obj q)) = n -> (0 < m)%nat -> length b = (n + m)%nat ->
  prob (grover_state q m r) b <> 0 -> obj_at (p_obj q) (point_of (firstn n b)) = qz z -> value_register n m b = register_of m z.
Proof.
  intros q n m r b z D1 D2 P L H Z. unfold value_register. rewrite (outcome_value q n m r b D1 P L H), (whole_form q n _ z D1 D2) by (auto; rewrite firstn_length; lia). apply firstn_all2. rewrite reg_of_length. lia.
Qed.
(** If the values are whole numbers and fit, it holds exactly the value. *)
Theorem C81_value_partial : forall q n m r b, le_dim (o_lin (p_obj q)) = n -> qe_dim (o_quad (p_obj q)) = n -> (0 < m)%nat -> length b = (n + m)%nat -> whole_values n q -> values_fit n m q ->
  prob (grover_state q m r) b <> 0 -> qz (twos (value_register n m b)) = obj_at (p_obj q) (point_of (firstn n b)).
Proof.
  intros q n m r b D1 D2 P L W F H. assert (length (firstn n b) = n) as Lk by (rewrite firstn_length; lia). destruct (W _ Lk) as [z Ez]. rewrite (C81_modulo q n m r b z D1 D2 P L H Ez), Ez. f_equal. destruct (F _ Lk) as [F1 F2]. rewrite Ez in F1, F2. unfold half in *. rewrite <- qz_opp, qz_le in F1. rewrite qz_lt in F2.
  destruct m as [|m]; [lia|]. now apply register_reads.
Qed.
Example C81_value_case : prob (grover_state ex81 2 0) [true; true; true; true] = / 4 /\ twos (value_register 2 2 [true; true; true; true]) = (-1)%Z /\ obj_at (p_obj ex81) (point_of [true; true]) = qz (-1).
Proof.
  destruct ex81_values as (D1 & D2 & _). assert (0 < 2)%nat as P by lia. split; [|split; [reflexivity|apply qeqb_iff; vm_compute; reflexivity]].
  unfold prob. rewrite (state_spread ex81 2 2 0 D1 P) by reflexivity. unfold two_valued. match goal with |- Cnorm2 (spread ?a ?b ?c ?d ?e) = _ => change (prob (spread a b c d) e = / 4) end. rewrite spread_prob. cbn [amps fst snd].
  replace (fits_value 2 2 (form_value ex81) [true; true; true; true]) with true by (vm_compute; reflexivity). replace (INR (2 ^ 2)) with (2 * 2) by (cbn; ring). rewrite sqrt_square by lra. destruct (sign_of _ _ _); lra.
Qed.

(** After r rotations an assignment with a negative value is measured with probability sin^2((2 r + 1) t), where sin^2(t) is the part of the assignments that have one;
    all of them are equally likely, and so are all others; the probabilities sum up to 1. *)
Theorem C81_amplification_partial : forall q n m r, le_dim (o_lin (p_obj q)) = n -> qe_dim (o_quad (p_obj q)) = n -> (0 < m)%nat -> whole_values n q -> values_fit n m q ->
  let phi := (2 * INR r + 1) * search_angle n (negative q) in
  normed (n + m) (grover_state q m r) /\
  prob_of (n + m) (grover_state q m r) (fun b => negative q (firstn n b)) = Rsqr (sin phi) /\
  forall key, length key = n ->
    (if negative q key then INR (marked n (negative q)) else INR (2 ^ n) - INR (marked n (negative q))) * prob_of (n + m) (grover_state q m r) (fun b => bits_eqb (firstn n b) key) =
    if negative q key then Rsqr (sin phi) else Rsqr (cos phi).
Proof.
  intros q n m r D1 D2 P W F phi. assert (forall k, length k = n -> sign_of m (form_value q) k = negative q k) as S by (intros; now apply (sign_negative q n)).
  assert (marked n (sign_of m (form_value q)) = marked n (negative q)) as M by now apply marked_ext.
  assert (search_angle n (sign_of m (form_value q)) = search_angle n (negative q)) as A by (unfold search_angle; now rewrite M).
  pose proof (amps_square n (sign_of m (form_value q)) r) as [Qs Qc']. cbv zeta in Qs, Qc'. rewrite A in Qs, Qc'. fold phi in Qs, Qc'.
  split; [now apply search_normed|]. split.
  - rewrite <- Qs, <- (marked_probability q n m r D1 P). rewrite !prob_of_if. apply Rsum_ext. intros b Hb. apply all_bools_length in Hb. rewrite S by (rewrite firstn_length; lia). reflexivity.
  - intros key L. rewrite (key_probability q n m r key D1 P L), (S key L). rewrite <- Qs, <- Qc', M. destruct (negative q key); reflexivity.
Qed.
(** One rotation finds the only assignment with a negative value of [ex81] with certainty. *)
Example C81_amplification_case : prob_of 4 (grover_state ex81 2 1) (fun b => negative ex81 (firstn 2 b)) = 1 /\ prob_of 4 (grover_state ex81 2 0) (fun b => negative ex81 (firstn 2 b)) = / 4.
Proof.
  destruct ex81_values as (D1 & D2 & W & F & M). assert (0 < 2)%nat as P by lia. assert (search_angle 2 (negative ex81) = PI / 6) as A.
  { unfold search_angle. rewrite M. replace (INR 1 / INR (2 ^ 2)) with ((/ 2) * (/ 2)) by (cbn; field). rewrite sqrt_square by lra. rewrite <- asin_sin with (x := PI / 6) by (pose proof PI_RGT_0; lra). rewrite sin_PI6. f_equal. lra. }
  pose proof (C81_amplification_partial ex81 2 2 1 D1 D2 P W F) as (_ & E1 & _). pose proof (C81_amplification_partial ex81 2 2 0 D1 D2 P W F) as (_ & E0 & _). cbv zeta in E0, E1. rewrite A in E0, E1. change (2 + 2)%nat with 4%nat in E0, E1. rewrite E0, E1. split.
  - replace ((2 * INR 1 + 1) * (PI / 6)) with (PI / 2) by (cbn; field). rewrite sin_PI2. unfold Rsqr. ring.
  - replace ((2 * INR 0 + 1) * (PI / 6)) with (PI / 6) by (cbn; ring). rewrite sin_PI6. unfold Rsqr. field.
Qed.
(** Values that do not fit are taken for others: with one value digit the oracle marks the assignment of value 1 and no assignment is negative. *)
Theorem C81_range_refuted : exists q n m, le_dim (o_lin (p_obj q)) = n /\ qe_dim (o_quad (p_obj q)) = n /\ (0 < m)%nat /\ whole_values n q /\ marked n (negative q) = 0%nat /\
  prob_of (n + m) (grover_state q m 0) (fun b => nth n b false) = / 2 /\
  exists b, prob (grover_state q m 0) b = / 2 /\ twos (value_register n m b) = (-1)%Z /\ obj_at (p_obj q) (point_of (firstn n b)) = 1%Qc.
Proof.
  set (q := run (new_qp "") [OAddVar 0 1 BINARY (Some "x"); OObjective MINIMIZE 0 (Some (LDict [(KI 0, 1%Qc)])) None]). exists q, 1%nat, 1%nat.
  assert (le_dim (o_lin (p_obj q)) = 1%nat) as D1 by (vm_compute; reflexivity). assert (qe_dim (o_quad (p_obj q)) = 1%nat) as D2 by (vm_compute; reflexivity). assert (0 < 1)%nat as P by lia.
  assert (sqrt (INR (2 ^ 1)) * sqrt (INR (2 ^ 1)) = 2) as N. { rewrite sqrt_sqrt by apply pos_INR. cbn. ring. } assert (0 < sqrt (INR (2 ^ 1))) as N0 by apply sqrt_lt_R0, pow2_pos.
  assert (forall b, length b = 2%nat -> prob (grover_state q 1 0) b = if fits_value 1 1 (form_value q) b then / 2 else 0) as Pr.
  { intros b L. unfold prob. rewrite (state_spread q 1 1 0 D1 P b L). unfold two_valued. match goal with |- Cnorm2 (spread ?a ?b ?c ?d ?e) = _ => change (Cnorm2 (spread a b c d e)) with (prob (spread a b c d) e) end. rewrite spread_prob. cbn [amps fst snd]. destruct (fits_value _ _ _ _); [|reflexivity].
    replace (/ 2) with (/ (sqrt (INR (2 ^ 1)) * sqrt (INR (2 ^ 1)))) by now rewrite N. destruct (sign_of _ _ _); field; lra. }
  split; [exact D1|]. split; [exact D2|]. split; [exact P|]. split.
  - intros [|x [|]]; cbn [length]; try discriminate. intros _. apply is_integer_spec. destruct x; vm_compute; reflexivity.
  - split; [vm_compute; reflexivity|]. split.
    + rewrite prob_of_if. cbn [all_bools Nat.add map app nth Rsum]. rewrite !Pr by reflexivity. replace (fits_value 1 1 (form_value q) [true; true]) with true by (vm_compute; reflexivity). replace (fits_value 1 1 (form_value q) [false; true]) with false by (vm_compute; reflexivity). ring.
    + exists [true; true]. split; [|split; [reflexivity|apply qeqb_iff; vm_compute; reflexivity]]. rewrite Pr by reflexivity. replace (fits_value 1 1 (form_value q) [true; true]) with true by (vm_compute; reflexivity). reflexivity.
Qed.

(** The search run with these circuits: if every outcome is one that can be measured, the values read are the objective at the keys and the answer is at least as good as every measured key. *)
Theorem C81_search_partial : forall n_value n_iter root spin measure fuel cs p q0 fs p' g, prog_wf p -> convert_all cs p = Ok (q0, fs) -> obj_shaped q0 ->
  quad_upper (o_quad (p_obj q0)) -> (0 < num_vars q0)%nat -> (0 < n_value)%nat -> drawn (num_vars q0) n_value measure -> integer_objective q0 -> register_fits n_value q0 ->
  grover_solve n_value n_iter root spin measure fuel cs p = (p', Ok g) ->
  exists x y, bits (num_vars q0) x /\ gr_fval g = obj_at (p_obj q0) x /\ decodes fs x y /\ r_x (gr_res g) = Some y /\
    (forall out v, In (out, v) (gr_log g) -> qz v = cost q0 (key_point (num_vars q0) out) /\
       at_least (o_sense (p_obj q0)) (obj_at (p_obj q0) x) (obj_at (p_obj q0) (key_point (num_vars q0) out))) /\
    (cs <> [] -> r_fval (gr_res g) = Some (obj_at (p_obj p) y) /\ status_at p y (r_status (gr_res g))).
Proof.
  intros n_value n_iter root spin measure fuel cs p q0 fs p' g W C S U Pos Pv D I F E. rewrite (solve_completed _ _ _ _ _ _ _ _ _ _ C S) in E. pose proof (completed_sized _ _ _ D) as Sz. pose proof (completed_honest _ _ _ Pv D) as Ho.
  destruct (solve_best _ _ _ _ _ _ _ _ _ _ C S Pos Pv Sz U I Ho F _ _ W E) as (x & y & Bx & _ & L & Fx & De & X & R). exists x, y. split; auto. split; auto. split; auto. split; auto. split; auto.
  intros out v Io. split; eauto. exact (solve_true _ _ _ _ _ _ _ _ _ _ C S Pos Pv Sz U I Ho F _ _ E out v Io).
Qed.
(** With the default converter it ends, and finds an optimum if an optimal key was measured. *)
Theorem C81_optimal_partial : forall n_value n_iter root spin measure fuel pen p r, prog_wf p -> shapes (num_vars p) p -> to_qubo pen p = Ok r -> (0 < num_vars (r_qubo r))%nat ->
  (0 < n_value)%nat -> drawn (num_vars (r_qubo r)) n_value measure -> integer_objective (r_qubo r) -> register_fits n_value (r_qubo r) ->
  (forall it q k, sized_state (num_vars (r_qubo r)) (circuit_state root (num_vars (r_qubo r)) (snd (measure it q k)))) ->
  ((2 ^ n_value + 1) * Nat.max 1 n_iter <= fuel)%nat ->
  exists g, grover_solve n_value n_iter root spin measure fuel (default_converters pen) p = (p, Ok g) /\
    (Forall plain (p_vars p) -> int_bounds p -> products_safe p (o_quad (p_obj p)) -> (exists x, feasible p x) ->
     match pen with Some c => (weight (p_obj (r_bin r)) < c)%Qc | None => True end ->
     (exists out v, In (out, v) (gr_log g) /\ optimal (r_qubo r) (key_point (num_vars (r_qubo r)) out)) ->
     exists y, r_x (gr_res g) = Some y /\ optimal p y /\ r_fval (gr_res g) = Some (obj_at (p_obj p) y) /\ r_status (gr_res g) = SUCCESS).
Proof.
  intros n_value n_iter root spin measure fuel pen p r W Sh H Pos Pv D I F St L. pose proof (completed_sized _ _ _ D) as Sz. pose proof (completed_honest _ _ _ Pv D) as Ho.
  rewrite (solve_completed _ _ _ _ _ _ _ _ _ _ (default_convert pen p r H) (qubo_obj_shaped pen p r W H)).
  destruct (grover_total n_value n_iter root spin (completed (num_vars (r_qubo r)) n_value measure) fuel pen p r W H Pos Pv Sz Ho I F Sh) as [g G].
  - intros it q k. unfold completed. destruct (sized_program _ _); apply St.
  - exact L.
  - exists g. split; [exact G|]. intros P IB SF Fe Pen O. exact (grover_optimal _ _ _ _ _ _ _ _ _ W H Pos Pv Sz Ho I F _ _ Sh P IB SF Fe Pen G O).
Qed.
Example C81_search_case : prog_wf ex81 /\ shapes (num_vars ex81) ex81 /\ drawn 2 2 (first_outcome 2 2) /\
  match to_qubo None ex81 with Ok r => num_vars (r_qubo r) = 2%nat /\ integer_objective (r_qubo r) /\ register_fits 2 (r_qubo r) | Err _ => False end /\
  exists g, grover_solve 2 3 (fun a => a) (fun _ _ => 1%nat) (first_outcome 2 2) 50 (default_converters None) ex81 = (ex81, Ok g).
Proof.
  assert (prog_wf ex81) as W by (apply reachable_wf; repeat constructor). assert (shapes (num_vars ex81) ex81) as Sh by (repeat split; simpl; repeat constructor; simpl; try lia; intuition (try congruence; lia)).
  assert (drawn 2 2 (first_outcome 2 2)) as D by (apply first_drawn; lia). split; [exact W|]. split; [exact Sh|]. split; [exact D|].
  assert (match to_qubo None ex81 with Ok r => let q := r_qubo r in let c := map (cost q) (all_points (num_vars q)) in Nat.eqb (num_vars q) 2 &&
    (is_integer (o_const (p_obj q)) && forallb (fun kv => is_integer (snd kv)) (le_co (o_lin (p_obj q))) && forallb (fun kv => is_integer (snd kv)) (qe_co (o_quad (p_obj q)))) &&
    forallb (fun a => qleb (- half 2) a && qltb a (half 2) && forallb (fun b => qltb (a - b) (half 2)) c) c | Err _ => false end = true) as V by (vm_compute; reflexivity).
  destruct (to_qubo None ex81) as [r|] eqn:H; [|discriminate V]. cbv zeta in V. apply andb_prop in V. destruct V as [V V3]. apply andb_prop in V. destruct V as [V1 V2]. apply Nat.eqb_eq in V1. apply integer_check in V2. apply fits_check in V3.
  split; [auto|]. destruct (C81_optimal_partial 2 3 (fun a => a) (fun _ _ => 1%nat) (first_outcome 2 2) 50 None ex81 r W Sh H) as (g & G & _); auto; try lia.
  - rewrite V1. exact D.
  - rewrite V1. intros. apply first_state.
  - exists g. exact G.
Qed.
Print Assumptions C81_oracle.
Print Assumptions C81_good_state_refuted.
Print Assumptions C81_modulo.
Print Assumptions C81_value_partial.
Print Assumptions C81_amplification_partial.
Print Assumptions C81_range_refuted.
Print Assumptions C81_search_partial.
Print Assumptions C81_optimal_partial.
