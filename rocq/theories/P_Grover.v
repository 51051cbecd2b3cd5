(** * C46 and C68, and C43 for the Grover optimizer *)
From Verif Require Import GroverAny.
Local Open Scope string_scope.
Local Open Scope list_scope.
Local Open Scope nat_scope.

(** ** C46 *)
(** The value register is read as two's complement. *)
Theorem C46_register : forall v n, length v = n -> 0 < n -> bin_to_int v n = Ok (twos v) /\ (- 2 ^ (Z.of_nat n - 1) <= twos v < 2 ^ (Z.of_nat n - 1))%Z.
Proof. intros v n L P. split; [now apply bin_to_int_spec|]. subst n. apply twos_range. intros ->. cbn in P. lia. Qed.
(** Every number of the range is written in exactly one way, by its last digits. *)
Theorem C46_register_exact : forall n z v, 0 < n -> (- 2 ^ (Z.of_nat n - 1) <= z < 2 ^ (Z.of_nat n - 1))%Z -> length v = n -> (bin_to_int v n = Ok z <-> v = register_of n z).
Proof.
  intros n z v P R L. rewrite bin_to_int_spec by auto. destruct n as [|n]; [lia|]. pose proof (register_reads n z R) as E. split.
  - intro Ev. injection Ev as Ev. apply twos_inj; [now rewrite reg_of_length|congruence].
  - intros ->. now rewrite E.
Qed.
Example C46_register_case : bin_to_int [true; false; true; true] 4 = Ok (-5)%Z /\ register_of 4 (-5) = [true; false; true; true] /\ bin_to_int [false; true; true; true] 4 = Ok 7%Z.
Proof. repeat split; vm_compute; reflexivity. Qed.

(** For all measurements, also wrong ones: the answer is the key of an outcome with the smallest value read, except that it is
    all zeros when that value is not negative and the objective has no constant. *)
Theorem C46_smallest : forall n_value n_iter root spin measure fuel cs p q0 fs p' g, prog_wf p -> convert_all cs p = Ok (q0, fs) -> obj_shaped q0 ->
  0 < num_vars q0 -> 0 < n_value -> sized_outcomes (num_vars q0) n_value measure ->
  grover_solve n_value n_iter root spin measure fuel cs p = (p', Ok g) ->
  exists out v x y, In (out, v) (gr_log g) /\ gr_thr g = v /\ (forall o w, In (o, w) (gr_log g) -> (v <= w)%Z) /\
    (x = key_point (num_vars q0) out \/ ((0 <= v)%Z /\ o_const (p_obj q0) = 0%Qc /\ x = repeat 0%Qc (num_vars q0))) /\
    gr_fval g = obj_at (p_obj q0) x /\ decodes fs x y /\ r_x (gr_res g) = Some y.
Proof.
  intros n_value n_iter root spin measure fuel cs p q0 fs p' g W C S Pos Pv Sz E. destruct (solve_least _ _ _ _ _ _ _ _ _ _ C S Pos Pv Sz _ _ W E) as (out & v & x & y & Io & Th & L & Ex & _ & Fx & D & X & _).
  exists out, v, x, y. split; auto. split; auto. split; [intros o w Ho; apply (L o w Ho)|]. split; [|auto].
  destruct (Z.leb_spec 0 v) as [Lv|Lv]; cbn [andb] in Ex; [|auto]. destruct (qeqb_spec (o_const (p_obj q0)) 0) as [Cz|]; auto.
Qed.

(** A problem with values 1, -1, 0, 0 at 00, 10, 01, 11 *)
Definition ex46 : qp := run (new_qp "") [OAddVar 0 1 BINARY (Some "a"); OAddVar 0 1 BINARY (Some "b");
  OObjective MINIMIZE 1 (Some (LDict [(KS "a", qz (-2)); (KS "b", qz (-1))])) (Some (QDict [((KS "a", KS "b"), qz 2)]))].
Definition keys46 (it : nat) : list bool := nth it [[false; false]; [false; true]; [true; true]; [true; false]; [true; true]; [false; false]] [false; true].
Example C46_smallest_case : prog_wf ex46 /\ match convert_all (default_converters None) ex46 with Ok (q0, _) => num_vars q0 = 2 | Err _ => False end /\
  sized_outcomes 2 3 (replay 2 3 keys46) /\
  match grover_solve 3 3 (fun a => a) (fun _ _ => 0) (replay 2 3 keys46) 50 (default_converters None) ex46 with
  | (_, Ok g) => map snd (gr_log g) = [1; 0; 0; -1; 0; 1; 0]%Z /\ gr_thr g = (-1)%Z /\ match r_x (gr_res g) with Some y => qs_eqb y [1; 0]%Qc | None => false end = true
  | _ => False end.
Proof. split; [apply reachable_wf; repeat constructor|]. split; [vm_compute; reflexivity|]. split; [apply replay_sized|]. vm_compute. auto. Qed.

(** If the outcomes are honest, coefficients are whole numbers and all values fit the register, then the values read are the
    objective at the keys, and the answer is at least as good as every measured key.  Missing: values that do not fit, and
    fractional coefficients, which the circuit rounds. *)
Theorem C46_best_partial : forall n_value n_iter root spin measure fuel cs p q0 fs p' g, prog_wf p -> convert_all cs p = Ok (q0, fs) -> obj_shaped q0 ->
  quad_upper (o_quad (p_obj q0)) -> 0 < num_vars q0 -> 0 < n_value -> sized_outcomes (num_vars q0) n_value measure ->
  honest (num_vars q0) n_value measure -> integer_objective q0 -> register_fits n_value q0 ->
  grover_solve n_value n_iter root spin measure fuel cs p = (p', Ok g) ->
  exists x y, bits (num_vars q0) x /\ gr_fval g = obj_at (p_obj q0) x /\ decodes fs x y /\ r_x (gr_res g) = Some y /\
    (forall out v, In (out, v) (gr_log g) -> qz v = cost q0 (key_point (num_vars q0) out) /\
       at_least (o_sense (p_obj q0)) (obj_at (p_obj q0) x) (obj_at (p_obj q0) (key_point (num_vars q0) out))) /\
    (cs <> [] -> r_fval (gr_res g) = Some (obj_at (p_obj p) y) /\ status_at p y (r_status (gr_res g))).
Proof.
  intros n_value n_iter root spin measure fuel cs p q0 fs p' g W C S U Pos Pv Sz Ho I F E.
  destruct (solve_best _ _ _ _ _ _ _ _ _ _ C S Pos Pv Sz U I Ho F _ _ W E) as (x & y & Bx & _ & L & Fx & D & X & R). exists x, y. split; auto. split; auto. split; auto. split; auto. split; auto.
  intros out v Io. split; eauto. exact (solve_true _ _ _ _ _ _ _ _ _ _ C S Pos Pv Sz U I Ho F _ _ E out v Io).
Qed.
(** With the default converter the search comes to an end, within (2^n_value + 1) times the number of iterations without improvement,
    and gives a result.  Missing as above. *)
Theorem C46_ends_partial : forall n_value n_iter root spin measure fuel pen p r, prog_wf p -> shapes (num_vars p) p -> to_qubo pen p = Ok r -> 0 < num_vars (r_qubo r) ->
  0 < n_value -> sized_outcomes (num_vars (r_qubo r)) n_value measure -> honest (num_vars (r_qubo r)) n_value measure ->
  integer_objective (r_qubo r) -> register_fits n_value (r_qubo r) ->
  (forall it q k, sized_state (num_vars (r_qubo r)) (circuit_state root (num_vars (r_qubo r)) (snd (measure it q k)))) ->
  (2 ^ n_value + 1) * Nat.max 1 n_iter <= fuel ->
  exists g, grover_solve n_value n_iter root spin measure fuel (default_converters pen) p = (p, Ok g).
Proof.
  intros n_value n_iter root spin measure fuel pen p r W Sh H Pos Pv Sz Ho I F St L. exact (grover_total _ _ _ _ _ _ _ _ _ W H Pos Pv Sz Ho I F Sh St L).
Qed.
(** If one of the measured keys is optimal for the QUBO, the result is optimal.  Missing: the products of integer variables
    excluded in C33, where the conversion is wrong. *)
Theorem C46_optimal_partial : forall n_value n_iter root spin measure fuel pen p r p' g, prog_wf p -> shapes (num_vars p) p -> to_qubo pen p = Ok r -> 0 < num_vars (r_qubo r) ->
  0 < n_value -> sized_outcomes (num_vars (r_qubo r)) n_value measure -> honest (num_vars (r_qubo r)) n_value measure ->
  integer_objective (r_qubo r) -> register_fits n_value (r_qubo r) ->
  Forall plain (p_vars p) -> int_bounds p -> products_safe p (o_quad (p_obj p)) -> (exists x, feasible p x) ->
  match pen with Some c => (weight (p_obj (r_bin r)) < c)%Qc | None => True end ->
  grover_solve n_value n_iter root spin measure fuel (default_converters pen) p = (p', Ok g) ->
  (exists out v, In (out, v) (gr_log g) /\ optimal (r_qubo r) (key_point (num_vars (r_qubo r)) out)) ->
  exists y, r_x (gr_res g) = Some y /\ optimal p y /\ r_fval (gr_res g) = Some (obj_at (p_obj p) y) /\ r_status (gr_res g) = SUCCESS.
Proof.
  intros n_value n_iter root spin measure fuel pen p r p' g W Sh H Pos Pv Sz Ho I F P IB SF Fe Pen E O. exact (grover_optimal _ _ _ _ _ _ _ _ _ W H Pos Pv Sz Ho I F _ _ Sh P IB SF Fe Pen E O).
Qed.
Example C46_case : prog_wf ex46 /\ shapes (num_vars ex46) ex46 /\ honest 2 3 (replay 2 3 keys46) /\ (forall it q k, sized_state 2 (circuit_state (fun a => a) 2 (snd (replay 2 3 keys46 it q k)))) /\
  match to_qubo None ex46 with Ok r => num_vars (r_qubo r) = 2 /\ integer_objective (r_qubo r) /\ register_fits 3 (r_qubo r) | Err _ => False end /\
  (2 ^ 3 + 1) * Nat.max 1 3 <= 50.
Proof.
  split; [apply reachable_wf; repeat constructor|]. split; [repeat split; simpl; repeat constructor; simpl; try lia; intuition (try congruence; lia)|].
  split; [apply replay_honest; lia|]. split; [intros; apply replay_state|]. split; [|cbn; lia].
  assert (match to_qubo None ex46 with Ok r => let q := r_qubo r in let c := map (cost q) (all_points (num_vars q)) in Nat.eqb (num_vars q) 2 &&
    (is_integer (o_const (p_obj q)) && forallb (fun kv => is_integer (snd kv)) (le_co (o_lin (p_obj q))) && forallb (fun kv => is_integer (snd kv)) (qe_co (o_quad (p_obj q)))) &&
    forallb (fun a => qleb (- half 3) a && qltb a (half 3) && forallb (fun b => qltb (a - b) (half 3)) c) c | Err _ => false end = true) as V by (vm_compute; reflexivity).
  destruct (to_qubo None ex46) as [r|]; [|discriminate V]. cbv zeta in V. apply andb_prop in V. destruct V as [V V3]. apply andb_prop in V. destruct V as [V1 V2]. apply Nat.eqb_eq in V1.
  split; auto. split; [now apply integer_check|now apply fits_check].
Qed.
(** Exactly, for all products: if one of the measured keys is optimal for the QUBO, the result is a feasible point reported with its own objective
    and as a success, and it is the best point by the objective less what products of integer variables lose (C24). *)
Theorem C46_exact : forall n_value n_iter root spin measure fuel pen p r p' g, prog_wf p -> shapes (num_vars p) p -> to_qubo pen p = Ok r -> 0 < num_vars (r_qubo r) ->
  0 < n_value -> sized_outcomes (num_vars (r_qubo r)) n_value measure -> honest (num_vars (r_qubo r)) n_value measure ->
  integer_objective (r_qubo r) -> register_fits n_value (r_qubo r) -> Forall plain (p_vars p) -> int_bounds p -> (exists x, feasible p x) ->
  match pen with Some c => (weight (p_obj (r_bin r)) < c)%Qc | None => True end ->
  grover_solve n_value n_iter root spin measure fuel (default_converters pen) p = (p', Ok g) ->
  (exists out v, In (out, v) (gr_log g) /\ optimal (r_qubo r) (key_point (num_vars (r_qubo r)) out)) ->
  exists x z, let y := firstn (num_vars p) z in r_x (gr_res g) = Some y /\ feasible p y /\ r_fval (gr_res g) = Some (obj_at (p_obj p) y) /\ r_status (gr_res g) = SUCCESS /\
    bits_mean r x z /\ forall x' z', bits_mean r x' z' -> at_least (o_sense (p_obj p)) (worth p r z x) (worth p r z' x').
Proof.
  intros n_value n_iter root spin measure fuel pen p r p' g W Sh H Pos Pv Sz Ho I F P IB Fe Pen E O. exact (grover_any _ _ _ _ _ _ _ _ _ W H Pos Pv Sz Ho I F _ _ Sh P IB Fe Pen E O).
Qed.
(** min x^2 - 4x over 1..4 has its optimum -4 at 2.  The key for 3 reads -5: the search stops there, and 3 is reported with -3. *)
Example C46_exact_case : let p := run (new_qp "") [OAddVar 1 (qz 4) INTEGER (Some "x"); OObjective MINIMIZE 0 (Some (LDict [(KS "x", qz (-4))])) (Some (QDict [((KS "x", KS "x"), 1%Qc)]))] in
  prog_wf p /\ Forall plain (p_vars p) /\ int_bounds p /\ feasible p [qz 2] /\ honest 2 4 (replay 2 4 keys46) /\
  match to_qubo None p with Ok r => num_vars (r_qubo r) = 2 /\ integer_objective (r_qubo r) /\ register_fits 4 (r_qubo r) | Err _ => False end /\
  match grover_solve 4 3 (fun a => a) (fun _ _ => 0) (replay 2 4 keys46) 50 (default_converters None) p with
  | (_, Ok g) => gr_thr g = (-5)%Z /\ match r_x (gr_res g), r_fval (gr_res g) with Some y, Some v => qs_eqb y [qz 3] && qeqb v (qz (-3)) | _, _ => false end = true /\ r_status (gr_res g) = SUCCESS
  | _ => False end.
Proof.
  cbv zeta. set (p := run _ _). split; [apply reachable_wf; repeat constructor|]. split; [repeat constructor; discriminate|].
  split; [repeat constructor; try discriminate; apply is_integer_spec; vm_compute; reflexivity|]. split; [apply feas_b_spec; vm_compute; reflexivity|].
  split; [apply replay_honest; lia|]. split; [|vm_compute; auto].
  assert (match to_qubo None p with Ok r => let q := r_qubo r in let c := map (cost q) (all_points (num_vars q)) in Nat.eqb (num_vars q) 2 &&
    (is_integer (o_const (p_obj q)) && forallb (fun kv => is_integer (snd kv)) (le_co (o_lin (p_obj q))) && forallb (fun kv => is_integer (snd kv)) (qe_co (o_quad (p_obj q)))) &&
    forallb (fun a => qleb (- half 4) a && qltb a (half 4) && forallb (fun b => qltb (a - b) (half 4)) c) c | Err _ => false end = true) as V by (vm_compute; reflexivity).
  destruct (to_qubo None p) as [r|]; [|discriminate V]. cbv zeta in V. apply andb_prop in V. destruct V as [V V3]. apply andb_prop in V. destruct V as [V1 V2]. apply Nat.eqb_eq in V1.
  split; auto. split; [now apply integer_check|now apply fits_check].
Qed.

(** The search need not come to an end when the values do not fit the register: for min x with one value digit (where 1 reads
    as -1) outcomes 0, 1, 0, 1, ... lower the threshold for ever, each of them being what the circuit computes. *)
Theorem C46_ends_refuted : exists p r measure, prog_wf p /\ shapes (num_vars p) p /\ to_qubo None p = Ok r /\ num_vars (r_qubo r) = 1 /\ integer_objective (r_qubo r) /\
  sized_outcomes 1 1 measure /\ honest 1 1 measure /\ (forall it q k, sized_state 1 (circuit_state (fun a => a) 1 (snd (measure it q k)))) /\
  forall fuel, snd (grover_solve 1 3 (fun a => a) (fun _ _ => 0) measure fuel (default_converters None) p) = Err OutOfFuel.
Proof.
  set (p := run (new_qp "") [OAddVar 0 1 BINARY (Some "x"); OObjective MINIMIZE 0 (Some (LDict [(KI 0, 1%Qc)])) None]).
  assert (match to_qubo None p with Ok r => let q := r_qubo r in Nat.eqb (num_vars q) 1 &&
    (is_integer (o_const (p_obj q)) && forallb (fun kv => is_integer (snd kv)) (le_co (o_lin (p_obj q))) && forallb (fun kv => is_integer (snd kv)) (qe_co (o_quad (p_obj q)))) &&
    qeqb (cost q [0%Qc]) (qz 0) && qeqb (cost q [1%Qc]) (qz 1) | Err _ => false end = true) as V by (vm_compute; reflexivity).
  destruct (to_qubo None p) as [r|] eqn:H; [|discriminate V]. cbv zeta in V. apply andb_prop in V. destruct V as [V V4]. apply andb_prop in V. destruct V as [V V3]. apply andb_prop in V. destruct V as [V1 V2]. apply Nat.eqb_eq in V1.
  assert (prog_wf p) as W by (apply reachable_wf; repeat constructor). assert (shapes (num_vars p) p) as Sh by (repeat split; simpl; repeat constructor; simpl; try lia; intuition (try congruence; lia)).
  set (q := r_qubo r) in *. assert (forall b, cost q [digit_q b] = qz (Z.b2z b)) as C. { intros []; cbn [digit_q Z.b2z]; [destruct (qeqb_spec (cost q [1%Qc]) (qz 1))|destruct (qeqb_spec (cost q [0%Qc]) (qz 0))]; auto; discriminate. }
  apply integer_check in V2. exists p, r, (replay 1 1 (fun it => [Nat.odd it])). split; auto. split; auto. split; auto. split; auto. split; auto. split; [apply replay_sized|]. split; [apply replay_honest; lia|]. split; [intros; apply replay_state|].
  intro fuel. set (measure := replay 1 1 (fun it => [Nat.odd it])).
  pose proof (qubo_obj_shaped None p r W H) as So. fold q in So. destruct (turn_spec q So (default_upper None p r H) V2) as (o & Eo & _ & Sl & _ & _ & Vo). set (q1 := set_obj o q) in *.
  assert (le_dim (o_lin (p_obj q1)) = 1) as D by (rewrite <- V1; apply Sl).
  assert (0 < le_dim (o_lin (p_obj q1))) as Pos by lia. assert (sized_outcomes (le_dim (o_lin (p_obj q1))) 1 measure) as Sz by (rewrite D; apply replay_sized).
  assert (forall it s, exists a, search_step 1 3 (fun a => a) (fun _ _ => 0) measure q q1 (Some p) [qubo_interpret r] it s = Ok a) as St.
  { assert (sized_outcomes (num_vars q) 1 measure) as Sz1 by (rewrite V1; apply replay_sized). assert (0 < num_vars q) as Pos1 by lia. assert (forall it q' k, sized_state (num_vars q) (circuit_state (fun a => a) (num_vars q) (snd (measure it q' k)))) as S1 by (rewrite V1; intros; apply replay_state).
    unfold q1. eapply grover_steps; eauto. }
  assert (forall it s, val_at 1 (fun _ _ => 0) measure q1 it s = (g_thr s - Z.b2z (Z.odd (Z.b2z (Nat.odd it) - g_thr s)))%Z) as Va.
  { intros it s. unfold val_at, out_at, measure, replay. rewrite D. cbn [fst app firstn repeat map]. rewrite shifted_at. change (obj_at (p_obj q1)) with (obj_at o). rewrite Vo, C, <- qz_sub, floor_qz.
    unfold value_register. cbn [app skipn]. unfold register_of. cbn [seq map rev app firstn twos magnitude length Z.of_nat]. rewrite Z.bit0_odd. change (2 ^ 0)%Z with 1%Z. destruct (Z.odd _); cbn [Z.b2z]; lia. }
  assert (forall fuel it s, ((it = 0 /\ g_val s = None /\ g_thr s = 0%Z) \/ (0 < it /\ g_val s = Some (1 - Z.of_nat it)%Z /\ g_thr s = (1 - Z.of_nat it)%Z)) ->
    snd (search 1 3 (fun a => a) (fun _ _ => 0) measure q q1 (Some p) [qubo_interpret r] fuel it s) = Err OutOfFuel) as L.
  { clear fuel. induction fuel as [|fuel IH]; intros it s I; [reflexivity|]. cbn [search]. destruct (St it s) as [[s' stop] E]. rewrite E. apply step_cases in E; auto. destruct E as [_ E]. specialize (Va it s).
    assert (val_at 1 (fun _ _ => 0) measure q1 it s = (- Z.of_nat it)%Z) as Ve.
    { rewrite Va. destruct I as [(-> & _ & ->)|(P & _ & ->)]; [reflexivity|]. replace (Z.odd (Z.b2z (Nat.odd it) - (1 - Z.of_nat it))) with true; [cbn [Z.b2z]; lia|].
      replace (Z.b2z (Nat.odd it) - (1 - Z.of_nat it))%Z with (Z.b2z (Nat.odd it) + Z.of_nat it + (-1))%Z by lia. rewrite !Z.odd_add. replace (Z.odd (Z.of_nat it)) with (Nat.odd it). { destruct (Nat.odd it); reflexivity. }
      clear. induction it as [|it IH]; auto. rewrite Nat.odd_succ, <- Nat.negb_odd, IH, Nat2Z.inj_succ, Z.odd_succ, Z.negb_odd. reflexivity. }
    destruct E as [(_ & -> & _ & Ev & Et & _)|(b & Eb & Le & _)].
    - apply IH. right. rewrite Ev, Et, Ve. split; [lia|]. split; [f_equal|]; lia.
    - exfalso. destruct I as [(_ & N & _)|(P & N & _)]; rewrite N in Eb; [discriminate Eb|]. assert (b = 1 - Z.of_nat it)%Z by congruence. rewrite Ve in Le. lia. }
  unfold grover_solve. destruct (qubo_inv None p r H) as (K & _). rewrite K, (default_convert None p r H). fold q. rewrite Eo. change (match default_converters None with [] => None | _ => Some p end) with (Some p). cbv zeta. fold q1.
  specialize (L fuel 0 g_start (or_introl (conj eq_refl (conj eq_refl eq_refl)))). destruct (search _ _ _ _ _ _ _ _ _ _ _ _) as [s res]. cbn [snd] in L. rewrite L. reflexivity.
Qed.
Print Assumptions C46_register.
Print Assumptions C46_register_exact.
Print Assumptions C46_smallest.
Print Assumptions C46_best_partial.
Print Assumptions C46_ends_partial.
Print Assumptions C46_optimal_partial.
Print Assumptions C46_exact.
Print Assumptions C46_ends_refuted.

(** ** C68 *)
(** One binary variable with the objective 2 x; measured with three value digits and 25 shots, of which 9 found 0 and 16 found 1 ([measure68]). *)
Definition ex68 (s : objsense) : qp := run (new_qp "") [OAddVar 0 1 BINARY (Some "x"); OObjective s 0 (Some (LDict [(KI 0, qz 2)])) None].
(** Counted outcomes do not give their frequencies: the roots of the frequencies are normalised once more, 3/7 and 4/7 here in
    place of 9/25 and 16/25. *)
Theorem C68_frequency_refuted : exists p r root measure g, prog_wf p /\ shapes (num_vars p) p /\ to_qubo None p = Ok r /\ num_vars (r_qubo r) = 1 /\
  sized_outcomes 1 3 measure /\ honest 1 3 measure /\
  (forall it q k, exists shots counts, snd (measure it q k) = RCounts shots counts /\ sumof snd counts = shots /\
     forall b c, In (b, c) counts -> (0 < c /\ root (c / shots) * root (c / shots) = c / shots)%Qc) /\
  grover_solve 3 1 root (fun _ _ => 0) measure 50 (default_converters None) p = (p, Ok g) /\
  exists s, In s (gr_raw g) /\ forall it q k shots counts, snd (measure it q k) = RCounts shots counts -> s_prob s <> frequency 1 shots counts (s_x s).
Proof.
  assert (match to_qubo None (ex68 MINIMIZE) with Ok r => Nat.eqb (num_vars (r_qubo r)) 1 | Err _ => false end = true) as V1 by (vm_compute; reflexivity).
  assert (match grover_solve 3 1 root68 (fun _ _ => 0) measure68 50 (default_converters None) (ex68 MINIMIZE) with
    | (_, Ok g) => match gr_raw g with s :: _ => qs_eqb (s_x s) [0%Qc] && qeqb (s_prob s) (qz 3 / qz 7) | [] => false end | _ => false end = true) as V2 by (vm_compute; reflexivity).
  destruct (to_qubo None (ex68 MINIMIZE)) as [r|] eqn:H; [|discriminate V1]. apply Nat.eqb_eq in V1.
  destruct (grover_solve 3 1 root68 _ measure68 50 _ (ex68 MINIMIZE)) as [p' [g|]] eqn:E; [|discriminate V2]. destruct (gr_raw g) as [|s l] eqn:R; [discriminate V2|].
  apply andb_prop in V2. destruct V2 as [V2 V3]. apply qs_eqb_eq in V2. destruct (qeqb_spec (s_prob s) (qz 3 / qz 7)) as [V4|]; [|discriminate V3].
  assert (p' = ex68 MINIMIZE) as ->. { eapply solve_keeps_caller; [apply (default_convert _ _ _ H)|discriminate|exact E]. }
  exists (ex68 MINIMIZE), r, root68, measure68, g. split; [apply reachable_wf; repeat constructor|]. split; [repeat split; simpl; repeat constructor; simpl; try lia; intuition (try congruence; lia)|]. split; auto. split; auto.
  split; [apply measure68_sized|].
  split; [apply measure68_honest|].
  split. { intros it q k. eexists _, _. split; [reflexivity|]. split; [cbn [sumof snd]; apply qeqb_true; vm_compute; reflexivity|]. intros b c [Hb|[Hb|[]]]; injection Hb as _ <-; (split; [reflexivity|apply qeqb_true; vm_compute; reflexivity]). }
  split; auto. exists s. split; [rewrite R; now left|]. intros it q k shots counts Hc. unfold measure68 in Hc. cbn [snd] in Hc.
  assert (shots = qz 25 /\ counts = [(rev (row68 q false), qz 9); (rev (row68 q true), qz 16)]) as [-> ->] by (split; congruence). rewrite V2, V4. unfold frequency. cbn [sumof fst snd]. rewrite !rev_involutive.
  change (key_point 1 (row68 q false)) with [0%Qc]. change (key_point 1 (row68 q true)) with [1%Qc].
  intro F. assert (qeqb (qz 3 / qz 7) (((if tuple_eqb [0%Qc] [0%Qc] then qz 9 else 0) + ((if tuple_eqb [1%Qc] [0%Qc] then qz 16 else 0) + 0)) / qz 25) = true) as X by (rewrite F; apply qeqb_refl). vm_compute in X. discriminate X.
Qed.
(** What counted outcomes give, when the keys are different. *)
Theorem C68_counts_partial : forall n_value n_iter root spin measure fuel cs p q0 fs p' g, prog_wf p -> convert_all cs p = Ok (q0, fs) -> obj_shaped q0 -> 0 < num_vars q0 -> 0 < n_value ->
  sized_outcomes (num_vars q0) n_value measure ->
  (forall it q k, exists shots counts, snd (measure it q k) = RCounts shots counts /\ Forall (fun bc => num_vars q0 <= length (fst bc)) counts /\
     NoDup (map (fun bc => key_point (num_vars q0) (rev (fst bc))) counts) /\ sumof (fun bc => root (snd bc / shots)%Qc) counts <> 0%Qc) ->
  grover_solve n_value n_iter root spin measure fuel cs p = (p', Ok g) ->
  exists it q k shots counts, snd (measure it q k) = RCounts shots counts /\ forall x pr,
    (exists s, In s (gr_raw g) /\ s_x s = x /\ s_prob s = pr) <->
    (exists b c, In (b, c) counts /\ x = key_point (num_vars q0) (rev b) /\ (pr = root (c / shots) / sumof (fun bc => root (snd bc / shots)) counts /\ 1 / qz 1000000 <= pr)%Qc).
Proof.
  intros n_value n_iter root spin measure fuel cs p q0 fs p' g W C S Pos Pv Sz Hc E. set (n := num_vars q0) in *.
  assert (forall counts : list (list bool * Qc), NoDup (map (fun bc => key_point n (rev (fst bc))) counts) -> NoDup (map (fun bc => firstn n (rev (fst bc))) counts)) as Nd.
  { intros counts N. apply (NoDup_map_inv (map digit_q)). rewrite map_map. exact N. }
  assert (forall it q k shots counts, snd (measure it q k) = RCounts shots counts -> NoDup (map (fun bc => key_point n (rev (fst bc))) counts) ->
    circuit_state root n (snd (measure it q k)) = EDict (map (fun bc => (firstn n (rev (fst bc)), root (snd bc / shots)%Qc)) counts)) as St.
  { intros it q k shots counts Hm N. rewrite Hm. apply counts_state. auto. }
  assert (forall shots counts, sumof snd (map (fun bc : list bool * Qc => (firstn n (rev (fst bc)), root (snd bc / shots)%Qc)) counts) = sumof (fun bc => root (snd bc / shots)%Qc) counts) as Sm.
  { intros shots counts. induction counts as [|bc l IH]; cbn [map sumof snd]; [reflexivity|]. now rewrite IH. }
  assert (forall it q k, sized_state n (circuit_state root n (snd (measure it q k)))) as Ss.
  { intros it q k. destruct (Hc it q k) as (shots & counts & Hm & L & N & T). rewrite (St _ _ _ _ _ Hm N). cbn [sized_state]. rewrite Sm. split; auto. rewrite Forall_map. eapply Forall_impl; [|exact L]. intros bc Lb. cbv beta in Lb. cbn [fst]. rewrite firstn_length, rev_length. lia. }
  destruct (stored_kept _ _ _ _ _ _ _ _ _ _ _ _ C S Pos Pv Sz Ss E) as (it & q & k & K1 & K2). fold n in K1, K2. destruct (Hc it q k) as (shots & counts & Hm & L & N & T). exists it, q, k, shots, counts. split; auto.
  rewrite (St _ _ _ _ _ Hm N) in K1, K2. intros x pr. split.
  - intros (s & Hs & <- & <-). destruct (K1 s Hs) as ([O Th] & _). inversion O as [d b c Hin Ed Ex Ep| |]; subst d. apply in_map_iff in Hin. destruct Hin as ([b' c'] & Eb & Hb). injection Eb as <- <-. cbn [fst snd] in *.
    exists b', c'. split; auto. split; auto. rewrite <- Ep in Th. rewrite Sm in Th |- *. split; auto.
  - intros (b & c & Hb & -> & Ep & Th). apply K2. split; auto. rewrite Ep, <- Sm. apply (out_dict (num_vars q0)). apply in_map_iff. exists (b, c). auto.
Qed.
(** A state vector gives its probabilities: the samples are the assignments of probability at least 1e-6.  (What is missing above:
    counted outcomes.) *)
Theorem C68_vector_partial : forall n_value n_iter root spin measure fuel cs p q0 fs p' g, prog_wf p -> convert_all cs p = Ok (q0, fs) -> obj_shaped q0 -> 0 < num_vars q0 -> 0 < n_value ->
  sized_outcomes (num_vars q0) n_value measure ->
  (forall it q k, exists v, snd (measure it q k) = RVec v /\ length v = 2 ^ num_vars q0) ->
  grover_solve n_value n_iter root spin measure fuel cs p = (p', Ok g) ->
  exists it q k v, snd (measure it q k) = RVec v /\ forall x pr,
    (exists s, In s (gr_raw g) /\ s_x s = x /\ s_prob s = pr) <->
    (exists i a, nth_error v i = Some a /\ x = basis_point (num_vars q0) i /\ pr = abs2 a /\ (1 / qz 1000000 <= pr)%Qc).
Proof.
  intros n_value n_iter root spin measure fuel cs p q0 fs p' g W C S Pos Pv Sz Hv E.
  assert (forall it q k, sized_state (num_vars q0) (circuit_state root (num_vars q0) (snd (measure it q k)))) as Ss. { intros it q k. destruct (Hv it q k) as (v & Hm & L). rewrite Hm. exact L. }
  destruct (stored_kept _ _ _ _ _ _ _ _ _ _ _ _ C S Pos Pv Sz Ss E) as (it & q & k & K1 & K2). destruct (Hv it q k) as (v & Hm & L). exists it, q, k, v. split; auto. rewrite Hm in K1, K2. cbn [circuit_state] in K1, K2. intros x pr. split.
  - intros (s & Hs & <- & <-). destruct (K1 s Hs) as ([O Th] & _). inversion O as [| |v' i a Hi Ev Ex Ep]; subst v'. exists i, a. rewrite <- Ep in Th. auto 6.
  - intros (i & a & Hi & -> & -> & Th). apply K2. split; auto. now constructor.
Qed.
(** The samples of the result, with at least one converter: one per decoded point, with the sum of the probabilities and the value of the
    caller's objective, ranked for the caller's sense. *)
Theorem C68_samples : forall n_value n_iter root spin measure fuel cs p q0 fs p' g, prog_wf p -> convert_all cs p = Ok (q0, fs) -> obj_shaped q0 -> 0 < num_vars q0 -> 0 < n_value ->
  sized_outcomes (num_vars q0) n_value measure -> cs <> [] -> gr_raw g <> [] ->
  grover_solve n_value n_iter root spin measure fuel cs p = (p', Ok g) ->
  exists l, r_samples (gr_res g) = Some l /\ NoDup (map s_x l) /\ total_prob l = total_prob (gr_raw g) /\ StronglySorted (ranked (o_sense (p_obj p))) l /\
    (forall s, In s l -> s_fval s = obj_at (p_obj p) (s_x s) /\ status_at p (s_x s) (s_status s) /\
       exists m, picks (fun t => decodes fs (s_x t) (s_x s)) (gr_raw g) m /\ m <> [] /\ s_prob s = total_prob m) /\
    (forall t, In t (gr_raw g) -> exists s, In s l /\ decodes fs (s_x t) (s_x s)).
Proof.
  intros n_value n_iter root spin measure fuel cs p q0 fs p' g W C S Pos Pv Sz Nc Nr E. destruct (solve_stored _ _ _ _ _ _ _ _ _ _ _ _ C S Pos Pv Sz E) as (it & q' & k & l0 & l & El & Er & Es & x & Ei).
  specialize (Es Nc). rewrite (solve_keeps_caller _ _ _ _ _ _ _ _ _ _ C _ _ Nc E) in Ei. destruct (interpret_spec _ _ _ _ _ W Ei) as (y & _ & _ & _ & _ & _ & _ & _ & Rs).
  destruct (samples_mass p fs _ _ W Es) as (M1 & M2 & M3 & M4). exists l. split.
  { rewrite Rs. destruct l as [|s l]; auto. exfalso. destruct (gr_raw g) as [|t raw]; [easy|]. destruct (M4 t (or_introl eq_refl)) as (s & [] & _). }
  split; auto. split; auto. split; [exact (samples_ranked p fs _ _ W Es)|]. split; auto. intros s Hs. destruct (M3 s Hs) as (A & _ & B & D). auto.
Qed.
(** The raw samples are ordered best first for minimisation ... *)
Theorem C68_order_partial : forall n_value n_iter root spin measure fuel cs p q0 fs p' g, prog_wf p -> convert_all cs p = Ok (q0, fs) -> obj_shaped q0 -> 0 < num_vars q0 -> 0 < n_value ->
  sized_outcomes (num_vars q0) n_value measure -> grover_solve n_value n_iter root spin measure fuel cs p = (p', Ok g) ->
  o_sense (p_obj q0) = MINIMIZE -> StronglySorted (fun a b => at_least (o_sense (p_obj q0)) (s_fval a) (s_fval b)) (gr_raw g).
Proof.
  intros n_value n_iter root spin measure fuel cs p q0 fs p' g W C S Pos Pv Sz E Mi. destruct (solve_stored _ _ _ _ _ _ _ _ _ _ _ _ C S Pos Pv Sz E) as (it & q' & k & l0 & l & El & Er & _). rewrite Er, Mi. apply raw_sorted.
Qed.
(** ... but worst first for maximisation, as the sense has been turned by then while the values are those of the problem given. *)
Theorem C68_order_refuted : exists p r measure g a b, prog_wf p /\ to_qubo None p = Ok r /\ o_sense (p_obj (r_qubo r)) = MAXIMIZE /\ sized_outcomes (num_vars (r_qubo r)) 3 measure /\ honest (num_vars (r_qubo r)) 3 measure /\
  grover_solve 3 1 (fun a => a) (fun _ _ => 0) measure 50 (default_converters None) p = (p, Ok g) /\ gr_raw g = [a; b] /\
  s_fval a = obj_at (p_obj (r_qubo r)) (s_x a) /\ s_fval b = obj_at (p_obj (r_qubo r)) (s_x b) /\ (s_fval a < s_fval b)%Qc.
Proof.
  assert (match to_qubo None (ex68 MAXIMIZE) with Ok r => Nat.eqb (num_vars (r_qubo r)) 1 && match o_sense (p_obj (r_qubo r)) with MAXIMIZE => true | MINIMIZE => false end &&
    match grover_solve 3 1 (fun a => a) (fun _ _ => 0) measure68 50 (default_converters None) (ex68 MAXIMIZE) with
    | (_, Ok g) => match gr_raw g with [a; b] => qeqb (s_fval a) (obj_at (p_obj (r_qubo r)) (s_x a)) && qeqb (s_fval b) (obj_at (p_obj (r_qubo r)) (s_x b)) && qltb (s_fval a) (s_fval b) | _ => false end | _ => false end
    | Err _ => false end = true) as V by (vm_compute; reflexivity).
  destruct (to_qubo None (ex68 MAXIMIZE)) as [r|] eqn:H; [|discriminate V]. apply andb_prop in V. destruct V as [V V2]. apply andb_prop in V. destruct V as [V1 V3]. apply Nat.eqb_eq in V1.
  destruct (grover_solve 3 1 _ _ measure68 50 _ (ex68 MAXIMIZE)) as [p' [g|]] eqn:E; [|discriminate V2]. destruct (gr_raw g) as [|a [|b [|]]] eqn:R; try discriminate V2.
  apply andb_prop in V2. destruct V2 as [V2 V4]. apply andb_prop in V2. destruct V2 as [V2 V5]. apply qeqb_true in V2, V5. destruct (qltb_spec (s_fval a) (s_fval b)) as [Lt|]; [|discriminate V4].
  assert (p' = ex68 MAXIMIZE) as ->. { eapply solve_keeps_caller; [apply (default_convert _ _ _ H)|discriminate|exact E]. }
  exists (ex68 MAXIMIZE), r, measure68, g, a, b. split; [apply reachable_wf; repeat constructor|]. split; auto. split. { destruct (o_sense (p_obj (r_qubo r))); [discriminate V3|auto]. }
  rewrite V1. split; [apply measure68_sized|].
  split; [apply measure68_honest|].
  auto.
Qed.
(** The samples for the minimisation, and those of a state vector with the amplitudes 3/5 and 4/5 *)
Example C68_case : let solve measure := grover_solve 3 1 root68 (fun _ _ => 0) measure 50 (default_converters None) (ex68 MINIMIZE) in
  prog_wf (ex68 MINIMIZE) /\
  match solve measure68 with (_, Ok g) => map (fun s => qeqb (s_fval s) 0) (gr_raw g) = [true; false] | _ => False end /\
  match solve (fun it q k => (row68 q true, RVec [(qz 3 / qz 5, 0); (0, qz 4 / qz 5)]%Qc)) with
  | (_, Ok g) => match gr_raw g, r_samples (gr_res g) with
      | [a; b], Some [c; d] => (qeqb (s_prob a) (qz 9 / qz 25) && qs_eqb (s_x a) [0%Qc] && qeqb (s_prob b) (qz 16 / qz 25) && qs_eqb (s_x b) [1%Qc] && qs_eqb (s_x c) [0%Qc] && qeqb (s_prob c) (qz 9 / qz 25))%Qc = true
      | _, _ => False end
  | _ => False end.
Proof. split; [apply reachable_wf; repeat constructor|]. split; vm_compute; reflexivity. Qed.
Print Assumptions C68_frequency_refuted.
Print Assumptions C68_counts_partial.
Print Assumptions C68_vector_partial.
Print Assumptions C68_samples.
Print Assumptions C68_order_partial.
Print Assumptions C68_order_refuted.

(** ** C43 for this optimizer *)
(** Without converters sense, coefficients and constant of the caller's objective are changed, and the value reported is that of the
    changed problem. *)
Theorem C43_grover_refuted : exists p measure p' g y, prog_wf p /\ unconstrained_binary p /\ sized_outcomes 1 3 measure /\ honest 1 3 measure /\
  grover_solve 3 1 (fun a => a) (fun _ _ => 0) measure 50 [] p = (p', Ok g) /\ o_sense (p_obj p) = MAXIMIZE /\ o_sense (p_obj p') = MINIMIZE /\
  r_x (gr_res g) = Some y /\ r_fval (gr_res g) <> Some (obj_at (p_obj p) y).
Proof.
  assert (match grover_solve 3 1 (fun a => a) (fun _ _ => 0) measure68 50 [] (ex68 MAXIMIZE) with
    | (p', Ok g) => match o_sense (p_obj p'), r_x (gr_res g), r_fval (gr_res g) with MINIMIZE, Some y, Some f => negb (qeqb f (obj_at (p_obj (ex68 MAXIMIZE)) y)) | _, _, _ => false end
    | _ => false end = true) as V by (vm_compute; reflexivity).
  destruct (grover_solve 3 1 _ _ measure68 50 [] (ex68 MAXIMIZE)) as [p' [g|]] eqn:E; [|discriminate V]. destruct (o_sense (p_obj p')) eqn:So; [|discriminate V]. destruct (r_x (gr_res g)) as [y|] eqn:Ex; [|discriminate V]. destruct (r_fval (gr_res g)) as [f|] eqn:Ef; [|discriminate V].
  destruct (qeqb_spec f (obj_at (p_obj (ex68 MAXIMIZE)) y)) as [|N]; [discriminate V|].
  exists (ex68 MAXIMIZE), measure68, p', g, y. split; [apply reachable_wf; repeat constructor|]. split; [split; [vm_compute; repeat constructor|split; reflexivity]|]. split; [apply measure68_sized|].
  split; [apply measure68_honest|].
  split; auto. split; [reflexivity|]. split; auto. split; auto. rewrite Ef. intro X. injection X as X. auto.
Qed.
(** With at least one converter the problem is left alone, also when the call fails. *)
Theorem C43_grover_partial : forall n_value n_iter root spin measure fuel cs p, cs <> [] -> fst (grover_solve n_value n_iter root spin measure fuel cs p) = p.
Proof.
  intros n_value n_iter root spin measure fuel cs p Nc. destruct (convert_all cs p) as [[q0 fs]|e] eqn:C.
  - destruct (grover_solve n_value n_iter root spin measure fuel cs p) as [p' e] eqn:E. exact (solve_keeps_caller _ _ _ _ _ _ _ _ _ _ C _ _ Nc E).
  - unfold grover_solve. rewrite C. now destruct (qubo_compatible p).
Qed.
(** Without converters, for whole coefficients: the caller's objective is turned to minimisation and lowered by the threshold
    reached, also when the call fails; nothing else is changed. *)
Theorem C43_grover_exact : forall n_value n_iter root spin measure fuel p, obj_shaped p -> quad_upper (o_quad (p_obj p)) -> integer_objective p ->
  let p' := fst (grover_solve n_value n_iter root spin measure fuel [] p) in
  (qubo_compatible p = false -> p' = p) /\
  (qubo_compatible p = true -> exists t, p' = set_obj (p_obj p') p /\ o_sense (p_obj p') = MINIMIZE /\
     (forall x, obj_at (p_obj p') x = (cost p x - qz t)%Qc) /\
     (forall g, snd (grover_solve n_value n_iter root spin measure fuel [] p) = Ok g -> gr_thr g = t)).
Proof.
  intros n_value n_iter root spin measure fuel p Ob Up Int. cbv zeta. split; intro Q; unfold grover_solve; rewrite Q; [reflexivity|].
  unfold convert_all. cbn [foldM]. destruct (turn_spec p Ob Up Int) as (o & E & So & _ & _ & _ & Co). rewrite E.
  destruct (search _ _ _ _ _ _ _ _ _ _ _ _) as [s res]. cbn [fst snd caller_at]. exists (g_thr s). split; [reflexivity|]. split; [exact So|]. split.
  - intro x. rewrite <- Co. unfold obj_at. cbn [shifted_to set_constant set_obj p_obj o_const o_lin o_quad]. ring.
  - intros g H. apply bind_ok in H. destruct H as (u & _ & H). apply bind_ok in H. destruct H as (f & _ & H). apply bind_ok in H. destruct H as (r & _ & H). now injection H as <-.
Qed.
Example C43_grover_exact_case : obj_shaped (ex68 MAXIMIZE) /\ quad_upper (o_quad (p_obj (ex68 MAXIMIZE))) /\ qubo_compatible (ex68 MAXIMIZE) = true /\
  match grover_solve 3 1 (fun a => a) (fun _ _ => 0) measure68 50 [] (ex68 MAXIMIZE) with
  | (p', Ok g) => obj_at (p_obj p') [1%Qc] = (- obj_at (p_obj (ex68 MAXIMIZE)) [1%Qc] - qz (gr_thr g))%Qc /\ gr_thr g <> 0%Z
  | _ => False end.
Proof.
  split; [vm_compute; repeat split; repeat constructor; simpl; try lia; intuition (try congruence; lia)|]. split; [vm_compute; repeat constructor|]. split; [reflexivity|].
  vm_compute. split; [apply Qc_is_canon; vm_compute; reflexivity|discriminate].
Qed.
Example C43_grover_case : default_converters None <> [] /\
  is_ok (snd (grover_solve 3 1 (fun a => a) (fun _ _ => 0) measure68 50 (default_converters None) (ex68 MAXIMIZE))) = true /\
  is_ok (snd (grover_solve 3 1 (fun a => a) (fun _ _ => 0) measure68 0 (default_converters None) (ex68 MAXIMIZE))) = false.
Proof. split; [discriminate|]. vm_compute. auto. Qed.
Print Assumptions C43_grover_refuted.
Print Assumptions C43_grover_partial.
Print Assumptions C43_grover_exact.
