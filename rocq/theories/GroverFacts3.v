(** * Facts about GroverOptimizer.solve *)
From Verif Require Export GroverFacts2 RecurFacts6.
Local Open Scope nat_scope.

(** ** The turned program *)
Lemma foldM_lin_shape {A} (f : linexpr -> A -> result linexpr) n l : (forall e a e', lin_shape n e -> f e a = Ok e' -> lin_shape n e') ->
  forall e e', lin_shape n e -> foldM f l e = Ok e' -> lin_shape n e'.
Proof. intro Hf. induction l as [|a l IH]; intros e e' S H; cbn [foldM] in H; [injection H as <-; auto|]. apply bind_ok in H. destruct H as (e1 & H1 & H2). eauto. Qed.
Lemma foldM_quad_shape {A} (f : quadexpr -> A -> result quadexpr) n l : (forall e a e', quad_shape n e -> f e a = Ok e' -> quad_shape n e') ->
  forall e e', quad_shape n e -> foldM f l e = Ok e' -> quad_shape n e'.
Proof. intro Hf. induction l as [|a l IH]; intros e e' S H; cbn [foldM] in H; [injection H as <-; auto|]. apply bind_ok in H. destruct H as (e1 & H1 & H2). eauto. Qed.
Lemma turn_shape q q1 u : obj_shaped q -> turn_to_min q = (q1, Ok u) -> exists o, q1 = set_obj o q /\ lin_shape (num_vars q) (o_lin o) /\ quad_shape (num_vars q) (o_quad o) /\
  o_sense o = MINIMIZE /\ o_const o = (sign (o_sense (p_obj q)) * o_const (p_obj q))%Qc.
Proof.
  intros [S1 S2] H. unfold turn_to_min, on_objective in H. destruct (o_sense (p_obj q)) eqn:S.
  - injection H as <- _. exists (p_obj q). repeat (split; auto). cbn [sign]. ring.
  - destruct (foldM _ (lin_to_dict _) _) as [l|] eqn:El; [|discriminate H]. cbn [bind] in H. destruct (foldM _ (quad_to_dict _ _) _) as [m|] eqn:Em; [|discriminate H]. cbn [bind] in H. injection H as <- _.
    eexists. split; [reflexivity|]. cbn [o_sense o_lin o_quad o_const sign]. split; [|split; [|split; [auto|ring]]].
    + revert El. apply foldM_lin_shape; auto. intros e a e' He E. eapply lin_set_shape; eauto.
    + revert Em. apply foldM_quad_shape; auto. intros e a e' He E. eapply quad_set_shape; eauto.
Qed.
Lemma set_obj_wf o p : prog_wf p -> lin_wf (o_lin o) -> quad_wf (o_quad o) -> prog_wf (set_obj o p).
Proof. intros (A & B & C & D & (E1 & E2 & E3 & E4) & F) W1 W2. split; auto. split; auto. split; auto. split; auto. split; auto. split; auto. Qed.
Lemma convert_none p q fs : convert_all [] p = Ok (q, fs) -> q = p /\ fs = [].
Proof. unfold convert_all. cbn [foldM]. intro H. injection H as <- <-. auto. Qed.

Section Solve.
Variables (n_value n_iter : nat) (root : Qc -> Qc) (spin : nat -> nat -> nat) (measure : nat -> qp -> nat -> list bool * circuit_results) (fuel : nat).
Notation solve := (grover_solve n_value n_iter root spin measure fuel).
Variables (cs : list converter) (p q0 : qp) (fs : list interp).
Hypothesis Conv : convert_all cs p = Ok (q0, fs).
Definition the_caller : option qp := match cs with [] => None | _ => Some p end.

Lemma solve_keeps_caller p' r : cs <> [] -> solve cs p = (p', r) -> p' = p.
Proof using Conv.
  intros N E. unfold grover_solve in E. destruct (qubo_compatible p); [|injection E as <- _; auto]. rewrite Conv in E. destruct (turn_to_min q0) as [q1 [u|e]]; [|injection E as <- _; auto].
  cbv zeta in E. destruct (search _ _ _ _ _ _ _ _ _ _ _ _) as [s res]. injection E as <- _. destruct cs; [easy|reflexivity].
Qed.
Lemma solve_inv p' g : solve cs p = (p', Ok g) -> exists q1 s, turn_to_min q0 = (q1, Ok tt) /\
  search n_value n_iter root spin measure q0 q1 the_caller fs fuel 0 g_start = (s, Ok tt) /\ p' = caller_at q1 the_caller (g_thr s) /\
  obj_eval (env_of q0) (p_obj q0) (XList (final_point q1 s)) = Ok (gr_fval g) /\ interpret p' fs (g_samples s) (final_point q1 s) = Ok (gr_res g) /\
  gr_raw g = g_raw s /\ gr_thr g = g_thr s /\ gr_log g = g_log s.
Proof using Conv.
  intro E. unfold grover_solve in E. destruct (qubo_compatible p); [|discriminate E]. rewrite Conv in E. destruct (turn_to_min q0) as [q1 [[]|e]]; [|discriminate E].
  cbv zeta in E. fold the_caller in E. destruct (search _ _ _ _ _ _ _ _ _ _ _ _) as [s [[]|e]] eqn:Es; [|discriminate E]. cbn [bind] in E.
  injection E as <- E. apply bind_ok in E. destruct E as (f & Ef & E). apply bind_ok in E. destruct E as (r & Er & E). injection E as <-. exists q1, s. cbn. auto 10.
Qed.

Hypothesis Shaped : obj_shaped q0.
Hypothesis Pos : 0 < num_vars q0.
Hypothesis Pv : 0 < n_value.
Hypothesis Sized : sized_outcomes (num_vars q0) n_value measure.
(** The answer, for any measurements *)
Lemma solve_least p' g : prog_wf p -> solve cs p = (p', Ok g) ->
  exists out v x y, In (out, v) (gr_log g) /\ gr_thr g = v /\ (forall o w, In (o, w) (gr_log g) -> (v <= w)%Z /\ num_vars q0 <= length o) /\
    (if (0 <=? v)%Z && qeqb (o_const (p_obj q0)) 0 then x = repeat 0%Qc (num_vars q0) else x = key_point (num_vars q0) out) /\
    bits (num_vars q0) x /\ gr_fval g = obj_at (p_obj q0) x /\ decodes fs x y /\ r_x (gr_res g) = Some y /\
    (cs <> [] -> r_fval (gr_res g) = Some (obj_at (p_obj p) y) /\ status_at p y (r_status (gr_res g))).
Proof using Conv Shaped Pos Pv Sized.
  intros W E. destruct (solve_inv _ _ E) as (q1 & s & Et & Es & Ep & Ef & Ei & _ & Th & Lg). destruct (turn_shape _ _ _ Shaped Et) as (o & -> & So & Sq & _ & Co).
  set (q1 := set_obj o q0) in *. assert (le_dim (o_lin (p_obj q1)) = num_vars q0) as D by apply So.
  rewrite <- D in Pos, Sized. destruct (search_best _ _ _ _ _ _ _ _ _ Pos Pv Sized fuel 0 g_start s (Ok tt) (start_best _) Es) as [B Nv]. specialize (Nv eq_refl). unfold best_so_far in B. destruct (g_val s) as [v|] eqn:Ev; [|easy].
  destruct B as (Bt & (out & Io & Ik) & B). destruct (B _ _ Io) as [_ Lo]. pose proof (final_point_spec _ Pos s out Lo Ik v Ev) as Fp. rewrite D in *.
  assert (qeqb (o_const (p_obj q1)) 0 = qeqb (o_const (p_obj q0)) 0) as Ec. { change (o_const (p_obj q1)) with (o_const o). rewrite Co. destruct (qeqb_spec (o_const (p_obj q0)) 0) as [->|Nc]; [destruct (o_sense (p_obj q0)); reflexivity|].
    destruct (qeqb_spec (sign (o_sense (p_obj q0)) * o_const (p_obj q0)) 0) as [Z|]; auto. exfalso. apply Nc. destruct (o_sense (p_obj q0)); cbn [sign] in Z; qlra. }
  rewrite Ec in Fp. set (x := final_point q1 s) in *.
  assert (bits (num_vars q0) x) as Bx. { rewrite Fp. destruct (_ && _); [|now apply key_point_bits]. split; [apply repeat_length|]. apply Forall_forall. intros a Ha. apply repeat_spec in Ha. auto. }
  assert (prog_wf p') as Wp. { rewrite Ep. unfold caller_at, the_caller. destruct cs eqn:C; auto. apply convert_none in Conv. destruct Conv as [-> _]. apply set_obj_wf; [apply set_obj_wf; auto; [apply So|apply Sq]| |]; [apply So|apply Sq]. }
  destruct (interpret_spec _ _ _ _ _ Wp Ei) as (y & Dy & _ & Xy & _ & Fy & Sy & _). exists out, v, x, y. rewrite Lg, Th. split; auto. split; auto. split; auto.
  split. { rewrite Fp. destruct (_ && _); reflexivity. } split; auto. split. { rewrite shaped_eval in Ef by (auto; apply Bx). now injection Ef as <-. } split; auto. split; auto.
  intro Nc. assert (p' = p) as ->. { rewrite Ep. unfold caller_at, the_caller. destruct cs; [easy|auto]. } auto.
Qed.
(** Honest measurements whose values fit *)
Hypothesis Upper : quad_upper (o_quad (p_obj q0)).
Hypothesis Int : integer_objective q0.
Hypothesis Honest : honest (num_vars q0) n_value measure.
Hypothesis Fits : register_fits n_value q0.
Lemma cost_at_least x y : (cost q0 x <= cost q0 y)%Qc <-> at_least (o_sense (p_obj q0)) (obj_at (p_obj q0) x) (obj_at (p_obj q0) y).
Proof. unfold cost. destruct (o_sense (p_obj q0)); cbn [sign at_least]; split; intro; qlra. Qed.
Lemma solve_true p' g : solve cs p = (p', Ok g) -> forall out v, In (out, v) (gr_log g) -> qz v = cost q0 (key_point (num_vars q0) out).
Proof using Conv Shaped Pos Pv Sized Upper Int Honest Fits.
  intro E. destruct (solve_inv _ _ E) as (q1 & s & Et & Es & _ & _ & _ & _ & _ & Lg). destruct (turn_spec q0 Shaped Upper Int) as (o & Eo & _ & So & _ & _ & Vo). rewrite Eo in Et. injection Et as <-.
  set (q1 := set_obj o q0) in *. assert (le_dim (o_lin (p_obj q1)) = num_vars q0) as D by apply So.
  assert (forall x, obj_at (p_obj q1) x = cost q0 x) as V by exact Vo. intros out v Hv. rewrite Lg in Hv. rewrite <- V, <- D. revert out v Hv. rewrite <- D in Pos, Sized, Honest.
  refine (search_true n_value n_iter root spin measure q0 q1 the_caller fs Pos Pv Sized Honest _ _ fuel 0 g_start s (Ok tt) (start_best _) (start_true _) Es).
  - intros x Bx. rewrite V. apply cost_integral; auto. apply Bx.
  - intros x Bx. rewrite D in Bx. destruct (Fits x Bx) as (F1 & F2 & F3). rewrite V. split; auto. split; auto. intros y By. rewrite D in By. rewrite V. auto.
Qed.
Lemma solve_best p' g : prog_wf p -> solve cs p = (p', Ok g) ->
  exists x y, bits (num_vars q0) x /\ (x = repeat 0%Qc (num_vars q0) \/ exists out v, In (out, v) (gr_log g) /\ x = key_point (num_vars q0) out) /\
    (forall out v, In (out, v) (gr_log g) -> at_least (o_sense (p_obj q0)) (obj_at (p_obj q0) x) (obj_at (p_obj q0) (key_point (num_vars q0) out))) /\
    gr_fval g = obj_at (p_obj q0) x /\ decodes fs x y /\ r_x (gr_res g) = Some y /\
    (cs <> [] -> r_fval (gr_res g) = Some (obj_at (p_obj p) y) /\ status_at p y (r_status (gr_res g))).
Proof using Conv Shaped Pos Pv Sized Upper Int Honest Fits.
  intros W E. destruct (solve_least _ _ W E) as (out & v & x & y & Io & _ & Lv & Ex & Bx & Fx & D & X & R). pose proof (solve_true _ _ E) as T. exists x, y. split; auto.
  assert (cost q0 x <= qz v)%Qc as Cx. { destruct ((0 <=? v)%Z && qeqb (o_const (p_obj q0)) 0) eqn:Z; [|rewrite Ex, <- (T _ _ Io); apply Qcle_refl]. apply andb_prop in Z. destruct Z as [Z1 Z2]. apply Z.leb_le in Z1. destruct (qeqb_spec (o_const (p_obj q0)) 0) as [C|]; [|discriminate Z2].
    unfold cost. assert (obj_at (p_obj q0) x = 0%Qc) as ->. { rewrite Ex. unfold obj_at, lin_at, quad_at. rewrite C. assert (forall i, at_ (repeat 0%Qc (num_vars q0)) i = 0%Qc) as A. { intro i. unfold at_. generalize (num_vars q0). intro k. revert i. induction k; intros [|i]; cbn [repeat nth]; auto. }
      rewrite !sumof_zero; [ring| |]. - intros i _. apply sumof_zero. intros j _. rewrite A. ring. - intros i _. rewrite A. ring. }
    replace (sign (o_sense (p_obj q0)) * 0)%Qc with (qz 0) by (rewrite qz_0; ring). now apply qz_le. }
  split. { destruct (_ && _); [auto|right; eauto]. }
  split; [|auto]. intros o w Ho. apply cost_at_least. rewrite <- (T _ _ Ho). destruct (Lv _ _ Ho) as [Lw _]. apply qz_le in Lw. eapply Qcle_trans; eauto.
Qed.
End Solve.

(** ** The default converter *)
Section Default.
Variables (n_value n_iter : nat) (root : Qc -> Qc) (spin : nat -> nat -> nat) (measure : nat -> qp -> nat -> list bool * circuit_results) (fuel : nat).
Variables (pen : option Qc) (p : qp) (r : qubo_run).
Notation q := (r_qubo r).
Notation solve := (grover_solve n_value n_iter root spin measure fuel (default_converters pen) p).
Hypothesis W : prog_wf p.
Hypothesis H : to_qubo pen p = Ok r.
Hypothesis Pos : 0 < num_vars q.
Hypothesis Pv : 0 < n_value.
Hypothesis Sized : sized_outcomes (num_vars q) n_value measure.
Hypothesis Honest : honest (num_vars q) n_value measure.
Hypothesis Int : integer_objective q.
Hypothesis Fits : register_fits n_value q.
Lemma default_convert : convert_all (default_converters pen) p = Ok (q, [qubo_interpret r]).
Proof using H. unfold convert_all, default_converters, qubo_converter. cbn [foldM fst snd]. rewrite H. reflexivity. Qed.
Lemma default_upper : quad_upper (o_quad (p_obj q)).
Proof using H. destruct (qubo_inv pen p r H) as (_ & _ & _ & _ & H3). exact (proj1 (penalize_plain _ _ _ H3)). Qed.
Lemma default_decodes x : bits (num_vars q) x -> exists y, decodes [qubo_interpret r] x y /\ length y = num_vars p.
Proof using W H. intros [L _]. destruct (qubo_interpret_total pen p r W H x L) as (y & E & Ly). exists y. split; auto. exists x. split; [reflexivity|auto]. Qed.
Lemma grover_steps o : lin_shape (num_vars q) (o_lin o) -> shapes (num_vars p) p ->
  (forall it q' k, sized_state (num_vars q) (circuit_state root (num_vars q) (snd (measure it q' k)))) ->
  forall it s, exists a, search_step n_value n_iter root spin measure q (set_obj o q) (Some p) [qubo_interpret r] it s = Ok a.
Proof using W H Pos Pv Sized.
  intros Sl Sh St it s. set (q1 := set_obj o q) in *. assert (le_dim (o_lin (p_obj q1)) = num_vars q) as D by apply Sl. pose proof (qubo_obj_shaped pen p r W H) as So. rewrite <- D in Pos, Sized.
  unfold search_step. rewrite n_key_dim. fold (out_at spin measure q1 it s). destruct (reads n_value spin measure q1 Pos Pv Sized it s) as [R1 R2]. rewrite R1, R2. cbn [bind].
  destruct (match g_val s with None => true | Some best => _ end); [|eauto]. rewrite D in Pos.
  set (e := circuit_state root _ _). assert (sized_state (num_vars q) e) as Se by (unfold e; rewrite D; apply St).
  destruct (solutions_spec e q MIN_PROB Pos So Se) as (l & El & Il & _). rewrite El. cbn [bind].
  destruct (samples_total p [qubo_interpret r] (sort_by (raw_lt (o_sense (p_obj (shifted_to q1 (g_thr s))))) l) Sh) as (l' & El'); [|unfold caller_at; rewrite El'; cbn [bind]; eauto].
  apply Forall_forall. intros t Ht. apply default_decodes. assert (In t l) as Ht' by (eapply Permutation_in; [apply sort_perm|exact Ht]). apply (Il t Ht').
Qed.
Lemma grover_total : shapes (num_vars p) p -> (forall it q' k, sized_state (num_vars q) (circuit_state root (num_vars q) (snd (measure it q' k)))) ->
  (2 ^ n_value + 1) * Nat.max 1 n_iter <= fuel -> exists g, solve = (p, Ok g).
Proof using W H Pos Pv Sized Honest Int Fits.
  intros Sh St F. pose proof (qubo_obj_shaped pen p r W H) as So. destruct (turn_spec q So default_upper Int) as (o & Eo & _ & Sl & Sq & _ & Vo). set (q1 := set_obj o q) in *.
  assert (le_dim (o_lin (p_obj q1)) = num_vars q) as D by apply Sl. assert (forall x, obj_at (p_obj q1) x = cost q x) as V by exact Vo.
  assert (snd (search n_value n_iter root spin measure q q1 (Some p) [qubo_interpret r] fuel 0 g_start) = Ok tt) as Ok1.
  { rewrite <- D in Pos, Sized, Honest. apply search_total; auto.
    - intros x Bx. rewrite V. apply cost_integral; auto. apply Bx.
    - intros x Bx. rewrite D in Bx. destruct (Fits x Bx) as (F1 & F2 & F3). rewrite V. split; auto. split; auto. intros y By. rewrite D in By. rewrite V. auto.
    - rewrite D in Pos, Sized. now apply grover_steps. }
  unfold grover_solve. destruct (qubo_inv pen p r H) as (K & _). rewrite K, default_convert, Eo. change (match default_converters pen with [] => None | _ => Some p end) with (Some p). cbv zeta.
  destruct (search _ _ _ _ _ _ _ _ _ _ _ _) as [s res] eqn:Es. cbn [snd] in Ok1. subst res. cbn [bind caller_at].
  assert (exists f, obj_eval (env_of q) (p_obj q) (XList (final_point q1 s)) = Ok f /\ bits (num_vars q) (final_point q1 s)) as (f & Ef & Bx).
  { rewrite <- D in Pos, Sized. destruct (search_best _ _ _ _ _ _ _ _ _ Pos Pv Sized fuel 0 g_start s (Ok tt) (start_best _) Es) as [B Nv]. specialize (Nv eq_refl). unfold best_so_far in B. destruct (g_val s) as [v|] eqn:Ev; [|easy].
    destruct B as (Bt & (out & Io & Ik) & B). destruct (B _ _ Io) as [_ Lo]. pose proof (final_point_spec _ Pos s out Lo Ik v Ev) as Fp. rewrite D in *.
    assert (bits (num_vars q) (final_point q1 s)) as Bx. { rewrite Fp. destruct (_ && _); [|now apply key_point_bits]. split; [apply repeat_length|]. apply Forall_forall. intros a Ha. apply repeat_spec in Ha. auto. }
    rewrite shaped_eval; auto; [eauto|apply Bx]. }
  rewrite Ef. cbn [bind]. destruct (default_decodes _ Bx) as (y & Dy & Ly). destruct (interpret_total p [qubo_interpret r] (g_samples s) _ y Sh Dy Ly) as (res & Er). rewrite Er. cbn [bind]. eauto.
Qed.
Lemma grover_optimal p' g : shapes (num_vars p) p -> Forall plain (p_vars p) -> int_bounds p -> products_safe p (o_quad (p_obj p)) -> (exists x, feasible p x) ->
  match pen with Some c => (weight (p_obj (r_bin r)) < c)%Qc | None => True end -> solve = (p', Ok g) ->
  (exists out v, In (out, v) (gr_log g) /\ optimal q (key_point (num_vars q) out)) ->
  exists y, r_x (gr_res g) = Some y /\ optimal p y /\ r_fval (gr_res g) = Some (obj_at (p_obj p) y) /\ r_status (gr_res g) = SUCCESS.
Proof using W H Pos Pv Sized Honest Int Fits.
  intros Sh P IB SF F Pen E (out & v & Io & Oo). destruct (solve_best _ _ _ _ _ _ _ _ _ _ default_convert (qubo_obj_shaped pen p r W H) Pos Pv Sized default_upper Int Honest Fits _ _ W E) as (x & y & Bx & _ & Best & _ & (z & Dz & Qy) & X & R).
  cbn [decodes] in Dz. subst z. destruct R as [Fv St]; [discriminate|].
  assert (optimal q x) as O. { split; [now apply (qubo_feasible_bits pen p r W H)|]. intros z Fz. pose proof (Best _ _ Io) as B1. pose proof (proj2 Oo z Fz) as B2. destruct (o_sense (p_obj q)); simpl in *; qlra. }
  destruct (qubo_exact pen p r W H P IB SF F Pen) as [T _]. destruct (T x O) as (y' & Q' & Op & _). rewrite Qy in Q'. injection Q' as <-.
  exists y. split; auto. split; auto. split; auto. destruct St as [[St _]|[_ N]]; auto. exfalso. apply N. destruct Op as [Fy _].
  pose proof (feasible_is_feasible p y Sh Fy) as I. apply (is_feasible_spec p y Sh) in I; auto. symmetry. exact (Forall2_length _ _ _ (proj1 Fy)).
Qed.
End Default.

(** ** Stored samples *)
Section Stored.
Variables (n_value n_iter : nat) (root : Qc -> Qc) (spin : nat -> nat -> nat) (measure : nat -> qp -> nat -> list bool * circuit_results).
Variables (q0 q1 : qp) (caller : option qp) (fs : list interp).
Notation n := (le_dim (o_lin (p_obj q1))).
Hypothesis Pos : 0 < n.
Hypothesis Pv : 0 < n_value.
Hypothesis Sized : sized_outcomes n n_value measure.
Definition stored (s : gstate) : Prop := g_val s = None \/ exists it q' k t l, eigenvector_to_solutions (circuit_state root n (snd (measure it q' k))) q0 MIN_PROB = Ok l /\
  g_raw s = sort_by (raw_lt (o_sense (p_obj q1))) l /\ interpret_samples (caller_at q1 caller t) fs (g_raw s) = Ok (g_samples s).
Lemma search_stored fuel : forall it s s' res, stored s -> search n_value n_iter root spin measure q0 q1 caller fs fuel it s = (s', res) -> stored s'.
Proof using Pos Pv Sized.
  induction fuel as [|fuel IH]; intros it s s' res I E; cbn [search] in E; [injection E as <- <-; auto|].
  destruct (search_step _ _ _ _ _ _ _ _ _ it s) as [[s1 stop]|e] eqn:E1; [|injection E as <- <-; auto].
  assert (stored s1) as I1. { apply step_cases in E1; auto. destruct E1 as (_ & [(_ & _ & _ & _ & _ & _ & l & El & Er & Ei)|(b & Eb & _ & _ & Ev & _ & _ & _ & Er & Es)]).
    - right. exists it, (shifted_to q1 (g_thr s)), (spin it (g_m s)), (g_thr s), l. auto.
    - destruct I as [I|I]; [congruence|]. right. now rewrite Er, Es. }
  destruct stop; [injection E as <- <-; auto|eauto].
Qed.
End Stored.
Lemma solve_stored n_value n_iter root spin measure fuel cs p q0 fs p' g : convert_all cs p = Ok (q0, fs) -> obj_shaped q0 -> 0 < num_vars q0 -> 0 < n_value ->
  sized_outcomes (num_vars q0) n_value measure -> grover_solve n_value n_iter root spin measure fuel cs p = (p', Ok g) ->
  exists it q' k l samples, eigenvector_to_solutions (circuit_state root (num_vars q0) (snd (measure it q' k))) q0 MIN_PROB = Ok l /\
    gr_raw g = sort_by (raw_lt MINIMIZE) l /\ (cs <> [] -> interpret_samples p fs (gr_raw g) = Ok samples) /\
    (exists x, interpret p' fs samples x = Ok (gr_res g)).
Proof.
  intros Conv Shaped Pos Pv Sized E. destruct (solve_inv _ _ _ _ _ _ _ _ _ _ Conv _ _ E) as (q1 & s & Et & Es & Ep & _ & Ei & Er & _ & _). destruct (turn_shape _ _ _ Shaped Et) as (o & -> & So & Sq & Mo & _).
  set (q1 := set_obj o q0) in *. assert (le_dim (o_lin (p_obj q1)) = num_vars q0) as D by apply So. rewrite <- D in Pos, Sized.
  destruct (search_best _ _ _ _ _ _ _ _ _ Pos Pv Sized fuel 0 g_start s (Ok tt) (start_best _) Es) as [_ Nv]. specialize (Nv eq_refl).
  destruct (search_stored _ _ _ _ _ _ _ _ _ Pos Pv Sized fuel 0 g_start s (Ok tt) (or_introl eq_refl) Es) as [N|(it & q' & k & t & l & El & Hr & Hs)]; [easy|].
  exists it, q', k, l, (g_samples s). rewrite D in El. split; auto. rewrite Er. split. { rewrite Hr. change (o_sense (p_obj q1)) with (o_sense o). now rewrite Mo. }
  split. { intro Nc. rewrite <- Hs. f_equal. unfold caller_at, the_caller. destruct cs; [easy|auto]. } eauto.
Qed.

(** The stored samples are those of one measurement, whatever it was. *)
Lemma stored_kept n_value n_iter root spin measure fuel cs p q0 fs p' g : convert_all cs p = Ok (q0, fs) -> obj_shaped q0 -> 0 < num_vars q0 -> 0 < n_value ->
  sized_outcomes (num_vars q0) n_value measure -> (forall it q k, sized_state (num_vars q0) (circuit_state root (num_vars q0) (snd (measure it q k)))) ->
  grover_solve n_value n_iter root spin measure fuel cs p = (p', Ok g) ->
  exists it q' k, let e := circuit_state root (num_vars q0) (snd (measure it q' k)) in
    (forall s, In s (gr_raw g) -> kept q0 e (s_x s) (s_prob s) /\ s_fval s = obj_at (p_obj q0) (s_x s) /\ s_status s = SUCCESS /\ bits (num_vars q0) (s_x s)) /\
    (forall x pr, kept q0 e x pr -> exists s, In s (gr_raw g) /\ s_x s = x /\ s_prob s = pr).
Proof.
  intros C S Pos Pv Sz St E. destruct (solve_stored _ _ _ _ _ _ _ _ _ _ _ _ C S Pos Pv Sz E) as (it & q' & k & l & sm & El & Er & _). exists it, q', k. cbv zeta.
  destruct (solutions_spec _ q0 MIN_PROB Pos S (St it q' k)) as (l' & El' & H1 & H2). rewrite El in El'. injection El' as <-. rewrite Er. pose proof (sort_perm (raw_lt MINIMIZE) l) as P. split.
  - intros s Hs. apply (Permutation_in _ P) in Hs. destruct (H1 s Hs) as (A & B & F & T & D). split; [split; auto|]. auto.
  - intros x pr [A B]. destruct (H2 x pr A B) as (s & Hs & R). exists s. split; auto. eapply Permutation_in; [apply Permutation_sym; exact P|exact Hs].
Qed.
Lemma bits_eqb_sp a b : reflect (a = b) (bits_eqb a b).
Proof.
  revert b. induction a as [|x a IH]; intros [|y b]; cbn [bits_eqb]; try (constructor; congruence). destruct (Bool.eqb_spec x y) as [->|N]; cbn [andb]; [|constructor; congruence]. destruct (IH b) as [->|N]; constructor; congruence.
Qed.
Lemma counts_state root n shots counts : NoDup (map (fun bc => firstn n (rev (fst bc))) counts) ->
  circuit_state root n (RCounts shots counts) = EDict (map (fun bc => (firstn n (rev (fst bc)), root (snd bc / shots)%Qc)) counts).
Proof.
  intro N. cbn [circuit_state]. f_equal.
  assert (forall l d, NoDup (map fst d ++ map (fun bc : list bool * Qc => firstn n (rev (fst bc))) l) ->
    fold_left (fun d bc => dset bits_eqb (firstn n (rev (fst bc))) (root (snd bc / shots)%Qc) d) l d = d ++ map (fun bc => (firstn n (rev (fst bc)), root (snd bc / shots)%Qc)) l) as G; [|now apply G].
  induction l as [|bc l IH]; intros d Hd; cbn [fold_left map]; [now rewrite app_nil_r|]. cbn [map] in Hd.
  assert (dset bits_eqb (firstn n (rev (fst bc))) (root (snd bc / shots)%Qc) d = d ++ [(firstn n (rev (fst bc)), root (snd bc / shots)%Qc)]) as ->.
  { apply NoDup_remove_2 in Hd. assert (~ In (firstn n (rev (fst bc))) (map fst d)) as Nd by (intro; apply Hd; apply in_or_app; now left). clear -Nd. revert Nd. generalize (firstn n (rev (fst bc))), (root (snd bc / shots)%Qc). intros b v Nd.
    induction d as [|[b' v'] d IH]; cbn [dset]; auto. cbn [map fst In] in Nd. destruct (bits_eqb_sp b b') as [->|]; [tauto|]. cbn [app]. rewrite IH; auto. }
  rewrite IH, <- app_assoc; auto. rewrite map_app, <- app_assoc. exact Hd.
Qed.

(** ** A backend for examples: in iteration [it] it answers with the given key and its value, counted once *)
Definition replay (n m : nat) (key : nat -> list bool) (it : nat) (q : qp) (k : nat) : list bool * circuit_results :=
  let b := firstn n (key it ++ repeat false n) in
  let out := b ++ register_of m (qfloor (obj_at (p_obj q) (map digit_q b))) in
  (out, RCounts 1 [(rev out, 1%Qc)]).
Lemma replay_key n (b : list bool) : length (firstn n (b ++ repeat false n)) = n.
Proof. rewrite firstn_length, app_length, repeat_length. lia. Qed.
Lemma firstn_exact {A} n (a b : list A) : length a = n -> firstn n (a ++ b) = a.
Proof. intros <-. rewrite firstn_app, Nat.sub_diag, firstn_all. cbn [firstn]. apply app_nil_r. Qed.
Lemma skipn_exact {A} n (a b : list A) : length a = n -> skipn n (a ++ b) = b.
Proof. intros <-. rewrite skipn_app, Nat.sub_diag, skipn_all. reflexivity. Qed.
Lemma replay_sized n m key : sized_outcomes n m (replay n m key).
Proof. intros it q r. unfold replay. cbn [fst]. rewrite app_length, replay_key, reg_of_length. lia. Qed.
Lemma replay_honest n m key : 0 < m -> honest n m (replay n m key).
Proof.
  intros P it q r z. unfold replay. cbn [fst]. unfold key_point, value_register. rewrite firstn_exact, skipn_exact by apply replay_key. intro E. rewrite E, floor_qz.
  rewrite <- (app_nil_r (register_of m z)), firstn_exact by apply reg_of_length. now apply register_twos.
Qed.
Lemma replay_state n m key it q k : sized_state n (circuit_state (fun a => a) n (snd (replay n m key it q k))).
Proof.
  unfold replay. cbn [snd circuit_state fold_left fst dset sized_state]. rewrite rev_involutive, firstn_exact by apply replay_key. split; [constructor; [apply replay_key|constructor]|]. cbn. discriminate.
Qed.

(** Another: one key digit and three value digits; of 25 shots 9 find 0 and 16 find 1 *)
Definition row68 (q : qp) (b : bool) : list bool := b :: register_of 3 (qfloor (obj_at (p_obj q) [digit_q b])).
Definition measure68 (it : nat) (q : qp) (k : nat) : list bool * circuit_results := (row68 q true, RCounts (qz 25) [(rev (row68 q false), qz 9); (rev (row68 q true), qz 16)]).
Definition root68 (a : Qc) : Qc := (if qeqb a (qz 9 / qz 25) then qz 3 / qz 5 else if qeqb a (qz 16 / qz 25) then qz 4 / qz 5 else a)%Qc.
Lemma measure68_sized : sized_outcomes 1 3 measure68.
Proof. intros it q k. unfold measure68, row68. cbn [fst length]. rewrite reg_of_length. lia. Qed.
Lemma measure68_honest : honest 1 3 measure68.
Proof.
  intros it q k z. unfold measure68, row68. cbn [fst]. set (w := register_of 3 _). change (key_point 1 (true :: w)) with [digit_q true]. change (value_register 1 3 (true :: w)) with (firstn 3 w).
  intro Ez. assert (w = register_of 3 z) as -> by (unfold w; rewrite Ez, floor_qz; reflexivity). rewrite <- (app_nil_r (register_of 3 z)), firstn_exact by apply reg_of_length. apply register_twos. lia.
Qed.

(** Checks for examples *)
Lemma integer_check q : is_integer (o_const (p_obj q)) && forallb (fun kv => is_integer (snd kv)) (le_co (o_lin (p_obj q))) && forallb (fun kv => is_integer (snd kv)) (qe_co (o_quad (p_obj q))) = true ->
  integer_objective q.
Proof.
  intro H. apply andb_prop in H. destruct H as [H H2]. apply andb_prop in H. destruct H as [H0 H1]. rewrite forallb_forall in H1, H2. split; [now apply is_integer_spec|]. split.
  - intro i. unfold coef1, dgetq. destruct (dget Nat.eqb i _) as [v|] eqn:E; [|apply integral_0]. apply (dget_in _ nat_eqb_sp) in E. apply is_integer_spec. exact (H1 _ E).
  - intros i j. unfold coef2, mget, dgetq. destruct (dget nat2_eqb (i, j) _) as [v|] eqn:E; [|apply integral_0]. apply (dget_in _ nat2_eqb_sp) in E. apply is_integer_spec. exact (H2 _ E).
Qed.
Fixpoint all_points (n : nat) : list (list Qc) := match n with O => [[]] | S n' => flat_map (fun x => [0%Qc :: x; 1%Qc :: x]) (all_points n') end.
Lemma all_points_spec n : forall x, bits n x -> In x (all_points n).
Proof.
  induction n as [|n IH]; intros [|a x] [L B]; cbn in L; try lia; [now left|]. inversion B as [|? ? Ha B']; subst. cbn [all_points]. apply in_flat_map. exists x. split; [apply IH; split; auto|]. destruct Ha as [-> | ->]; cbn; auto.
Qed.
Lemma fits_check m q : let c := map (cost q) (all_points (num_vars q)) in
  forallb (fun a => qleb (- half m) a && qltb a (half m) && forallb (fun b => qltb (a - b) (half m)) c) c = true -> register_fits m q.
Proof.
  cbv zeta. intros H x Bx. rewrite forallb_forall in H. assert (In (cost q x) (map (cost q) (all_points (num_vars q)))) as I by now apply in_map, all_points_spec. specialize (H _ I).
  apply andb_prop in H. destruct H as [H H3]. apply andb_prop in H. destruct H as [H1 H2]. split; [destruct (qleb_spec (- half m) (cost q x)); [auto|discriminate]|]. split; [destruct (qltb_spec (cost q x) (half m)); [auto|discriminate]|].
  intros y By. rewrite forallb_forall in H3. assert (In (cost q y) (map (cost q) (all_points (num_vars q)))) as J by now apply in_map, all_points_spec. specialize (H3 _ J). destruct (qltb_spec (cost q x - cost q y) (half m)); [auto|discriminate].
Qed.
