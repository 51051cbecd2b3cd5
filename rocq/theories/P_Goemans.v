(** * C47 and C69: the Goemans-Williamson optimizer *)
From Verif Require Import GoemansFacts3.
From Coq Require Import Sorted.
Local Open Scope string_scope.
Local Open Scope list_scope.
Local Open Scope nat_scope.

(** A triangle with the weights 2, 3 and 1, and a solver that answers with three given vectors *)
Definition ex47 : graph := mkGraph 3 [((0, 1), Some (qz 2)); ((1, 2), Some (qz 3)); ((0, 2), None)].
Definition chi47 : ndarray2 := [[qz 1; qz (-1); qz 1]; [qz (-1); qz 2; qz (-1)]; [qz 1; qz (-1); qz 2]].
Definition sdp47 (a : ndarray2) : sdp_answer := if Nat.eqb (length a) 3 then SdpSolved chi47 else SdpFails.
Definition chol47 (a : ndarray2) : result ndarray2 := Ok (firstn (length a) [[qz 1; qz 0; qz 0]; [qz (-1); qz 1; qz 0]; [qz 1; qz 0; qz 1]] ++ repeat [] (length a - 3)).
Definition normal47 : list (list Qc) := [[qz 1; qz 2; qz 0]; [qz (-1); qz (-2); qz 0]; [qz 1; qz 0; qz 1]; [qz (-1); qz 0; qz 2]].
Lemma sized47 : sized_solvers sdp47 chol47.
Proof.
  split.
  - intros a chi E. unfold sdp47 in E. destruct (Nat.eqb_spec (length a) 3) as [->|]; [|discriminate E]. injection E as <-. reflexivity.
  - intros a f E. injection E as <-. rewrite app_length, repeat_length, firstn_length. cbn [length]. lia.
Qed.

(** ** C47 *)
(** The value reported for a cut is the objective at that assignment, the weight of the edges cut. *)
Theorem C47_value : forall srt uniq sdp mineig cholesky normal g p r m l, graph_wf g -> maxcut_program g = Ok p -> 0 < g_n g -> sized_solvers sdp cholesky ->
  gw_solve srt uniq sdp mineig cholesky normal p = Ok (r, m) -> r_samples r = Some l -> forall s, In s l ->
  bits (g_n g) (s_x s) /\ s_fval s = obj_at (p_obj p) (s_x s) /\
  s_fval s = sumof edge_weight (filter (fun e => negb (qeqb (at_ (s_x s) (fst (fst e))) (at_ (s_x s) (snd (fst e))))) (g_edges g)).
Proof.
  intros srt uniq sdp mineig cholesky normal g p r m l W M Pos Sz E El s Hs. destruct (maxcut_cut g p W M) as [S C]. destruct (maxcut_at g p W M) as (N & _ & _ & _ & _ & _ & V). rewrite <- N in Pos.
  destruct (gw_result _ _ _ _ _ _ _ Sz S Pos _ _ E) as (chi & f & s0 & l0 & _ & _ & _ & Rs & _ & _ & _ & I & _). rewrite El in Rs. injection Rs as ->. destruct (I s Hs) as (B & F & _). rewrite <- V, N in * by now rewrite <- N. split; auto.
  rewrite F, (cut_is_objective p (s_x s)); auto. now rewrite N.
Qed.
(** A cut and its complement have the same value. *)
Theorem C47_complement : forall g p x, graph_wf g -> maxcut_program g = Ok p -> bits (g_n g) x ->
  max_cut_value (mirrored x) (adjacency p) = max_cut_value x (adjacency p) /\ max_cut_value x (adjacency p) = obj_at (p_obj p) x.
Proof.
  intros g p x W M B. destruct (maxcut_cut g p W M) as [S C]. destruct (maxcut_at g p W M) as (N & _). rewrite <- N in B. split; [|now apply cut_is_objective]. apply adj_mirrored. destruct S as [_ S]. destruct B as [-> _]. symmetry. apply S.
Qed.
(** The reported cuts are pairwise different, also up to the names of the sides; each was drawn, each that was drawn is reported,
    a hyperplane being drawn for every row of [normal]. *)
Theorem C47_cuts : forall srt sdp mineig cholesky normal g p r m, graph_wf g -> maxcut_program g = Ok p -> 0 < g_n g -> sized_solvers sdp cholesky ->
  gw_solve srt true sdp mineig cholesky normal p = Ok (r, m) -> exists l chi f, r_samples r = Some l /\ sdp (adjacency p) = SdpSolved chi /\ m = Some chi /\ cholesky (regularised mineig chi) = Ok f /\
    ForallOrdPairs (fun a b => ~ same_cut (s_x a) (s_x b)) l /\
    (forall h, In h normal -> exists x s, cut_by f h x /\ In s l /\ same_cut (s_x s) x) /\
    (forall s, In s l -> exists h x, In h normal /\ cut_by f h x /\ same_cut (s_x s) x) /\ total_prob l = 1%Qc.
Proof.
  intros srt sdp mineig cholesky normal g p r m W M Pos Sz E. destruct (maxcut_cut g p W M) as [S C]. destruct (maxcut_at g p W M) as (N & _). rewrite <- N in Pos.
  destruct (gw_result _ _ _ _ _ _ _ Sz S Pos _ _ E) as (chi & f & s0 & l0 & E1 & E2 & E3 & Rs & _ & _ & _ & I & J & U & _ & T). exists (s0 :: l0), chi, f. split; auto. split; auto. split; auto. split; auto. split; auto. split; auto. split; auto.
  intros s Hs. destruct (I s Hs) as (_ & _ & _ & X). exact X.
Qed.
(** With sorting, the reported answer is the first and a best of the cuts that were drawn. *)
Theorem C47_best : forall uniq sdp mineig cholesky normal g p r m, graph_wf g -> maxcut_program g = Ok p -> 0 < g_n g -> sized_solvers sdp cholesky ->
  gw_solve true uniq sdp mineig cholesky normal p = Ok (r, m) -> exists chi f x, sdp (adjacency p) = SdpSolved chi /\ cholesky (regularised mineig chi) = Ok f /\
    r_x r = Some x /\ feasible p x /\ r_status r = SUCCESS /\ r_fval r = Some (obj_at (p_obj p) x) /\ forall h y, In h normal -> cut_by f h y -> at_least (o_sense (p_obj p)) (obj_at (p_obj p) x) (obj_at (p_obj p) y).
Proof.
  intros uniq sdp mineig cholesky normal g p r m W M Pos Sz E. destruct (maxcut_cut g p W M) as [S C]. destruct (maxcut_at g p W M) as (N & _ & _ & _ & _ & Sn & _). destruct (maxcut_spec g W) as (p' & M' & _ & _ & Fe & _). rewrite M in M'. injection M' as <-. rewrite <- N in Pos, Fe.
  destruct (gw_result _ _ _ _ _ _ _ Sz S Pos _ _ E) as (chi & f & s0 & l0 & E1 & E2 & E3 & Rs & St & Rx & Rf & I & J & _ & So & T). exists chi, f, (s_x s0). destruct (I s0 (or_introl eq_refl)) as (B0 & F0 & _). split; auto. split; auto. split; auto. split; [now apply Fe|]. split; auto.
  assert (forall t, In t (s0 :: l0) -> s_fval t = obj_at (p_obj p) (s_x t)) as Fv. { intros t Ht. destruct (I t Ht) as (B & F & _). rewrite F. now apply cut_is_objective. }
  split; [rewrite Rf; f_equal; apply Fv; now left|]. intros h y Hh Hy. destruct (J h Hh) as (x & t & Hx & Ht & Sc). assert (y = x) as -> by (rewrite (cut_by_fun _ _ _ Hy), (cut_by_fun _ _ _ Hx); reflexivity). rewrite Sn. cbn [at_least].
  assert (obj_at (p_obj p) x = s_fval t) as ->. { destruct (I t Ht) as (B & _). rewrite (Fv t Ht). destruct Sc as [Sx|Sx]; rewrite Sx in *; auto. destruct C as [_ C]. symmetry. apply C. rewrite <- (mirrored_twice x). now apply mirrored_bits. }
  rewrite <- (Fv s0 (or_introl eq_refl)). specialize (So eq_refl). inversion So as [|? ? _ F]; subst. destruct Ht as [<-|Ht]; [apply Qcle_refl|]. rewrite Forall_forall in F. exact (F t Ht).
Qed.
(** It answers whenever the solvers do and at least one cut is drawn. *)
Theorem C47_answers : forall srt uniq sdp mineig cholesky normal g p chi f, graph_wf g -> maxcut_program g = Ok p -> 0 < g_n g -> sized_solvers sdp cholesky ->
  normal <> [] -> sdp (adjacency p) = SdpSolved chi -> cholesky (regularised mineig chi) = Ok f -> exists r, gw_solve srt uniq sdp mineig cholesky normal p = Ok (r, Some chi).
Proof.
  intros srt uniq sdp mineig cholesky normal g p chi f W M Pos Sz Nn E1 E2. destruct (maxcut_cut g p W M) as [S C]. destruct (maxcut_at g p W M) as (N & B & _). rewrite <- N in Pos. eapply gw_total; eauto.
Qed.
(** Four hyperplanes draw 111, 000, 101 and 011: three cuts. *)
Example C47_case : graph_wf ex47 /\ sized_solvers sdp47 chol47 /\ match maxcut_program ex47 with
  | Ok p => max_cut_value [1; 0; 1]%Qc (adjacency p) = qz 5 /\ match gw_solve true true sdp47 (fun _ => qz 1) chol47 normal47 p with
    | Ok (r, Some _) => match r_samples r with Some l => map s_x l = [[qz 0; qz 1; qz 0]; [qz 0; qz 1; qz 1]; [qz 0; qz 0; qz 0]] /\ map s_fval l = [qz 5; qz 3; qz 0] | None => False end
    | _ => False end
  | Err _ => False end.
Proof. split; [repeat constructor|]. split; [exact sized47|]. vm_compute. repeat split; reflexivity. Qed.
Print Assumptions C47_value.
Print Assumptions C47_complement.
Print Assumptions C47_cuts.
Print Assumptions C47_best.
Print Assumptions C47_answers.

(** ** C69 *)
(** Two draws of one variable, 1 and 0 *)
Definition sdp69 (a : ndarray2) : sdp_answer := SdpSolved a.
Definition chol69 (a : ndarray2) : result ndarray2 := Ok (map (fun _ => [qz 1]) a).
Lemma sized69 : sized_solvers sdp69 chol69.
Proof. split; intros a b E; injection E as <-; [reflexivity|apply map_length]. Qed.
(** Linear terms are ignored: for [maximise a] the point 0 is reported with the value 0, and 1 with the value 0. *)
Theorem C69_value_refuted : exists p sdp mineig cholesky normal r m l s, prog_wf p /\ all_binary p /\ shapes (num_vars p) p /\ 0 < num_vars p /\ sized_solvers sdp cholesky /\
  gw_solve true false sdp mineig cholesky normal p = Ok (r, m) /\ r_samples r = Some l /\ In s l /\ feasible p (s_x s) /\ s_fval s <> obj_at (p_obj p) (s_x s).
Proof.
  pose (p := run (new_qp "") [OAddVar 0 1 BINARY (Some "a"); OObjective MAXIMIZE 0 (Some (LDict [(KS "a", qz 1)])) None]).
  destruct (gw_solve true false sdp69 (fun _ => qz 1) chol69 [[qz 1]; [qz (-1)]] p) as [[r m]|] eqn:E; [|vm_compute in E; discriminate E].
  assert (match gw_solve true false sdp69 (fun _ => qz 1) chol69 [[qz 1]; [qz (-1)]] p with Ok (r, _) => match r_samples r with Some (s :: _) => feas_b p (s_x s) && negb (qeqb (s_fval s) (obj_at (p_obj p) (s_x s))) | _ => false end | Err _ => false end = true) as H by (vm_compute; reflexivity).
  rewrite E in H. destruct (r_samples r) as [[|s l]|] eqn:Es; try discriminate H. apply andb_prop in H. destruct H as [H1 H2]. exists p, sdp69, (fun _ => qz 1), chol69, [[qz 1]; [qz (-1)]], r, m, (s :: l), s.
  split; [apply reachable_wf; repeat constructor|]. split; [repeat constructor|]. split; [repeat split; simpl; repeat constructor; simpl; try lia; intuition (try congruence; lia)|]. split; [vm_compute; lia|]. split; [exact sized69|]. split; auto. split; auto. split; [now left|]. split; [now apply feas_b_spec|].
  destruct (qeqb_spec (s_fval s) (obj_at (p_obj p) (s_x s))); [discriminate H2|assumption].
Qed.
(** The sense is ignored: when minimising a cut the largest is reported. *)
Definition chol69b (a : ndarray2) : result ndarray2 := Ok (map (fun i => map (fun j => if Nat.eqb i j then 1%Qc else 0%Qc) (seq 0 (length a))) (seq 0 (length a))).
Definition ex69 (s : objsense) (cons : list op) : qp := run (new_qp "") ([OAddVar 0 1 BINARY (Some "a"); OAddVar 0 1 BINARY (Some "b")] ++ cons ++
  [OObjective s 0 (Some (LDict [(KS "a", qz 1); (KS "b", qz 1)])) (Some (QDict [((KS "a", KS "b"), qz (-2))]))]).
Lemma ex69_cut s : cut_objective (ex69 s []).
Proof.
  split; [destruct s; apply Qc_is_canon; vm_compute; reflexivity|]. intros [|u [|v [|w x]]] [L B]; try (destruct s; discriminate L).
  assert (forall a b : Qc, qeqb a b = true -> a = b) as K by (intros a b H; now destruct (qeqb_spec a b)). apply K. inversion B as [|? ? [->| ->] B1]; subst; inversion B1 as [|? ? [->| ->] _]; subst; destruct s; vm_compute; reflexivity.
Qed.
Lemma sized69b : sized_solvers sdp69 chol69b.
Proof. split; intros a b E; injection E as <-; [reflexivity|now rewrite map_length, seq_length]. Qed.
Theorem C69_sense_refuted : exists p sdp mineig cholesky normal r m l s x, prog_wf p /\ unconstrained_binary p /\ shapes (num_vars p) p /\ cut_objective p /\ sized_solvers sdp cholesky /\
  gw_solve true true sdp mineig cholesky normal p = Ok (r, m) /\ r_samples r = Some l /\ In s l /\ r_x r = Some x /\ ~ at_least (o_sense (p_obj p)) (obj_at (p_obj p) x) (obj_at (p_obj p) (s_x s)).
Proof.
  destruct (gw_solve true true sdp69 (fun _ => qz 1) chol69b [[qz 1; qz 1]; [qz 1; qz (-1)]] (ex69 MINIMIZE [])) as [[r m]|] eqn:E; [|vm_compute in E; discriminate E].
  assert (match gw_solve true true sdp69 (fun _ => qz 1) chol69b [[qz 1; qz 1]; [qz 1; qz (-1)]] (ex69 MINIMIZE []) with
    | Ok (r, _) => match r_samples r, r_x r with Some [s; t], Some x => negb (qleb (obj_at (p_obj (ex69 MINIMIZE [])) x) (obj_at (p_obj (ex69 MINIMIZE [])) (s_x t))) | _, _ => false end | Err _ => false end = true) as H by (vm_compute; reflexivity).
  rewrite E in H. destruct (r_samples r) as [[|s [|t [|? ?]]]|] eqn:Es; try discriminate H. destruct (r_x r) as [x|] eqn:Ex; [|discriminate H].
  exists (ex69 MINIMIZE []), sdp69, (fun _ => qz 1), chol69b, [[qz 1; qz 1]; [qz 1; qz (-1)]], r, m, [s; t], t, x.
  split; [apply reachable_wf; repeat constructor|]. split; [repeat constructor|]. split; [repeat split; simpl; repeat constructor; simpl; try lia; intuition (try congruence; lia)|]. split; [apply ex69_cut|]. split; [exact sized69b|]. split; auto. split; auto. split; [right; now left|]. split; auto.
  change (o_sense (p_obj (ex69 MINIMIZE []))) with MINIMIZE. cbn [at_least]. match type of H with negb (qleb ?a ?b) = true => destruct (qleb_spec a b); [discriminate H|assumption] end.
Qed.
(** Constraints are ignored: the infeasible point is reported with status SUCCESS. *)
Theorem C69_status_refuted : exists p sdp mineig cholesky normal r m x, prog_wf p /\ all_binary p /\ shapes (num_vars p) p /\ cut_objective p /\ sized_solvers sdp cholesky /\
  gw_solve true true sdp mineig cholesky normal p = Ok (r, m) /\ r_x r = Some x /\ ~ accepts p x /\ r_status r = SUCCESS.
Proof.
  pose (p := ex69 MAXIMIZE [OLinCon (Some (LDict [(KS "b", qz 1)])) (SVal LE) 0 (Some "c")]).
  destruct (gw_solve true true sdp69 (fun _ => qz 1) chol69b [[qz 1; qz 1]; [qz 1; qz (-1)]] p) as [[r m]|] eqn:E; [|vm_compute in E; discriminate E].
  assert (match gw_solve true true sdp69 (fun _ => qz 1) chol69b [[qz 1; qz 1]; [qz 1; qz (-1)]] p with
    | Ok (r, _) => match r_x r, r_status r with Some x, SUCCESS => match p_lcs p with [c] => negb (qleb (lc_at c x) (lc_rhs c + qz 1 / qz 2)) | _ => false end | _, _ => false end | Err _ => false end = true) as H by (vm_compute; reflexivity).
  rewrite E in H. destruct (r_x r) as [x|] eqn:Ex; [|discriminate H]. destruct (r_status r) eqn:Est; try discriminate H.
  exists p, sdp69, (fun _ => qz 1), chol69b, [[qz 1; qz 1]; [qz 1; qz (-1)]], r, m, x.
  split; [apply reachable_wf; repeat constructor|]. split; [repeat constructor|]. split; [repeat split; simpl; repeat constructor; simpl; try lia; intuition (try congruence; lia)|]. split.
  { destruct (ex69_cut MAXIMIZE) as [C0 C1]. split; [exact C0|exact C1]. }
  split; [exact sized69b|]. split; auto. split; auto. split; [|assumption]. intros (_ & F & _). destruct (p_lcs p) as [|c [|? ?]] eqn:Ec; try discriminate H. inversion F as [|? ? Hc _]; subst.
  assert (lc_sense c = LE) as Sc by (vm_compute in Ec; injection Ec as <-; reflexivity). rewrite Sc in Hc. cbn [holds_close] in Hc. destruct (qleb_spec (lc_at c x) (lc_rhs c + qz 1 / qz 2)) as [|X]; [discriminate H|]. apply X.
  eapply Qcle_trans; [exact Hc|]. rewrite <- (Qcplus_0_r (lc_rhs c)) at 1. apply Qcplus_le_compat; [apply Qcle_refl|]. vm_compute. discriminate.
Qed.
(** If the solver of the semidefinite program fails, no FAILURE result is returned: the empty point does not fit the variables. *)
Theorem C69_failure_refuted : exists p, prog_wf p /\ unconstrained_binary p /\ cut_objective p /\ gw_compatible p = true /\
  forall srt uniq sdp mineig cholesky normal, sdp (adjacency p) = SdpFails -> gw_solve srt uniq sdp mineig cholesky normal p = Err QiskitOptimizationError.
Proof.
  exists (ex69 MAXIMIZE []). split; [apply reachable_wf; repeat constructor|]. split; [repeat constructor|]. split; [apply ex69_cut|]. split; [reflexivity|]. intros srt uniq sdp mineig cholesky normal E. unfold gw_solve. rewrite E. reflexivity.
Qed.
(** ... and that is so for every problem with variables. *)
Theorem C69_failure_raises : forall srt uniq sdp mineig cholesky normal p, 0 < num_vars p -> sdp (adjacency p) = SdpFails -> gw_solve srt uniq sdp mineig cholesky normal p = Err QiskitOptimizationError.
Proof.
  intros srt uniq sdp mineig cholesky normal p Pos E. unfold gw_solve. destruct (gw_compatible p); [|reflexivity]. cbn [check bind]. cbv zeta. rewrite E. unfold make_result. fold (num_vars p). destruct (Nat.eqb_spec (@length Qc []) (num_vars p)) as [X|X]; [cbn in X; lia|reflexivity].
Qed.
(** Only for the problem without variables the failure is returned as a result. *)
Theorem C69_failure_empty : forall srt uniq sdp mineig cholesky normal p, num_vars p = 0 -> sdp (adjacency p) = SdpFails ->
  exists r, gw_solve srt uniq sdp mineig cholesky normal p = Ok (r, None) /\ r_status r = FAILURE /\ r_x r = Some [] /\ r_fval r = Some 0%Qc /\ exists s, r_samples r = Some [s] /\ s_x s = [] /\ s_fval s = 0%Qc /\ s_prob s = 1%Qc /\ s_status s = FAILURE.
Proof.
  intros srt uniq sdp mineig cholesky normal p Z E. unfold gw_solve. assert (p_vars p = []) as V by (apply length_zero_iff_nil; exact Z). assert (gw_compatible p = true) as -> by (unfold gw_compatible, count_type, num_vars; rewrite V; reflexivity).
  cbn [check bind]. cbv zeta. rewrite E. unfold make_result. rewrite V. eexists. split; [reflexivity|]. split; [reflexivity|]. split; [reflexivity|]. split; [reflexivity|]. eexists. split; [reflexivity|]. auto.
Qed.
(** For cut objectives, if all assignments are feasible, values and states are those of the problem; the answer is a best sample when
    maximising with sorting.  Missing: other objectives, constraints, minimisation, failures of the solver. *)
Theorem C69_partial : forall srt uniq sdp mineig cholesky normal p r m, obj_shaped p -> cut_objective p -> 0 < num_vars p -> (forall x, bits (num_vars p) x -> feasible p x) -> sized_solvers sdp cholesky ->
  gw_solve srt uniq sdp mineig cholesky normal p = Ok (r, m) -> exists x l, r_x r = Some x /\ r_samples r = Some l /\ (exists s, In s l /\ s_x s = x) /\ feasible p x /\ r_status r = SUCCESS /\ r_fval r = Some (obj_at (p_obj p) x) /\
    forall s, In s l -> feasible p (s_x s) /\ s_status s = SUCCESS /\ s_fval s = obj_at (p_obj p) (s_x s) /\ (srt = true -> o_sense (p_obj p) = MAXIMIZE -> at_least (o_sense (p_obj p)) (obj_at (p_obj p) x) (s_fval s)).
Proof.
  intros srt uniq sdp mineig cholesky normal p r m S C Pos Fe Sz E.
  destruct (gw_result _ _ _ _ _ _ _ Sz S Pos _ _ E) as (chi & f & s0 & l0 & E1 & E2 & E3 & Rs & St & Rx & Rf & I & J & _ & So & T). exists (s_x s0), (s0 :: l0).
  assert (forall t, In t (s0 :: l0) -> s_fval t = obj_at (p_obj p) (s_x t)) as Fv. { intros t Ht. destruct (I t Ht) as (B & F & _). rewrite F. now apply cut_is_objective. }
  split; auto. split; auto. split; [exists s0; split; auto; now left|]. destruct (I s0 (or_introl eq_refl)) as (B0 & F0 & _). split; auto. split; auto. split; [rewrite Rf; f_equal; apply Fv; now left|].
  intros s Hs. destruct (I s Hs) as (B & F & Ss & _). split; auto. split; auto. split; auto. intros Es Sn. rewrite Sn. cbn [at_least]. rewrite <- (Fv s0 (or_introl eq_refl)). specialize (So Es). inversion So as [|? ? _ Fs]; subst.
  destruct Hs as [<-|Hs]; [apply Qcle_refl|]. rewrite Forall_forall in Fs. exact (Fs s Hs).
Qed.
Example C69_case : prog_wf (ex69 MAXIMIZE []) /\ cut_objective (ex69 MAXIMIZE []) /\ sized_solvers sdp69 chol69b /\
  match gw_solve true true sdp69 (fun _ => qz 1) chol69b [[qz 1; qz 1]; [qz 1; qz (-1)]] (ex69 MAXIMIZE []) with
  | Ok (r, _) => match r_x r, r_fval r, r_samples r with Some x, Some v, Some l => x = [qz 0; qz 1] /\ v = qz 1 /\ map s_fval l = [qz 1; qz 0] | _, _, _ => False end | Err _ => False end.
Proof. split; [apply reachable_wf; repeat constructor|]. split; [apply ex69_cut|]. split; [exact sized69b|]. vm_compute. repeat split; reflexivity. Qed.
Print Assumptions C69_value_refuted.
Print Assumptions C69_sense_refuted.
Print Assumptions C69_status_refuted.
Print Assumptions C69_failure_refuted.
Print Assumptions C69_failure_raises.
Print Assumptions C69_failure_empty.
Print Assumptions C69_partial.
