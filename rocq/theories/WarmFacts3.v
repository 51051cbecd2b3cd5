(** * Facts about the warm start optimizer with the default converter *)
From Verif Require Export WarmFacts2.
From Coq Require Import Permutation.
Local Open Scope string_scope.
Local Open Scope list_scope.
Local Open Scope nat_scope.

Section Default.
Variables (pen : option Qc) (p : qp) (r : qubo_run) (w : warm_opt).
Hypothesis W : prog_wf p.
Hypothesis H : to_qubo pen p = Ok r.
Hypothesis Cv : w_convs w = default_converters pen.
Let q := r_qubo r.
Lemma warm_convert : convert_all (w_convs w) p = Ok (q, [qubo_interpret r]).
Proof using H Cv. rewrite Cv. unfold convert_all, default_converters, qubo_converter; cbn [foldM fst snd]; rewrite H; reflexivity. Qed.
Lemma warm_ising : exists op off, to_ising q = Ok (op, off).
Proof using W H.
  destruct (qubo_wf pen p r H) as (_ & _ & W3). destruct (qubo_unconstrained pen p r W H) as [U _]. pose proof (qubo_obj_shaped pen p r W H) as ((_ & D1) & (_ & D2)).
  apply (to_ising_ok (r_qubo r) (proj1 (proj2 (proj2 (proj2 (proj2 W3))))) U). split; lia.
Qed.
Lemma decodes_one x y : decodes [qubo_interpret r] x y -> qubo_interpret r x = Ok y.
Proof using. intros (z & -> & D). exact D. Qed.
Lemma one_decodes x y : qubo_interpret r x = Ok y -> decodes [qubo_interpret r] x y.
Proof using. intro E. exists x. split; [reflexivity|exact E]. Qed.
Hypothesis B : all_binary p.
Hypothesis Pos : 0 < num_vars q.
Hypothesis Ag : w_agg w = Some mean_aggregate.
Hypothesis Num : 2 <= w_num w.
Variables (pr : opt_result) (pres : list sample).
Hypothesis Pre : w_pre w (if w_relax w then relax_problem q else q) = Ok pr.
Hypothesis Ps : r_samples pr = Some pres.
Hypothesis Lp : 2 <= length pres.

Lemma warm_bits x y : bits (num_vars q) x -> decodes [qubo_interpret r] x y -> bits (num_vars p) y.
Proof using W B H. intros Bx D. eapply binary_bits; eauto. now apply decodes_one. Qed.
(** With slack variables the second interpretation fails. *)
Lemma slack_fails : (forall iv op off o, to_ising q = Ok (op, off) -> w_qaoa w iv op = Ok o -> exists e, o = Some e /\ sized_state (num_vars q) e) ->
  num_vars q <> num_vars p -> forall m, warm_solve w p <> Ok m.
Proof using All.
  intros Sv Ne m M. destruct warm_ising as (op & off & Hi). destruct (qubo_wf pen p r H) as (_ & _ & Wq). pose proof (qubo_obj_shaped pen p r W H) as Sq.
  destruct (several_inv w p q _ op off pr pres warm_convert Hi Ag Num Pre Ps m Lp M) as (results & out & s & l & E & E2 & Es & res & E3 & _).
  destruct (runs_good w p q _ op off W Wq Hi Sq Pos warm_bits (fun iv o => Sv iv op off o Hi) _ _ E) as (ls & S & G & _).
  destruct (aggregate_points _ ls S) as (out' & E2' & _ & A & _). { eapply Forall_impl; [|exact G]. intros l1 G1. eapply Forall_impl; [|exact G1]. intros t [Bt _]. eapply bits_decimal; eauto. }
  assert (out' = out) as -> by congruence. destruct (raw_first _ _ _ _ Es) as [Hin _]. destruct (A s Hin) as (_ & m0 & Pk & _ & _ & t & Ht & _). destruct (picks_member _ _ _ t Pk Ht) as [Et Ht'].
  apply in_concat in Ht'. destruct Ht' as (l1 & H1 & Ht'). rewrite Forall_forall in G. specialize (G l1 H1). unfold good_samples in G. rewrite Forall_forall in G. destruct (G t Ht') as [[Lt _] _]. rewrite Et in Lt.
  destruct (interpret_spec _ _ _ _ _ W E3) as (y & D & _). apply decodes_one in D. unfold qubo_interpret, pen_interpret in D. rewrite <- (qubo_bin_size pen p r W H) in D. rewrite Lt in D.
  destruct (num_vars p =? num_vars (r_qubo r)) eqn:En; [apply Nat.eqb_eq in En; unfold q in Ne; congruence|discriminate D].
Qed.
Lemma same_keeps : num_vars q = num_vars p -> keeps_bits [qubo_interpret r] (num_vars p).
Proof using W B H. intros Sz x [L _]. apply one_decodes. eapply same_size_identity; eauto. Qed.
Lemma same_total op off : shapes (num_vars p) p -> num_vars q = num_vars p -> r_status pr = SUCCESS -> to_ising q = Ok (op, off) ->
  (forall iv, exists e, w_qaoa w iv op = Ok (Some e) /\ sized_state (num_vars q) e /\ exists x f, kept q e x f) -> exists m, warm_solve w p = Ok m.
Proof using All.
  intros Sh Sz St Hi Sv. destruct (qubo_wf pen p r H) as (_ & _ & Wq). pose proof (qubo_obj_shaped pen p r W H) as Sq. pose proof (same_keeps Sz) as Kb. destruct (qubo_inv pen p r H) as (Cm & _).
  assert (forall l0, exists results, mapM (fun s => solve_internal (w_qaoa w (initial_variables (w_eps w) (s_x s))) op off q p [qubo_interpret r]) l0 = Ok results) as Run.
  { induction l0 as [|s l0 [results IH]]; [exists []; reflexivity|]. destruct (Sv (initial_variables (w_eps w) (s_x s))) as (e & Es & Se & K). cbn [mapM].
    destruct (internal_total (w_qaoa w (initial_variables (w_eps w) (s_x s))) op off q p [qubo_interpret r] e W (to_ising_n _ _ _ Wq Hi) Pos Sq Se Es Sh) as [m Em]; auto.
    { intros x Bx. exists x. rewrite Sz in Bx. split; [apply Kb; auto|apply Bx]. } rewrite Em, IH. cbn [bind]. eauto. }
  destruct (Run (firstn (w_num w) pres)) as (results & E). pose proof (mapM_length _ _ _ E) as Lr. rewrite firstn_length in Lr.
  assert (forall iv o, w_qaoa w iv op = Ok o -> exists e, o = Some e /\ sized_state (num_vars q) e) as Sv'. { intros iv o Eo. destruct (Sv iv) as (e & Es & Se & _). exists e. split; auto. congruence. }
  destruct (runs_good w p q _ op off W Wq Hi Sq Pos warm_bits Sv' _ _ E) as (ls & S & G & N).
  destruct (aggregate_points _ ls S) as (out & E2 & _ & A & Cov). { eapply Forall_impl; [|exact G]. intros l1 G1. eapply Forall_impl; [|exact G1]. intros t [Bt _]. eapply bits_decimal; eauto. }
  unfold warm_solve. rewrite Cm. cbn [check bind]. rewrite warm_convert. cbn [bind fst snd]. cbv zeta. rewrite Pre. cbn [bind]. rewrite St. cbn [check bind]. rewrite Ps. cbn [bind]. rewrite Hi. cbn [bind fst snd].
  assert (firstn (Nat.min (w_num w) (length pres)) pres = firstn (w_num w) pres) as -> by (destruct (Nat.le_gt_cases (w_num w) (length pres)); [now rewrite Nat.min_l|rewrite Nat.min_r, !firstn_all2 by lia; auto]).
  rewrite E. cbn [bind]. rewrite Ag, E2. cbn [bind].
  destruct results as [|r1 [|r2 rs]]; [cbn in Lr; lia|cbn in Lr; lia|].
  pose proof (sort_perm (raw_lt (o_sense (p_obj q))) out) as P. destruct (sort_by (raw_lt (o_sense (p_obj q))) out) as [|s l] eqn:Es.
  { exfalso. apply Permutation_nil in P. subst out. inversion S as [|? l1 ? ls' R1 S']; subst. inversion N as [|? ? N1 _]; subst. destruct l1 as [|t l1]; [easy|]. destruct (Cov t) as (s & [] & _). now left. }
  destruct (raw_first _ _ _ _ Es) as [Hin _]. destruct (A s Hin) as (_ & m0 & Pk & _ & _ & t & Ht & _). destruct (picks_member _ _ _ t Pk Ht) as [Et Ht'].
  apply in_concat in Ht'. destruct Ht' as (l1 & H1 & Ht'). rewrite Forall_forall in G. specialize (G l1 H1). unfold good_samples in G. rewrite Forall_forall in G. destruct (G t Ht') as [Bt _]. rewrite Et in Bt.
  destruct (interpret_total p [qubo_interpret r] (s :: l) (s_x s) (s_x s) Sh (Kb _ Bt) (proj1 Bt)) as [res ->]. cbn [bind]. eauto.
Qed.
End Default.

(** ** The relaxed problem *)
Lemma relax_feasible p x : feasible p x -> feasible (relax_problem p) x.
Proof.
  intros (B & T & L). split; [|split]; auto.
  - unfold in_bounds, relax_problem, set_vars in *. cbn [p_vars] in *. clear -B. induction B; cbn [map]; constructor; auto.
  - unfold typed, relax_problem, set_vars in *. cbn [p_vars] in *. clear -T. induction T; cbn [map]; constructor; auto; cbn; auto.
Qed.
