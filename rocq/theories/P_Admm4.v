(** * C95: ADMM answers when its optimizers do *)
From Verif Require Import AdmmTotal ConvTotal ConvMore CplexFacts P_Admm P_Admm2.
Local Open Scope string_scope.
Local Open Scope list_scope.
Local Open Scope nat_scope.

(** The problem and the subproblems are written out for debug messages, printed or not: a constraint without coefficients that does not hold ends the run with docplex's exception,
    whatever the optimizers say. *)
Theorem C95_log : forall qubo cont norm late pr p, prog_wf p -> shapes (num_vars p) p -> admm_compatible p = Ok true -> never p ->
  admm_solve qubo cont norm late pr p = Err DOcplexException.
Proof. exact never_raises. Qed.
Definition ex95 : qp := run ex50 [OLinCon None (SStr ">=") 1%Qc (Some "n")].
Lemma ones_all : answers_all ones.
Proof. intros k q. eexists. split; [reflexivity|apply repeat_length]. Qed.
Lemma third_all : answers_all third.
Proof. intros k q. eexists. split; [reflexivity|apply repeat_length]. Qed.
Theorem C95_log_refuted : exists qubo cont norm late pr p, answers_all qubo /\ answers_all cont /\ prog_wf p /\ shapes (num_vars p) p /\ admm_compatible p = Ok true /\ 0 < ap_maxiter pr /\ (ap_tol pr < qz 100)%Qc /\
  (forall k, late k = false) /\ (forall x, ~ feasible p x) /\ admm_solve qubo cont norm late pr p = Err DOcplexException.
Proof.
  exists ones, third, norm1, (fun _ => false), default_params, ex95. split; [apply ones_all|]. split; [apply third_all|].
  assert (prog_wf ex95) as W by (apply run_prog_wf; [repeat constructor|apply reachable_wf; repeat constructor]).
  assert (shapes (num_vars ex95) ex95) as S by (vm_compute; repeat split; repeat constructor; simpl; try lia; intuition (try congruence; lia)).
  assert (admm_compatible ex95 = Ok true) as C by (vm_compute; reflexivity).
  assert (existsb (fun c => match le_co (lc_lin c), lc_sense c with [], GE => qeqb (lc_rhs c) 1 | _, _ => false end) (p_lcs ex95) = true) as X by (vm_compute; reflexivity).
  apply existsb_exists in X. destruct X as (c & Hc & X). destruct (le_co (lc_lin c)) eqn:E1; [|discriminate X]. destruct (lc_sense c) eqn:E2; try discriminate X. apply qeqb_iff in X. rename X into E3.
  assert (never ex95) as N. { left. exists c. split; [exact Hc|]. split; [exact E1|]. unfold void_false. rewrite E2, E3. cbn [holds]. intro K. qlra. }
  split; [exact W|]. split; [exact S|]. split; [exact C|]. split; [cbn; lia|]. split; [reflexivity|]. split; [reflexivity|]. split.
  - intros x (_ & _ & L & Q). exact (never_holds ex95 x L Q N).
  - exact (C95_log _ _ _ _ _ _ W S C N).
Qed.
(** Otherwise, when both optimizers answer every problem, there is a result exactly if a round is made: the parameters allow one and the time is not over before it;
    if none is made the minimum of no merits gives ValueError (admm_optimizer.py:791). *)
Theorem C95_answers_partial : forall qubo cont norm late pr p q tbl, answers_all qubo -> answers_all cont -> prog_wf p -> shapes (num_vars p) p -> bits_reach p -> admm_compatible p = Ok true ->
  int_to_bin p = Ok (q, tbl) -> ~ never p -> ~ never q ->
  ((exists r, admm_solve qubo cont norm late pr p = Ok r) <-> 0 < ap_maxiter pr /\ (ap_tol pr < qz 100)%Qc /\ late 0 = false) /\
  (~ (0 < ap_maxiter pr /\ (ap_tol pr < qz 100)%Qc /\ late 0 = false) -> admm_solve qubo cont norm late pr p = Err ValueError).
Proof.
  intros qubo cont norm late pr p q tbl Aq Ac W S B C I Np Nq. split; [split|].
  - intros (r & E). split; [|split].
    + destruct (ap_maxiter pr) eqn:K; [|lia]. exfalso. eapply no_round; [|exact E]. auto.
    + destruct (qltb_spec (ap_tol pr) (qz 100)) as [K|K]; [exact K|]. exfalso. eapply no_round; [|exact E]. right; left. qlra.
    + destruct (late 0) eqn:K; [|reflexivity]. exfalso. eapply no_round; [|exact E]. auto.
  - intros (M & T & L). eapply solve_total; eauto.
  - intro N. eapply no_round_error; eauto. destruct (ap_maxiter pr) as [|m]; [auto|]. destruct (late 0); [auto|]. right. left.
    destruct (qltb_spec (ap_tol pr) (qz 100)) as [K|K]; [exfalso; apply N; repeat split; auto; lia|qlra].
Qed.
(** So for every problem that has a feasible point. *)
Theorem C95_feasible_partial : forall qubo cont norm late pr p x, answers_all qubo -> answers_all cont -> prog_wf p -> shapes (num_vars p) p -> safe p -> int_bounds p -> proper_ranges p -> bits_free p ->
  admm_compatible p = Ok true -> feasible p x -> 0 < ap_maxiter pr -> (ap_tol pr < qz 100)%Qc -> late 0 = false -> exists r, admm_solve qubo cont norm late pr p = Ok r.
Proof.
  intros qubo cont norm late pr p x Aq Ac W S Sf IB PR BF C Fx M T L. destruct (int_to_bin_total p W (shapes_fit p S) PR BF) as ([q tbl] & I).
  destruct (i2b_complete p q tbl W I x Sf IB Fx) as (y & (_ & _ & Y1 & Y2) & _). destruct Fx as (B & Ty & F1 & F2).
  apply (C95_answers_partial qubo cont norm late pr p q tbl); auto; [|eapply never_holds; eauto|eapply never_holds; eauto].
  unfold bits_reach. unfold in_bounds in B. unfold typed in Ty. clear - B Ty. revert Ty. induction B as [|v a l m R B IH]; intro Ty; constructor; inversion Ty as [|? ? ? ? H1 H2]; subst; [|auto].
  intro K. unfold has_type in H1. rewrite K in H1. destruct R as [R _]. destruct H1 as [-> | ->]; qlra.
Qed.
(** And whatever the optimizers do: when a round is made, the only errors are theirs. *)
Theorem C95_errors_partial : forall qubo cont norm late pr p q tbl e, prog_wf p -> shapes (num_vars p) p -> bits_reach p -> admm_compatible p = Ok true ->
  int_to_bin p = Ok (q, tbl) -> ~ never p -> ~ never q -> 0 < ap_maxiter pr -> (ap_tol pr < qz 100)%Qc -> late 0 = false ->
  admm_solve qubo cont norm late pr p = Err e -> at_fault qubo e \/ at_fault cont e.
Proof.
  intros qubo cont norm late pr p q tbl e W S B C I Np Nq M T L E. destruct (blame_solve qubo cont norm late pr p) as [E2|(e' & E2 & He)].
  - destruct (proj1 (C95_answers_partial (mended qubo) (mended cont) norm late pr p q tbl (mended_all _) (mended_all _) W S B C I Np Nq)) as [_ K].
    destruct K as [r K]; auto. congruence.
  - rewrite E in E2. injection E2 as ->. exact He.
Qed.
(** A feasible problem with integer, binary and continuous variables, two kinds of constraints, and one without coefficients that holds *)
Definition ex95i : qp := run (new_qp "") [OAddVar 0 1 BINARY (Some "a"); OAddVar 0 (qz 10) CONTINUOUS (Some "u"); OAddVar (qz (-2)) (qz 3) INTEGER (Some "i");
  OObjective MAXIMIZE (qz 7) (Some (LDict [(KS "a", qz 2); (KS "i", qz 3); (KS "u", 1%Qc)])) (Some (QDict [((KS "a", KS "i"), qz 4); ((KS "u", KS "u"), qz (-1))]));
  OLinCon (Some (LDict [(KS "a", 1%Qc); (KS "u", 1%Qc)])) (SStr "<=") (qz 3) (Some "c0"); OLinCon (Some (LDict [(KS "a", 1%Qc); (KS "i", 1%Qc)])) (SStr "=") (qz 1) (Some "c1");
  OLinCon None (SStr "<=") 1%Qc (Some "n"); OQuadCon None (Some (QDict [((KS "u", KS "i"), 1%Qc)])) (SStr ">=") (qz 0) (Some "q")].
Example C95_case : prog_wf ex95i /\ shapes (num_vars ex95i) ex95i /\ safe ex95i /\ int_bounds ex95i /\ proper_ranges ex95i /\ bits_free ex95i /\ admm_compatible ex95i = Ok true /\ feasible ex95i [1; qz 2; 0]%Qc /\
  match admm_solve ones third norm1 (fun _ => false) default_params ex95i with Ok (_, (_, s)) => length (i_res s) | _ => 0 end = 10 /\
  admm_solve ones third norm1 (fun _ => true) default_params ex95i = Err ValueError /\
  match admm_solve ones third norm1 (fun _ => false) default_params ex95 with Err e => Some e | _ => None end = Some DOcplexException.
Proof.
  split; [apply reachable_wf; repeat constructor|]. split; [vm_compute; repeat split; repeat constructor; simpl; try lia; intuition (try congruence; lia)|].
  split; [apply safe_b_ok; vm_compute; reflexivity|]. split; [unfold int_bounds; repeat apply Forall_cons; try apply Forall_nil; try discriminate; intros _; split; apply integral_qz|].
  split; [unfold proper_ranges; repeat apply Forall_cons; try apply Forall_nil; try discriminate; intros _; reflexivity|].
  split. { assert (forallb (fun v => match v_type v with INTEGER => String.eqb (v_name v) "i" | _ => String.eqb (v_name v) "a" || String.eqb (v_name v) "u" end) (p_vars ex95i) = true) as F by (vm_compute; reflexivity).
    intros v w k Hv Hw Tv Tw K. rewrite forallb_forall in F. pose proof (F v Hv) as Fv. specialize (F w Hw). clear Hv Hw. cbv beta in *. rewrite Tv in Fv. apply String.eqb_eq in Fv. rewrite Fv in K.
    assert (v_name w = "a" \/ v_name w = "u") as [E|E]; [|rewrite E in K; discriminate K|rewrite E in K; discriminate K]. destruct (v_type w); try congruence; apply orb_prop in F; destruct F as [F|F]; apply String.eqb_eq in F; auto. }
  split; [vm_compute; reflexivity|]. split; [apply feas_b_spec; vm_compute; reflexivity|]. vm_compute. auto.
Qed.
(** An optimizer that raises at the third round, and one that gives points of a wrong size *)
Example C95_errors_case :
  match admm_solve ones (fun k q => if k <? 2 then third k q else Err KeyError) norm1 (fun _ => false) default_params ex95i with Err e => Some e | _ => None end = Some KeyError /\
  match admm_solve (fun _ _ => Ok [1%Qc]) third norm1 (fun _ => false) default_params ex95i with Err e => Some e | _ => None end = Some QiskitOptimizationError.
Proof. vm_compute. auto. Qed.

Print Assumptions C95_log.
Print Assumptions C95_log_refuted.
Print Assumptions C95_answers_partial.
Print Assumptions C95_feasible_partial.
Print Assumptions C95_errors_partial.
