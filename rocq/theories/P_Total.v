(** * C70: the conversions succeed on the programs they support *)
From Verif Require Import ConvTotal ConvMore.
Local Open Scope string_scope.
Local Open Scope list_scope.
Local Open Scope nat_scope.

(** ** C70 *)
(** Refuted: c@int_slack + b <= 1, the constraint being called c; its slack variable would be called c@int_slack. *)
Theorem C70_slack_name_refuted : exists p x, prog_wf p /\ dims_fit p /\ qubo_compatible p = true /\ proper_ranges p /\ feasible p x /\
  to_qubo None p = Err QiskitOptimizationError /\ ineq_to_eq MInteger p = Err QiskitOptimizationError.
Proof.
  exists (run (new_qp "") [OAddVar 0 1 BINARY (Some "c@int_slack"); OAddVar 0 1 BINARY (Some "b");
    OLinCon (Some (LDict [(KS "c@int_slack", 1%Qc); (KS "b", 1%Qc)])) (SVal LE) 1 (Some "c")]), [1%Qc; 0%Qc].
  split; [apply reachable_wf; repeat constructor|]. split; [repeat split; cbn; repeat constructor|]. split; [reflexivity|]. split; [repeat constructor; discriminate|].
  split; [apply feas_b_spec; vm_compute; reflexivity|]. split; reflexivity.
Qed.
(** Refuted: a linear and a quadratic inequality of the same name need slack variables of the same name. *)
Theorem C70_shared_name_refuted : exists p x, prog_wf p /\ dims_fit p /\ no_at p /\ feasible p x /\
  ineq_to_eq MInteger p = Err QiskitOptimizationError /\ ineq_to_eq MContinuous p = Err QiskitOptimizationError /\ ineq_to_eq MAuto p = Err QiskitOptimizationError.
Proof.
  exists (run (new_qp "") [OAddVar 0 1 BINARY (Some "a"); OAddVar 0 1 BINARY (Some "b");
    OLinCon (Some (LDict [(KS "a", 1%Qc); (KS "b", 1%Qc)])) (SVal LE) 1 (Some "c");
    OQuadCon None (Some (QDict [((KS "a", KS "b"), qz 2)])) (SVal LE) 1 (Some "c")]), [1%Qc; 0%Qc].
  split; [apply reachable_wf; repeat constructor|]. split; [repeat split; cbn; repeat constructor|]. split; [repeat constructor|].
  split; [apply feas_b_spec; vm_compute; reflexivity|]. repeat split; vm_compute; reflexivity.
Qed.
(** Refuted: the integer variable x and the binary variable x@0. *)
Theorem C70_bit_name_refuted : exists p x, prog_wf p /\ dims_fit p /\ qubo_compatible p = true /\ slack_free p /\ proper_ranges p /\ feasible p x /\
  to_qubo None p = Err QiskitOptimizationError /\ int_to_bin p = Err QiskitOptimizationError.
Proof.
  exists (run (new_qp "") [OAddVar 0 (qz 3) INTEGER (Some "x"); OAddVar 0 1 BINARY (Some "x@0")]), [1%Qc; 0%Qc].
  split; [apply reachable_wf; repeat constructor|]. split; [repeat split; cbn; repeat constructor|]. split; [reflexivity|]. split; [split; intros c []|].
  split; [repeat constructor; intros _; reflexivity|]. split; [apply feas_b_spec; vm_compute; reflexivity|]. split; reflexivity.
Qed.
(** Refuted: an integer variable with one value. *)
Theorem C70_fixed_refuted : exists p x, prog_wf p /\ dims_fit p /\ qubo_compatible p = true /\ no_at p /\ feasible p x /\
  to_qubo None p = Err OverflowError /\ int_to_bin p = Err OverflowError.
Proof.
  exists (run (new_qp "") [OAddVar (qz 2) (qz 2) INTEGER (Some "x")]), [qz 2].
  split; [apply reachable_wf; repeat constructor|]. split; [repeat split; cbn; repeat constructor|]. split; [reflexivity|]. split; [repeat constructor|].
  split; [apply feas_b_spec; vm_compute; reflexivity|]. split; reflexivity.
Qed.
(** What holds: apart from these cases every supported program is converted. *)
Theorem C70_inequalities_partial mode p : prog_wf p -> dims_fit p -> slack_free p -> mode <> MOther -> (mode = MInteger -> int_ineqs p) ->
  exists q, ineq_to_eq mode p = Ok q /\ length (p_lcs q) = length (p_lcs p) /\ length (p_qcs q) = length (p_qcs p) /\
    map lc_name (p_lcs q) = map lc_name (p_lcs p) /\ map qc_name (p_qcs q) = map qc_name (p_qcs p).
Proof.
  intros W D S M I. destruct (ineq_total mode p W D S M I) as (q & E & R). exists q. split; [exact E|]. destruct R as [_ _ R1 R2].
  rewrite <- (map_length lc_name (p_lcs q)), <- (map_length qc_name (p_qcs q)), R1, R2, !map_length. auto.
Qed.
Theorem C70_integers_partial p : prog_wf p -> dims_fit p -> proper_ranges p -> bits_free p -> exists q t, int_to_bin p = Ok (q, t).
Proof. intros W D R B. destruct (int_to_bin_total p W D R B) as [[q t] E]. eauto. Qed.
Theorem C70_penalty c p : prog_wf p -> dims_fit p -> (all_equations p <-> exists q, penalize c p = Ok q).
Proof.
  intros W D. split; [apply penalize_total; auto|]. intros [q E]. destruct (penalize_spec _ _ _ W E) as (_ & _ & _ & _ & A & _). exact A.
Qed.
Theorem C70_qubo_partial pen p : prog_wf p -> dims_fit p -> slack_free p -> proper_ranges p -> bits_free p -> slack_bits_free p ->
  (qubo_compatible p = true <-> exists r, to_qubo pen p = Ok r).
Proof.
  intros W D S R B SB. split; [intro C; now apply to_qubo_total|]. intros [r E]. unfold to_qubo in E. destruct (qubo_compatible p); [reflexivity|discriminate].
Qed.
(** In particular it is enough that no variable name contains @. *)
Theorem C70_plain_names_partial pen p : prog_wf p -> dims_fit p -> no_at p -> proper_ranges p -> qubo_compatible p = true -> exists r, to_qubo pen p = Ok r.
Proof.
  intros W D N R C. pose proof C as K. apply qubo_compatible_iff in K. destruct K as (_ & Q & _).
  destruct (no_at_free p N) as (A & B & E); [|now apply to_qubo_total]. unfold quad_ineqs. rewrite Q. intros c _ [].
Qed.
(** x in 0..5, b: x + b <= 4 and x - 2b >= 0; the bits of x and of both slack variables stand in the QUBO. *)
Example C70_case : let p := run (new_qp "") [OAddVar 0 (qz 5) INTEGER (Some "x"); OAddVar 0 1 BINARY (Some "b");
    OLinCon (Some (LDict [(KS "x", 1%Qc); (KS "b", 1%Qc)])) (SVal LE) (qz 4) (Some "c"); OLinCon (Some (LDict [(KS "x", 1%Qc); (KS "b", - qz 2)%Qc])) (SVal GE) 0 (Some "d")] in
  (prog_wf p /\ dims_fit p /\ no_at p /\ proper_ranges p /\ qubo_compatible p = true) /\
  match to_qubo None p with Ok r => var_names (r_eq r) = ["x"; "b"; "c@int_slack"; "d@int_slack"] /\
    var_names (r_qubo r) = ["x@0"; "x@1"; "x@2"; "b"; "c@int_slack@0"; "c@int_slack@1"; "c@int_slack@2"; "d@int_slack@0"; "d@int_slack@1"; "d@int_slack@2"] | Err _ => False end.
Proof.
  cbv zeta. split; [|vm_compute; auto]. split; [apply reachable_wf; repeat constructor|]. split; [repeat split; cbn; repeat constructor|]. split; [repeat constructor|].
  split; [repeat constructor; (discriminate || (intros _; reflexivity))|reflexivity].
Qed.
Print Assumptions C70_slack_name_refuted.
Print Assumptions C70_shared_name_refuted.
Print Assumptions C70_bit_name_refuted.
Print Assumptions C70_fixed_refuted.
Print Assumptions C70_inequalities_partial.
Print Assumptions C70_integers_partial.
Print Assumptions C70_penalty.
Print Assumptions C70_qubo_partial.
Print Assumptions C70_plain_names_partial.
