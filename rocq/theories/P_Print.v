(** * C100: printing programs *)
From Verif Require Import DocSame Print.
Local Open Scope string_scope.
Local Open Scope list_scope.
Local Open Scope nat_scope.

(** Refuted: a program with the constraint 0 >= 1 cannot be printed, not even by repr. *)
Definition ex100 : qp := run (new_qp "m") [OAddVar 0 1 BINARY (Some "a"); OLinCon None (SStr ">=") 1%Qc (Some "n")].
Theorem C100_print_refuted : exists p, prog_wf p /\ exprs_small p /\ forall lp pretty k, printed lp pretty k p = Err DOcplexException.
Proof.
  exists ex100. split; [apply reachable_wf; repeat constructor|]. split; [vm_compute; repeat split; repeat constructor|]. intros lp pretty k.
  assert (to_docplex ex100 = Err DOcplexException) as E by (vm_compute; reflexivity). unfold printed. rewrite E. reflexivity.
Qed.
(** Refuted: two programs with different solutions that no printer tells apart; a binary variable is fixed to 1 in one of them. *)
Theorem C100_alike_refuted : exists p q x, prog_wf p /\ prog_wf q /\ exprs_small p /\ exprs_small q /\ feasible p x /\ ~ feasible q x /\
  forall lp pretty k, exists t, printed lp pretty k p = Ok t /\ printed lp pretty k q = Ok t.
Proof.
  exists (run (new_qp "m") [OAddVar 0 1 BINARY (Some "a")]), (run (new_qp "m") [OAddVar 1 1 BINARY (Some "a")]), [0%Qc].
  split; [apply reachable_wf; repeat constructor|]. split; [apply reachable_wf; repeat constructor|]. split; [vm_compute; repeat split; repeat constructor|]. split; [vm_compute; repeat split; repeat constructor|].
  split; [apply feas_b_spec; vm_compute; reflexivity|]. split; [intro F; apply feas_b_spec in F; vm_compute in F; discriminate F|].
  intros lp pretty k. eexists. split; vm_compute; reflexivity.
Qed.
(** When it works: a program can be printed, in whatever way, unless a constraint without terms is false. *)
Theorem C100_when_partial : forall lp pretty k p, prog_wf p -> exprs_small p ->
  (printed lp pretty k p = Err DOcplexException <-> never p) /\ (~ never p -> exists t, printed lp pretty k p = Ok t).
Proof.
  intros lp pretty k p W S. pose proof (export_spec p W S) as X. unfold printed. destruct (to_docplex p) as [m|e]; cbn [bind].
  - destruct X as (_ & _ & _ & _ & N). split; [split; [discriminate|tauto]|]. eauto.
  - destruct X as [-> N]. split; tauto.
Qed.
(** Programs printed alike, by printers that tell models apart, have the same name, names and types of variables and sense, and the
    same objective and solutions but for the bounds of binary variables. *)
Theorem C100_alike_partial : forall lp pretty k p q t, (forall m n, lp m = lp n -> m = n) -> (forall m n, pretty m = pretty n -> m = n) ->
  prog_wf p -> exprs_small p -> prog_wf q -> exprs_small q -> printed lp pretty k p = Ok t -> printed lp pretty k q = Ok t ->
  p_name p = p_name q /\ map freed (p_vars p) = map freed (p_vars q) /\ o_sense (p_obj p) = o_sense (p_obj q) /\
  (forall x, length x = num_vars p -> obj_at (p_obj p) x = obj_at (p_obj q) x) /\ (forall x, feasible (freed_program p) x <-> feasible (freed_program q) x).
Proof.
  intros lp pretty k p q t Il Ip Wp Sp Wq Sq Hp Hq. pose proof (export_spec p Wp Sp) as Xp. pose proof (export_spec q Wq Sq) as Xq. unfold printed in Hp, Hq.
  destruct (to_docplex p) as [m|] eqn:Ep; [|discriminate Hp]. destruct (to_docplex q) as [n|] eqn:Eq; [|discriminate Hq]. cbn [bind] in Hp, Hq.
  rewrite <- Hp in Hq. injection Hq as Hq. assert (m = n) as <- by (symmetry; destruct k; (apply Il, Hq || apply Ip, Hq)).
  destruct (export_parts p m Wp Sp Ep) as (_ & _ & Np & _). destruct (export_parts q m Wq Sq Eq) as (_ & _ & Nq & _).
  destruct Xp as (Fp & Op & Zp & Vp & _). destruct Xq as (Fq & Oq & Zq & Vq & _). split; [congruence|].
  assert (map export_var (p_vars p) = map export_var (p_vars q)) as Ev by congruence.
  split.
  { revert Ev. generalize (p_vars p) (p_vars q). induction l as [|v l IH]; intros [|w l'] E; try discriminate E; [reflexivity|]. cbn [map] in *. injection E as E1 E2. rewrite (IH _ E2). f_equal.
    unfold export_var, freed in *. destruct v as [vn vl vu vt], w as [wn wl wu wt]. cbn in *. destruct vt, wt; cbn in *; congruence. }
  split; [congruence|]. assert (num_vars p = num_vars q) as L by (apply (f_equal (@length _)) in Ev; rewrite !map_length in Ev; exact Ev).
  split; [intros x Lx; rewrite <- (Op x Lx), L in *; apply Oq; congruence|].
  intro x. rewrite <- !loose_freed, <- Fp, <- Fq. reflexivity.
Qed.
Example C100_case : let lp := fun m : dmodel => dm_name m in let pretty := fun m : dmodel => "pretty"%string in
  printed lp pretty Repr (run ex100 [ORemLin (KS "n")]) = Ok "m" /\ printed lp pretty PrettyPrint (run ex100 [ORemLin (KS "n")]) = Ok "pretty" /\ printed lp pretty LpFile ex100 = Err DOcplexException.
Proof. vm_compute. auto. Qed.
Print Assumptions C100_print_refuted.
Print Assumptions C100_alike_refuted.
Print Assumptions C100_when_partial.
Print Assumptions C100_alike_partial.
