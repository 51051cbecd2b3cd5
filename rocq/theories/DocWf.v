(** * Imported models are well formed and can be evaluated *)
From Verif Require Import DocFacts3 ProgramProps WfFacts.
Local Open Scope nat_scope.

Lemma ok_state_inv {A} (x : qp * result A) p : ok_state x = Ok p -> p = fst x.
Proof. destruct x as [q [a|e]]; cbn; [congruence|discriminate]. Qed.
Lemma foldM_keeps {A S} (f : S -> A -> result S) (P : S -> Prop) : (forall s a s', P s -> f s a = Ok s' -> P s') ->
  forall l s s', P s -> foldM f l s = Ok s' -> P s'.
Proof. intros H. induction l as [|a l IH]; intros s s' Ps E; cbn in E; [congruence|]. apply bind_ok in E. destruct E as (s1 & E1 & E). eauto. Qed.

Definition bare (p : qp) : Prop := prog_wf p /\ p_lcs p = [] /\ p_qcs p = [].
Lemma import_var_bare st d st' : bare (fst st) -> import_var st d = Ok st' -> bare (fst st').
Proof.
  intros (W & L & Q) E. destruct (import_var_inv st d st' E) as (s & Es & _). split; [|rewrite Es; split; assumption]. unfold import_var in E.
  assert (forall lb ub ty q out, add_variable (fst st) lb ub ty (dv_name d) = (q, Ok out) -> prog_wf q) as K.
  { intros lb ub ty q out A. pose proof (step_prog_wf (fst st) (OAddVar lb ub ty (dv_name d)) I W) as W'. cbn [step] in W'. rewrite A in W'. exact W'. }
  unfold continuous_var, binary_var, integer_var in E. destruct (dv_type d); try discriminate E;
    match type of E with context [add_variable ?a ?b ?c ?e ?f] => destruct (add_variable a b c e f) as [q [[|t l]|x]] eqn:A end; try discriminate E; injection E as <-; exact (K _ _ _ _ _ A).
Qed.
Definition ready (p : qp) : Prop := prog_wf p /\ shapes (num_vars p) p.
Lemma step_ready p o : op_wf o -> op_sized (num_vars p) o -> ready p -> ready (fst (step p o)).
Proof. intros Ho Hs (W & S). split; [now apply step_prog_wf|]. destruct (step_shapes p o Hs S) as [-> S']. exact S'. Qed.
Lemma from_docplex_ready m p : from_docplex m = Ok p -> ready p.
Proof.
  intro E. unfold from_docplex in E. apply bind_ok in E. destruct E as (st & Ev & E). apply bind_ok in E. destruct E as (lin & El & E). apply bind_ok in E. destruct E as (quad & Eq & E).
  apply bind_ok in E. destruct E as (p1 & Eo & E). apply bind_ok in E. destruct E as (p2 & E1 & E2).
  assert (bare (fst st)) as (W & L & Q).
  { refine (foldM_keeps import_var (fun s => bare (fst s)) import_var_bare _ _ _ _ Ev). split; [apply prog_wf_new|split; reflexivity]. }
  assert (ready p1) as R1.
  { pose proof (step_prog_wf (fst st) (OObjective (dm_sense m) (de_const (dm_obj m)) (by_name lin) (by_name2 quad)) I W) as W1. cbn [step] in W1. pose proof (ok_state_inv _ _ Eo) as ->. split; auto.
    destruct (set_objective_cases (fst st) (dm_sense m) (de_const (dm_obj m)) (by_name lin) (by_name2 quad)) as [(e & X)|(o & Ho & X)]; rewrite X in Eo |- *; [discriminate Eo|]. cbn [fst].
    apply (obj_make_shape (env_of (fst st))) in Ho; [|exact I|exact I]. destruct Ho as [H1 H2]. split; [exact H1|]. split; [exact H2|]. cbn [set_obj p_lcs p_qcs]. rewrite L, Q. split; constructor. }
  assert (ready p2) as R2.
  { refine (foldM_keeps (import_lincon (snd st)) ready _ _ _ _ R1 E1). intros s c s' R Ec. destruct c as [nm cs l r|nm cs l r|]; cbn [import_lincon] in Ec; [|injection Ec as <-; auto|discriminate Ec].
    apply bind_ok in Ec. destruct Ec as (d1 & _ & Ec). apply bind_ok in Ec. destruct Ec as (d2 & _ & Ec). apply ok_state_inv in Ec. subst s'. apply (step_ready s (OLinCon (by_name d2) _ _ _)); auto; exact I. }
  refine (foldM_keeps (import_quadcon (snd st)) ready _ _ _ _ R2 E2). intros s c s' R Ec. destruct c as [nm cs l r|nm cs l r|]; cbn [import_quadcon] in Ec; [injection Ec as <-; auto| |injection Ec as <-; auto].
  apply bind_ok in Ec. destruct Ec as (d1 & _ & Ec). apply bind_ok in Ec. destruct Ec as (q1 & _ & Ec). apply bind_ok in Ec. destruct Ec as (d2 & _ & Ec). apply bind_ok in Ec. destruct Ec as (q2 & _ & Ec).
  apply ok_state_inv in Ec. subst s'. apply (step_ready s (OQuadCon (by_name d2) (by_name2 q2) _ _ _)); auto; [exact I|split; exact I].
Qed.
