(** * Facts about assignments *)
From Verif Require Export SpecEdit ProgramFacts.
From Coq Require Import Lia.
Local Open Scope list_scope.
Local Open Scope nat_scope.

Lemma key_pos_lookup {A} (l : list A) idx k i a : key_pos l idx k = Ok i -> nth_error l i = Some a -> lookup l idx k = Ok a.
Proof. exact (proj1 (del_pos_lookup l idx k i a)). Qed.
Lemma key_pos_length {A} (l l' : list A) idx k : length l' = length l -> key_pos l' idx k = key_pos l idx k.
Proof. intro E. unfold key_pos, del_pos. now rewrite E. Qed.
Lemma only_at_update {A} (l : list A) i a a' : nth_error l i = Some a -> only_at l (update i a' l) i a a'.
Proof.
  intro N. assert (i < length l) as L by (apply nth_error_Some; congruence). split; [apply update_length|]. split; [exact N|]. split.
  - rewrite nth_error_update, Nat.eqb_refl. now rewrite (proj2 (Nat.ltb_lt _ _) L).
  - intros j J. rewrite nth_error_update. destruct (Nat.eqb_spec i j); [congruence|reflexivity].
Qed.
Lemma lookup_update {A} (l : list A) idx k i a a' : key_pos l idx k = Ok i -> nth_error l i = Some a -> lookup (update i a' l) idx k = Ok a'.
Proof.
  intros K N. apply (key_pos_lookup _ _ _ i); [rewrite (key_pos_length l); [exact K|apply update_length]|]. exact (proj1 (proj2 (proj2 (only_at_update l i a a' N)))).
Qed.

Lemma variable_edit_intro p k f q (R : variable -> variable -> Prop) : (forall v v', f v = Ok v' -> R v v') -> on_variable p k f = (q, Ok tt) -> variable_edit p q k R.
Proof.
  intros HR E. destruct (on_variable_cases p k f) as [[e X]|(i & v & v' & K & N & F & X)]; rewrite X in E; [discriminate E|]. injection E as <-.
  repeat (split; [try split; reflexivity|]). exists i, v, v'. split; [now apply (key_pos_lookup _ _ _ i)|]. split; [now apply (lookup_update _ _ _ _ v)|].
  split; [now apply only_at_update|now apply HR].
Qed.
Lemma linear_edit_intro p k f q (R : lincon -> lincon -> Prop) : (forall v v', f v = Ok v' -> lc_name v' = lc_name v /\ R v v') -> on_lincon p k f = (q, Ok tt) -> linear_edit p q k R.
Proof.
  intros HR E. destruct (on_lincon_cases p k f) as [[e X]|(i & v & v' & K & N & F & X)]; rewrite X in E; [discriminate E|]. injection E as <-.
  repeat (split; [try split; reflexivity|]). exists i, v, v'. split; [now apply (key_pos_lookup _ _ _ i)|]. split; [now apply (lookup_update _ _ _ _ v)|].
  split; [now apply only_at_update|now apply HR].
Qed.
Lemma quadratic_edit_intro p k f q (R : quadcon -> quadcon -> Prop) : (forall v v', f v = Ok v' -> qc_name v' = qc_name v /\ R v v') -> on_quadcon p k f = (q, Ok tt) -> quadratic_edit p q k R.
Proof.
  intros HR E. destruct (on_quadcon_cases p k f) as [[e X]|(i & v & v' & K & N & F & X)]; rewrite X in E; [discriminate E|]. injection E as <-.
  repeat (split; [try split; reflexivity|]). exists i, v, v'. split; [now apply (key_pos_lookup _ _ _ i)|]. split; [now apply (lookup_update _ _ _ _ v)|].
  split; [now apply only_at_update|now apply HR].
Qed.
Lemma objective_edit_intro p f q (R : objective -> objective -> Prop) : (forall v v', f v = Ok v' -> R v v') -> on_objective p f = (q, Ok tt) -> objective_edit p q R.
Proof.
  intros HR E. destruct (on_objective_cases p f) as [[e X]|(v' & F & X)]; rewrite X in E; [discriminate E|]. injection E as <-.
  repeat (split; [try split; reflexivity|]). now apply HR.
Qed.

Definition grown (p q : qp) : Prop := same_head p q /\ same_lcs p q /\ same_qcs p q /\ same_obj p q /\ exists l, p_vars q = p_vars p ++ l.
Lemma grown_refl p : grown p p.
Proof. repeat (split; [try split; reflexivity|]). exists []. now rewrite app_nil_r. Qed.
Lemma grown_named p p' nm lb ub ty q u : grown p p' -> add_named p' nm lb ub ty = (q, Ok u) -> grown p q.
Proof.
  intros ((A1 & A2) & (B1 & B2) & (C1 & C2) & D & l & L). unfold add_named. destruct (dhas _ _ _); [discriminate|]. destruct (var_make nm lb ub ty) as [v|e]; [|discriminate].
  intro H. injection H as <- <-. repeat (split; [try split; assumption|]). exists (l ++ [v]). cbn. now rewrite L, app_assoc.
Qed.

Lemma step_assigned p o q : step p o = (q, Ok tt) -> assigned p o q.
Proof.
  destruct o; cbn [step assigned]; intro E.
  - apply drop_out_ok in E. destruct E as [l E]. apply (add_variables_ind_ok (grown p) lb ub ty (fun p' nm q' u G => grown_named p p' nm lb ub ty q' u G) _ _ _ _ _ _ (grown_refl p) E).
  - apply drop_out_ok in E. destruct E as [l E]. apply (add_variable_ind_ok (grown p) lb ub ty (fun p' nm q' u G => grown_named p p' nm lb ub ty q' u G) _ _ _ _ (grown_refl p) E).
  - destruct (linear_constraint_cases p lin s rhs name) as [[e X]|(nm & _ & _ & [[e X]|(c & le & S & L & X)])]; rewrite X in E; try discriminate E. injection E as <-.
    repeat (split; [try split; reflexivity|]). eexists. split; [reflexivity|]. repeat split; assumption.
  - destruct (quadratic_constraint_cases p lin quad s rhs name) as [[e X]|(nm & _ & _ & [[e X]|(c & le & qe & S & L & Q & X)])]; rewrite X in E; try discriminate E. injection E as <-.
    repeat (split; [try split; reflexivity|]). eexists. split; [reflexivity|]. repeat split; assumption.
  - destruct (remove_linear_cases p k) as [[e X]|(i & _ & X)]; rewrite X in E; [discriminate E|]. injection E as <-. repeat split.
  - destruct (remove_quadratic_cases p k) as [[e X]|(i & _ & X)]; rewrite X in E; [discriminate E|]. injection E as <-. repeat split.
  - destruct (set_objective_cases p s c lin quad) as [[e X]|(o & M & X)]; rewrite X in E; [discriminate E|]. injection E as <-.
    repeat (split; [try split; reflexivity|]). cbn [p_obj set_obj]. unfold obj_make in M. inv_ok. cbn. repeat split; assumption.
  - injection E as <-. repeat split.
  - injection E as <-. repeat split.
  - revert E. apply variable_edit_intro. intros v v'. unfold var_set_lb. destruct (qltb _ _) eqn:B; [discriminate|]. intro H. injection H as <-. apply qltb_false in B. cbn. repeat split; auto.
  - revert E. apply variable_edit_intro. intros v v'. unfold var_set_ub. destruct (qltb _ _) eqn:B; [discriminate|]. intro H. injection H as <-. apply qltb_false in B. cbn. repeat split; auto.
  - revert E. apply variable_edit_intro. intros v v' H. injection H as <-. repeat split.
  - revert E. apply linear_edit_intro. intros v v' H. injection H as <-. repeat split.
  - revert E. apply linear_edit_intro. intros v v' H. injection H as <-. repeat split.
  - revert E. apply linear_edit_intro. intros v v' H. inv_ok. repeat split. assumption.
  - revert E. apply linear_edit_intro. intros w w' H. inv_ok. repeat split. assumption.
  - revert E. apply quadratic_edit_intro. intros v v' H. injection H as <-. repeat split.
  - revert E. apply quadratic_edit_intro. intros v v' H. injection H as <-. repeat split.
  - revert E. apply quadratic_edit_intro. intros v v' H. inv_ok. repeat split. assumption.
  - revert E. apply quadratic_edit_intro. intros v v' H. inv_ok. repeat split. assumption.
  - revert E. apply objective_edit_intro. intros v v' H. injection H as <-. repeat split.
  - revert E. apply objective_edit_intro. intros v v' H. injection H as <-. repeat split.
  - revert E. apply objective_edit_intro. intros v v' H. inv_ok. repeat split. assumption.
  - revert E. apply objective_edit_intro. intros v v' H. inv_ok. repeat split. assumption.
  - revert E. apply objective_edit_intro. intros w w' H. inv_ok. repeat split. assumption.
  - revert E. apply objective_edit_intro. intros w w' H. inv_ok. repeat split. assumption.
Qed.
Lemma clear_new p : clear p = new_qp "".
Proof. reflexivity. Qed.
