(** * InequalityToEquality keeps the set of solutions *)
From Verif Require Export IneqFacts ConvWf.
Local Open Scope nat_scope.

Lemma Forall2_map_l {A B C} (f : A -> B) (R : B -> C -> Prop) l m : Forall2 R (map f l) m <-> Forall2 (fun a c => R (f a) c) l m.
Proof.
  split.
  - revert m. induction l as [|a l IH]; intros m H; inversion H; subst; constructor; auto.
  - induction 1; simpl; constructor; auto.
Qed.
Lemma Forall2_impl2 {A B} (P : A -> Prop) (R S T : A -> B -> Prop) l m :
  (forall a b, P a -> R a b -> S a b -> T a b) -> Forall P l -> Forall2 R l m -> Forall2 S l m -> Forall2 T l m.
Proof.
  intros H F R1. revert F. induction R1 as [|a b l m r R1 IH]; intros F S1; [constructor|]. inversion F; inversion S1; subst. constructor; auto.
Qed.
Lemma Forall2_impl {A B} (R S : A -> B -> Prop) l m : (forall a b, R a b -> S a b) -> Forall2 R l m -> Forall2 S l m.
Proof. intros H F. induction F; constructor; auto. Qed.
Lemma Forall_True {A} (l : list A) : Forall (fun _ => True) l.
Proof. now apply Forall_forall. Qed.
Lemma copy_in_bounds l x : Forall2 in_range l x -> Forall2 has_type l x -> Forall2 in_range (map copyv l) x.
Proof.
  intros H1 H2. apply Forall2_map_l. eapply (Forall2_impl2 (fun _ => True)); [|apply Forall_True|exact H1|exact H2].
  intros v a _ B T. unfold copyv, in_range, has_type in *. destruct (v_type v); auto. simpl. destruct T as [-> | ->]; split; qlra.
Qed.
Lemma copy_typed l x : Forall2 has_type (map copyv l) x <-> Forall2 has_type l x.
Proof.
  rewrite Forall2_map_l. split; intro H; (eapply Forall2_impl; [|exact H]); intros v a; unfold has_type; now rewrite copyv_type.
Qed.
Lemma open_in_bounds l x : Forall (fun v => v_type v = BINARY -> (v_lb v <= 0)%Qc /\ (1 <= v_ub v)%Qc) l ->
  Forall2 in_range (map copyv l) x -> Forall2 in_range l x.
Proof.
  rewrite Forall2_map_l. intros F H. revert F. induction H as [|v a l x H R IH]; intro F; [constructor|]. inversion F; subst.
  constructor; auto. unfold copyv, in_range in *. destruct (v_type v); auto. simpl in H. destruct (H2 eq_refl). split; qlra.
Qed.

Lemma app_inj_length {A} (x x' t t' : list A) : length x = length x' -> x ++ t = x' ++ t' -> x = x' /\ t = t'.
Proof. revert x'. induction x as [|a x IH]; intros [|b x'] L E; simpl in *; try lia; auto. injection E as -> E. destruct (IH x'); auto. subst. auto. Qed.

Section Convert.
Variables (mode : slack_mode) (p q : qp).
Hypothesis W : prog_wf p.
Hypothesis H : ineq_to_eq mode p = Ok q.

Lemma ineq_interpret_prefix x t : length x = num_vars p -> length (x ++ t) = num_vars q -> ineq_interpret p q (x ++ t) = Ok x.
Proof using W H.
  intros Lx Ly. destruct (ineq_to_eq_inv mode p q W H) as (sv & I & _).
  unfold ineq_interpret. assert (NoDup (var_names q)) as N by (apply prog_wf_nodup; eapply ineq_to_eq_wf; eauto).
  rewrite solution_dict_ok by (auto; now rewrite names_length). cbn [bind].
  pose proof (ieinv_names _ _ _ _ _ I) as V.
  assert (forall v, In v (p_vars p) -> In (v_name v) (var_names p)) as Hin by (intros v Hv; now apply in_map).
  rewrite (mapM_ext_ok _ (fun v => valof (var_names p) x (v_name v))).
  - f_equal. rewrite <- (map_map v_name (valof (var_names p) x)). apply map_valof; [now apply prog_wf_nodup|rewrite map_length; exact Lx].
  - intros v Hv. rewrite sol_get_ok; [|rewrite V, in_app_iff; auto|now rewrite names_length].
    f_equal. rewrite V. apply valof_app_l; auto. now rewrite names_length.
Qed.

Lemma ineq_complete x : mode = MContinuous \/ discrete p -> feasible p x ->
  exists y, feasible q y /\ ineq_interpret p q y = Ok x /\ obj_at (p_obj q) y = obj_at (p_obj p) x.
Proof using W H.
  intros M (B & T & C1 & C2). destruct (ineq_to_eq_inv mode p q W H) as (sv & I & _).
  destruct (ie_complete _ _ _ _ _ I M x B T (conj C1 C2)) as (t & R1 & R2 & [K1 K2]).
  assert (length x = num_vars p) as Lx by (symmetry; exact (Forall2_length _ _ _ B)).
  pose proof (Forall2_length _ _ _ R1) as Lt. exists (x ++ t). split; [|split].
  - unfold feasible, in_bounds, typed. rewrite (ie_vars _ _ _ _ _ I). split; [|split; [|split]]; auto.
    + apply Forall2_app; auto. now apply copy_in_bounds.
    + apply Forall2_app; auto. now apply copy_typed.
  - apply ineq_interpret_prefix; auto. rewrite app_length, (ieinv_nv _ _ _ _ _ I). lia.
  - apply (ie_obj _ _ _ _ _ I); auto.
Qed.

Lemma ineq_sound y : binary_open p -> feasible q y ->
  exists x, ineq_interpret p q y = Ok x /\ feasible p x /\ obj_at (p_obj q) y = obj_at (p_obj p) x.
Proof using W H.
  intros O (B & T & C1 & C2). destruct (ineq_to_eq_inv mode p q W H) as (sv & I & _).
  unfold in_bounds, typed in B, T. rewrite (ie_vars _ _ _ _ _ I) in B, T.
  apply Forall2_app_inv_l in B. destruct B as (x & t & B1 & B2 & ->).
  apply Forall2_app_inv_l in T. destruct T as (x' & t' & T1 & T2 & E).
  assert (length x = num_vars p) as Lx by (apply Forall2_length in B1; rewrite map_length in B1; symmetry; exact B1).
  assert (x = x' /\ t = t') as [<- <-].
  { apply Forall2_length in B1, T1. apply app_inj_length; auto. congruence. }
  pose proof (Forall2_length _ _ _ B2) as Lt.
  exists x. split; [|split].
  - apply ineq_interpret_prefix; auto. rewrite app_length, (ieinv_nv _ _ _ _ _ I). lia.
  - destruct (ie_sound _ _ _ _ _ I x t Lx B2 (conj C1 C2)) as [K1 K2].
    split; [|split; [|split]]; auto. + now apply open_in_bounds. + now apply copy_typed.
  - apply (ie_obj _ _ _ _ _ I); auto.
Qed.
Lemma ineq_shape : o_sense (p_obj q) = o_sense (p_obj p) /\ Forall (fun c => lc_sense c = EQ) (p_lcs q) /\ Forall (fun c => qc_sense c = EQ) (p_qcs q).
Proof using W H. destruct (ineq_to_eq_inv mode p q W H) as (sv & I & _). split; [apply I|apply I]. Qed.
End Convert.
