From Verif Require Export AdmmFacts2.
Local Open Scope nat_scope.

Lemma nth_snoc {A} (l : list A) a j dflt : nth j (l ++ [a]) dflt = if j <? length l then nth j l dflt else if j =? length l then a else dflt.
Proof.
  destruct (Nat.ltb_spec j (length l)); [now apply app_nth1|]. rewrite app_nth2 by lia. destruct (Nat.eqb_spec j (length l)) as [->|]; [now rewrite Nat.sub_diag|]. destruct (j - length l) as [|[|m]] eqn:E; auto; lia.
Qed.
Lemma take_length x idx b : np_take x idx = Ok b -> length b = length idx.
Proof. intro H. apply np_take_ok in H. destruct H as [-> _]. apply map_length. Qed.

Section Run.
Variables (qubo cont : nat -> qp -> result (list Qc)) (norm : list Qc -> Qc) (late : nat -> bool) (pr : admm_params).
Notation round := (admm_round qubo cont norm pr).

Lemma sized_ok solver k op x : sized_solve solver k op = Ok x -> solver k op = Ok x /\ length x = num_vars op.
Proof. unfold sized_solve. intro H. apply bind_ok in H. destruct H as (y & H1 & H). apply bind_ok in H. destruct H as (u & H2 & H). injection H as <-. split; auto. unfold check in H2. destruct (Nat.eqb_spec (length y) (num_vars op)); [auto|discriminate]. Qed.
Lemma logged_ok solver k op x : logged_solve solver k op = Ok x -> solver k op = Ok x /\ length x = num_vars op.
Proof. unfold logged_solve. intro H. apply bind_ok in H. destruct H as (y & H1 & H). apply bind_ok in H. destruct H as (m & _ & H). injection H as <-. apply sized_ok, H1. Qed.

(** ** What a round does *)
Record round_made (d : admm_data) (s : admm_iter) (k : nat) (s' : admm_iter) : Prop := {
  rm_x0 : update_x0 qubo pr d s k = Ok (i_x0 s');
  rm_x1 : exists op2 x1, step2_problem d (set_x0 (i_x0 s') s) = Ok op2 /\ cont k op2 = Ok x1 /\ length x1 = num_vars op2 /\ np_take x1 (a_cont d) = Ok (i_u s') /\ np_take x1 (a_bin d) = Ok (i_z s');
  rm_y : update_y cont pr d (set_uz (i_u s') (i_z s') (set_x0 (i_x0 s') s)) k = Ok (i_y s');
  rm_lam : i_lam s' = arr_add (i_lam s) (arr_scale (i_rho s) (arr_sub (arr_sub (i_x0 s') (i_z s')) (i_y s')));
  rm_zinit : i_zinit s' = i_zinit s;
  rm_res : exists cost cr prev,
    eval_obj (a_op d) (revert d (i_x0 s') (i_u s')) = Ok cost /\ constraint_residual d (revert d (i_x0 s') (i_u s')) = Ok cr /\
    (match k with 0 => prev = i_zinit s | S k' => nth_error (i_zs s) k' = Some prev end) /\
    let r := norm (arr_sub (arr_sub (i_x0 s') (i_z s')) (i_y s')) in let t := (i_rho s * norm (arr_sub (i_z s') prev))%Qc in
    i_rho s' = update_rho pr (i_rho s) r t /\
    i_costs s' = i_costs s ++ [cost] /\ i_res s' = i_res s ++ [r] /\ i_dres s' = i_dres s ++ [t] /\ i_cons s' = i_cons s ++ [cr] /\ i_merits s' = i_merits s ++ [(cost + ap_mu_merit pr * cr)%Qc];
  rm_saved : i_x0s s' = i_x0s s ++ [i_x0 s'] /\ i_us s' = i_us s ++ [i_u s'] /\ i_zs s' = i_zs s ++ [i_z s'; i_y s'] }.
Lemma round_inv d s k s' : round d s k = Ok s' -> round_made d s k s'.
Proof.
  unfold admm_round. intro H. apply bind_ok in H. destruct H as (x0 & H1 & H). cbv zeta in H. apply bind_ok in H. destruct H as (op2 & H2 & H). apply bind_ok in H. destruct H as (x1 & H3 & H).
  apply bind_ok in H. destruct H as (u & H4 & H). apply bind_ok in H. destruct H as (z & H5 & H). apply bind_ok in H. destruct H as (y & H6 & H).
  apply bind_ok in H. destruct H as (cost & H7 & H). apply bind_ok in H. destruct H as (cr & H8 & H). apply bind_ok in H. destruct H as (rs & H9 & H). injection H as <-.
  apply logged_ok in H3. destruct H3 as [H3 L].
  unfold residuals in H9. apply bind_ok in H9. destruct H9 as (prev & H10 & H9). injection H9 as <-.
  constructor; cbn [save set_y set_uz set_x0 i_x0 i_u i_z i_y i_lam i_rho i_zinit i_costs i_res i_dres i_cons i_merits i_x0s i_us i_zs fst snd] in *; auto.
  - exists op2, x1. auto.
  - exists cost, cr, prev. split; auto. split; auto. split; [destruct k as [|k']; [congruence|]; destruct (nth_error (i_zs s) k'); congruence|]. cbv zeta. repeat (split; [reflexivity|]). reflexivity.
Qed.

Lemma loop_ind (I : nat -> admm_iter -> Prop) d :
  (forall k s s', I k s -> round d s k = Ok s' -> I (S k) s') ->
  forall more k res s s', I k s -> admm_loop qubo cont norm late pr more k res d s = Ok s' -> exists k', k <= k' <= k + more /\ I k' s'.
Proof.
  intro St. induction more as [|more IH]; intros k res s s' H E; cbn [admm_loop] in E.
  - injection E as <-. exists k. split; [lia|auto].
  - destruct (qltb (ap_tol pr) res && negb (late k)); [|injection E as <-; exists k; split; [lia|auto]].
    apply bind_ok in E. destruct E as (s1 & E1 & E). apply IH in E; [|eapply St; eauto]. destruct E as (k' & K & H'). exists k'. split; [lia|auto].
Qed.

(** ** Sizes *)
Definition sized_iter (d : admm_data) (s : admm_iter) : Prop := length (i_x0 s) = length (a_bin d) /\ length (i_zinit s) = length (a_bin d).
Lemma x0_length d s k x0 : length (i_x0 s) = length (a_bin d) -> update_x0 qubo pr d s k = Ok x0 -> length x0 = length (a_bin d).
Proof.
  unfold update_x0. intros L H. destruct (a_abs d); [congruence|]. apply bind_ok in H. destruct H as (op1 & H1 & H). apply bind_ok in H. destruct H as (x & H2 & H). injection H as <-. rewrite put_length. apply repeat_length.
Qed.

(** ** The saved iterates and their merits *)
Definition saved (d : admm_data) (k : nat) (s : admm_iter) : Prop :=
  sized_iter d s /\ length (i_merits s) = k /\ length (i_x0s s) = k /\ length (i_us s) = k /\
  forall j, j < k -> exists x, joins (a_op d) (nth j (i_x0s s) []) (nth j (i_us s) []) x /\ x = revert d (nth j (i_x0s s) []) (nth j (i_us s) []) /\
    nth j (i_merits s) 0%Qc = (obj_at (p_obj (a_op d)) x + ap_mu_merit pr * excess (a_op d) x)%Qc.
Lemma saved_step d : prog_wf (a_op d) -> mixed_binary (a_op d) -> represents d -> forall k s s', saved d k s -> round d s k = Ok s' -> saved d (S k) s'.
Proof.
  clear late. intros W M R k s s' ((L & Lz) & L1 & L2 & L3 & Sv) H. apply round_inv in H. destruct H as [A1 (op2 & x1 & _ & _ & _ & A2 & _) _ _ A3 (cost & cr & prev & A4 & A5 & _ & A6) (A7 & A8 & _)].
  cbv zeta in A6. destruct A6 as (_ & _ & _ & _ & _ & A6).
  pose proof (x0_length _ _ _ _ L A1) as Lx. pose proof (take_length _ _ _ A2) as Lu. pose proof (represents_split _ R) as Sp.
  split; [split; auto; congruence|]. rewrite A6, A7, A8, !app_length, L1, L2, L3. simpl length. split; [lia|]. split; [lia|]. split; [lia|].
  intros j Hj. rewrite !nth_snoc, L1, L2, L3. destruct (Nat.ltb_spec j k) as [Hk|Hk].
  - destruct (Sv j Hk) as (x & X). exists x. exact X.
  - replace (j =? k) with true by (symmetry; apply Nat.eqb_eq; lia). exists (revert d (i_x0 s') (i_u s')). split; [now apply revert_joins|]. split; auto.
    rewrite (obj_ok_len _ _ _ W A4). f_equal. f_equal. apply (residual_is d _ _) in A5; auto. apply W.
Qed.
Lemma start_saved op d s : represent op (indices_of BINARY op) (indices_of CONTINUOUS op) = Ok d -> start cont pr op (indices_of BINARY op) (indices_of CONTINUOUS op) = Ok s -> saved d 0 s.
Proof.
  clear late norm qubo. intros R H. apply represent_inv in R. destruct R as (_ & A & _). unfold start in H. apply bind_ok in H. destruct H as (xuz & H1 & H). injection H as <-.
  split; [|repeat (split; [reflexivity|]); intros j Hj; lia]. split; cbn [i_x0 i_zinit]; [|rewrite A; apply repeat_length]. rewrite A.
  destruct (ap_warm pr).
  - apply bind_ok in H1. destruct H1 as (x & _ & H1). apply bind_ok in H1. destruct H1 as (x0 & H2 & H1). apply bind_ok in H1. destruct H1 as (u & _ & H1). injection H1 as <-. cbn [fst]. now apply take_length in H2.
  - injection H1 as <-. cbn [fst]. apply repeat_length.
Qed.

(** ** The whole run *)
Lemma solve_inv p r d s : admm_solve qubo cont norm late pr p = Ok (r, (d, s)) -> exists q tbl s0 k,
  admm_compatible p = Ok true /\ int_to_bin p = Ok (q, tbl) /\ turn_to_minimization q = Ok (a_op d) /\
  start cont pr (a_op d) (indices_of BINARY (a_op d)) (indices_of CONTINUOUS (a_op d)) = Ok s0 /\ represents d /\
  admm_loop qubo cont norm late pr (ap_maxiter pr) 0 (qz 100) d s0 = Ok s /\ argmin (i_merits s) = Some k /\
  interpret p [i2b_interpret p (conv_of tbl) q] [] (revert d (nth k (i_x0s s) []) (nth k (i_us s) [])) = Ok r.
Proof.
  unfold admm_solve. intro H. apply bind_ok in H. destruct H as (b & H1 & H). apply bind_ok in H. destruct H as (u & H2 & H). apply bind_ok in H. destruct H as (m & _ & H). apply bind_ok in H. destruct H as ([q tbl] & H3 & H). cbn [fst snd] in H.
  apply bind_ok in H. destruct H as (op & H4 & H). apply bind_ok in H. destruct H as (s0 & H5 & H). apply bind_ok in H. destruct H as (d' & H6 & H). apply bind_ok in H. destruct H as (s' & H7 & H).
  destruct (argmin (i_merits s')) as [k|] eqn:E; [|discriminate]. apply bind_ok in H. destruct H as (r' & H8 & H). injection H as -> -> ->.
  destruct (represent_self _ _ H6) as [R <-]. exists q, tbl, s0, k. repeat (split; [assumption||(destruct b; [assumption|discriminate])|]). exact H8.
Qed.
End Run.

Lemma same_excess1 s a b a' b' : (a - b = a' - b')%Qc -> excess1 s a b = excess1 s a' b'.
Proof.
  intro E. unfold excess1. destruct s.
  - destruct (qltb_spec b a), (qltb_spec b' a'); qlra.
  - destruct (qltb_spec a b), (qltb_spec a' b'); qlra.
  - now rewrite E.
Qed.
Lemma same_excess p q x y : Forall2 (same_row x y) (p_lcs p) (p_lcs q) -> Forall2 (same_qrow x y) (p_qcs p) (p_qcs q) -> excess q y = excess p x.
Proof.
  intros H1 H2. unfold excess. f_equal.
  - induction H1 as [|c c' l l' (_ & S & E) F IH]; [reflexivity|]. cbn [sumof fold_right map] in *. simpl. f_equal; auto. rewrite S. apply same_excess1. exact E.
  - induction H2 as [|c c' l l' (_ & S & E) F IH]; [reflexivity|]. simpl. f_equal; auto. rewrite S. apply same_excess1. exact E.
Qed.
Lemma mixed_of_i2b p q tbl op : prog_wf p -> int_to_bin p = Ok (q, tbl) -> p_vars op = p_vars q -> mixed_binary op.
Proof. intros W H E. unfold mixed_binary. rewrite E. exact (proj1 (i2b_no_integer p q tbl W H)). Qed.
