From Verif Require Export AdmmFacts6.
Local Open Scope nat_scope.

(** ** Sizes of the third subproblem *)
Lemma add_cont_vars ops (l : list nat) : forall q q',
  foldM (fun q i => match nth_error ops i with Some v => ok_state (continuous_var q (- INFINITY)%Qc INFINITY (Some (v_name v))) | None => Err IndexError end) l q = Ok q' -> num_vars q' = num_vars q + length l.
Proof.
  induction l as [|i l IH]; intros q q' H; cbn [foldM] in H; [injection H as <-; simpl; lia|]. apply bind_ok in H. destruct H as (q1 & H1 & H). apply IH in H. rewrite H. clear H IH.
  destruct (nth_error ops i) as [v|]; [|discriminate]. apply add_variable_inv in H1. destruct H1 as (-> & _). unfold add_var, num_vars. cbn [set_vars set_vidx p_vars]. rewrite app_length. simpl. lia.
Qed.
Lemma obj_quad_vars q s q' : ok_state (step q (OObjQuad s)) = Ok q' -> p_vars q' = p_vars q.
Proof. intro H. cbn [step] in H. unfold on_objective in H. destruct (quad_make (env_of q) s) as [e|]; simpl in H; [injection H as <-; reflexivity|discriminate]. Qed.
Lemma obj_lin_vars q s q' : ok_state (step q (OObjLin s)) = Ok q' -> p_vars q' = p_vars q.
Proof. intro H. cbn [step] in H. unfold on_objective in H. destruct (lin_make (env_of q) s) as [e|]; simpl in H; [injection H as <-; reflexivity|discriminate]. Qed.
Lemma step3_vars pr d s op3 : step3_problem pr d s = Ok op3 -> num_vars op3 = length (a_bin d).
Proof.
  unfold step3_problem. intro H. apply bind_ok in H. destruct H as (q1 & H1 & H). apply bind_ok in H. destruct H as (q2 & H2 & H).
  apply add_cont_vars in H1. apply obj_quad_vars in H2. apply obj_lin_vars in H. unfold num_vars in *. rewrite H, H2, H1. reflexivity.
Qed.
Lemma y_length cont pr d s k y : length (i_y s) = length (a_bin d) -> update_y cont pr d s k = Ok y -> length y = length (a_bin d).
Proof.
  intros L H. unfold update_y in H. destruct (ap_three pr); [|congruence]. destruct (a_bin d) as [|b l] eqn:E; [congruence|]. rewrite <- E in *. apply bind_ok in H. destruct H as (op3 & H1 & H).
  apply logged_ok in H. destruct H as [_ H]. rewrite H. eapply step3_vars; eauto.
Qed.

(** ** The history of a run *)
Lemma minus_sub a b : length a = length b -> arr_sub a b = minus a b.
Proof.
  intro L. unfold arr_sub, minus. assert (forall c, map (fun i => (at_ a i - at_ b i)%Qc) (seq 0 (length a)) = c -> map (fun ab => (fst ab - snd ab)%Qc) (combine a b) = c) as G; [|now apply G].
  intros c <-. revert b L. induction a as [|u a IH]; intros [|v b] L; simpl in L; try discriminate; [reflexivity|]. cbn [combine map length seq]. f_equal. rewrite IH by lia. rewrite <- seq_shift, map_map. reflexivity.
Qed.
Lemma snoc_error {A} (l : list A) a j : nth_error (l ++ [a]) j = if j <? length l then nth_error l j else if j =? length l then Some a else None.
Proof.
  destruct (Nat.ltb_spec j (length l)); [now apply nth_error_app1|]. rewrite nth_error_app2 by lia. destruct (Nat.eqb_spec j (length l)) as [->|]; [now rewrite Nat.sub_diag|]. destruct (j - length l) as [|[|m]] eqn:E; auto; lia.
Qed.
Lemma some_lt {A} (l : list A) j a : nth_error l j = Some a -> j < length l.
Proof. intro H. apply nth_error_Some. congruence. Qed.
Section Run.
Variables (qubo cont : nat -> qp -> result (list Qc)) (norm : list Qc -> Qc) (late : nat -> bool) (pr : admm_params).
(** What is kept: [states] up to round [k] *)
Definition kept (d : admm_data) (s0 : admm_iter) (k : nat) (s : admm_iter) : Prop := exists states,
  history qubo cont norm pr d states /\ nth_error states 0 = Some s0 /\ length states = S k /\ nth_error states k = Some s /\
  i_zinit s = i_zinit s0 /\ length (i_zinit s) = length (a_bin d) /\ length (i_y s) = length (a_bin d) /\ length (i_dres s) = k /\ length (i_zs s) = k + k /\ Forall (fun z => length z = length (a_bin d)) (i_zs s) /\
  (forall j t, nth_error states (S j) = Some t -> nth_error (i_zs s) (j + j) = Some (i_z t) /\ nth_error (i_zs s) (S (j + j)) = Some (i_y t)) /\
  (forall j t t', nth_error states j = Some t -> nth_error states (S j) = Some t' -> exists prev, prev_used states (i_zinit s0) j = Some prev /\ nth j (i_dres s) 0%Qc = (i_rho t * norm (minus (i_z t') prev))%Qc).
Lemma kept_step d s0 : forall k s s', kept d s0 k s -> admm_round qubo cont norm pr d s k = Ok s' -> kept d s0 (S k) s'.
Proof.
  clear late. intros k s s' (states & H & H0 & L & Hk & Zi & Lz & Ly & Ld & Ls & F & Zs & Ds) E. pose proof (round_inv _ _ _ _ _ _ _ _ E) as [_ (op2 & x1 & _ & _ & _ & _ & A1) A2 _ A3 (cost & cr & prev & _ & _ & A4 & A5) (_ & _ & A6)].
  cbv zeta in A5. destruct A5 as (_ & _ & _ & A5 & _). apply take_length in A1. apply y_length in A2; [|exact Ly].
  assert (length prev = length (a_bin d)) as Lp.
  { destruct k as [|k]; [congruence|]. rewrite Forall_forall in F. apply F. eapply nth_error_In; eauto. }
  exists (states ++ [s']). split.
  { intros j t t' T T'. rewrite snoc_error in T, T'. destruct (Nat.ltb_spec (S j) (length states)); [destruct (Nat.ltb_spec j (length states)); [eapply H; eauto|lia]|].
    destruct (Nat.eqb_spec (S j) (length states)) as [Ej|]; [|discriminate]. assert (j = k) as -> by lia. destruct (Nat.ltb_spec k (length states)); [|lia]. congruence. }
  rewrite snoc_error, app_length, L. cbn [Nat.ltb Nat.leb length]. split; [exact H0|]. split; [lia|]. split; [rewrite snoc_error, L, Nat.ltb_irrefl, Nat.eqb_refl; reflexivity|].
  split; [congruence|]. split; [congruence|]. split; [exact A2|]. rewrite A5, A6, !app_length. cbn [length]. split; [lia|]. split; [lia|]. split; [apply Forall_app; split; auto; repeat constructor; auto|].
  assert (forall j t, nth_error (states ++ [s']) (S j) = Some t -> nth_error (i_zs s ++ [i_z s'; i_y s']) (j + j) = Some (i_z t) /\ nth_error (i_zs s ++ [i_z s'; i_y s']) (S (j + j)) = Some (i_y t)) as Zs'.
  { intros j t T. rewrite snoc_error in T. destruct (Nat.ltb_spec (S j) (length states)) as [Q|Q].
    - destruct (Zs j t T) as [B1 B2]. rewrite !nth_error_app1 by (eapply some_lt; eauto). auto.
    - destruct (Nat.eqb_spec (S j) (length states)); [|discriminate]. injection T as <-. assert (j = k) as -> by lia. rewrite !nth_error_app2 by lia. rewrite Ls. replace (k + k - (k + k)) with 0 by lia. replace (S (k + k) - (k + k)) with 1 by lia. auto. }
  split; [exact Zs'|]. intros j t t' T T'. rewrite snoc_error in T, T'. destruct (Nat.ltb_spec (S j) (length states)) as [Q|Q].
  - destruct (Nat.ltb_spec j (length states)); [|lia]. destruct (Ds j t t' T T') as (pv & B1 & B2). exists pv. split; [|rewrite app_nth1 by lia; exact B2].
    destruct j as [|j]; [exact B1|]. cbn [prev_used] in *. rewrite snoc_error. assert (Nat.div2 j <= j) by (apply Nat.div2_decr; lia). destruct (Nat.ltb_spec (S (Nat.div2 j)) (length states)); [exact B1|lia].
  - destruct (Nat.eqb_spec (S j) (length states)); [|discriminate]. assert (j = k) as -> by lia. destruct (Nat.ltb_spec k (length states)); [|lia]. assert (t = s) as -> by congruence. assert (t' = s') as -> by congruence.
    exists prev. split; [|rewrite app_nth2, Ld, Nat.sub_diag by lia; cbn [nth]; rewrite minus_sub by congruence; reflexivity].
    destruct k as [|k]; [cbn [prev_used]; congruence|]. cbn [prev_used]. assert (Nat.div2 k <= k) by (apply Nat.div2_decr; lia). rewrite snoc_error. destruct (Nat.ltb_spec (S (Nat.div2 k)) (length states)); [|lia].
    destruct (nth_error states (S (Nat.div2 k))) as [u|] eqn:U; [|apply nth_error_None in U; lia]. destruct (Zs _ _ U) as [B1 B2]. cbn [option_map]. 
    pose proof (Nat.div2_odd k) as O. rewrite <- Nat.negb_even in O. destruct (Nat.even k); cbn [Nat.b2n negb] in O.
    + replace (Nat.div2 k + Nat.div2 k) with k in B1 by lia. congruence.
    + replace (S (Nat.div2 k + Nat.div2 k)) with k in B2 by lia. congruence.
Qed.
Lemma start_kept op d s0 : represent op (indices_of BINARY op) (indices_of CONTINUOUS op) = Ok d -> start cont pr op (indices_of BINARY op) (indices_of CONTINUOUS op) = Ok s0 ->
  kept d s0 0 s0 /\ i_zinit s0 = repeat 0%Qc (length (a_bin d)) /\ (ap_warm pr = false -> i_z s0 = i_zinit s0) /\ i_rho s0 = ap_rho pr.
Proof.
  clear late. intros R H. apply represent_inv in R. destruct R as (_ & A & _). unfold start in H. apply bind_ok in H. destruct H as (xuz & H1 & H). injection H as <-. rewrite A.
  split; [|split; [reflexivity|split; [|reflexivity]]].
  - exists [mkAI (fst (fst xuz)) (snd (fst xuz)) (snd xuz) (repeat 0%Qc (length (indices_of BINARY op))) (repeat 0%Qc (length (indices_of BINARY op))) (ap_rho pr) (repeat 0%Qc (length (indices_of BINARY op))) [] [] [] [] [] [] [] []].
    cbn [i_zinit i_y i_dres i_zs length nth_error]. rewrite A, repeat_length.
    split; [intros j t t' _ K; destruct j; discriminate|]. repeat (split; [reflexivity|]). split; [constructor|]. split; [intros j t K; destruct j; discriminate|]. intros j t t' _ K; destruct j; discriminate.
  - intro Wm. rewrite Wm in H1. injection H1 as <-. reflexivity.
Qed.
Lemma solve_history p r d s : admm_solve qubo cont norm late pr p = Ok (r, (d, s)) -> exists s0 k,
  kept d s0 k s /\ i_zinit s0 = repeat 0%Qc (length (a_bin d)) /\ (ap_warm pr = false -> i_z s0 = i_zinit s0) /\ k <= ap_maxiter pr.
Proof.
  intro H. apply solve_inv in H. destruct H as (q & tbl & s0 & k0 & _ & I & T & St & R & Lp & _). destruct (start_kept _ _ _ R St) as (K & Z & Z' & _).
  destruct (loop_ind qubo cont norm late pr (kept d s0) d) with (more := ap_maxiter pr) (k := 0) (res := qz 100) (s := s0) (s' := s) as (k & Hk & G); auto; [intros; eapply kept_step; eauto|].
  exists s0, k. split; auto. split; auto. split; auto. lia.
Qed.
End Run.
Lemma saved_lengths qubo cont norm late pr p r d s : prog_wf p -> admm_solve qubo cont norm late pr p = Ok (r, (d, s)) -> length (i_x0s s) = length (i_merits s).
Proof.
  intros W H. apply solve_inv in H. destruct H as (q & tbl & s0 & k & _ & I & T & St & R & Lp & _).
  pose proof (int_to_bin_wf _ _ _ W I) as Wq. destruct (turn_inv _ _ Wq T) as (Wo & Ev & _). assert (mixed_binary (a_op d)) as M by exact (mixed_of_i2b p q tbl (a_op d) W I Ev).
  destruct (loop_ind qubo cont norm late pr (saved pr d) d) with (more := ap_maxiter pr) (k := 0) (res := qz 100) (s := s0) (s' := s) as (k' & K & G); auto; [intros; eapply saved_step; eauto|eapply start_saved; eauto|].
  destruct G as (_ & L1 & L2 & _). congruence.
Qed.
Lemma mapM_all {A B} (f : A -> result B) (h : A -> B) l : (forall a, In a l -> f a = Ok (h a)) -> mapM f l = Ok (map h l).
Proof. induction l as [|a l IH]; intros H; cbn; [reflexivity|]. rewrite (H a (or_introl eq_refl)). cbn [bind]. rewrite IH by (intros; apply H; right; assumption). reflexivity. Qed.
Local Open Scope string_scope.
Local Open Scope list_scope.
Local Open Scope nat_scope.
(** Minimize -a*b *)
Definition ex52 : qp := run (new_qp "") [OAddVar 0 1 BINARY (Some "a"); OAddVar 0 1 BINARY (Some "b"); OObjective MINIMIZE 0 None (Some (QDict [((KS "a", KS "b"), qz (-1))]))].
Lemma ex52_at a b : obj_at (p_obj ex52) [a; b] = (- (a * b))%Qc.
Proof.
  unfold obj_at. assert (o_const (p_obj ex52) = 0%Qc) as -> by reflexivity. unfold lin_at, quad_at. cbn [length seq]. unfold sumof, fsum. cbn [fold_left map fold_right].
  assert (forall i j, coef2 (o_quad (p_obj ex52)) i j = if (Nat.eqb i 0 && Nat.eqb j 1)%bool then qz (-1) else 0%Qc) as C by (intros [|[|i]] [|[|j]]; vm_compute; reflexivity).
  assert (forall i, coef1 (o_lin (p_obj ex52)) i = 0%Qc) as C1 by (intros [|i]; vm_compute; reflexivity). rewrite !C, !C1. cbn [Nat.eqb andb at_ nth]. replace (qz (-1)) with (- (1))%Qc by (apply Qc_is_canon; reflexivity). unfold at_. cbn [nth]. ring.
Qed.
Lemma ex52_bits a b : feasible ex52 [a; b] -> (a = 0 \/ a = 1)%Qc /\ (b = 0 \/ b = 1)%Qc.
Proof.
  intros (_ & T & _). unfold typed in T. change (p_vars ex52) with [mkVar "a" 0 1 BINARY; mkVar "b" 0 1 BINARY] in T. inversion T as [|? ? ? ? A T1]; subst. inversion T1 as [|? ? ? ? B T2]; subst. split; [exact A|exact B].
Qed.
Lemma misses_by p i l d : represent p (indices_of BINARY p) (indices_of CONTINUOUS p) = Ok d -> a_abs d = l -> is_var BINARY p i -> ~ In i l -> misses p i.
Proof. intros E A V N. destruct (represent_self _ _ E) as [R Eo]. exists d. rewrite A. auto. Qed.
