From Verif Require Export AdmmFacts.
Local Open Scope nat_scope.

(** ** The violation *)
Lemma excess1_nonneg s a b : (0 <= excess1 s a b)%Qc.
Proof. unfold excess1. destruct s; [destruct (qltb_spec b a); qlra|destruct (qltb_spec a b); qlra|apply qabs_nonneg]. Qed.
Lemma excess1_zero s a b : excess1 s a b = 0%Qc <-> holds s a b.
Proof.
  unfold excess1, holds. destruct s.
  - destruct (qltb_spec b a); split; intro; try qlra; auto.
  - destruct (qltb_spec a b); split; intro; try qlra; auto.
  - rewrite qabs_0. split; intro; qlra.
Qed.
Lemma sum_zero {A} (f : A -> Qc) (P : A -> Prop) l : (forall a, (0 <= f a)%Qc) -> (forall a, f a = 0%Qc <-> P a) -> (sumof f l = 0%Qc <-> Forall P l).
Proof.
  intros N Z. split; intro H.
  - apply Forall_forall. intros a Ha. apply Z. apply (sumof_nonneg_0 f l); auto.
  - apply sumof_zero. intros a Ha. apply Z. rewrite Forall_forall in H. auto.
Qed.
Lemma excess_nonneg p x : (0 <= excess p x)%Qc.
Proof.
  unfold excess. pose proof (sumof_nonneg (fun c => excess1 (lc_sense c) (lc_at c x) (lc_rhs c)) (p_lcs p)) as A. pose proof (sumof_nonneg (fun c => excess1 (qc_sense c) (qc_at c x) (qc_rhs c)) (p_qcs p)) as B.
  specialize (A (fun c _ => excess1_nonneg _ _ _)). specialize (B (fun c _ => excess1_nonneg _ _ _)). cbv beta in *. qlra.
Qed.
Lemma excess_zero p x : excess p x = 0%Qc <-> lcs_hold p x /\ qcs_hold p x.
Proof.
  unfold lcs_hold, qcs_hold. rewrite <- (sum_zero (fun c => excess1 (lc_sense c) (lc_at c x) (lc_rhs c)) _ (p_lcs p)) by (intros; first [apply excess1_nonneg|apply excess1_zero]).
  rewrite <- (sum_zero (fun c => excess1 (qc_sense c) (qc_at c x) (qc_rhs c)) _ (p_qcs p)) by (intros; first [apply excess1_nonneg|apply excess1_zero]).
  unfold excess. pose proof (sumof_nonneg (fun c => excess1 (lc_sense c) (lc_at c x) (lc_rhs c)) (p_lcs p)) as A. pose proof (sumof_nonneg (fun c => excess1 (qc_sense c) (qc_at c x) (qc_rhs c)) (p_qcs p)) as B.
  specialize (A (fun c _ => excess1_nonneg _ _ _)). specialize (B (fun c _ => excess1_nonneg _ _ _)). cbv beta in *. split; [intro; split; qlra|intros [E1 E2]; rewrite E1, E2; ring].
Qed.

Lemma mapM_sum {A} (f : A -> result Qc) (g : A -> Qc) l : forall vs, mapM f l = Ok vs -> (forall a v, In a l -> f a = Ok v -> v = g a) -> np_sum vs = sumof g l.
Proof.
  induction l as [|a l IH]; intros vs H E; simpl in H; [injection H as <-; reflexivity|]. apply bind_ok in H. destruct H as (v & H1 & H). apply bind_ok in H. destruct H as (vs' & H2 & H). injection H as <-.
  cbn [np_sum fold_right sumof]. change (fold_right Qcplus 0%Qc vs') with (np_sum vs'). rewrite (IH vs') by (auto; intros; apply E; auto; now right). rewrite (E a v) by (auto; now left). reflexivity.
Qed.
Lemma mapM_total {A B} (f : A -> result B) l : (forall a, In a l -> exists b, f a = Ok b) -> exists bs, mapM f l = Ok bs.
Proof.
  induction l as [|a l IH]; intro H; [eexists; reflexivity|]. destruct (H a) as (b & E); [now left|]. destruct IH as (bs & E'); [intros; apply H; now right|]. simpl. rewrite E, E'. simpl. eauto.
Qed.
Lemma lincon_val p c x v : lin_wf (lc_lin c) -> eval_lincon p c x = Ok v -> v = lc_at c x.
Proof. intros W H. unfold eval_lincon in H. rewrite lin_eval_list in H by auto. unfold lc_at. destruct (Nat.eqb _ _); congruence. Qed.
Lemma quadcon_val p c x v : lin_wf (qc_lin c) -> quad_wf (qc_quad c) -> eval_quadcon p c x = Ok v -> v = qc_at c x.
Proof.
  intros W1 W2 H. unfold eval_quadcon in H. rewrite lin_eval_list, quad_eval_list in H by auto. destruct (Nat.eqb _ (le_dim _)); [|discriminate]. destruct (Nat.eqb _ (qe_dim _)); [|discriminate]. cbn [bind] in H. unfold qc_at. congruence.
Qed.
Lemma sum_by_sense {A} (sn : A -> csense) (lhs rhs : A -> Qc) l :
  (sumof (fun c => qabs (lhs c - rhs c)) (filter (fun c => csense_eqb (sn c) EQ) l) +
   sumof (fun c => qmax (match sn c with GE => - (1) | _ => 1 end * (lhs c - rhs c)) 0) (filter (fun c => negb (csense_eqb (sn c) EQ)) l) =
   sumof (fun c => excess1 (sn c) (lhs c) (rhs c)) l)%Qc.
Proof.
  rewrite (sumof_split (fun c => excess1 (sn c) (lhs c) (rhs c)) (fun c => csense_eqb (sn c) EQ)). f_equal; apply sumof_ext; intros c Hc; apply filter_In in Hc; destruct Hc as [_ Hc].
  - destruct (sn c); try discriminate; reflexivity.
  - unfold excess1, qmax. destruct (sn c); try discriminate.
    + destruct (qltb_spec (rhs c) (lhs c)), (qleb_spec (1 * (lhs c - rhs c)) 0); qlra.
    + destruct (qltb_spec (lhs c) (rhs c)), (qleb_spec (- (1) * (lhs c - rhs c)) 0); qlra.
Qed.

(** ** The fields of the data *)
Lemma represent_inv op bin cts d : represent op bin cts = Ok d ->
  a_op d = op /\ a_bin d = bin /\ a_cont d = cts /\
  a_eq d = filter (fun c => csense_eqb (lc_sense c) EQ) (p_lcs op) /\ a_beq d = filter (only_binary bin) (a_eq d) /\
  a_eqq d = filter (fun c => csense_eqb (qc_sense c) EQ) (p_qcs op) /\ a_ineq d = filter (fun c => negb (csense_eqb (lc_sense c) EQ)) (p_lcs op) /\
  a_ineqq d = filter (fun c => negb (csense_eqb (qc_sense c) EQ)) (p_qcs op) /\
  step1_indices op bin (a_beq d) = Ok (a_abs d, a_rel d) /\ get_q op (a_abs d) = Ok (a_q0 d) /\ np_take (lin_to_array (o_lin (p_obj op))) (a_abs d) = Ok (a_c0 d) /\
  get_q op cts = Ok (a_q1 d) /\ np_take (lin_to_array (o_lin (p_obj op))) cts = Ok (a_c1 d) /\ get_a0_b0 (a_beq d) (a_abs d) = Ok (a_a0 d, a_b0 d).
Proof.
  unfold represent. intro H. apply bind_ok in H. destruct H as ([ab re] & H1 & H). apply bind_ok in H. destruct H as (q0 & H2 & H). apply bind_ok in H. destruct H as (c0 & H3 & H).
  apply bind_ok in H. destruct H as (q1 & H4 & H). apply bind_ok in H. destruct H as (c1 & H5 & H). apply bind_ok in H. destruct H as ([a0 b0] & H6 & H).
  injection H as <-. cbn [a_op a_bin a_cont a_beq a_eq a_eqq a_ineq a_ineqq a_abs a_rel a_q0 a_c0 a_q1 a_c1 a_a0 a_b0 fst snd] in *. repeat (split; [reflexivity||assumption|]). assumption.
Qed.
Lemma represent_self op d : represent op (indices_of BINARY op) (indices_of CONTINUOUS op) = Ok d -> represents d /\ a_op d = op.
Proof. intro H. pose proof (represent_inv _ _ _ _ H) as (A & _). unfold represents. now rewrite A. Qed.
Lemma represents_split d : represents d -> split_at d.
Proof. intro H. apply represent_inv in H. destruct H as (_ & A & B & _). split; assumption. Qed.

Lemma residual_is d x v : exprs_wf (a_op d) -> represents d -> constraint_residual d x = Ok v -> v = excess (a_op d) x.
Proof.
  intros (_ & _ & W1 & W2) R H. apply represent_inv in R. destruct R as (_ & _ & _ & E1 & _ & E2 & E3 & E4 & _). rewrite Forall_forall in W1, W2.
  unfold constraint_residual in H. rewrite E1, E2, E3, E4 in H.
  apply bind_ok in H. destruct H as (e1 & H1 & H). apply bind_ok in H. destruct H as (e2 & H2 & H). apply bind_ok in H. destruct H as (i1 & H3 & H). apply bind_ok in H. destruct H as (i2 & H4 & H). injection H as <-.
  rewrite (mapM_sum _ (fun c => qabs (lc_at c x - lc_rhs c)) _ _ H1), (mapM_sum _ (fun c => qabs (qc_at c x - qc_rhs c)) _ _ H2),
    (mapM_sum _ (fun c => qmax (match lc_sense c with GE => - (1) | _ => 1 end * (lc_at c x - lc_rhs c)) 0)%Qc _ _ H3),
    (mapM_sum _ (fun c => qmax (match qc_sense c with GE => - (1) | _ => 1 end * (qc_at c x - qc_rhs c)) 0)%Qc _ _ H4).
  - unfold excess. rewrite <- (sum_by_sense lc_sense (fun c => lc_at c x) lc_rhs), <- (sum_by_sense qc_sense (fun c => qc_at c x) qc_rhs). ring.
  - intros c a Hc Ha. apply filter_In in Hc. apply bind_ok in Ha. destruct Ha as (b & Hb & Ha). rewrite <- (quadcon_val _ _ _ _ (proj1 (W2 c (proj1 Hc))) (proj2 (W2 c (proj1 Hc))) Hb). congruence.
  - intros c a Hc Ha. apply filter_In in Hc. apply bind_ok in Ha. destruct Ha as (b & Hb & Ha). rewrite <- (lincon_val _ _ _ _ (W1 c (proj1 Hc)) Hb). congruence.
  - intros c a Hc Ha. apply filter_In in Hc. apply bind_ok in Ha. destruct Ha as (b & Hb & Ha). rewrite <- (quadcon_val _ _ _ _ (proj1 (W2 c (proj1 Hc))) (proj2 (W2 c (proj1 Hc))) Hb). congruence.
  - intros c a Hc Ha. apply filter_In in Hc. apply bind_ok in Ha. destruct Ha as (b & Hb & Ha). rewrite <- (lincon_val _ _ _ _ (W1 c (proj1 Hc)) Hb). congruence.
Qed.
Lemma residual_total d x : shapes (num_vars (a_op d)) (a_op d) -> represents d -> length x = num_vars (a_op d) -> constraint_residual d x = Ok (excess (a_op d) x).
Proof.
  intros (S1 & S2 & S3 & S4) R L.
  assert (exprs_wf (a_op d)) as W.
  { split; [apply S1|]. split; [apply S2|]. split; [eapply Forall_impl; [|exact S3]; intros c K; apply K|eapply Forall_impl; [|exact S4]; intros c [K1 K2]; split; [apply K1|apply K2]]. }
  enough (exists v, constraint_residual d x = Ok v) as (v & E) by (rewrite E; f_equal; now apply residual_is).
  pose proof (represent_inv _ _ _ _ R) as (_ & _ & _ & E1 & _ & E2 & E3 & E4 & _). rewrite Forall_forall in S3, S4. unfold constraint_residual. rewrite E1, E2, E3, E4.
  assert (forall c, In c (p_lcs (a_op d)) -> eval_lincon (a_op d) c x = Ok (lc_at c x)) as F1.
  { intros c Hc. destruct (S3 c Hc) as [K1 K2]. unfold eval_lincon. rewrite lin_eval_list, K2, L, Nat.eqb_refl by auto. reflexivity. }
  assert (forall c, In c (p_qcs (a_op d)) -> eval_quadcon (a_op d) c x = Ok (qc_at c x)) as F2.
  { intros c Hc. destruct (S4 c Hc) as [[K1 K2] [K3 K4]]. unfold eval_quadcon. rewrite lin_eval_list, quad_eval_list, K2, K4, L, Nat.eqb_refl by auto. reflexivity. }
  match goal with |- exists v, bind (mapM ?f ?l) _ = Ok v => destruct (mapM_total f l) as (e1 & ->) end. { intros c Hc. apply filter_In in Hc. rewrite F1 by apply Hc. eexists; reflexivity. }
  cbn [bind]. match goal with |- exists v, bind (mapM ?f ?l) _ = Ok v => destruct (mapM_total f l) as (e2 & ->) end. { intros c Hc. apply filter_In in Hc. rewrite F2 by apply Hc. eexists; reflexivity. }
  cbn [bind]. match goal with |- exists v, bind (mapM ?f ?l) _ = Ok v => destruct (mapM_total f l) as (e3 & ->) end. { intros c Hc. apply filter_In in Hc. rewrite F1 by apply Hc. eexists; reflexivity. }
  cbn [bind]. match goal with |- exists v, bind (mapM ?f ?l) _ = Ok v => destruct (mapM_total f l) as (e4 & ->) end. { intros c Hc. apply filter_In in Hc. rewrite F2 by apply Hc. eexists; reflexivity. }
  cbn [bind]. eexists; reflexivity.
Qed.

(** ** The smallest merit *)
Lemma argmin_spec l k : argmin l = Some k -> k < length l /\ forall j, j < length l -> (nth k l 0 <= nth j l 0)%Qc.
Proof.
  revert k. induction l as [|a l IH]; intros k H; simpl in H; [discriminate|]. destruct (argmin l) as [m|] eqn:E.
  - destruct (IH m eq_refl) as [A B]. destruct (qleb_spec a (nth m l 0%Qc)) as [Q|Q]; injection H as <-; simpl; split; try lia; intros [|j] Hj; try qlra; specialize (B j ltac:(simpl in Hj; lia)); qlra.
  - injection H as <-. destruct l as [|b l]; [|simpl in E; destruct (argmin l) as [m|]; [destruct (qleb b (nth m l 0%Qc))|]; discriminate]. simpl. split; [lia|]. intros [|j] Hj; [qlra|simpl in Hj; lia].
Qed.
Lemma argmin_none l : argmin l = None -> l = [].
Proof. destruct l as [|a l]; [reflexivity|]. simpl. destruct (argmin l) as [m|]; [destruct (qleb a (nth m l 0%Qc))|]; discriminate. Qed.

(** ** Turning to minimization *)
Lemma neg_co {K} eqb (d : list (K * Qc)) k : dgetq eqb k (map (fun kv => (fst kv, (- (1) * snd kv)%Qc)) d) = (- dgetq eqb k d)%Qc.
Proof. unfold dgetq. induction d as [|[k' v] d IH]; simpl; [ring|]. destruct (eqb k k'); [ring|exact IH]. Qed.
Lemma neg_keys {K} (d : list (K * Qc)) : map fst (map (fun kv => (fst kv, (- (1) * snd kv)%Qc)) d) = map fst d.
Proof. rewrite map_map. apply map_ext. reflexivity. Qed.
Lemma neg_lin_wf e : lin_wf e -> lin_wf (neg_lin e).
Proof. intros [A B]. split; cbn [neg_lin le_co le_dim]; [now rewrite neg_keys|]. rewrite Forall_map. exact B. Qed.
Lemma neg_quad_wf e : quad_wf e -> quad_wf (neg_quad e).
Proof. intros [A B]. split; cbn [neg_quad qe_co qe_dim]; [now rewrite neg_keys|]. rewrite Forall_map. exact B. Qed.
Lemma neg_lin_coef e i : coef1 (neg_lin e) i = (- coef1 e i)%Qc.
Proof. apply neg_co. Qed.
Lemma neg_quad_coef e i j : coef2 (neg_quad e) i j = (- coef2 e i j)%Qc.
Proof. apply neg_co. Qed.
Lemma neg_lin_at e x : lin_at (neg_lin e) x = (- lin_at e x)%Qc.
Proof. unfold lin_at. rewrite <- sumof_opp. apply sumof_ext. intros i _. rewrite neg_lin_coef. ring. Qed.
Lemma neg_quad_at e x : quad_at (neg_quad e) x = (- quad_at e x)%Qc.
Proof. unfold quad_at. rewrite <- sumof_opp. apply sumof_ext. intros i _. rewrite <- sumof_opp. apply sumof_ext. intros j _. rewrite neg_quad_coef. ring. Qed.
Lemma quad_at_form e e' x : quad_wf e -> quad_wf e' -> qe_dim e' = qe_dim e -> (forall y, form_at (qe_dim e) (coef2 e') y = form_at (qe_dim e) (coef2 e) y) -> quad_at e' x = quad_at e x.
Proof.
  intros W W' D F. rewrite (quad_at_n e x (qe_dim e)), (quad_at_n e' x (qe_dim e)) by (auto; lia). apply F.
Qed.
Lemma turn_inv p op : prog_wf p -> turn_to_minimization p = Ok op ->
  prog_wf op /\ p_vars op = p_vars p /\ p_lcs op = p_lcs p /\ p_qcs op = p_qcs p /\ o_sense (p_obj op) = MINIMIZE /\
  (forall x, obj_at (p_obj op) x = match o_sense (p_obj p) with MINIMIZE => obj_at (p_obj p) x | MAXIMIZE => - obj_at (p_obj p) x end)%Qc /\
  (forall n, shapes n p -> shapes n op) /\
  (quad_upper (o_quad (p_obj p)) -> quad_upper (o_quad (p_obj op))).
Proof.
  intros W H. unfold turn_to_minimization in H. destruct (o_sense (p_obj p)) eqn:S; [injection H as <-; repeat (split; [auto|]); auto|].
  apply bind_ok in H. destruct H as (p1 & H1 & H). apply bind_ok in H. destruct H as (p2 & H2 & H). apply bind_ok in H. destruct H as (p3 & H3 & H).
  pose proof W as (_ & _ & _ & _ & (W1 & W2 & _) & _).
  assert (prog_wf op) as Wo.
  { apply ok_state_fst in H1. apply ok_state_fst in H2. apply ok_state_fst in H3. apply ok_state_fst in H. subst. apply step_prog_wf; [exact I|]. apply step_prog_wf; [now apply neg_lin_wf|]. apply step_prog_wf; [exact I|]. apply step_prog_wf; [exact I|]. exact W. }
  cbn [step on_objective ok_state] in H1. injection H1 as <-. cbn [step on_objective ok_state] in H2. injection H2 as <-.
  unfold step, on_objective in H3. cbn [lin_make bind ok_state] in H3. injection H3 as <-.
  unfold step, on_objective in H. cbn [quad_make bind ok_state] in H. injection H as <-.
  split; auto. cbn [set_obj p_vars p_lcs p_qcs p_obj o_sense o_const o_lin o_quad]. repeat (split; [reflexivity|]).
  assert (quad_wf (mkQuad (qe_dim (neg_quad (o_quad (p_obj p)))) (qe_int (neg_quad (o_quad (p_obj p)))) (triangle (qe_dim (neg_quad (o_quad (p_obj p)))) (qe_co (neg_quad (o_quad (p_obj p))))))) as Wq.
  { destruct Wo as (_ & _ & _ & _ & (_ & K & _) & _). exact K. }
  split; [|split].
  - intro x. unfold obj_at. cbn [o_const o_lin o_quad]. rewrite neg_lin_at. rewrite (quad_at_form (neg_quad (o_quad (p_obj p))) _ x); auto; [rewrite neg_quad_at; ring|now apply neg_quad_wf|].
    intro y. unfold coef2. cbn [qe_co]. apply triangle_form.
  - intros n (A & B & C & D). split; [|split; [|split; auto]]; cbn [set_obj p_obj o_lin o_quad].
    + split; [now apply neg_lin_wf|apply A].
    + split; [exact Wq|apply B].
  - intros _. apply triangle_upper.
Qed.
