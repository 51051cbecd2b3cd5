(** * Ising conversions: the two functions as a whole *)
From Verif Require Export IsingFacts3.
Local Open Scope string_scope.
Local Open Scope list_scope.
Local Open Scope nat_scope.

(** ** The new variables *)
Definition bit_name (i : nat) : string := ("x_" ++ str_nat i)%string.
Definition bit_var (i : nat) : variable := mkVar (bit_name i) 0 1 BINARY.
Lemma bit_name_inj i j : bit_name i = bit_name j -> i = j.
Proof. intro H. apply string_app_inj_l in H. now apply str_nat_inj. Qed.
Lemma binary_named p s : ~ In s (map fst (p_vidx p)) -> exists l, binary_var p (Some s) = (add_var p (mkVar s 0 1 BINARY), Ok l).
Proof.
  intro H. destruct (add_variable_named p 0 1 BINARY s H) as (q & E & _); [qlra|]. exists [s]. unfold binary_var. rewrite E.
  assert (ok_state (add_variable p 0 1 BINARY (Some s)) = Ok q) as O by (rewrite E; reflexivity). apply add_variable_inv in O. destruct O as (-> & _). reflexivity.
Qed.
Lemma add_bits_spec s : forall n k p, (forall i, k <= i -> ~ In (bit_name i) (map fst (p_vidx p))) ->
  exists q, fold_left add_bit (seq k n) (p, Ok tt) = (q, Ok tt) /\ p_vars q = p_vars p ++ map bit_var (seq k n) /\
    p_lcs q = p_lcs p /\ p_qcs q = p_qcs p /\ p_obj q = p_obj p /\ (p_name p = s -> p_name q = s) /\ (idx_exact p -> idx_exact q).
Proof.
  induction n as [|n IH]; intros k p H.
  - exists p. cbn [seq fold_left map]. rewrite app_nil_r. split; [reflexivity|]. split; [reflexivity|]. auto 10.
  - cbn [seq fold_left]. unfold add_bit at 2. cbn [fst snd]. fold (bit_name k). destruct (binary_named p (bit_name k) (H k (Nat.le_refl k))) as [l ->]. cbn [bind].
    destruct (IH (S k) (add_var p (bit_var k))) as (q & E & V & A & B & C & D & F).
    + intros i Hi K. apply (dset_keys _ str_eqb_sp) in K. destruct K as [K|K]; [apply bit_name_inj in K; lia|]. apply (H i); [lia|exact K].
    + exists q. fold (bit_var k). split; [exact E|]. split; [rewrite V; unfold add_var; simpl; now rewrite <- app_assoc|]. split; [exact A|]. split; [exact B|]. split; [exact C|]. split; [exact D|].
      intro X. apply F. apply add_var_exact; auto. exact (H k (Nat.le_refl k)).
Qed.
Lemma indexed_lin_ok env d : Forall (fun kv => fst kv < ve_n env) d -> exists e, lin_make env (lcoef_or_empty (by_index d)) = Ok e.
Proof.
  intro F. unfold by_index. simpl. rewrite lin_put_fold.
  destruct (foldM_put_ok Nat.eqb (key_pos1 env (ve_n env)) (map (fun kv => (KI (Z.of_nat (fst kv)), snd kv)) d) []) as [co ->]; [|simpl; eauto].
  intros k v Hin. apply in_map_iff in Hin. destruct Hin as ([i w] & E & Hin). injection E as <- <-. rewrite Forall_forall in F. apply F in Hin. simpl in Hin.
  exists i. unfold key_pos1. simpl. apply dok_index_spec. auto.
Qed.
Lemma indexed_quad_ok env d : Forall (fun kv => fst (fst kv) < ve_n env /\ snd (fst kv) < ve_n env) d ->
  exists e, quad_make env (qcoef_or_empty (by_index2 d)) = Ok e.
Proof.
  intro F. unfold by_index2. simpl. rewrite quad_put_fold.
  destruct (foldM_put_ok nat2_eqb (key_pos2 env (ve_n env)) (map (fun kv => ((KI (Z.of_nat (fst (fst kv))), KI (Z.of_nat (snd (fst kv)))), snd kv)) d) []) as [co ->]; [|simpl; eauto].
  intros k v Hin. apply in_map_iff in Hin. destruct Hin as ([[i j] w] & E & Hin). injection E as <- <-. rewrite Forall_forall in F. apply F in Hin. simpl in Hin. destruct Hin as [Hi Hj].
  exists (i, j). unfold key_pos2. simpl. assert (dok_index (ve_n env) (Z.of_nat i) = Ok i) as -> by (apply dok_index_spec; auto).
  assert (dok_index (ve_n env) (Z.of_nat j) = Ok j) as -> by (apply dok_index_spec; auto). reflexivity.
Qed.

(** ** from_ising on a new program *)
Lemma from_ising_ok s n terms off linear : good_terms n terms -> NoDup (map fst terms) ->
  exists q, from_ising (new_qp s) (mkOp n terms) off linear = (q, Ok tt) /\ p_vars q = map bit_var (seq 0 n) /\
    p_lcs q = [] /\ p_qcs q = [] /\ o_sense (p_obj q) = MINIMIZE /\
    (linear = true -> forall i, coef2 (o_quad (p_obj q)) i i = 0%Qc) /\ (linear = false -> forall i, coef1 (o_lin (p_obj q)) i = 0%Qc) /\
    forall x, bits n x -> obj_at (p_obj q) x = (energy (mkOp n terms) x + off)%Qc.
Proof.
  intros G N. unfold from_ising. cbn [op_n op_terms].
  destruct (add_bits_spec s n 0 (new_qp s)) as (q & E & V & A & B & C & D & F); [intros i _ []|]. rewrite E. cbn [p_vars new_qp app] in V.
  destruct (read_fold n terms G N []) as (m & Em & Nm & Rm & Um & Vm); [intros t _ []|constructor|constructor|intros i j _; reflexivity|].
  rewrite Em. unfold set_objective, obj_make.
  set (st := from_terms n linear m off).
  assert (length (p_vars q) = n) as Lq by (now rewrite V, map_length, seq_length).
  assert (ve_n (env_of q) = n) as Ln by exact Lq.
  assert (bits n (repeat 0%Qc n)) as Z. { split; [apply repeat_length|]. apply Forall_forall. intros a Ha. apply repeat_spec in Ha. auto. }
  pose proof (from_terms_spec n linear m off _ Z Nm Rm Um) as S0. cbv zeta in S0. fold st in S0. destruct S0 as (N1 & N2 & R1 & R2 & _).
  destruct (indexed_lin_ok (env_of q) (fr_lin st)) as [le El]; [now rewrite Ln|].
  destruct (indexed_quad_ok (env_of q) (fr_quad st)) as [qe Eqe]; [now rewrite Ln|].
  pose proof El as El'. pose proof Eqe as Eqe'. unfold by_index, by_index2, lcoef_or_empty, qcoef_or_empty in El', Eqe'. unfold by_index, by_index2.
  rewrite El'. cbn [bind]. rewrite Eqe'. cbn [bind]. eexists. split; [reflexivity|]. cbn [p_vars p_lcs p_qcs p_obj set_obj o_sense o_quad].
  split; auto. split; [exact A|]. split; [exact B|]. split; [reflexivity|].
  destruct (lin_make_indexed _ _ _ N1 El) as (Wl & Dl & Vl). destruct (quad_make_indexed _ _ _ N2 Eqe) as (Wq & Dq & Vq).
  pose proof (from_terms_shape n linear m off Nm Rm) as [Sh1 Sh2]. fold st in Sh1, Sh2. split; [|split].
  - intros T i. destruct (Nat.lt_ge_cases i n) as [Hi|Hi]; [|apply (coef2_out qe i i Wq); lia]. transitivity (quad_at qe (unit_at n i)); [symmetry; apply quad_at_unit, Hi|].
    rewrite Vq by (rewrite unit_length; congruence). apply sumof_zero. intros [[a b] v] Hin. specialize (Sh1 T). rewrite Forall_forall in Sh1. apply Sh1 in Hin. cbn [fst snd] in *.
    rewrite !unit_get by assumption. destruct (Nat.eqb_spec a i), (Nat.eqb_spec b i); try ring. lia.
  - intros T i. destruct (Nat.lt_ge_cases i n) as [Hi|Hi]; [|apply (coef1_out le i Wl); lia]. transitivity (lin_at le (unit_at n i)); [symmetry; apply lin_at_unit, Hi|].
    rewrite Vl by (rewrite unit_length; congruence). rewrite (Sh2 T). reflexivity.
  - intros x X. pose proof X as [Lx _]. unfold obj_at. cbn [o_const o_lin o_quad].
    rewrite Vl, Vq by congruence. pose proof (from_terms_spec n linear m off x X Nm Rm Um) as S1. cbv zeta in S1. fold st in S1. destruct S1 as (_ & _ & _ & _ & S1).
    unfold xx in S1. rewrite S1. rewrite Vm by assumption. rewrite dsum_nil. rewrite energy_ev. cbn [op_terms]. ring.
Qed.
Lemma read_term_inv n m t m' : length (fst (fst t)) = n -> length (snd (fst t)) = n -> read_term m t = Ok m' -> ising_term n t.
Proof.
  destruct t as [[z xs] c]. cbn [fst snd]. intros L1 L2 H. unfold read_term in H. apply bind_ok in H. destruct H as (m1 & H1 & H2).
  unfold ising_term. cbn [fst snd]. split; auto. split; auto. split.
  - destruct (length (flagged xs) =? 0) eqn:E; [|discriminate H2]. rewrite flagged_length in E. apply Nat.eqb_eq in E. clear -E.
    induction xs as [|b xs IH]; auto. simpl in *. destruct b; [discriminate E|]. auto.
  - rewrite <- flagged_length. destruct (flagged z) as [|i [|j [|k l]]]; try discriminate H1; simpl; auto.
Qed.
Lemma read_term_err m t e : read_term m t = Err e -> e = QiskitOptimizationError.
Proof.
  destruct t as [[z xs] c]. unfold read_term. destruct (flagged z) as [|i [|j [|k l]]]; cbn [bind]; try (intros [=]; congruence);
  destruct (length (flagged xs) =? 0); intros [=]; congruence.
Qed.
Lemma read_fold_err l : forall m e, foldM read_term l m = Err e -> e = QiskitOptimizationError.
Proof.
  induction l as [|t l IH]; intros m e H; [discriminate H|]. cbn [foldM] in H. apply bind_err in H. destruct H as [H|(m1 & _ & H)]; [now apply read_term_err in H|eauto].
Qed.
Lemma read_fold_inv n l : Forall (fun t => length (fst (fst t)) = n /\ length (snd (fst t)) = n) l -> forall m m',
  foldM read_term l m = Ok m' -> good_terms n l.
Proof.
  induction 1 as [|t l [L1 L2] F IH]; intros m m' H; [constructor|]. cbn [foldM] in H. apply bind_ok in H. destruct H as (m1 & H1 & H2).
  constructor; [now apply (read_term_inv n m t m1)|]. exact (IH _ _ H2).
Qed.
Lemma from_ising_rejects s n terms off linear t : Forall (fun t => length (fst (fst t)) = n /\ length (snd (fst t)) = n) terms ->
  In t terms -> ~ ising_term n t -> snd (from_ising (new_qp s) (mkOp n terms) off linear) = Err QiskitOptimizationError.
Proof.
  intros F Hin Ht. unfold from_ising. cbn [op_n op_terms].
  destruct (add_bits_spec s n 0 (new_qp s)) as (q & E & _); [intros i _ []|]. rewrite E.
  destruct (foldM read_term terms []) as [m|e] eqn:Em.
  - exfalso. apply (read_fold_inv n) in Em; auto. unfold good_terms in Em. rewrite Forall_forall in Em. auto.
  - apply read_fold_err in Em. now subst.
Qed.

(** ** to_ising *)
Lemma filter_length_le_ {A} (f : A -> bool) l : length (filter f l) <= length l.
Proof. induction l as [|a l IH]; simpl; auto. destruct (f a); simpl; lia. Qed.
Lemma count_all_binary p : (count_type BINARY p <? num_vars p) = false <-> all_binary p.
Proof.
  unfold count_type, num_vars, all_binary. rewrite Nat.ltb_ge. split.
  - intro H. induction (p_vars p) as [|v l IH]; [constructor|]. simpl in H.
    pose proof (filter_length_le_ (fun v => vartype_eqb (v_type v) BINARY) l) as L.
    destruct (v_type v) eqn:E; simpl in H; try lia. constructor; auto. apply IH. lia.
  - intro H. induction H as [|v l E F IH]; simpl; auto. rewrite E. simpl. lia.
Qed.
Lemma to_ising_ok p : exprs_wf p -> unconstrained_binary p -> obj_fits p -> exists op off, to_ising p = Ok (op, off).
Proof.
  intros (W1 & W2 & _) (B & E1 & E2) (F1 & F2). unfold to_ising. apply count_all_binary in B. rewrite B, E1, E2. cbn [length Nat.eqb andb negb].
  unfold lin_to_dict, quad_to_dict, quad_entries.
  destruct (lin_fold_ok (num_vars p) (sense_val (o_sense (p_obj p))) (le_co (o_lin (p_obj p)))) with (st := ([] : list (pauli * Qc), (0 + o_const (p_obj p) * sense_val (o_sense (p_obj p)))%Qc)) as [st ->].
  { eapply Forall_impl; [|apply W1]. simpl. intros a. lia. }
  cbn [bind]. destruct (quad_fold_ok (num_vars p) (sense_val (o_sense (p_obj p))) (fold_left ising_merge (qe_co (o_quad (p_obj p))) [])) with (st := st) as [st' ->].
  { apply merge_Forall; [|constructor]. eapply Forall_impl; [|apply W2]. simpl. intros a. lia. }
  cbn [bind]. eauto.
Qed.
Lemma ising_lin_err n s st kv e : ising_lin n s st kv = Err e -> e = IndexError.
Proof.
  destruct kv. unfold ising_lin, set_flag. destruct (_ <? _); cbn [bind]; intros [=]. congruence.
Qed.
Lemma ising_quad_err n s st kv e : ising_quad n s st kv = Err e -> e = IndexError.
Proof.
  destruct kv as [[i j] c]. unfold ising_quad, set_flag. intro H. apply bind_err in H. destruct H as [H|(s1 & _ & H)].
  - destruct (i =? j); [discriminate H|]. destruct (i <? _); [|injection H; auto]. cbn [bind] in H. destruct (j <? _); [discriminate H|injection H; auto].
  - destruct (i <? _); [|injection H; auto]. cbn [bind] in H. destruct (j <? _); [discriminate H|injection H; auto].
Qed.
Lemma foldM_err_is {A S} (f : S -> A -> result S) e0 (Hf : forall s a e, f s a = Err e -> e = e0) l : forall s e, foldM f l s = Err e -> e = e0.
Proof.
  induction l as [|a l IH]; intros s e H; [discriminate H|]. cbn [foldM] in H. apply bind_err in H. destruct H as [H|(s1 & _ & H)]; eauto.
Qed.
Lemma to_ising_rejects p : to_ising p = Err QiskitOptimizationError <-> ~ unconstrained_binary p.
Proof.
  unfold to_ising, unconstrained_binary. split.
  - intros H (B & E1 & E2). apply count_all_binary in B. rewrite B, E1, E2 in H. cbn [length Nat.eqb andb negb] in H.
    apply bind_err in H. destruct H as [H|(st & _ & H)]; [apply (foldM_err_is _ IndexError (ising_lin_err _ _)) in H; discriminate H|].
    apply bind_err in H. destruct H as [H|(st' & _ & H)]; [apply (foldM_err_is _ IndexError (ising_quad_err _ _)) in H; discriminate H|discriminate H].
  - intro H. destruct (count_type BINARY p <? num_vars p) eqn:B; auto.
    destruct (p_lcs p) eqn:E1; [|reflexivity]. destruct (p_qcs p) eqn:E2; [|reflexivity]. exfalso. apply H. apply count_all_binary in B. auto.
Qed.
Lemma lin_fold_inv n s l : forall st st', foldM (ising_lin n s) l st = Ok st' -> Forall (fun kv => fst kv < n) l.
Proof.
  induction l as [|[i c] l IH]; intros st st' H; [constructor|]. cbn [foldM] in H. apply bind_ok in H. destruct H as (s1 & H1 & H2).
  constructor; [|eauto]. unfold ising_lin, set_flag, no_flags in H1. rewrite repeat_length in H1. cbn [fst]. destruct (Nat.ltb_spec i n); [assumption|discriminate H1].
Qed.
Lemma quad_fold_inv n s l : forall st st', foldM (ising_quad n s) l st = Ok st' -> Forall (fun kv => fst (fst kv) < n /\ snd (fst kv) < n) l.
Proof.
  induction l as [|[[i j] c] l IH]; intros st st' H; [constructor|]. cbn [foldM] in H. apply bind_ok in H. destruct H as (s1 & H1 & H2).
  constructor; [|eauto]. unfold ising_quad in H1. apply bind_ok in H1. destruct H1 as (s2 & _ & H1). unfold set_flag, no_flags in H1. rewrite repeat_length in H1.
  cbn [fst snd]. destruct (Nat.ltb_spec i n); [|discriminate H1]. cbn [bind] in H1. destruct (Nat.ltb_spec j n); [auto|discriminate H1].
Qed.
Lemma dset_keys_In (k : nat * nat) (v : Qc) co kv : In kv (map fst co) -> In kv (map fst (dset nat2_eqb k v co)).
Proof.
  induction co as [|[k1 v1] co IH]; [intros []|]. simpl. destruct (nat2_eqb_sp k k1) as [E|E]; simpl; [intros [H|H]; subst; auto|]. intros [H|H]; auto.
Qed.
Lemma dset_has_key (k : nat * nat) (v : Qc) co : In k (map fst (dset nat2_eqb k v co)).
Proof. induction co as [|[k1 v1] co IH]; simpl; auto. destruct (nat2_eqb_sp k k1) as [E|E]; simpl; subst; auto. Qed.
Lemma merge_keys n l : forall co, Forall (fun kv : (nat * nat) * Qc => fst (fst kv) < n /\ snd (fst kv) < n) (fold_left ising_merge l co) ->
  Forall (fun kv => fst (fst kv) < n /\ snd (fst kv) < n) co /\ Forall (fun kv => fst (fst kv) < n /\ snd (fst kv) < n) l.
Proof.
  assert (forall (P : (nat * nat) -> Prop) (co : list ((nat * nat) * Qc)), Forall (fun kv : (nat * nat) * Qc => P (fst kv)) co <-> forall k, In k (map fst co) -> P k) as K.
  { intros P co. rewrite Forall_forall. split; [intros H k Hk; apply in_map_iff in Hk; destruct Hk as (x & <- & Hx); auto|intros H x Hx; apply H, in_map, Hx]. }
  induction l as [|[[i j] v] l IH]; intros co H; [split; [exact H|constructor]|]. cbn [fold_left] in H. apply IH in H. destruct H as [H1 H2].
  pose proof (proj1 (K (fun k : nat * nat => fst k < n /\ snd k < n) _) H1) as H3. clear H1. unfold ising_merge, dadd in H3. split.
  - apply (proj2 (K (fun k : nat * nat => fst k < n /\ snd k < n) _)). intros k Hk. apply H3. destruct (j <? i); now apply dset_keys_In.
  - constructor; [|exact H2]. cbn [fst snd]. destruct (j <? i); [specialize (H3 (j, i) (dset_has_key _ _ _))|specialize (H3 (i, j) (dset_has_key _ _ _))]; cbn [fst snd] in H3; tauto.
Qed.
Lemma to_ising_iff p : unconstrained_binary p ->
  ((exists op off, to_ising p = Ok (op, off)) <->
   (forall i v, In (i, v) (lin_to_dict (o_lin (p_obj p))) -> i < num_vars p) /\
   (forall i j v, In ((i, j), v) (quad_to_dict false (o_quad (p_obj p))) -> i < num_vars p /\ j < num_vars p)) /\
  (forall e, to_ising p = Err e -> e = IndexError).
Proof.
  intros (B & E1 & E2). unfold to_ising. apply count_all_binary in B. rewrite B, E1, E2. cbn [length Nat.eqb andb negb]. split; [split|].
  - intros (op & off & H). apply bind_ok in H. destruct H as (st & H1 & H). apply bind_ok in H. destruct H as (st' & H2 & _).
    apply lin_fold_inv in H1. apply quad_fold_inv in H2. apply merge_keys in H2. destruct H2 as [_ H2]. rewrite Forall_forall in H1, H2.
    split; [intros i v Hi; exact (H1 _ Hi)|intros i j v Hi; exact (H2 _ Hi)].
  - intros [F1 F2].
    destruct (lin_fold_ok (num_vars p) (sense_val (o_sense (p_obj p))) (lin_to_dict (o_lin (p_obj p)))) with (st := ([] : list (pauli * Qc), (0 + o_const (p_obj p) * sense_val (o_sense (p_obj p)))%Qc)) as [st ->].
    { apply Forall_forall. intros [i v] Hi. exact (F1 _ _ Hi). }
    cbn [bind]. destruct (quad_fold_ok (num_vars p) (sense_val (o_sense (p_obj p))) (fold_left ising_merge (quad_to_dict false (o_quad (p_obj p))) [])) with (st := st) as [st' ->].
    { apply merge_Forall; [|constructor]. apply Forall_forall. intros [[i j] v] Hi. exact (F2 _ _ _ Hi). }
    cbn [bind]. eauto.
  - intros e H. apply bind_err in H. destruct H as [H|(st & _ & H)]; [exact (foldM_err_is _ IndexError (ising_lin_err _ _) _ _ _ H)|].
    apply bind_err in H. destruct H as [H|(st' & _ & H)]; [exact (foldM_err_is _ IndexError (ising_quad_err _ _) _ _ _ H)|discriminate H].
Qed.
Lemma to_ising_energy p op off x : exprs_wf p -> to_ising p = Ok (op, off) -> obj_nonempty p -> bits (num_vars p) x ->
  (qabs (energy op x + off - sign (o_sense (p_obj p)) * obj_at (p_obj p) x) <= ATOL * qn (num_vars p * num_vars p))%Qc.
Proof.
  intros W H N X. apply to_ising_inv in H; auto. destruct H as (_ & _ & _ & l & D). rewrite <- (id_value p op off l D x X).
  rewrite (id_op p op off l D), energy_ev. cbn [op_terms]. pose proof (id_some p op off l D N) as Nl. pose proof (id_good p op off l D) as G.
  replace (ev x (finish_op (num_vars p) (fold_left sum_add l SZero)) + off - (ev x l + off))%Qc with (ev x (finish_op (num_vars p) (fold_left sum_add l SZero)) - ev x l)%Qc by ring.
  now apply finish_bound.
Qed.
Lemma to_ising_exact p op off g x : exprs_wf p -> to_ising p = Ok (op, off) -> obj_nonempty p -> on_grid g p -> (qz 4 * ATOL < g)%Qc -> bits (num_vars p) x ->
  (energy op x + off = sign (o_sense (p_obj p)) * obj_at (p_obj p) x)%Qc.
Proof.
  intros W H N G Hg X. apply to_ising_inv in H; auto. destruct H as (_ & _ & _ & l & D). rewrite <- (id_value p op off l D x X).
  rewrite (id_op p op off l D), energy_ev. cbn [op_terms]. pose proof (id_some p op off l D N) as Nl.
  rewrite (finish_exact _ _ x g Nl Hg (id_grid p op off l D g G)). reflexivity.
Qed.
(** The terms of the operator are Z strings on one or two qubits, unless the operator is zero *)
Lemma to_ising_terms p op off : exprs_wf p -> to_ising p = Ok (op, off) -> obj_nonempty p ->
  op_n op = num_vars p /\ (op_terms op = [((no_flags (num_vars p), no_flags (num_vars p)), 0%Qc)] \/ (good_terms (num_vars p) (op_terms op) /\ NoDup (map fst (op_terms op)))).
Proof.
  intros W H N. apply to_ising_inv in H; auto. destruct H as (_ & _ & _ & l & D). rewrite (id_op p op off l D). cbn [op_n op_terms]. split; auto.
  apply finish_good; [exact (id_some p op off l D N)|exact (id_good p op off l D)].
Qed.
(** ** Constant objectives *)
Lemma all_zero_or {K} (eqb : K -> K -> bool) (sp : forall a b, reflect (a = b) (eqb a b)) (d : list (K * Qc)) :
  NoDup (map fst d) -> (exists k, dgetq eqb k d <> 0%Qc) \/ (forall k, dgetq eqb k d = 0%Qc).
Proof.
  intro N. destruct (existsb (fun kv => negb (qeqb (snd kv) 0)) d) eqn:E.
  - left. apply existsb_exists in E. destruct E as ([k v] & Hin & E). exists k. unfold dgetq. rewrite (in_dget _ sp k v d N Hin).
    simpl in E. apply negb_true_iff in E. now apply qeqb_false in E.
  - right. intro k. unfold dgetq. destruct (dget eqb k d) as [v|] eqn:G; auto. apply (dget_in _ sp) in G.
    destruct (qeqb_spec v 0) as [->|Nv]; auto. exfalso. assert (existsb (fun kv : K * Qc => negb (qeqb (snd kv) 0)) d = true) as T; [|congruence].
    apply existsb_exists. exists (k, v). split; auto. simpl. destruct (qeqb_spec v 0); [contradiction|reflexivity].
Qed.
Lemma nonempty_or_const p : exprs_wf p -> obj_nonempty p \/ forall x, obj_at (p_obj p) x = o_const (p_obj p).
Proof.
  intros (W1 & W2 & _). destruct (all_zero_or Nat.eqb nat_eqb_sp (le_co (o_lin (p_obj p)))) as [[i H]|Z1]; [apply W1|left; left; exists i; exact H|].
  destruct (all_zero_or nat2_eqb nat2_eqb_sp (qe_co (o_quad (p_obj p)))) as [[[i j] H]|Z2]; [apply W2|left; right; exists i, j; exact H|].
  right. intro x. unfold obj_at, lin_at, quad_at, coef1, coef2, mget.
  rewrite (sumof_zero (fun i => (dgetq Nat.eqb i (le_co (o_lin (p_obj p))) * at_ x i)%Qc)) by (intros i _; rewrite Z1; ring).
  rewrite (sumof_zero (fun i => sumof _ _)); [ring|]. intros i _. apply sumof_zero. intros j _. rewrite Z2. ring.
Qed.
Lemma zero_op_energy n x : energy (mkOp n [((no_flags n, no_flags n), 0%Qc)]) x = 0%Qc.
Proof. unfold energy. cbn [op_terms sumof fst snd]. ring. Qed.
Lemma sign_abs s a b : qabs (sign s * a - sign s * b)%Qc = qabs (a - b)%Qc.
Proof.
  replace (sign s * a - sign s * b)%Qc with (sign s * (a - b))%Qc by ring. rewrite qabs_mul. destruct s; simpl.
  - change (qabs 1) with 1%Qc. ring.
  - change (qabs (- (1))) with 1%Qc. ring.
Qed.
(** The operator is not zero if the objective varies by more than the tolerance *)
Lemma to_ising_nonzero p op off x x' : exprs_wf p -> to_ising p = Ok (op, off) -> bits (num_vars p) x -> bits (num_vars p) x' ->
  (qz 2 * (ATOL * qn (num_vars p * num_vars p)) < qabs (obj_at (p_obj p) x - obj_at (p_obj p) x'))%Qc ->
  obj_nonempty p /\ op_n op = num_vars p /\ good_terms (num_vars p) (op_terms op) /\ NoDup (map fst (op_terms op)).
Proof.
  intros W H X X' D. assert (obj_nonempty p) as N.
  { destruct (nonempty_or_const p W) as [N|C]; auto. exfalso. rewrite !C in D. replace (o_const (p_obj p) - o_const (p_obj p))%Qc with 0%Qc in D by ring.
    change (qabs 0) with 0%Qc in D. assert (0 * qn (num_vars p * num_vars p) <= ATOL * qn (num_vars p * num_vars p))%Qc as P.
    { apply Qcmult_le_compat_r; [apply Qclt_le_weak, ATOL_pos|apply qn_nonneg]. }
    revert D P. generalize (ATOL * qn (num_vars p * num_vars p))%Qc. intros t D P. change (qz 2) with (1 + 1)%Qc in D. rewrite Qcmult_0_l in P.
    assert (t + t < 0)%Qc by (replace (t + t)%Qc with ((1 + 1) * t)%Qc by ring; exact D). qlra. }
  split; auto. destruct (to_ising_terms p op off W H N) as (En & [Z|G]); [|tauto]. exfalso.
  pose proof (to_ising_energy p op off x W H N X) as B1. pose proof (to_ising_energy p op off x' W H N X') as B2.
  assert (forall y, energy op y = 0%Qc) as E0 by (intro y; unfold energy; rewrite Z; cbn [sumof fst snd]; ring).
  rewrite E0 in B1, B2. rewrite <- (sign_abs (o_sense (p_obj p))) in D.
  revert B1 B2 D. generalize (ATOL * qn (num_vars p * num_vars p))%Qc (sign (o_sense (p_obj p)) * obj_at (p_obj p) x)%Qc (sign (o_sense (p_obj p)) * obj_at (p_obj p) x')%Qc.
  intros t a b B1 B2 D. apply qabs_bound in B1, B2. assert (qabs (a - b) <= qz 2 * t)%Qc as C; [|now apply Qclt_not_le in D].
  replace (qz 2 * t)%Qc with (t + t)%Qc by (change (qz 2) with (1 + 1)%Qc; ring). apply qabs_bound. destruct B1, B2. split; qlra.
Qed.
Lemma to_ising_nonzero_grid p op off g x x' : exprs_wf p -> to_ising p = Ok (op, off) -> on_grid g p -> (qz 4 * ATOL < g)%Qc -> bits (num_vars p) x -> bits (num_vars p) x' ->
  obj_at (p_obj p) x <> obj_at (p_obj p) x' ->
  obj_nonempty p /\ op_n op = num_vars p /\ good_terms (num_vars p) (op_terms op) /\ NoDup (map fst (op_terms op)).
Proof.
  intros W H G Hg X X' D. assert (obj_nonempty p) as N.
  { destruct (nonempty_or_const p W) as [N|C]; auto. exfalso. apply D. now rewrite !C. }
  split; auto. destruct (to_ising_terms p op off W H N) as (En & [Z|G']); [|tauto]. exfalso.
  pose proof (to_ising_exact p op off g x W H N G Hg X) as B1. pose proof (to_ising_exact p op off g x' W H N G Hg X') as B2.
  assert (forall y, energy op y = 0%Qc) as E0 by (intro y; unfold energy; rewrite Z; cbn [sumof fst snd]; ring).
  rewrite E0 in B1, B2. apply D. rewrite B1 in B2. destruct (o_sense (p_obj p)); simpl in B2; qlra.
Qed.
(** Integer coefficients lie on the grid 1 *)
Definition int_obj_b (p : qp) : bool :=
  forallb (fun kv => is_integer (snd kv)) (le_co (o_lin (p_obj p))) && forallb (fun kv => is_integer (snd kv)) (qe_co (o_quad (p_obj p))).
Lemma dgetq_int {K} (eqb : K -> K -> bool) (sp : forall a b, reflect (a = b) (eqb a b)) d k :
  forallb (fun kv : K * Qc => is_integer (snd kv)) d = true -> exists z, dgetq eqb k d = (qz z * 1)%Qc.
Proof.
  intro H. unfold dgetq. destruct (dget eqb k d) as [v|] eqn:E; [|exists 0%Z; rewrite qz_0; ring]. apply (dget_in _ sp) in E.
  rewrite forallb_forall in H. apply H in E. simpl in E. apply is_integer_spec in E. destruct E as [z ->]. exists z. ring.
Qed.
Lemma int_grid p : int_obj_b p = true -> on_grid 1%Qc p.
Proof.
  intro H. apply andb_prop in H. destruct H as [H1 H2]. split.
  - intro i. now apply (dgetq_int _ nat_eqb_sp).
  - intros i j. now apply (dgetq_int _ nat2_eqb_sp).
Qed.
