From Verif Require Export LagrFacts.
From Verif Require Import RecurFacts2.
Local Open Scope nat_scope.

Lemma update_update {A} i (a b : A) l : update i a (update i b l) = update i a l.
Proof. revert i. induction l as [|c l IH]; intros [|i]; cbn; auto. now rewrite IH. Qed.
(** ** Step 2: one variable *)
Lemma quad_set_nat env e k v : quad_wf e -> k < qe_dim e -> exists e', quad_set env e (KI (Z.of_nat k), KI (Z.of_nat k)) v = Ok e' /\ quad_wf e' /\ qe_dim e' = qe_dim e /\ qe_int e' = qe_int e /\
  forall i j, coef2 e' i j = if Nat.eqb i k && Nat.eqb j k then dtype_cast (qe_int e) v else coef2 e i j.
Proof.
  intros W Hk. unfold quad_set, quad_pos. cbn [resolve bind fst snd]. rewrite Z.min_id, Z.max_id, dok_index_nat by auto. cbn [bind]. eexists. split; [reflexivity|].
  split. { eapply (quad_set_wf env e (KI (Z.of_nat k), KI (Z.of_nat k)) v); auto. unfold quad_set, quad_pos. cbn [resolve bind fst snd]. rewrite Z.min_id, Z.max_id, dok_index_nat by auto. reflexivity. }
  cbn [qe_dim qe_int]. split; auto. split; auto. intros i j. unfold coef2, mget. cbn [qe_co]. rewrite (dgetq_dok_put _ nat2_eqb_sp) by apply W. unfold nat2_eqb. reflexivity.
Qed.
Definition relax_var (v : variable) : variable := mkVar (v_name v) 0 1 CONTINUOUS.
Definition same_frame (q q' : qp) : Prop := p_vidx q' = p_vidx q /\ p_lcs q' = p_lcs q /\ p_lidx q' = p_lidx q /\ p_qcs q' = p_qcs q /\ o_const (p_obj q') = o_const (p_obj q) /\ o_sense (p_obj q') = o_sense (p_obj q) /\
  lin_wf (o_lin (p_obj q')) /\ quad_wf (o_quad (p_obj q')) /\ le_dim (o_lin (p_obj q')) = le_dim (o_lin (p_obj q)) /\ qe_dim (o_quad (p_obj q')) = qe_dim (o_quad (p_obj q)) /\
  le_int (o_lin (p_obj q')) = le_int (o_lin (p_obj q)) /\ qe_int (o_quad (p_obj q')) = qe_int (o_quad (p_obj q)).
Lemma on_variable_nat p i v v' f : nth_error (p_vars p) i = Some v -> f v = Ok v' -> ok_state (on_variable p (KI (Z.of_nat i)) f) = Ok (set_vars (update i v' (p_vars p)) p).
Proof.
  intros E F. unfold on_variable, key_pos, del_pos. rewrite py_index_nat by (apply nth_error_Some; congruence). rewrite E, F. reflexivity.
Qed.
Lemma step2_variable_ok s q k i v : nth_error (p_vars q) i = Some v -> (v_lb v <= 1)%Qc -> lin_wf (o_lin (p_obj q)) -> quad_wf (o_quad (p_obj q)) -> i < le_dim (o_lin (p_obj q)) -> i < qe_dim (o_quad (p_obj q)) ->
  exists q', step2_variable s q (k, i) = Ok q' /\ p_vars q' = update i (relax_var v) (p_vars q) /\ same_frame q q' /\
  (forall j, coef1 (o_lin (p_obj q')) j = if Nat.eqb j i then dtype_cast (le_int (o_lin (p_obj q))) (- at_ (i_lam s) k - i_rho s * (at_ (i_x0 s) k - at_ (i_y s) k)) else coef1 (o_lin (p_obj q)) j)%Qc /\
  (forall j l, coef2 (o_quad (p_obj q')) j l = if Nat.eqb j i && Nat.eqb l i then dtype_cast (qe_int (o_quad (p_obj q))) (i_rho s / qz 2) else coef2 (o_quad (p_obj q)) j l)%Qc.
Proof.
  intros E Lb W1 W2 D1 D2. assert (i < length (p_vars q)) as Hi by (apply nth_error_Some; congruence). unfold step2_variable. cbv zeta. cbn [fst snd step].
  erewrite on_variable_nat by (try reflexivity; eassumption). cbn [bind]. set (v1 := mkVar (v_name v) (v_lb v) (v_ub v) CONTINUOUS).
  rewrite (on_variable_nat _ i v1 (mkVar (v_name v) (v_lb v) 1 CONTINUOUS)). 2: { cbn [set_vars p_vars]. rewrite nth_error_update, Nat.eqb_refl. destruct (Nat.ltb_spec i (length (p_vars q))); [reflexivity|lia]. }
  2: { unfold var_set_ub, v1. cbn [v_lb v_name v_type]. destruct (qltb_spec 1 (v_lb v)) as [K|K]; [exfalso; qlra|reflexivity]. }
  cbn [bind]. rewrite (on_variable_nat _ i (mkVar (v_name v) (v_lb v) 1 CONTINUOUS) (relax_var v)); [| |reflexivity].
  2: { cbn [set_vars p_vars]. rewrite nth_error_update, Nat.eqb_refl, update_length. destruct (Nat.ltb_spec i (length (p_vars q))); [reflexivity|lia]. }
  cbn [bind]. unfold on_objective. cbn [set_vars p_obj p_vars]. 
  match goal with |- context [quad_set ?env _ _ ?v] => destruct (quad_set_nat env (o_quad (p_obj q)) i v W2 D2) as (e & -> & We & De & Ie & Ce) end.
  cbn [bind ok_state set_obj p_obj o_lin o_const o_quad o_sense].
  match goal with |- context [lin_set ?env _ _ ?v] => destruct (lin_set_nat env (o_lin (p_obj q)) i v W1 D1) as (l & -> & Wl & Dl & Il & Cl) end.
  cbn [bind ok_state]. eexists. split; [reflexivity|]. cbn [set_obj set_vars p_obj p_vars p_lcs p_qcs p_vidx p_lidx o_lin o_quad o_const o_sense]. split.
  - rewrite !update_update. reflexivity.
  - split; [unfold same_frame; cbn; repeat (split; [assumption || reflexivity|]); assumption|]. split; [|exact Ce].
    intro j. rewrite Cl. unfold at_. destruct (Nat.eqb j i); [f_equal; ring|reflexivity].
Qed.

(** ** Step 2: all variables *)
Definition spot (l : list (nat * nat)) (i : nat) : option nat := option_map fst (find (fun ki => Nat.eqb (snd ki) i) l).
Lemma step2_variables_ok s l : NoDup (map snd l) -> forall q, lin_wf (o_lin (p_obj q)) -> quad_wf (o_quad (p_obj q)) ->
  (forall i, In i (map snd l) -> i < le_dim (o_lin (p_obj q)) /\ i < qe_dim (o_quad (p_obj q)) /\ exists v, nth_error (p_vars q) i = Some v /\ (v_lb v <= 1)%Qc) ->
  exists q', foldM (step2_variable s) l q = Ok q' /\ same_frame q q' /\ num_vars q' = num_vars q /\
  (forall i v, nth_error (p_vars q) i = Some v -> nth_error (p_vars q') i = Some (match spot l i with Some _ => relax_var v | None => v end)) /\
  (forall i, coef1 (o_lin (p_obj q')) i = match spot l i with Some k => dtype_cast (le_int (o_lin (p_obj q))) (- at_ (i_lam s) k - i_rho s * (at_ (i_x0 s) k - at_ (i_y s) k)) | None => coef1 (o_lin (p_obj q)) i end)%Qc /\
  (forall i j, coef2 (o_quad (p_obj q')) i j = match spot l i with Some _ => if Nat.eqb j i then dtype_cast (qe_int (o_quad (p_obj q))) (i_rho s / qz 2) else coef2 (o_quad (p_obj q)) i j | None => coef2 (o_quad (p_obj q)) i j end)%Qc.
Proof.
  induction l as [|[k i] l IH]; intros N q W1 W2 T; cbn [foldM].
  - exists q. split; [reflexivity|]. split; [unfold same_frame; repeat (split; [assumption || reflexivity|]); reflexivity|]. repeat split; auto.
  - cbn [map snd] in N, T. inversion N as [|? ? Ni N']; subst. destruct (T i (or_introl eq_refl)) as (D1 & D2 & v & Ev & Lb).
    destruct (step2_variable_ok s q k i v Ev Lb W1 W2 D1 D2) as (q1 & -> & V1 & F1 & C1 & Q1). cbn [bind].
    pose proof F1 as (A1 & A2 & A3 & A4 & A5 & A6 & A7 & A8 & A9 & A10 & A11 & A12).
    destruct (IH N' q1 A7 A8) as (q' & E' & F' & Nv & V' & C' & Q').
    + intros j Hj. destruct (T j (or_intror Hj)) as (E1 & E2 & w & Ew & Lw). rewrite A9, A10. split; auto. split; auto. exists w. split; auto. rewrite V1, nth_error_update. destruct (Nat.eqb_spec i j); [subst; contradiction|assumption].
    + exists q'. split; [exact E'|]. destruct F' as (B1 & B2 & B3 & B4 & B5 & B6 & B7 & B8 & B9 & B10 & B11 & B12).
      assert (spot l i = None) as Si. { unfold spot. destruct (find _ l) as [[k' i']|] eqn:E; [|reflexivity]. apply find_some in E. destruct E as [E1 E2]. cbn [snd] in E2. apply Nat.eqb_eq in E2. subst i'. exfalso. apply Ni. apply in_map_iff. exists (k', i). auto. }
      assert (forall j, spot ((k, i) :: l) j = if Nat.eqb i j then Some k else spot l j) as Sp by (intro j; unfold spot; cbn [find snd]; destruct (Nat.eqb i j); reflexivity).
      split; [unfold same_frame; repeat (split; [congruence || assumption|]); congruence|]. split; [rewrite Nv; unfold num_vars; rewrite V1; apply update_length|].
      split; [|split].
      * intros j w Ew. rewrite Sp. specialize (V' j). rewrite V1 in V'. destruct (Nat.eqb_spec i j) as [->|Nij].
        -- rewrite Ev in Ew. injection Ew as <-. rewrite (V' (relax_var v)); [now rewrite Si|]. rewrite nth_error_update, Nat.eqb_refl. destruct (Nat.ltb_spec j (length (p_vars q))) as [|K]; [reflexivity|]. apply nth_error_None in K. congruence.
        -- apply V'. rewrite nth_error_update. destruct (Nat.eqb_spec i j); [contradiction|assumption].
      * intro j. rewrite C', Sp, A11, C1, (Nat.eqb_sym j i). destruct (Nat.eqb_spec i j) as [->|Nij]; [now rewrite Si|reflexivity].
      * intros j m. rewrite Q', Sp, A12, Q1, (Nat.eqb_sym j i). destruct (Nat.eqb_spec i j) as [->|Nij]; [rewrite Si; cbn [andb]; reflexivity|cbn [andb]; reflexivity].
Qed.
Lemma spot_from bin : NoDup bin -> forall k n i, nth_error bin k = Some i -> spot (combine (seq n (length bin)) bin) i = Some (n + k).
Proof.
  intro N. induction N as [|a l Na N IH]; intros k n i E; [destruct k; discriminate|]. unfold spot. cbn [length seq combine find snd]. destruct k as [|k]; cbn [nth_error] in E.
  - injection E as ->. rewrite Nat.eqb_refl. cbn. now rewrite Nat.add_0_r.
  - destruct (Nat.eqb_spec a i) as [->|]; [exfalso; apply Na; eapply nth_error_In; eauto|]. specialize (IH k (S n) i E). unfold spot in IH. rewrite IH. f_equal. lia.
Qed.
Lemma filter_keep {A} (f : A -> bool) l : (forall a, In a l -> f a = true) -> filter f l = l.
Proof. induction l as [|a l IH]; intro H; [reflexivity|]. cbn. rewrite (H a (or_introl eq_refl)). f_equal. apply IH. intros. apply H. now right. Qed.
Lemma spot_at bin k i : NoDup bin -> nth_error bin k = Some i -> spot (combine (seq 0 (length bin)) bin) i = Some k.
Proof. intros N E. exact (spot_from bin N k 0 i E). Qed.
Lemma spot_none l i : ~ In i (map snd l) -> spot l i = None.
Proof.
  intro N. unfold spot. destruct (find _ l) as [[k' i']|] eqn:E; [|reflexivity]. apply find_some in E. destruct E as [E1 E2]. cbn [snd] in E2. apply Nat.eqb_eq in E2. subst i'. exfalso. apply N. apply in_map_iff. exists (k', i). auto.
Qed.

(** ** Step 2: the constraints *)
Lemma remove_named q c : index_finds (map lc_name (p_lcs q)) (p_lidx q) -> In c (p_lcs q) -> exists q', ok_state (step q (ORemLin (KS (lc_name c)))) = Ok q' /\
  p_vars q' = p_vars q /\ p_qcs q' = p_qcs q /\ p_obj q' = p_obj q /\ p_lcs q' = filter (fun c' => negb (String.eqb (lc_name c') (lc_name c))) (p_lcs q) /\ index_finds (map lc_name (p_lcs q')) (p_lidx q').
Proof.
  intros X Hc. apply In_nth_error in Hc. destruct Hc as (i & Ei). assert (i < length (p_lcs q)) as Hi by (apply nth_error_Some; congruence). cbn [step]. unfold remove_linear_constraint, del_pos.
  rewrite (X (lc_name c) i) by (now erewrite map_nth_error by eassumption). destruct (Nat.ltb_spec i (length (p_lcs q))); [|lia]. cbv zeta. cbn [ok_state]. eexists. split; [reflexivity|]. cbn [set_lidx set_lcs p_vars p_qcs p_obj p_lcs p_lidx].
  repeat (split; [reflexivity|]). pose proof (index_finds_nodup _ _ X) as Nd. split.
  - clear - Ei Nd. revert i Ei. induction (p_lcs q) as [|a l IH]; intros [|i] Ei; cbn in *; try discriminate; inversion Nd as [|? ? Na Nd']; subst.
    + injection Ei as ->. rewrite String.eqb_refl. cbn [negb]. symmetry. apply filter_keep. intros b Hb. destruct (String.eqb_spec (lc_name b) (lc_name c)) as [K|]; [|reflexivity]. exfalso. apply Na. rewrite <- K. now apply in_map.
    + destruct (String.eqb_spec (lc_name a) (lc_name c)) as [K|]; [exfalso; apply Na; rewrite K; apply in_map; eapply nth_error_In; eauto|]. cbn [negb]. f_equal. now apply IH.
  - apply index_exact_finds, reindex_exact. rewrite delete_at_map. now apply delete_at_nodup.
Qed.
Lemma remove_rows l : forall q, index_finds (map lc_name (p_lcs q)) (p_lidx q) -> NoDup (map lc_name l) -> (forall c, In c l -> In c (p_lcs q)) -> exists q', foldM (fun q c => ok_state (step q (ORemLin (KS (lc_name c))))) l q = Ok q' /\
  p_vars q' = p_vars q /\ p_qcs q' = p_qcs q /\ p_obj q' = p_obj q /\ forall c, In c (p_lcs q') <-> In c (p_lcs q) /\ ~ In (lc_name c) (map lc_name l).
Proof.
  induction l as [|c l IH]; intros q X N I; cbn [foldM].
  - exists q. repeat (split; [reflexivity|]). cbn. tauto.
  - cbn [map] in N. inversion N as [|? ? Nc N']; subst. destruct (remove_named q c X (I c (or_introl eq_refl))) as (q1 & -> & V1 & Q1 & O1 & L1 & X1). cbn [bind].
    destruct (IH q1 X1 N') as (q' & E' & V' & Q' & O' & L').
    + intros a Ha. rewrite L1. apply filter_In. split; [apply I; now right|]. destruct (String.eqb_spec (lc_name a) (lc_name c)) as [K|]; [|reflexivity]. exfalso. apply Nc. rewrite <- K. now apply in_map.
    + exists q'. split; [exact E'|]. rewrite V', Q', O'. repeat (split; [assumption|]). intro a. rewrite L', L1, filter_In. cbn [map In]. destruct (String.eqb_spec (lc_name a) (lc_name c)) as [K|K]; cbn [negb]; [|assert (lc_name c <> lc_name a) by congruence; tauto].
      split; [intros [[_ F] _]; discriminate|]. intros [_ F]. exfalso. apply F. left. congruence.
Qed.

(** ** Step 2: the objective *)
Lemma bit_kinds op i : mixed_binary op -> i < num_vars op -> (bit_at op i = true /\ is_var BINARY op i) \/ (bit_at op i = false /\ is_var CONTINUOUS op i).
Proof.
  intros M Hi. destruct (mixed_kinds op i M Hi) as [(v & E & T)|(v & E & T)]; [left|right]; (split; [unfold bit_at; rewrite E, T; reflexivity|exists v; auto]).
Qed.
Lemma bit_sum op f : mixed_binary op -> sumof (fun i => if bit_at op i then f i else 0%Qc) (seq 0 (num_vars op)) = sumof f (indices_of BINARY op).
Proof.
  intro M. rewrite sum_kinds by assumption. rewrite (sumof_zero _ (indices_of CONTINUOUS op)), Qcplus_0_r.
  - apply sumof_ext. intros i Hi. apply indices_in in Hi. destruct (bit_kinds op i M) as [[-> _]|[_ K]]; [eapply is_var_lt; eauto|reflexivity|]. exfalso. eapply kinds_apart; eauto.
  - intros i Hi. apply indices_in in Hi. destruct (bit_kinds op i M) as [[_ K]|[-> _]]; [eapply is_var_lt; eauto| |reflexivity]. exfalso. eapply kinds_apart; eauto.
Qed.
Lemma products_sum op x : mixed_binary op -> bit_products op x = sumof (fun i => sumof (fun j => if Nat.eqb i j then 0%Qc else (coef2 (o_quad (p_obj op)) i j * at_ x i * at_ x j)%Qc) (indices_of BINARY op)) (indices_of BINARY op).
Proof.
  intro M. rewrite <- (bit_sum op (fun i => sumof _ _)) by assumption. unfold bit_products. apply sumof_ext. intros i _. destruct (bit_at op i); cbn [andb]; [|apply sumof_zero; reflexivity].
  rewrite <- bit_sum by assumption. apply sumof_ext. intros j _. destruct (bit_at op j); cbn [andb]; [|reflexivity]. now destruct (Nat.eqb i j).
Qed.
Lemma row_bits op c x x0 u : mixed_binary op -> binary_eq op c -> joins op x0 u x -> lc_at c x = sumof (fun k => (coef1 (lc_lin c) (nth k (indices_of BINARY op) 0%nat) * at_ x0 k)%Qc) (seq 0 (length (indices_of BINARY op))).
Proof.
  intros M (Hc & _ & F) J. pose proof J as (L & _ & _). unfold lc_at, lin_at. rewrite L, sum_kinds by assumption. rewrite (sumof_zero _ (indices_of CONTINUOUS op)), Qcplus_0_r.
  - rewrite (sum_list _ 0 (indices_of BINARY op)). apply sumof_ext. intros k Hk. apply in_seq in Hk. f_equal. eapply joins_at; [exact J|]. apply nth_error_nth'. lia.
  - intros i Hi. apply indices_in in Hi. destruct (qeqb_spec (coef1 (lc_lin c) i) 0) as [E|E]; [rewrite E; ring|]. apply stored_coef in E. destruct E as (v & E). rewrite Forall_forall in F. specialize (F _ E). exfalso. eapply kinds_apart; eauto.
Qed.
Lemma joins_cont op b c x : joins op b c x -> coords x (indices_of CONTINUOUS op) = c.
Proof. intros (L & _ & <-). unfold indices_of. now apply (coords_part CONTINUOUS (p_vars op) 0 x []). Qed.
Lemma joins_bits op b c x : joins op b c x -> coords x (indices_of BINARY op) = b.
Proof. intros (L & <- & _). unfold indices_of. now apply (coords_part BINARY (p_vars op) 0 x []). Qed.
(** A block depends on the coordinates of its variables only. *)
Lemma block_coords op idx x y : coords x idx = coords y idx -> block_sum op idx x = block_sum op idx y.
Proof.
  intro E. assert (forall i, In i idx -> at_ x i = at_ y i) as H. { intros i Hi. clear - E Hi. unfold coords in E. induction idx as [|a l IH]; [contradiction|]. cbn in E. injection E as E1 E2. destruct Hi as [->|Hi]; auto. }
  unfold block_sum. f_equal; [|apply sumof_ext; intros i Hi; now rewrite (H i Hi)]. apply sumof_ext. intros i Hi. apply sumof_ext. intros j Hj. now rewrite (H i Hi), (H j Hj).
Qed.
Lemma block_pos op idx x : block_sum op idx x = (sumof (fun k => sumof (fun l => coef2 (o_quad (p_obj op)) (nth k idx 0%nat) (nth l idx 0%nat) * at_ (coords x idx) k * at_ (coords x idx) l) (seq 0 (length idx))) (seq 0 (length idx)) +
  sumof (fun k => coef1 (o_lin (p_obj op)) (nth k idx 0%nat) * at_ (coords x idx) k) (seq 0 (length idx)))%Qc.
Proof.
  unfold block_sum. rewrite (sum_list (fun i => sumof _ idx) 0 idx), (sum_list (fun i => (_ * at_ x i)%Qc) 0 idx). f_equal; [|apply sumof_ext; intros k Hk; apply in_seq in Hk; now rewrite coords_at by lia].
  apply sumof_ext. intros k Hk. apply in_seq in Hk. rewrite (sum_list _ 0 idx). apply sumof_ext. intros l Hl. apply in_seq in Hl. now rewrite !coords_at by lia.
Qed.
Lemma step2_objective op q2 (w : Qc) lam n2 x z u : mixed_binary op -> separable op -> n2 = length (indices_of BINARY op) ->
  o_const (p_obj q2) = o_const (p_obj op) ->
  (forall i, is_var CONTINUOUS op i -> coef1 (o_lin (p_obj q2)) i = coef1 (o_lin (p_obj op)) i) ->
  (forall k, k < n2 -> coef1 (o_lin (p_obj q2)) (nth k (indices_of BINARY op) 0) = lam k) ->
  (forall i j, coef2 (o_quad (p_obj q2)) i j = if bit_at op i && Nat.eqb j i then w else coef2 (o_quad (p_obj op)) i j) ->
  joins op z u x ->
  obj_at (p_obj q2) x = (o_const (p_obj op) + block_sum op (indices_of CONTINUOUS op) x + bit_products op x + sumof (fun k => w * (at_ z k * at_ z k) + lam k * at_ z k) (seq 0 n2))%Qc.
Proof.
  intros M Sep -> Co Lc Lb Q J. pose proof J as (L & _ & _). unfold obj_at, lin_at, quad_at. rewrite L, Co, !sum_kinds by assumption. rewrite products_sum by assumption. unfold block_sum.
  assert (forall i, is_var BINARY op i -> bit_at op i = true) as Bt by (intros i (v & E & T); unfold bit_at; rewrite E, T; reflexivity).
  assert (forall i, is_var CONTINUOUS op i -> bit_at op i = false) as Bf by (intros i (v & E & T); unfold bit_at; rewrite E, T; reflexivity).
  rewrite (sumof_ext (fun i => coef1 (o_lin (p_obj q2)) i * at_ x i)%Qc (fun i => coef1 (o_lin (p_obj op)) i * at_ x i)%Qc (indices_of CONTINUOUS op)). 2: { intros i Hi. apply indices_in in Hi. now rewrite Lc. }
  rewrite (sum_list (fun i => coef1 (o_lin (p_obj q2)) i * at_ x i)%Qc 0 (indices_of BINARY op)).
  rewrite (sumof_ext (fun k => coef1 (o_lin (p_obj q2)) _ * _)%Qc (fun k => lam k * at_ z k)%Qc).
  2: { intros k Hk. apply in_seq in Hk. rewrite Lb by lia. f_equal. eapply joins_at; [exact J|]. apply nth_error_nth'. lia. }
  rewrite (sumof_ext (fun i => sumof (fun j => coef2 (o_quad (p_obj q2)) i j * at_ x i * at_ x j)%Qc (seq 0 (num_vars op))) (fun i => sumof (fun j => coef2 (o_quad (p_obj op)) i j * at_ x i * at_ x j)%Qc (indices_of CONTINUOUS op)) (indices_of CONTINUOUS op)).
  2: { intros i Hi. rewrite sum_kinds by assumption. rewrite (sumof_zero _ (indices_of BINARY op)), Qcplus_0_l.
       - apply sumof_ext. intros j Hj. rewrite Q. apply indices_in in Hi. now rewrite (Bf i Hi).
       - intros j Hj. rewrite Q. apply indices_in in Hi, Hj. rewrite (Bf i Hi). cbn [andb]. rewrite (proj2 (Sep j i Hj Hi)). ring. }
  rewrite (sumof_ext (fun i => sumof (fun j => coef2 (o_quad (p_obj q2)) i j * at_ x i * at_ x j)%Qc (seq 0 (num_vars op)))
    (fun i => (w * (at_ x i * at_ x i) + sumof (fun j => if Nat.eqb i j then 0 else coef2 (o_quad (p_obj op)) i j * at_ x i * at_ x j) (indices_of BINARY op))%Qc) (indices_of BINARY op)).
  2: { intros i Hi. rewrite sum_kinds by assumption. rewrite (sumof_zero _ (indices_of CONTINUOUS op)), Qcplus_0_r.
       - rewrite (sumof_ext _ (fun j => (if Nat.eqb i j then w * (at_ x i * at_ x i) else 0) + (if Nat.eqb i j then 0 else coef2 (o_quad (p_obj op)) i j * at_ x i * at_ x j))%Qc (indices_of BINARY op)).
         + rewrite sumof_add. f_equal. rewrite (sum_sub _ _ [i] (indices_nodup _ _)); [rewrite sumof_cons, sumof_nil, Nat.eqb_refl; ring|repeat constructor; intros []|intros j [<-|[]]; assumption|].
           intros j _ K. destruct (Nat.eqb_spec i j) as [->|]; [exfalso; apply K; left; reflexivity|reflexivity].
         + intros j Hj. rewrite Q. apply indices_in in Hi. rewrite (Bt i Hi), (Nat.eqb_sym j i). cbn [andb]. destruct (Nat.eqb_spec i j) as [->|]; ring.
       - intros j Hj. rewrite Q. apply indices_in in Hi, Hj. destruct (Nat.eqb_spec j i) as [->|]; [exfalso; eapply kinds_apart; eauto|]. rewrite andb_false_r. rewrite (proj1 (Sep i j Hi Hj)). ring. }
  rewrite !sumof_add. rewrite (sum_list (fun i => w * (at_ x i * at_ x i))%Qc 0 (indices_of BINARY op)).
  rewrite (sumof_ext (fun k => w * (at_ x _ * at_ x _))%Qc (fun k => w * (at_ z k * at_ z k))%Qc).
  2: { intros k Hk. apply in_seq in Hk. erewrite joins_at; [reflexivity|exact J|]. apply nth_error_nth'. lia. }
  ring.
Qed.

Lemma step2_shape d s : shapes (num_vars (a_op d)) (a_op d) -> index_finds (map lc_name (p_lcs (a_op d))) (p_lidx (a_op d)) -> Forall plain (p_vars (a_op d)) -> mixed_binary (a_op d) -> represents d ->
  exists op2, step2_problem d s = Ok op2 /\ (forall x, feasible op2 x <-> block2 (a_op d) x) /\ o_sense (p_obj op2) = o_sense (p_obj (a_op d)) /\
  o_const (p_obj op2) = o_const (p_obj (a_op d)) /\
  (forall i, is_var CONTINUOUS (a_op d) i -> coef1 (o_lin (p_obj op2)) i = coef1 (o_lin (p_obj (a_op d))) i) /\
  (forall k, k < length (indices_of BINARY (a_op d)) -> coef1 (o_lin (p_obj op2)) (nth k (indices_of BINARY (a_op d)) 0) = dtype_cast (le_int (o_lin (p_obj (a_op d)))) (- at_ (i_lam s) k - i_rho s * (at_ (i_x0 s) k - at_ (i_y s) k))%Qc) /\
  (forall i j, coef2 (o_quad (p_obj op2)) i j = if bit_at (a_op d) i && Nat.eqb j i then dtype_cast (qe_int (o_quad (p_obj (a_op d)))) (i_rho s / qz 2)%Qc else coef2 (o_quad (p_obj (a_op d))) i j).
Proof.
  intros (Sh1 & Sh2 & Sh3 & _) X P M R. destruct (represents_split d R) as [Sb Sc]. pose proof (beq_spec d) as Bq. pose proof (represent_inv _ _ _ _ R) as (_ & _ & _ & E1 & E2 & _).
  assert (map snd (combine (seq 0 (length (a_bin d))) (a_bin d)) = indices_of BINARY (a_op d)) as Ms. { rewrite Sb. generalize (indices_of BINARY (a_op d)). intro l. generalize 0. induction l; intro n; cbn; [reflexivity|]. now rewrite IHl. }
  destruct (step2_variables_ok s (combine (seq 0 (length (a_bin d))) (a_bin d))) with (q := a_op d) as (q1 & H1 & F1 & Nv & V1 & C1 & Q1); rewrite ?Ms.
  { apply indices_nodup. } { apply Sh1. } { apply Sh2. }
  { intros i Hi. apply indices_in in Hi. pose proof (is_var_lt _ _ _ Hi). split; [rewrite (proj2 Sh1); auto|]. split; [rewrite (proj2 Sh2); auto|]. destruct Hi as (v & Ev & Tv). exists v. split; auto. rewrite Forall_forall in P. destruct (P v (nth_error_In _ _ Ev) Tv) as [-> _]. discriminate. }
  destruct F1 as (A1 & A2 & A3 & A4 & A5 & A6 & A7 & A8 & A9 & A10 & A11 & A12).
  assert (forall k i, nth_error (indices_of BINARY (a_op d)) k = Some i -> spot (combine (seq 0 (length (a_bin d))) (a_bin d)) i = Some k) as Sp1 by (intros; apply spot_at; rewrite Sb; auto; apply indices_nodup).
  assert (forall i, ~ is_var BINARY (a_op d) i -> spot (combine (seq 0 (length (a_bin d))) (a_bin d)) i = None) as Sp2 by (intros i K; apply spot_none; rewrite Ms, indices_in; exact K).
  destruct (remove_rows (a_beq d) q1) as (q2 & H2 & V2 & K2 & O2 & L2).
  { rewrite A2, A3. exact X. } { rewrite E2, E1. pose proof (index_finds_nodup _ _ X) as Nd. clear - Nd. induction (p_lcs (a_op d)) as [|c l IH]; [constructor|]. cbn in Nd. inversion Nd as [|? ? Nc Nd']; subst. cbn [filter]. destruct (csense_eqb (lc_sense c) EQ); auto. cbn [filter]. destruct (only_binary _ c); auto.
    cbn [map]. constructor; auto. intro K. apply Nc. apply in_map_iff in K. destruct K as (c' & Hc & K). rewrite <- Hc. apply in_map. apply filter_In in K. destruct K as [K _]. apply filter_In in K. apply K. }
  { intros c Hc. rewrite A2. apply (Bq c R) in Hc. apply Hc. }
  exists q2. split; [unfold step2_problem; rewrite H1; exact H2|]. rewrite O2. split; [|split; [exact A6|split; [exact A5|split; [|split]]]].
  - assert (forall i v, nth_error (p_vars (a_op d)) i = Some v -> exists w, nth_error (p_vars q2) i = Some w /\ v_type w = CONTINUOUS /\ (forall a, in_range w a <-> block2_range v a)) as Rg.
    { intros i v Ev. rewrite V2. specialize (V1 i v Ev). unfold mixed_binary in M. rewrite Forall_forall in M. specialize (M v (nth_error_In _ _ Ev)). destruct (v_type v) eqn:Tv; [| |congruence].
      - rewrite Sp2 in V1 by (intros (w & Ew & Tw); congruence). exists v. split; auto. split; auto. intro a. unfold block2_range. rewrite Tv. tauto.
      - assert (In i (indices_of BINARY (a_op d))) as Hi by (apply indices_in; exists v; auto). apply In_nth_error in Hi. destruct Hi as (k & Hk). rewrite (Sp1 k i Hk) in V1. exists (relax_var v). split; auto. split; auto. intro a. unfold block2_range. rewrite Tv. reflexivity. }
    assert (length (p_vars q2) = length (p_vars (a_op d))) as Lv by (rewrite V2; exact Nv).
    assert (forall x, Forall2 in_range (p_vars q2) x <-> Forall2 block2_range (p_vars (a_op d)) x) as Fr.
    { clear - Rg Lv. revert Rg Lv. generalize (p_vars q2). induction (p_vars (a_op d)) as [|v l IH]; intros [|w m] Rg Lv x; try discriminate Lv; [split; intro H; inversion H; constructor|]. injection Lv as Lv.
      assert (forall x, Forall2 in_range m x <-> Forall2 block2_range l x) as IHx by (apply IH; auto; intros i u Eu; exact (Rg (S i) u Eu)). destruct (Rg 0 v eq_refl) as (w' & Ew & _ & Rw). injection Ew as ->.
      split; intro H; inversion H; subst; constructor; try (now apply Rw); now apply IHx. }
    assert (forall c, In c (p_lcs q2) <-> In c (p_lcs (a_op d)) /\ ~ binary_eq (a_op d) c) as Lc.
    { intro c. rewrite L2, A2. split; intros [K1 K3]; split; auto; intro K; apply K3.
      - apply in_map. now apply Bq.
      - apply in_map_iff in K. destruct K as (c' & Ec & Hc'). apply (Bq c' R) in Hc'. replace c with c'; [exact Hc'|]. destruct Hc' as [Hc' _]. pose proof (index_finds_nodup _ _ X) as Nd. clear - Nd K1 Hc' Ec.
        induction (p_lcs (a_op d)) as [|a l IH]; [contradiction|]. cbn in Nd. inversion Nd as [|? ? Na Nd']; subst. destruct K1 as [->|K1], Hc' as [->|Hc']; auto; exfalso; apply Na; [rewrite <- Ec|rewrite Ec]; now apply in_map. }
    intro x. unfold feasible, block2, in_bounds. rewrite Fr. unfold lcs_hold, qcs_hold. rewrite K2, A4.
    assert (Forall2 block2_range (p_vars (a_op d)) x -> typed q2 x) as Ty.
    { intro H. apply Fr in H. unfold typed. assert (Forall (fun w => v_type w = CONTINUOUS) (p_vars q2)) as Al.
      { apply Forall_forall. intros w Hw. apply In_nth_error in Hw. destruct Hw as (i & Hw). assert (i < length (p_vars (a_op d))) as Hi by (rewrite <- Lv; apply nth_error_Some; congruence). destruct (nth_error (p_vars (a_op d)) i) as [v|] eqn:Ev; [|apply nth_error_None in Ev; lia]. destruct (Rg i v Ev) as (w' & Ew & Tw & _). congruence. }
      clear - H Al. induction H; inversion Al; subst; constructor; auto. unfold has_type. now rewrite H3. }
    rewrite Forall_forall. split.
    + intros (B & _ & L & Q). split; auto. split; auto. intros c Hc Nc. apply L, Lc. auto.
    + intros (B & L & Q). split; auto. split; auto. split; auto. intros c Hc. apply Lc in Hc. now apply L.
  - intros i Hi. rewrite C1, Sp2; [reflexivity|]. intro K. eapply kinds_apart; eauto.
  - intros k Hk. rewrite C1, (Sp1 k); [reflexivity|]. now apply nth_error_nth'.
  - intros i j. rewrite Q1. destruct (bit_at (a_op d) i) eqn:Bi.
    + assert (is_var BINARY (a_op d) i) as Hi. { unfold bit_at in Bi. destruct (nth_error (p_vars (a_op d)) i) as [v|] eqn:Ev; [|discriminate]. exists v. split; auto. destruct (v_type v); [discriminate|reflexivity|discriminate]. }
      apply indices_in, In_nth_error in Hi. destruct Hi as (k & Hk). rewrite (Sp1 k i Hk). reflexivity.
    + rewrite Sp2; [reflexivity|]. intros (v & Ev & Tv). unfold bit_at in Bi. rewrite Ev, Tv in Bi. discriminate.
Qed.

Lemma step2_lagr pr d s : shapes (num_vars (a_op d)) (a_op d) -> index_finds (map lc_name (p_lcs (a_op d))) (p_lidx (a_op d)) -> Forall plain (p_vars (a_op d)) -> mixed_binary (a_op d) -> separable (a_op d) -> float_objective (a_op d) ->
  represents d -> sized_blocks d s -> exists op2, step2_problem d s = Ok op2 /\ (forall x, feasible op2 x <-> block2 (a_op d) x) /\ o_sense (p_obj op2) = o_sense (p_obj (a_op d)) /\
  forall rows, picks (binary_eq (a_op d)) (p_lcs (a_op d)) rows -> exists K, forall z u x x2, joins (a_op d) (i_x0 s) u x -> joins (a_op d) z u x2 ->
    (lagrangian (a_op d) rows (i_rho s) (ap_c pr) (ap_beta pr) (i_lam s) (i_x0 s) z (i_y s) x + bit_products (a_op d) x2 = obj_at (p_obj op2) x2 + K)%Qc.
Proof.
  intros Sh X P M Sep (F1 & F2) R (L0 & Lz & Ly & Ll). destruct (represents_split d R) as [Sb Sc]. destruct (step2_shape d s Sh X P M R) as (op2 & E & Fe & Se & Co & C1 & C2 & Q2). exists op2. repeat (split; [assumption|]).
  intros rows Pk. apply rows_beq in Pk; auto. subst rows. eexists. intros z u x x2 J J2. rewrite (step2_objective (a_op d) op2 (i_rho s / qz 2) (fun k => - at_ (i_lam s) k - i_rho s * (at_ (i_x0 s) k - at_ (i_y s) k))%Qc (length (a_bin d)) x2 z u); auto.
  - unfold lagrangian. cbv zeta. rewrite L0. rewrite objective_kinds by (auto; apply J). rewrite (block_coords (a_op d) (indices_of CONTINUOUS (a_op d)) x2 x) by (rewrite (joins_cont _ _ _ _ J), (joins_cont _ _ _ _ J2); reflexivity).
    rewrite (sumof_ext (fun r => (lc_at r x - lc_rhs r) * (lc_at r x - lc_rhs r))%Qc (fun r => (sumof (fun k => coef1 (lc_lin r) (nth k (indices_of BINARY (a_op d)) 0%nat) * at_ (i_x0 s) k) (seq 0 (length (indices_of BINARY (a_op d)))) - lc_rhs r) *
      (sumof (fun k => coef1 (lc_lin r) (nth k (indices_of BINARY (a_op d)) 0%nat) * at_ (i_x0 s) k) (seq 0 (length (indices_of BINARY (a_op d)))) - lc_rhs r))%Qc (a_beq d)).
    2: { intros c Hc. rewrite (row_bits (a_op d) c x (i_x0 s) u); auto. now apply (beq_spec d). }
    rewrite (block_pos (a_op d) (indices_of BINARY (a_op d)) x), (joins_bits _ _ _ _ J).
    rewrite (sumof_ext (fun i => (at_ (i_lam s) i * split_gap (i_x0 s) z (i_y s) i)%Qc) (fun i => (at_ (i_lam s) i * (at_ (i_x0 s) i - at_ (i_y s) i) - at_ (i_lam s) i * at_ z i)%Qc)) by (intros; unfold split_gap; ring).
    rewrite (sumof_ext (fun i => (split_gap (i_x0 s) z (i_y s) i * split_gap (i_x0 s) z (i_y s) i)%Qc)
      (fun i => ((at_ (i_x0 s) i - at_ (i_y s) i) * (at_ (i_x0 s) i - at_ (i_y s) i) + (at_ z i * at_ z i - qz 2 * ((at_ (i_x0 s) i - at_ (i_y s) i) * at_ z i)))%Qc)).
    2: { intros. unfold split_gap. change (qz 2) with (1 + 1)%Qc. ring. }
    rewrite (sumof_ext (fun k => (i_rho s / qz 2 * (at_ z k * at_ z k) + _ * at_ z k)%Qc) (fun k => (i_rho s / qz 2 * (at_ z k * at_ z k) + (- (at_ (i_lam s) k * at_ z k) - i_rho s * ((at_ (i_x0 s) k - at_ (i_y s) k) * at_ z k)))%Qc)) by (intros; ring).
    rewrite !sumof_add, !sumof_sub, !sumof_scale, sumof_opp.
    instantiate (1 := (
      (sumof (fun k => sumof (fun l => coef2 (o_quad (p_obj (a_op d))) (nth k (indices_of BINARY (a_op d)) 0%nat) (nth l (indices_of BINARY (a_op d)) 0%nat) * at_ (i_x0 s) k * at_ (i_x0 s) l) (seq 0 (length (indices_of BINARY (a_op d))))) (seq 0 (length (indices_of BINARY (a_op d)))) +
        sumof (fun k => coef1 (o_lin (p_obj (a_op d))) (nth k (indices_of BINARY (a_op d)) 0%nat) * at_ (i_x0 s) k) (seq 0 (length (indices_of BINARY (a_op d))))) +
      ap_c pr / qz 2 * sumof (fun r => (sumof (fun k => coef1 (lc_lin r) (nth k (indices_of BINARY (a_op d)) 0%nat) * at_ (i_x0 s) k) (seq 0 (length (indices_of BINARY (a_op d)))) - lc_rhs r) *
        (sumof (fun k => coef1 (lc_lin r) (nth k (indices_of BINARY (a_op d)) 0%nat) * at_ (i_x0 s) k) (seq 0 (length (indices_of BINARY (a_op d)))) - lc_rhs r)) (a_beq d) + ap_beta pr / qz 2 * sumof (fun i => at_ (i_y s) i * at_ (i_y s) i) (seq 0 (length (a_bin d))) +
      sumof (fun i => at_ (i_lam s) i * (at_ (i_x0 s) i - at_ (i_y s) i)) (seq 0 (length (a_bin d))) +
      i_rho s / qz 2 * sumof (fun i => (at_ (i_x0 s) i - at_ (i_y s) i) * (at_ (i_x0 s) i - at_ (i_y s) i)) (seq 0 (length (a_bin d))))%Qc).
    assert (qz 2 <> 0%Qc) by discriminate. field. assumption.
  - now rewrite Sb.
  - intros k Hk. rewrite C2 by (now rewrite <- Sb). rewrite F1. reflexivity.
  - intros i j. rewrite Q2, F2. reflexivity.
Qed.
