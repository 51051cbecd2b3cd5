(** * Facts about the Ising conversions *)
From Verif Require Export SpecIsing PenFacts.
Local Open Scope list_scope.
Local Open Scope nat_scope.

Lemma flags_eqb_sp a b : reflect (a = b) (flags_eqb a b).
Proof.
  revert b. induction a as [|u a IH]; intros [|v b]; simpl; try (constructor; congruence).
  destruct (Bool.eqb_spec u v) as [->|N]; simpl; [|constructor; congruence].
  destruct (IH b) as [->|N]; constructor; congruence.
Qed.
Lemma pauli_eqb_sp : forall a b : pauli, reflect (a = b) (pauli_eqb a b).
Proof.
  intros [a1 a2] [b1 b2]. unfold pauli_eqb. simpl.
  destruct (flags_eqb_sp a1 b1) as [->|N]; simpl; [|constructor; congruence].
  destruct (flags_eqb_sp a2 b2) as [->|N]; constructor; congruence.
Qed.

(** ** Flags *)
Lemma no_flags_length n : length (no_flags n) = n. Proof. apply repeat_length. Qed.
Lemma no_flags_none n : existsb (fun b => b) (no_flags n) = false.
Proof. induction n; simpl; auto. Qed.
Lemma no_flags_filter n : filter (fun b => b) (no_flags n) = [].
Proof. induction n; simpl; auto. Qed.
Lemma zval_no_flags n x : zval (no_flags n) x = 1%Qc.
Proof. revert x. induction n as [|n IH]; intros [|a x]; simpl; auto. rewrite IH. ring. Qed.
Lemma nth_no_flags n i : i < n -> nth_error (no_flags n) i = Some false.
Proof. intro H. unfold no_flags. revert i H. induction n as [|n IH]; intros [|i] H; simpl; try lia; auto. apply IH. lia. Qed.
Lemma zval_set z x i : nth_error z i = Some false -> length x = length z ->
  zval (update i true z) x = ((1 - qz 2 * at_ x i) * zval z x)%Qc.
Proof.
  revert x i. induction z as [|b z IH]; intros [|a x] [|i] H L; simpl in *; try discriminate.
  - injection H as ->. unfold at_. simpl. ring.
  - rewrite (IH x i) by (auto; lia). unfold at_. simpl. ring.
Qed.
Lemma count_set z i : nth_error z i = Some false ->
  length (filter (fun b : bool => b) (update i true z)) = S (length (filter (fun b => b) z)).
Proof.
  revert i. induction z as [|b z IH]; intros [|i] H; simpl in *; try discriminate.
  - now injection H as ->.
  - destruct b; simpl; now rewrite IH.
Qed.
Lemma set_flag_ok i z z' : set_flag i z = Ok z' -> i < length z /\ z' = update i true z.
Proof. unfold set_flag. destruct (Nat.ltb_spec i (length z)); intros [=]; auto. Qed.
Lemma set_flag_in i z : i < length z -> set_flag i z = Ok (update i true z).
Proof. intro H. unfold set_flag. destruct (Nat.ltb_spec i (length z)); [auto|lia]. Qed.

(** ** Energy of a list of terms *)
Definition ev (x : list Qc) (l : list (pauli * Qc)) : Qc := sumof (fun t => (snd t * pauli_diag (fst t) x)%Qc) l.
Lemma ev_app x a b : ev x (a ++ b) = (ev x a + ev x b)%Qc. Proof. apply sumof_app. Qed.
Lemma ev_dsum x l : ev x l = dsum (fun p => pauli_diag p x) l. Proof. reflexivity. Qed.
Lemma energy_ev op x : energy op x = ev x (op_terms op). Proof. reflexivity. Qed.
Definition spin (x : list Qc) (i : nat) : Qc := (1 - qz 2 * at_ x i)%Qc.
Definition one_z (n i : nat) : pauli := (update i true (no_flags n), no_flags n).
Definition two_z (n i j : nat) : pauli := (update j true (update i true (no_flags n)), no_flags n).
Lemma diag_one n i x : i < n -> length x = n -> pauli_diag (one_z n i) x = spin x i.
Proof.
  intros H L. unfold pauli_diag, one_z, spin. simpl. rewrite no_flags_none, zval_set, zval_no_flags; [ring|now apply nth_no_flags|now rewrite no_flags_length].
Qed.
Lemma nth_one n i j : i < n -> j < n -> i <> j -> nth_error (update i true (no_flags n)) j = Some false.
Proof.
  intros H1 H2 H3. rewrite nth_error_update. destruct (Nat.eqb_spec i j); [lia|]. now apply nth_no_flags.
Qed.
Lemma diag_two n i j x : i < n -> j < n -> i <> j -> length x = n -> pauli_diag (two_z n i j) x = (spin x i * spin x j)%Qc.
Proof.
  intros H1 H2 H3 L. unfold pauli_diag, two_z, spin. simpl. rewrite no_flags_none, zval_set, zval_set, zval_no_flags;
  [ring|now apply nth_no_flags|now rewrite no_flags_length|now apply nth_one|now rewrite update_length, no_flags_length].
Qed.
Lemma term_one n i c : i < n -> ising_term n (one_z n i, c).
Proof.
  intro H. unfold ising_term, one_z. simpl. rewrite update_length, no_flags_length, no_flags_none. repeat split; auto.
  left. rewrite count_set by now apply nth_no_flags. now rewrite no_flags_filter.
Qed.
Lemma term_two n i j c : i < n -> j < n -> i <> j -> ising_term n (two_z n i j, c).
Proof.
  intros H1 H2 H3. unfold ising_term, two_z. simpl. rewrite !update_length, no_flags_length, no_flags_none. repeat split; auto.
  right. rewrite count_set by now apply nth_one. rewrite count_set by now apply nth_no_flags. now rewrite no_flags_filter.
Qed.
Lemma term_coef n p c c' : ising_term n (p, c) -> ising_term n (p, c'). Proof. auto. Qed.

(** ** The terms collected by to_ising *)
(** Coefficients stay whole multiples of [g] times a quarter *)
Definition multiple (g c : Qc) : Prop := exists z, c = (qz z * g)%Qc.
Lemma multiple_add g a b : multiple g a -> multiple g b -> multiple g (a + b)%Qc.
Proof. intros [z ->] [w ->]. exists (z + w)%Z. rewrite qz_add. ring. Qed.
Lemma multiple_opp g a : multiple g a -> multiple g (- a)%Qc.
Proof. intros [z ->]. exists (- z)%Z. rewrite qz_opp. ring. Qed.
Lemma multiple_0 g : multiple g 0%Qc. Proof. exists 0%Z. rewrite qz_0. ring. Qed.
Definition sgn_ok (s : Qc) : Prop := s = 1%Qc \/ s = (- (1))%Qc.
Ltac fld := field; repeat split; let E := fresh in intro E; apply (f_equal this) in E; discriminate E.
Lemma qz2_nz : qz 2 <> 0%Qc. Proof. intro E. apply (f_equal this) in E. discriminate E. Qed.
Lemma qz4_nz : qz 4 <> 0%Qc. Proof. intro E. apply (f_equal this) in E. discriminate E. Qed.
Lemma qz4_2 : qz 4 = (qz 2 * qz 2)%Qc. Proof. now rewrite <- qz_mul. Qed.
Lemma half_multiple g s c : sgn_ok s -> multiple g c -> multiple (g / qz 4)%Qc (c * s / qz 2)%Qc.
Proof.
  pose proof qz2_nz. intros [-> | ->] [z ->]; [exists (2 * z)%Z|exists (- (2 * z))%Z]; rewrite ?qz_opp, qz_mul, qz4_2; fld.
Qed.
Lemma quarter_multiple g s c : sgn_ok s -> multiple g c -> multiple (g / qz 4)%Qc (c * s / qz 4)%Qc.
Proof.
  pose proof qz4_nz. intros [-> | ->] [z ->]; [exists z|exists (- z)%Z]; rewrite ?qz_opp; fld.
Qed.
Definition good_terms (n : nat) (l : list (pauli * Qc)) : Prop := Forall (ising_term n) l.
Definition grid_terms (g : Qc) (l : list (pauli * Qc)) : Prop := Forall (fun t => multiple (g / qz 4)%Qc (snd t)) l.

Lemma lin_step n s st kv st' : ising_lin n s st kv = Ok st' ->
  fst kv < n /\ st' = (fst st ++ [(one_z n (fst kv), (- (snd kv * s / qz 2))%Qc)], (snd st + snd kv * s / qz 2)%Qc).
Proof.
  destruct kv as [i c]. unfold ising_lin. intro H. apply bind_ok in H. destruct H as (z & H & E). apply set_flag_ok in H.
  destruct H as [H ->]. rewrite no_flags_length in H. injection E as <-. split; auto.
Qed.
Lemma lin_step_ok n s st kv : fst kv < n -> exists st', ising_lin n s st kv = Ok st'.
Proof. destruct kv as [i c]. simpl. intro H. rewrite set_flag_in by now rewrite no_flags_length. simpl. eauto. Qed.
Lemma lin_fold n s l : forall st st', foldM (ising_lin n s) l st = Ok st' ->
  Forall (fun kv => fst kv < n) l /\
  (good_terms n (fst st) -> good_terms n (fst st')) /\
  (forall g, sgn_ok s -> Forall (fun kv => multiple g (snd kv)) l -> grid_terms g (fst st) -> grid_terms g (fst st')) /\
  (exists more, fst st' = fst st ++ more /\ length more = length l) /\
  forall x, length x = n -> (ev x (fst st') + snd st' = ev x (fst st) + snd st + s * dsum (at_ x) l)%Qc.
Proof.
  induction l as [|kv l IH]; intros st st' H.
  - injection H as <-. split; [constructor|]. split; auto. split; auto. split; [exists []; now rewrite app_nil_r|].
    intros. rewrite dsum_nil. ring.
  - cbn [foldM] in H. apply bind_ok in H. destruct H as (s1 & H1 & H2). apply lin_step in H1. destruct H1 as [H1 ->].
    apply IH in H2. cbn [fst snd] in H2. destruct H2 as (A & B & C & (more & D1 & D2) & E). split; [constructor; auto|].
    split; [|split; [|split]].
    + intro G. apply B. apply Forall_app. split; auto. constructor; auto. now apply term_one.
    + intros g S F G. inversion F; subst. apply C; auto. apply Forall_app. split; auto. constructor; auto.
      simpl. apply multiple_opp. now apply half_multiple.
    + eexists. rewrite D1, <- app_assoc. split; [reflexivity|]. simpl. lia.
    + intros x Lx. rewrite E by assumption. rewrite ev_app. destruct kv as [i c]. rewrite dsum_cons. cbn [fst snd]. unfold ev at 2. cbn [sumof fst snd].
      rewrite diag_one by auto. unfold spin. cbn [fst] in *. pose proof qz2_nz. fld.
Qed.
Lemma lin_fold_ok n s l : Forall (fun kv => fst kv < n) l -> forall st, exists st', foldM (ising_lin n s) l st = Ok st'.
Proof.
  induction 1 as [|kv l H F IH]; intro st; [simpl; eauto|]. cbn [foldM]. destruct (lin_step_ok n s st kv H) as [s1 ->]. cbn [bind]. apply IH.
Qed.

Lemma merge_dsum (f : nat * nat -> Qc) (Hf : forall i j, f (i, j) = f (j, i)) l : forall co,
  dsum f (fold_left ising_merge l co) = (dsum f co + dsum f l)%Qc.
Proof.
  induction l as [|[[i j] v] l IH]; intro co; [rewrite dsum_nil; simpl; ring|]. simpl. rewrite IH, dsum_cons. simpl.
  destruct (j <? i); rewrite (dsum_dadd _ nat2_eqb_sp); rewrite ?(Hf i j); ring.
Qed.
Lemma dadd_keys {K} (eqb : K -> K -> bool) (sp : forall a b, reflect (a = b) (eqb a b)) k v d : forall k',
  In k' (map fst (dadd eqb k v d)) <-> k' = k \/ In k' (map fst d).
Proof. unfold dadd. apply (dset_keys _ sp). Qed.
Lemma dadd_nodup {K} (eqb : K -> K -> bool) (sp : forall a b, reflect (a = b) (eqb a b)) k v d :
  NoDup (map fst d) -> NoDup (map fst (dadd eqb k v d)).
Proof. unfold dadd. apply (dset_nodup _ sp). Qed.
Lemma dadd_multiple {K} (eqb : K -> K -> bool) (sp : forall a b, reflect (a = b) (eqb a b)) g k v d :
  multiple g v -> Forall (fun kv => multiple g (snd kv)) d -> Forall (fun kv : K * Qc => multiple g (snd kv)) (dadd eqb k v d).
Proof.
  intros Hv F. unfold dadd. apply (dset_Forall _ sp); auto. simpl. apply multiple_add; auto.
  unfold dgetq. destruct (dget eqb k d) eqn:E; [|apply multiple_0]. apply (dget_in _ sp) in E. rewrite Forall_forall in F. now apply F in E.
Qed.
Lemma merge_Forall n l : Forall (fun kv : (nat * nat) * Qc => fst (fst kv) < n /\ snd (fst kv) < n) l -> forall co,
  Forall (fun kv => fst (fst kv) < n /\ snd (fst kv) < n) co ->
  Forall (fun kv => fst (fst kv) < n /\ snd (fst kv) < n) (fold_left ising_merge l co).
Proof.
  induction 1 as [|[[i j] v] l H F IH]; intros co G; auto. simpl. apply IH. simpl in H. unfold dadd.
  destruct (j <? i); apply (dset_Forall _ nat2_eqb_sp); auto; simpl; tauto.
Qed.
Lemma merge_keys l : forall co k, In k (map fst co) -> In k (map fst (fold_left ising_merge l co)).
Proof.
  induction l as [|[[i j] v] l IH]; intros co k H; auto. simpl. apply IH. destruct (j <? i); apply (dadd_keys _ nat2_eqb_sp); auto.
Qed.
Lemma merge_key_in l : forall co i j v, In ((i, j), v) l ->
  In (i, j) (map fst (fold_left ising_merge l co)) \/ In (j, i) (map fst (fold_left ising_merge l co)).
Proof.
  induction l as [|[[a b] w] l IH]; intros co i j v H; [contradiction|]. destruct H as [H|H]; [|simpl; eapply IH; eauto].
  injection H as -> -> ->. simpl. destruct (j <? i); [right|left]; apply merge_keys; apply (dadd_keys _ nat2_eqb_sp); auto.
Qed.
Lemma merge_from l : forall co i j, In (i, j) (map fst (fold_left ising_merge l co)) ->
  In (i, j) (map fst co) \/ In (i, j) (map fst l) \/ In (j, i) (map fst l).
Proof.
  induction l as [|[[a b] w] l IH]; intros co i j H; auto. simpl in H. apply IH in H. simpl. destruct H as [H|[H|H]]; auto.
  destruct (b <? a); apply (dadd_keys _ nat2_eqb_sp) in H; destruct H as [H|H]; auto; injection H as -> ->; auto.
Qed.
Lemma merge_multiple g l : Forall (fun kv : (nat * nat) * Qc => multiple g (snd kv)) l -> forall co,
  Forall (fun kv => multiple g (snd kv)) co -> Forall (fun kv => multiple g (snd kv)) (fold_left ising_merge l co).
Proof.
  induction 1 as [|[[i j] v] l H F IH]; intros co G; auto. simpl. apply IH. simpl in H.
  destruct (j <? i); apply (dadd_multiple _ nat2_eqb_sp); auto.
Qed.

Definition xx (x : list Qc) (ij : nat * nat) : Qc := (at_ x (fst ij) * at_ x (snd ij))%Qc.
Lemma bits_sq n x i : bits n x -> (at_ x i * at_ x i = at_ x i)%Qc.
Proof.
  intros [_ F]. unfold at_. destruct (nth_in_or_default i x 0%Qc) as [H| ->]; [|ring]. rewrite Forall_forall in F. apply F in H.
  destruct H as [-> | ->]; ring.
Qed.
Lemma quad_step n s st i j c st' : ising_quad n s st ((i, j), c) = Ok st' ->
  i < n /\ j < n /\
  st' = ((fst st ++ (if i =? j then [] else [(two_z n i j, (c * s / qz 4)%Qc)])) ++
         [(one_z n i, (- (c * s / qz 4))%Qc); (one_z n j, (- (c * s / qz 4))%Qc)],
         (snd st + (if i =? j then c * s / qz 4 else 0) + c * s / qz 4)%Qc).
Proof.
  unfold ising_quad. intro H. apply bind_ok in H. destruct H as (s1 & H1 & H). apply bind_ok in H. destruct H as (zi & Hi & H).
  apply bind_ok in H. destruct H as (zj & Hj & H). apply set_flag_ok in Hi, Hj. rewrite no_flags_length in Hi, Hj.
  destruct Hi as [Hi ->], Hj as [Hj ->]. injection H as <-. split; auto. split; auto. destruct (Nat.eqb_spec i j) as [->|N].
  - injection H1 as <-. cbn [fst snd]. rewrite app_nil_r, <- app_assoc. reflexivity.
  - apply bind_ok in H1. destruct H1 as (z & Hz & H1). apply bind_ok in H1. destruct H1 as (z' & Hz' & H1). injection H1 as <-.
    apply set_flag_ok in Hz, Hz'. destruct Hz as [_ ->], Hz' as [_ ->]. cbn [fst snd]. rewrite <- !app_assoc. f_equal. ring.
Qed.
Lemma quad_step_ok n s st i j c : i < n -> j < n -> exists st', ising_quad n s st ((i, j), c) = Ok st'.
Proof.
  intros Hi Hj. unfold ising_quad. rewrite !set_flag_in by (rewrite no_flags_length; assumption). cbn [bind].
  destruct (i =? j); cbn [bind]; [eauto|]. rewrite set_flag_in by (rewrite update_length, no_flags_length; assumption). cbn [bind]. eauto.
Qed.
Lemma quad_fold n s l : forall st st', foldM (ising_quad n s) l st = Ok st' ->
  Forall (fun kv => fst (fst kv) < n /\ snd (fst kv) < n) l /\
  (good_terms n (fst st) -> good_terms n (fst st')) /\
  (forall g, sgn_ok s -> Forall (fun kv => multiple g (snd kv)) l -> grid_terms g (fst st) -> grid_terms g (fst st')) /\
  (exists more, fst st' = fst st ++ more /\ (l <> [] -> more <> [])) /\
  forall x, bits n x -> (ev x (fst st') + snd st' = ev x (fst st) + snd st + s * dsum (xx x) l)%Qc.
Proof.
  induction l as [|[[i j] c] l IH]; intros st st' H.
  - injection H as <-. split; [constructor|]. split; auto. split; auto. split; [exists []; split; [now rewrite app_nil_r|congruence]|].
    intros. rewrite dsum_nil. ring.
  - cbn [foldM] in H. apply bind_ok in H. destruct H as (s1 & H1 & H2). apply quad_step in H1. destruct H1 as (Hi & Hj & ->).
    apply IH in H2. cbn [fst snd] in H2. destruct H2 as (A & B & C & (more & D1 & D2) & E). split; [constructor; auto|].
    split; [|split; [|split]].
    + intro G. apply B. apply Forall_app. split; [apply Forall_app; split; auto|].
      * destruct (Nat.eqb_spec i j); constructor; auto. now apply term_two.
      * constructor; [now apply term_one|constructor; auto]. now apply term_one.
    + intros g S F G. inversion F; subst. cbn [snd] in *. pose proof (quarter_multiple g s c S H1) as Q. apply C; auto.
      apply Forall_app. split; [apply Forall_app; split; auto|].
      * destruct (i =? j); constructor; auto.
      * constructor; [|constructor; auto]; simpl; now apply multiple_opp.
    + rewrite D1, <- !app_assoc. eexists. split; [reflexivity|]. intros _ F. apply app_eq_nil in F. destruct F as [_ F]. discriminate F.
    + intros x X. rewrite E by assumption. rewrite !ev_app, dsum_cons. pose proof X as [Lx _]. unfold xx at 2. cbn [fst snd].
      unfold ev at 3. cbn [sumof fst snd]. rewrite !diag_one by auto. pose proof qz4_nz. pose proof qz2_nz. destruct (Nat.eqb_spec i j) as [->|N].
      * unfold ev at 2. cbn [sumof]. unfold spin. rewrite (bits_sq n x j X), qz4_2. fld.
      * unfold ev at 2. cbn [sumof fst snd]. rewrite diag_two by auto. unfold spin. rewrite qz4_2. fld.
Qed.
Lemma quad_fold_ok n s l : Forall (fun kv => fst (fst kv) < n /\ snd (fst kv) < n) l ->
  forall st, exists st', foldM (ising_quad n s) l st = Ok st'.
Proof.
  induction 1 as [|[[i j] c] l [H1 H2] F IH]; intro st; [simpl; eauto|]. cbn [foldM]. destruct (quad_step_ok n s st i j c H1 H2) as [s1 ->]. cbn [bind]. apply IH.
Qed.

(** ** Summing and reducing *)
Definition sum_terms (s : opsum) : list (pauli * Qc) := match s with SZero => [] | SOne t => [t] | SMany l => l end.
Lemma sum_add_ev x s t : ev x (sum_terms (sum_add s t)) = (ev x (sum_terms s) + snd t * pauli_diag (fst t) x)%Qc.
Proof.
  destruct s as [|u|l]; unfold ev; simpl.
  - ring.
  - destruct (pauli_eqb_sp (fst u) (fst t)) as [<-|N]; simpl; ring.
  - rewrite sumof_app. simpl. ring.
Qed.
Lemma sum_fold_ev x l : forall s, ev x (sum_terms (fold_left sum_add l s)) = (ev x (sum_terms s) + ev x l)%Qc.
Proof. induction l as [|t l IH]; intro s; simpl; [unfold ev at 3; simpl; ring|]. rewrite IH, sum_add_ev. unfold ev. simpl. ring. Qed.
Lemma sum_fold_Forall (P : pauli * Qc -> Prop) (HP : forall p a b, P (p, a) -> P (p, b) -> P (p, (a + b)%Qc)) l : Forall P l -> forall s,
  Forall P (sum_terms s) -> Forall P (sum_terms (fold_left sum_add l s)).
Proof.
  induction 1 as [|t l H F IH]; intros s G; auto. simpl. apply IH. destruct s as [|u|m]; simpl in *.
  - constructor; auto.
  - inversion G; subst. destruct (pauli_eqb_sp (fst u) (fst t)) as [E|N]; simpl; [|constructor; auto].
    constructor; auto. destruct u as [p a], t as [p' b]. simpl in *. subst. auto.
  - apply Forall_app. auto.
Qed.
Lemma sum_fold_nz l : forall s, l <> [] \/ s <> SZero -> fold_left sum_add l s <> SZero.
Proof.
  induction l as [|t l IH]; intros s [H|H]; simpl; auto; try congruence; apply IH; right; destruct s as [|u|m]; simpl; try congruence;
  destruct (pauli_eqb (fst u) (fst t)); congruence.
Qed.
Lemma merge_ev x l : ev x (merge_terms l) = ev x l.
Proof.
  unfold merge_terms. assert (forall d, ev x (fold_left (fun d t => dadd pauli_eqb (fst t) (snd t) d) l d) = (ev x d + ev x l)%Qc) as A.
  { induction l as [|t l IH]; intro d; simpl; [unfold ev at 3; simpl; ring|]. rewrite IH, !ev_dsum, (dsum_dadd _ pauli_eqb_sp).
    destruct t as [p c]. rewrite dsum_cons. cbn [fst snd]. ring. }
  rewrite A. unfold ev at 1. simpl. ring.
Qed.
Lemma merge_nodup l : NoDup (map fst (merge_terms l)).
Proof.
  unfold merge_terms. assert (forall d : list (pauli * Qc), NoDup (map fst d) -> NoDup (map fst (fold_left (fun d t => dadd pauli_eqb (fst t) (snd t) d) l d))) as A.
  { induction l as [|t l IH]; intros d H; auto. simpl. apply IH. now apply (dadd_nodup _ pauli_eqb_sp). }
  apply A. constructor.
Qed.
Lemma merge_terms_Forall (P : pauli * Qc -> Prop) (HP : forall p a b, P (p, a) -> P (p, b) -> P (p, (a + b)%Qc)) l : Forall P l -> Forall P (merge_terms l).
Proof.
  unfold merge_terms. intro F. assert (forall d, Forall P d -> Forall P (fold_left (fun d t => dadd pauli_eqb (fst t) (snd t) d) l d)) as A; [|apply A; constructor].
  induction F as [|[p c] l H F IH]; intros d G; auto. simpl. apply IH. unfold dadd. cbn [fst snd].
  unfold dgetq. destruct (dget pauli_eqb p d) as [a|] eqn:E.
  - apply (dset_Forall _ pauli_eqb_sp); auto. apply (dget_in _ pauli_eqb_sp) in E. rewrite Forall_forall in G. apply G in E. now apply HP.
  - apply (dset_Forall _ pauli_eqb_sp); auto. now replace (0 + c)%Qc with c by ring.
Qed.
