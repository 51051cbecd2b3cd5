(** * Reusing a converter object *)
From Verif Require Export QuboFacts.
Local Open Scope list_scope.
Local Open Scope nat_scope.

(** The penalty setting in force after some calls. *)
Definition last_penalty (c0 : option Qc) (l : list conv_op) : option Qc :=
  fold_left (fun c o => match o with CPenalty c' => c' | _ => c end) l c0.

(** ** The destination built when a conversion raises *)
Lemma then_build_ok s f g : (forall d, ok_state (f d) = g d) -> ok_state (then_build s f) = (do d <- ok_state s; g d).
Proof. intro H. destruct s as [d [[]|e]]; simpl; auto. Qed.
Lemma with_value_ok {A} (r : result A) d f g : (forall a, ok_state (f a) = g a) -> ok_state (with_value r d f) = (do a <- r; g a).
Proof. intro H. destruct r; simpl; auto. Qed.
Lemma build_all_ok {A} (f : qp -> A -> qp * result unit) g l : (forall d a, ok_state (f d a) = g d a) -> forall d, ok_state (build_all f l d) = foldM g l d.
Proof. intro H. induction l as [|a l IH]; intro d; simpl; auto. rewrite (then_build_ok _ _ (foldM g l)); [now rewrite H|exact IH]. Qed.
Lemma drop_out_ok {A} (s : qp * result A) : ok_state (drop_out s) = ok_state s.
Proof. destruct s as [d [a|e]]; reflexivity. Qed.
Lemma copy_build_ok d v : ok_state (copy_build d v) = copy_var d v.
Proof. unfold copy_build, copy_var. apply drop_out_ok. Qed.
Lemma slack_linear_ok i src d lin s r nm : ok_state (slack_linear_build i src d lin s r nm) = slack_linear i src d lin s r nm.
Proof.
  unfold slack_linear_build, slack_linear. destruct (i && any_float lin); [reflexivity|]. cbv zeta. apply with_value_ok. intro b.
  destruct (qltb _ _); [|reflexivity]. rewrite (then_build_ok _ _ _ (fun d1 => eq_refl)). unfold slack_build. now rewrite drop_out_ok.
Qed.
Lemma slack_quadratic_ok i src d lin quad s r nm : ok_state (slack_quadratic_build i src d lin quad s r nm) = slack_quadratic i src d lin quad s r nm.
Proof.
  unfold slack_quadratic_build, slack_quadratic. destruct (i && _); [reflexivity|]. cbv zeta. apply with_value_ok. intro b.
  destruct (qltb _ _); [|reflexivity]. rewrite (then_build_ok _ _ _ (fun d1 => eq_refl)). unfold slack_build. now rewrite drop_out_ok.
Qed.
Lemma ineq_build_ok m p : ok_state (ineq_build m p) = ineq_to_eq m p.
Proof.
  unfold ineq_build, ineq_to_eq. rewrite (then_build_ok _ _ _ (fun d => eq_refl)), (build_all_ok copy_build copy_var _ copy_build_ok). destruct (foldM copy_var _ _); cbn [bind]; auto.
  apply with_value_ok. intro lin. apply with_value_ok. intro quad. apply then_build_ok. intro d. rewrite (then_build_ok _ _ _ (fun d => eq_refl)), (build_all_ok _ (ineq_linear m p)).
  - destruct (foldM _ _ _); cbn [bind]; auto. apply build_all_ok. intros q c. unfold ineq_quadratic_build, ineq_quadratic. apply with_value_ok. intro l. apply with_value_ok. intro qd.
    destruct (qc_sense c), m; auto using slack_quadratic_ok.
  - intros q c. unfold ineq_linear_build, ineq_linear. apply with_value_ok. intro l. destruct (lc_sense c), m; auto using slack_linear_ok.
Qed.
Lemma bits_build_ok bits d : ok_state (bits_build d bits) = declare_bits d bits.
Proof. apply build_all_ok. intros q b. apply drop_out_ok. Qed.
Lemma bind_assoc {A B C} (r : result A) (f : A -> result B) (g : B -> result C) : (do b <- (do a <- r; f a); g b) = (do a <- r; do b <- f a; g b).
Proof. destruct r; reflexivity. Qed.
Lemma i2b_build_ok src conv d : ok_state (i2b_build src conv d) = i2b_substitute src conv d.
Proof.
  unfold i2b_build, i2b_substitute. rewrite (with_value_ok _ _ _ _ (fun a => eq_refl)), bind_assoc. destruct (lin_to_dict_names _ _); cbn [bind]; auto. destruct (i2b_linear _ _ _) as [lc|]; cbn [bind]; auto.
  rewrite (with_value_ok _ _ _ _ (fun a => eq_refl)), bind_assoc. destruct (quad_to_dict_names _ _ _); cbn [bind]; auto. destruct (i2b_quadratic _ _ _) as [[[q ql] qc]|]; cbn [bind]; auto.
  apply then_build_ok. intro d1. rewrite (then_build_ok _ _ _ (fun d => eq_refl)), (build_all_ok _ (i2b_lincon src conv)).
  - destruct (foldM _ _ _); cbn [bind]; auto. apply build_all_ok. intros q0 c. unfold i2b_quadcon_build, i2b_quadcon. rewrite (with_value_ok _ _ _ _ (fun a => eq_refl)), bind_assoc.
    destruct (lin_to_dict_names _ _); cbn [bind]; auto. destruct (i2b_linear _ _ _) as [lc'|]; cbn [bind]; auto. rewrite (with_value_ok _ _ _ _ (fun a => eq_refl)), bind_assoc.
    destruct (quad_to_dict_names _ _ _); cbn [bind]; auto. destruct (i2b_quadratic _ _ _) as [[[? ?] ?]|]; reflexivity.
  - intros q0 c. unfold i2b_lincon_build, i2b_lincon. rewrite (with_value_ok _ _ _ _ (fun a => eq_refl)), bind_assoc. reflexivity.
Qed.
Lemma pen_build_ok c p : ok_state (pen_build c p) = penalize c p.
Proof.
  unfold pen_build, penalize. rewrite (then_build_ok _ _ _ (fun d => eq_refl)), (build_all_ok copy_build copy_var _ copy_build_ok). destruct (foldM copy_var _ _); cbn [bind]; auto.
  rewrite (with_value_ok _ _ _ _ (fun a => eq_refl)). destruct (foldM _ _ _) as [[[? ?] ?]|]; reflexivity.
Qed.
Lemma io_convert_ok o p : snd (io_convert o p) = ineq_to_eq (io_mode o) p.
Proof. unfold io_convert. rewrite <- ineq_build_ok. destruct (ineq_build _ _) as [d [[]|e]]; reflexivity. Qed.

Lemma int_lin_coef e i : int_lin e -> integral (coef1 e i).
Proof. intro H. unfold coef1, dgetq. destruct (dget Nat.eqb i _) as [v|] eqn:E; [|apply integral_0]. apply (dget_in _ nat_eqb_sp) in E. unfold int_lin in H. rewrite Forall_forall in H. exact (H _ E). Qed.

(** ** IntegerToBinary: entries of earlier conversions are never found *)
Definition older (g : nat) (conv : list ((nat * nat) * list (string * Qc))) : Prop := forall k, In k (map fst conv) -> fst k <= g.
Definition matches (g : nat) (conv : list ((nat * nat) * list (string * Qc))) (tbl : conv_table) : Prop :=
  forall i, bo_lookup g conv i = dget Nat.eqb i tbl.
Lemma older_set g g' i bits conv : older g conv -> g' = g -> older g (dset nat2_eqb (g', i) bits conv).
Proof. intros O -> k Hk. apply (dset_keys _ nat2_eqb_sp) in Hk. destruct Hk as [->|Hk]; [simpl; lia|auto]. Qed.
Lemma matches_set g i bits conv tbl : matches g conv tbl -> matches g (dset nat2_eqb (g, i) bits conv) (dset Nat.eqb i bits tbl).
Proof.
  intros M k. unfold bo_lookup. rewrite (dget_dset _ nat2_eqb_sp), (dget_dset _ nat_eqb_sp). unfold nat2_eqb at 1. cbn [fst snd]. rewrite Nat.eqb_refl. simpl.
  destruct (Nat.eqb k i); auto. apply M.
Qed.
Lemma bo_declare_spec g vs : forall i dst conv tbl, older g conv -> matches g conv tbl ->
  let r := bo_declare g i vs dst conv in
  older g (fst r) /\
  match foldM i2b_declare (combine (seq i (length vs)) vs) (dst, tbl) with
  | Ok st => snd r = (fst st, Ok tt) /\ matches g (fst r) (snd st)
  | Err e => snd (snd r) = Err e
  end.
Proof.
  induction vs as [|v vs IH]; intros i dst conv tbl O M; cbv zeta; cbn [bo_declare length seq combine foldM]; [simpl; auto|].
  unfold i2b_declare at 1. cbn [fst snd]. destruct (v_type v).
  - rewrite <- copy_build_ok. destruct (copy_build dst v) as [d [[]|e]]; cbn [ok_state bind]; [apply IH; auto|simpl; auto].
  - rewrite <- copy_build_ok. destruct (copy_build dst v) as [d [[]|e]]; cbn [ok_state bind]; [apply IH; auto|simpl; auto].
  - destruct (convert_var _ _ _) as [bits|e]; cbn [bind]; [|simpl; auto].
    pose proof (older_set g g i bits conv O eq_refl) as O1.
    rewrite <- bits_build_ok. destruct (bits_build dst bits) as [d [[]|e]]; cbn [ok_state bind]; [|simpl; auto]. apply IH; auto. now apply matches_set.
Qed.
Lemma i2b_substitute_ext p f g dst : (forall i, f i = g i) -> i2b_substitute p f dst = i2b_substitute p g dst.
Proof.
  intro E. assert (forall A S (F G : S -> A -> result S) l s, (forall s a, F s a = G s a) -> foldM F l s = foldM G l s) as X.
  { intros A S F G l. induction l as [|a l IH]; intros s Q; simpl; auto. rewrite Q. destruct (G s a); simpl; auto. }
  assert (forall d, i2b_linear p f d = i2b_linear p g d) as L.
  { intro d. unfold i2b_linear. apply X. intros s a. destruct (src_pos p (fst a)); simpl; auto. destruct (src_var p a0); simpl; auto. now rewrite E. }
  assert (forall d, i2b_quadratic p f d = i2b_quadratic p g d) as Q.
  { intro d. unfold i2b_quadratic. apply X. intros [[q l] c] a. unfold i2b_term. destruct (src_pos p (fst (fst a))); cbn [bind]; auto. destruct (src_var p a0); cbn [bind]; auto.
    destruct (src_pos p (snd (fst a))); cbn [bind]; auto. destruct (src_var p a2); cbn [bind]; auto. now rewrite !E. }
  unfold i2b_substitute. destruct (lin_to_dict_names _ _); cbn [bind]; auto. rewrite L. destruct (i2b_linear p g a); cbn [bind]; auto.
  destruct (quad_to_dict_names _ _ _); cbn [bind]; auto. rewrite Q. destruct (i2b_quadratic p g a1) as [[[q l] c]|]; cbn [bind]; auto.
  destruct (ok_state _); cbn [bind]; auto.
  rewrite (X _ _ (i2b_lincon p f) (i2b_lincon p g)).
  2: { intros s c0. unfold i2b_lincon. destruct (lin_to_dict_names _ _); cbn [bind]; auto. now rewrite L. }
  destruct (foldM (i2b_lincon p g) (p_lcs p) a2); cbn [bind]; auto. apply X. intros s c0. unfold i2b_quadcon.
  destruct (lin_to_dict_names _ _); cbn [bind]; auto. rewrite L. destruct (i2b_linear p g a4); cbn [bind]; auto.
  destruct (quad_to_dict_names _ _ _); cbn [bind]; auto. now rewrite Q.
Qed.
Lemma i2b_interpret_ext p f g q x : (forall i, f i = g i) -> i2b_interpret p f q x = i2b_interpret p g q x.
Proof.
  intro E. unfold i2b_interpret. destruct (solution_dict _ _); cbn [bind]; auto.
  assert (forall l, mapM (i2b_value f a) l = mapM (i2b_value g a) l) as ->; auto.
  induction l as [|b l IH]; simpl; auto. unfold i2b_value at 1 3. now rewrite E, IH.
Qed.
Lemma bo_convert_spec o p : older (bo_count o) (bo_conv o) ->
  let o' := fst (bo_convert o p) in
  older (bo_count o') (bo_conv o') /\
  match int_to_bin p with
  | Ok (q, tbl) => snd (bo_convert o p) = Ok q /\ forall x, bo_interpret o' x = i2b_interpret p (conv_of tbl) q x
  | Err e => snd (bo_convert o p) = Err e
  end.
Proof.
  intro O. cbv zeta. unfold bo_convert, int_to_bin.
  assert (older (S (bo_count o)) (bo_conv o)) as O1 by (intros k Hk; apply O in Hk; lia).
  assert (matches (S (bo_count o)) (bo_conv o) []) as M.
  { intro i. unfold bo_lookup. simpl. apply (dget_none _ nat2_eqb_sp). intro Hk. apply O in Hk. simpl in Hk. lia. }
  destruct (0 <? count_type INTEGER p).
  - pose proof (bo_declare_spec (S (bo_count o)) (p_vars p) 0 (new_qp (p_name p)) _ _ O1 M) as D. cbv zeta in D. fold (num_vars p) in D.
    destruct (bo_declare _ _ _ _ _) as [conv r]. cbn [fst snd] in D. destruct D as [D1 D2].
    destruct (foldM i2b_declare _ _) as [[dst tbl]|e]; cbn [bind fst snd] in *.
    + destruct D2 as [-> D2]. cbn [then_build]. rewrite <- (i2b_substitute_ext p _ (fun i => dget Nat.eqb i tbl) dst D2), <- i2b_build_ok.
      destruct (i2b_build _ _ _) as [d [[]|e]]; cbn [ok_state bind fst snd]; (split; [exact D1|]); auto. split; auto. intro x.
      unfold bo_interpret. simpl. now apply i2b_interpret_ext.
    + destruct r as [d r]. cbn [snd] in D2. subst r. simpl. auto.
  - cbn [fst snd bo_count bo_conv]. split; auto. split; auto. intro x. unfold bo_interpret. simpl. apply i2b_interpret_ext. exact M.
Qed.

(** ** LinearEqualityToPenalty: the setting *)
Definition pen_setting (o : pen_obj) : option Qc := if po_auto o then None else po_penalty o.
Definition pen_good (o : pen_obj) : Prop := po_auto o = false -> po_penalty o <> None.
Lemma po_convert_spec o p : pen_good o ->
  let o' := fst (po_convert o p) in
  pen_good o' /\ pen_setting o' = pen_setting o /\
  let c := match pen_setting o with Some c => c | None => auto_penalty p end in
  match penalize c p with
  | Ok q => snd (po_convert o p) = Ok q /\ po_penalty o' = Some c /\ forall x, po_interpret o' x = pen_interpret p x
  | Err e => snd (po_convert o p) = Err e
  end.
Proof.
  unfold pen_good, pen_setting, po_convert. destruct o as [s d pe a]. cbn [po_auto po_penalty]. intro G. destruct a.
  - cbv zeta. cbn [fst snd]. rewrite <- pen_build_ok. destruct (pen_build (auto_penalty p) p) as [d0 [[]|e]]; cbn [ok_state fst snd po_auto po_penalty]; intuition congruence.
  - destruct pe as [c|]; [|exfalso; now apply G]. cbv zeta. rewrite <- pen_build_ok. destruct (pen_build c p) as [d0 [[]|e]]; cbn [ok_state fst snd po_auto po_penalty]; intuition congruence.
Qed.

(** ** QuadraticProgramToQubo *)
Record qo_inv (c : option Qc) (o : qubo_obj) : Prop := {
  qi_mode : io_mode (qo_ineq o) = MInteger;
  qi_older : older (bo_count (qo_i2b o)) (bo_conv (qo_i2b o));
  qi_good : pen_good (qo_pen o);
  qi_set : pen_setting (qo_pen o) = c }.
Lemma qo_convert_spec c o p : qo_inv c o ->
  let o' := fst (qo_convert o p) in
  qo_inv c o' /\
  match to_qubo c p with
  | Ok r => snd (qo_convert o p) = Ok (r_qubo r) /\ (forall x, qo_interpret o' x = qubo_interpret r x) /\ qo_penalty o' = Some (used_penalty c r)
  | Err e => snd (qo_convert o p) = Err e
  end.
Proof.
  intros [I1 I2 I3 I4]. cbv zeta. unfold qo_convert, to_qubo. destruct (qubo_compatible p); [|split; [now constructor|reflexivity]].
  unfold io_convert. rewrite I1, <- ineq_build_ok. destruct (ineq_build MInteger p) as [p1 [[]|e]]; cbn [ok_state bind]; [|split; [now constructor|reflexivity]].
  pose proof (bo_convert_spec (qo_i2b o) p1 I2) as B. cbv zeta in B. destruct (bo_convert (qo_i2b o) p1) as [o2 r2]. cbn [fst snd] in B. destruct B as [B1 B2].
  destruct (int_to_bin p1) as [[p2 tbl]|e]; cbn [bind fst snd].
  - destruct B2 as [-> B2]. pose proof (po_convert_spec (qo_pen o) p2 I3) as P. cbv zeta in P. destruct (po_convert (qo_pen o) p2) as [o3 r3].
    cbn [fst snd] in P. destruct P as (P1 & P2 & P3). rewrite I4 in P3, P2. destruct (penalize _ p2) as [p3|e]; cbn [bind fst snd].
    + destruct P3 as (-> & P4 & P5). split; [now constructor|]. split; [reflexivity|]. split.
      * intro x. unfold qo_interpret, qubo_interpret. cbn [qo_pen qo_i2b qo_ineq r_bin r_eq r_conv r_src]. rewrite P5. destruct (pen_interpret p2 x); cbn [bind]; auto.
        rewrite B2. reflexivity.
      * unfold qo_penalty. cbn [qo_pen]. rewrite P4. unfold used_penalty. reflexivity.
    + split; [now constructor|assumption].
  - rewrite B2. split; [now constructor|reflexivity].
Qed.
Lemma qo_run_inv l : forall c o, qo_inv c o -> qo_inv (last_penalty c l) (qo_run o l).
Proof.
  induction l as [|a l IH]; intros c o I; [exact I|]. simpl. apply IH. destruct a as [p|x|c']; simpl.
  - apply qo_convert_spec. exact I.
  - exact I.
  - destruct I. constructor; auto; simpl.
    + intro E. destruct c'; [discriminate|]. discriminate.
    + unfold pen_setting. destruct c'; reflexivity.
Qed.
Lemma new_qubo_inv c : qo_inv c (new_qubo c).
Proof.
  constructor; simpl; auto.
  - intros k [].
  - intro E. destruct c; discriminate.
  - unfold pen_setting. destruct c; reflexivity.
Qed.

(** ** The three converters used alone *)
(** The mode given last *)
Definition last_mode (m0 : slack_mode) (l : list ineq_op) : slack_mode := fold_left (fun m a => match a with IMode m' => m' | _ => m end) l m0.
Lemma io_run_mode l : forall o, io_mode (io_run o l) = last_mode (io_mode o) l.
Proof.
  induction l as [|a l IH]; intro o; [reflexivity|]. unfold io_run, last_mode in *. cbn [fold_left]. rewrite IH. destruct a as [p|x|m]; cbn [io_step]; auto.
  unfold io_convert. destruct (ineq_build _ _). reflexivity.
Qed.
Lemma io_convert_interpret o p q : snd (io_convert o p) = Ok q -> forall m x, io_interpret (io_set_mode m (fst (io_convert o p))) x = ineq_interpret p q x.
Proof. unfold io_convert. destruct (ineq_build _ _) as [d [[]|e]]; cbn; [|discriminate]. intros [= <-] m x. reflexivity. Qed.
Lemma bo_run_older l : forall o, older (bo_count o) (bo_conv o) -> older (bo_count (bo_run o l)) (bo_conv (bo_run o l)).
Proof. induction l as [|p l IH]; intros o O; [exact O|]. unfold bo_run in *. cbn [fold_left]. apply IH. apply (bo_convert_spec o p O). Qed.
Lemma po_run_setting l : forall o, pen_good o -> pen_good (po_run o l) /\ pen_setting (po_run o l) = last_penalty (pen_setting o) l.
Proof.
  induction l as [|a l IH]; intros o G; [auto|]. unfold po_run, last_penalty in *. cbn [fold_left]. destruct a as [p|x|c]; cbn [po_step].
  - destruct (po_convert_spec o p G) as (G' & S & _). rewrite <- S. now apply IH.
  - now apply IH.
  - assert (pen_setting (po_set_penalty c o) = c) as E by (destruct c; reflexivity). rewrite <- E at 3. apply IH. unfold pen_good. destruct c; cbn; congruence.
Qed.
Lemma new_pen_good c : pen_good (new_pen c) /\ pen_setting (new_pen c) = c.
Proof. unfold pen_good. destruct c; cbn; split; auto; congruence. Qed.
