(** * LinearEqualityToPenalty *)
From Verif Require Export ConvMore.
Local Open Scope nat_scope.

(** ** From indexed dictionaries to expressions *)
Lemma index_pos env n i j : key_pos1 env n (KI (Z.of_nat i)) = Ok j -> j = i /\ i < n.
Proof.
  unfold key_pos1. simpl. intro H. apply dok_index_spec in H. destruct H as [H1 [H2|H2]]; [|lia]. apply Nat2Z.inj in H2. subst. auto.
Qed.
Lemma lin_make_indexed env d e : NoDup (map fst d) -> lin_make env (lcoef_or_empty (by_index d)) = Ok e ->
  lin_wf e /\ le_dim e = ve_n env /\ forall x, length x = ve_n env -> lin_at e x = dsum (at_ x) d.
Proof.
  intros N H. pose proof (lin_make_dict _ _ _ H) as (W & D & _). split; auto. split; auto.
  unfold by_index in H. simpl in H. rewrite lin_put_fold in H. apply bind_ok in H. destruct H as (co & H & E). injection E as <-.
  set (h := fun k : key => match k with KI z => Z.to_nat z | KS _ => 0 end).
  assert (forall k v, In (k, v) (map (fun kv : nat * Qc => (KI (Z.of_nat (fst kv)), snd kv)) d) -> key_pos1 env (ve_n env) k = Ok (h k)) as P.
  { intros k v Hin. destruct (foldM_put_legal _ _ _ _ _ H k v Hin) as [i Hi]. rewrite Hi.
    apply in_map_iff in Hin. destruct Hin as ([j w] & E & _). injection E as <- <-. apply index_pos in Hi. destruct Hi as [-> _]. unfold h. now rewrite Nat2Z.id. }
  rewrite (foldM_put_fresh _ nat_eqb_sp _ h) in H; auto.
  - injection H as <-. simpl in *. intros x Lx. rewrite <- (lin_entries_at _ x) by (auto; simpl; lia). simpl.
    rewrite dsum_nonzero, (dsum_map h), (dsum_map (fun i => KI (Z.of_nat i))). apply dsum_ext. intros i v _. unfold h. now rewrite Nat2Z.id.
  - rewrite !map_map. unfold h. cbn [fst]. erewrite map_ext; [exact N|]. intros [i v]. cbn [fst]. now rewrite Nat2Z.id.
Qed.
Lemma quad_make_indexed env d e : NoDup (map fst d) -> quad_make env (qcoef_or_empty (by_index2 d)) = Ok e ->
  quad_wf e /\ qe_dim e = ve_n env /\ forall x, length x = ve_n env -> quad_at e x = dsum (fun ij => (at_ x (fst ij) * at_ x (snd ij))%Qc) d.
Proof.
  intros N H. pose proof H as W. apply quad_make_spec in W. destruct W as (W & _ & _ & D & _ & F). simpl in D.
  split; auto. split; auto.
  unfold by_index2 in H. simpl in H. rewrite quad_put_fold in H. apply bind_ok in H. destruct H as (co & H & E). injection E as <-.
  set (g := fun k : key => match k with KI z => Z.to_nat z | KS _ => 0 end). set (h := fun k : key * key => (g (fst k), g (snd k))).
  assert (forall i j v, In ((i, j), v) d -> key_pos2 env (ve_n env) (KI (Z.of_nat i), KI (Z.of_nat j)) = Ok (i, j) /\ i < ve_n env /\ j < ve_n env) as P.
  { intros i j v Hin. destruct (foldM_put_legal _ _ _ _ _ H (KI (Z.of_nat i), KI (Z.of_nat j)) v) as [[a b] Hi].
    { apply in_map_iff. exists ((i, j), v). auto. }
    pose proof Hi as Hi'. unfold key_pos2 in Hi. cbn [fst snd resolve bind] in Hi. apply bind_ok in Hi. destruct Hi as (a' & A & Hi). apply bind_ok in Hi. destruct Hi as (b' & B & Hi). injection Hi as -> ->.
    apply (index_pos env) in A. apply (index_pos env) in B. destruct A as [-> A], B as [-> B]. auto. }
  assert (forall i, g (KI (Z.of_nat i)) = i) as G by (intro i; unfold g; now rewrite Nat2Z.id).
  rewrite (foldM_put_fresh _ nat2_eqb_sp _ h) in H.
  - injection H as <-. simpl in *. intros y Ly. rewrite (quad_at_n _ y (ve_n env)) by (auto; simpl; lia).
    set (dd := map (fun kv => ((KI (Z.of_nat (fst (fst kv))), KI (Z.of_nat (snd (fst kv)))), snd kv)) d) in *.
    unfold coef2. simpl. pose proof (triangle_form (ve_n env) (nonzero (map (fun kv => (h (fst kv), snd kv)) dd)) y) as T. unfold form_at in T. rewrite T. clear T.
    assert (map (fun kv => (h (fst kv), snd kv)) dd = d) as E.
    { unfold dd. rewrite map_map. clear -G. induction d as [|[[i j] v] d IH]; simpl; auto. unfold h at 1. simpl. rewrite !G. now f_equal. }
    rewrite E. rewrite <- quad_entries_at.
    + apply dsum_nonzero.
    + now apply nonzero_nodup.
    + apply nonzero_Forall. apply Forall_forall. intros [[i j] v] Hin. destruct (P i j v Hin) as (_ & A & B). auto.
  - intros k v Hin. apply in_map_iff in Hin. destruct Hin as ([[i j] w] & E & Hin). injection E as <- <-. unfold h. cbn [fst snd]. rewrite !G. eapply P; eauto.
  - rewrite !map_map. cbn [fst]. erewrite map_ext; [exact N|]. intros [[i j] v]. unfold h. cbn [fst snd]. now rewrite !G.
  - auto.
Qed.

(** ** The penalty terms *)
Definition pen_value (x : list Qc) (st : Qc * list (nat * Qc) * list ((nat * nat) * Qc)) : Qc :=
  (fst (fst st) + dsum (at_ x) (snd (fst st)) + dsum (fun ij => (at_ x (fst ij) * at_ x (snd ij))%Qc) (snd st))%Qc.
Lemma row_linear (k : Qc) (f : nat -> Qc) row : forall l,
  dsum f (fold_left (fun l jv => dadd Nat.eqb (fst jv) (k * snd jv)%Qc l) row l) = (dsum f l + k * dsum f row)%Qc.
Proof.
  induction row as [|[j v] row IH]; intro l; simpl; [rewrite dsum_nil; ring|]. rewrite IH, (dsum_dadd _ nat_eqb_sp), dsum_cons. simpl. ring.
Qed.
Lemma row_quadratic (k : Qc) (f : nat -> Qc) row : forall rows q,
  dsum (fun ij => (f (fst ij) * f (snd ij))%Qc)
    (fold_left (fun q jv => fold_left (fun q kw => dadd nat2_eqb (fst jv, fst kw) (k * snd jv * snd kw)%Qc q) row q) rows q)
  = (dsum (fun ij => (f (fst ij) * f (snd ij))%Qc) q + k * dsum f rows * dsum f row)%Qc.
Proof.
  induction rows as [|[j v] rows IH]; intro q; simpl; [rewrite dsum_nil; ring|]. rewrite IH, dsum_cons. simpl.
  assert (forall row q, dsum (fun ij => (f (fst ij) * f (snd ij))%Qc) (fold_left (fun q kw => dadd nat2_eqb (j, fst kw) (k * v * snd kw)%Qc q) row q)
    = (dsum (fun ij => (f (fst ij) * f (snd ij))%Qc) q + k * v * f j * dsum f row)%Qc) as G.
  { clear. induction row as [|[i w] row IH]; intro q; simpl; [rewrite dsum_nil; ring|]. rewrite IH, (dsum_dadd _ nat2_eqb_sp), dsum_cons. simpl. ring. }
  rewrite G. ring.
Qed.
Lemma fold_keys_nodup {K B} (eqb : K -> K -> bool) (sp : forall a b, reflect (a = b) (eqb a b)) (g : B -> K) (w : B -> Qc) xs : forall l,
  NoDup (map fst l) -> NoDup (map fst (fold_left (fun l b => dadd eqb (g b) (w b) l) xs l)).
Proof. induction xs as [|b xs IH]; intros l N; simpl; auto. apply IH. unfold dadd. now apply (dset_nodup _ sp). Qed.
Definition pen_nodup (st : Qc * list (nat * Qc) * list ((nat * nat) * Qc)) : Prop := NoDup (map fst (snd (fst st))) /\ NoDup (map fst (snd st)).
Lemma pen_con_spec sense pen st c st' x : lin_wf (lc_lin c) -> le_dim (lc_lin c) <= length x -> pen_con sense pen st c = Ok st' ->
  lc_sense c = EQ /\ pen_value x st' = (pen_value x st + sense * pen * ((lc_rhs c - lc_at c x) * (lc_rhs c - lc_at c x)))%Qc.
Proof.
  intros W D H. unfold pen_con in H. destruct (lc_sense c) eqn:E; try discriminate. split; auto. destruct st as [[o l] q]. injection H as <-.
  unfold pen_value, lc_at. cbn [fst snd]. unfold lin_to_dict. rewrite <- (lin_entries_at _ _ W D).
  rewrite (row_quadratic (sense * pen)).
  assert (dsum (at_ x) (fold_left (fun l jv => dadd Nat.eqb (fst jv) (sense * pen * (- qz 2) * snd jv * lc_rhs c)%Qc l) (le_co (lc_lin c)) l)
    = (dsum (at_ x) l + (sense * pen * (- qz 2) * lc_rhs c) * dsum (at_ x) (le_co (lc_lin c)))%Qc) as ->.
  { rewrite <- row_linear. f_equal. revert l. clear. induction (le_co (lc_lin c)) as [|[j v] r IH]; intro l; simpl; auto. rewrite IH. do 2 f_equal. ring. }
  change (qz 2) with (1 + 1)%Qc. change (fun i : nat => at_ x i) with (at_ x). ring.
Qed.
Lemma pen_con_nodup sense pen st c st' : pen_nodup st -> pen_con sense pen st c = Ok st' -> pen_nodup st'.
Proof.
  intros [N1 N2] H. unfold pen_con in H. destruct (lc_sense c); try discriminate. destruct st as [[o l] q]. injection H as <-. cbn [fst snd] in *. split; cbn [fst snd].
  - now apply (fold_keys_nodup _ nat_eqb_sp).
  - clear -N2. revert q N2. generalize (lin_to_dict (lc_lin c)) at 2 as rows. induction rows as [|r rows IH]; intros q N; simpl; auto. apply IH.
    apply (fold_keys_nodup _ nat2_eqb_sp (fun kw : nat * Qc => (fst r, fst kw))); auto.
Qed.

Definition lc_fit (n : nat) (p : qp) : Prop :=
  le_dim (o_lin (p_obj p)) <= n /\ qe_dim (o_quad (p_obj p)) <= n /\ Forall (fun c => le_dim (lc_lin c) <= n) (p_lcs p).

(** Keys of the collected terms are those of the sources *)
Lemma dadd_keys_in {K} (eqb : K -> K -> bool) (sp : forall a b, reflect (a = b) (eqb a b)) k w (l : list (K * Qc)) z :
  In z (map fst l) -> In z (map fst (dadd eqb k w l)).
Proof. intro H. unfold dadd. apply (dset_keys _ sp). auto. Qed.
Lemma fold_keys_in {K B} (eqb : K -> K -> bool) (sp : forall a b, reflect (a = b) (eqb a b)) (g : B -> K) (w : B -> Qc) xs : forall l z,
  In z (map fst l) \/ In z (map g xs) -> In z (map fst (fold_left (fun l b => dadd eqb (g b) (w b) l) xs l)).
Proof.
  induction xs as [|b xs IH]; intros l z H; simpl in *; [tauto|]. apply IH. destruct H as [H|[H|H]]; auto.
  - left. now apply dadd_keys_in.
  - left. unfold dadd. apply (dset_keys _ sp). auto.
Qed.

Section Penalize.
Variables (pen : Qc) (p q : qp).
Hypothesis W : prog_wf p.
Hypothesis H : penalize pen p = Ok q.

(** The positions of all the coefficients that matter are positions of variables. *)
Lemma penalize_spec : p_vars q = map copyv (p_vars p) /\ p_lcs q = [] /\ p_qcs q = [] /\ o_sense (p_obj q) = o_sense (p_obj p) /\
  Forall (fun c => lc_sense c = EQ) (p_lcs p) /\ idx_exact q /\
  (Forall (fun kv => fst kv < num_vars p) (le_co (o_lin (p_obj p))) /\
   Forall (fun kv => fst (fst kv) < num_vars p /\ snd (fst kv) < num_vars p) (qe_co (o_quad (p_obj p)))) /\
  forall x, length x = num_vars p -> obj_at (p_obj q) x = (obj_at (p_obj p) x + sense_val (o_sense (p_obj p)) * pen * violation (p_lcs p) x)%Qc.
Proof using W H.
  pose proof W as (_ & _ & _ & _ & (W1 & W2 & W3 & _) & _). unfold penalize in H.
  apply bind_ok in H. destruct H as (d0 & H0 & H1). clear H. apply copy_vars_inv in H0; [|apply idx_exact_new].
  destruct H0 as (X0 & V0 & L0 & _ & Q0 & _). simpl in V0, L0, Q0.
  apply bind_ok in H1. destruct H1 as ([[o l] k] & Hst & H1). apply set_objective_inv in H1. destruct H1 as (e & e2 & E1 & E2 & ->).
  cbn [set_obj p_vars p_lcs p_qcs p_obj o_sense]. split; auto. split; auto. split; auto. split; auto.
  assert (ve_n (env_of d0) = num_vars p) as NV by (unfold env_of, num_vars; simpl; unfold num_vars; now rewrite V0, map_length).
  set (s := sense_val (o_sense (p_obj p))) in *.
  assert (forall cs st st', pen_nodup st -> foldM (pen_con s pen) cs st = Ok st' -> pen_nodup st') as ND.
  { clear. induction cs as [|c cs IH]; intros st st' N H; cbn [foldM] in H; [now injection H as <-|]. apply bind_ok in H. destruct H as (s1 & H1 & H2). eapply IH; [|exact H2]. eapply pen_con_nodup; eauto. }
  assert (forall cs st st', foldM (pen_con s pen) cs st = Ok st' -> Forall (fun c => lc_sense c = EQ) cs /\
     (forall i, In i (map fst (snd (fst st))) -> In i (map fst (snd (fst st')))) /\ (forall i, In i (map fst (snd st)) -> In i (map fst (snd st'))) /\
     Forall (fun c => forall i, In i (map fst (le_co (lc_lin c))) -> In i (map fst (snd (fst st')))) cs) as K.
  { clear. induction cs as [|c cs IH]; intros st st' H; cbn [foldM] in H; [injection H as <-; auto|]. apply bind_ok in H. destruct H as (s1 & H1 & H2).
    destruct (IH _ _ H2) as (I1 & I2 & I3 & I4). unfold pen_con in H1. destruct (lc_sense c) eqn:E; try discriminate. destruct st as [[o l] k]. injection H1 as <-. cbn [fst snd] in *.
    split; [constructor; auto|]. split; [|split].
    - intros i Hi. apply I2. apply (fold_keys_in _ nat_eqb_sp). auto.
    - intros i Hi. apply I3. clear -Hi. revert k Hi. generalize (lin_to_dict (lc_lin c)) at 2 as rows. induction rows as [|r rows IH]; intros k Hi; simpl; auto. apply IH.
      apply (fold_keys_in _ nat2_eqb_sp (fun kw : nat * Qc => (fst r, fst kw))). auto.
    - constructor; auto. intros i Hi. apply I2. apply (fold_keys_in _ nat_eqb_sp). auto. }
  destruct (ND _ _ _ (conj (proj1 W1) (proj1 W2) : pen_nodup (o_const (p_obj p), lin_to_dict (o_lin (p_obj p)), quad_to_dict false (o_quad (p_obj p)))) Hst) as [N1 N2]. cbn [fst snd] in N1, N2.
  destruct (K _ _ _ Hst) as (K1 & K2 & K3 & K4). cbn [fst snd] in K2, K3, K4. split; auto. split; [destruct X0; now constructor|].
  destruct (lin_make_indexed _ _ _ N1 E1) as (We & De & Ve). destruct (quad_make_indexed _ _ _ N2 E2) as (We2 & De2 & Ve2).
  assert (forall i, In i (map fst l) -> i < num_vars p) as Bl.
  { intros i Hi. apply in_map_iff in Hi. destruct Hi as ([j v] & <- & Hi). unfold by_index in E1. simpl in E1. rewrite lin_put_fold in E1. apply bind_ok in E1. destruct E1 as (co & E1 & _).
    destruct (foldM_put_legal _ _ _ _ _ E1 (KI (Z.of_nat j)) v) as [a Ha]; [apply in_map_iff; exists (j, v); auto|]. apply index_pos in Ha. rewrite <- NV. apply Ha. }
  assert (forall ij, In ij (map fst k) -> fst ij < num_vars p /\ snd ij < num_vars p) as Bq.
  { intros ij Hi. apply in_map_iff in Hi. destruct Hi as ([[i j] v] & <- & Hi). unfold by_index2 in E2. simpl in E2. rewrite quad_put_fold in E2. apply bind_ok in E2. destruct E2 as (co & E2 & _).
    destruct (foldM_put_legal _ _ _ _ _ E2 (KI (Z.of_nat i), KI (Z.of_nat j)) v) as [[a b] Ha]; [apply in_map_iff; exists ((i, j), v); auto|].
    unfold key_pos2 in Ha. cbn [fst snd resolve bind] in Ha. apply bind_ok in Ha. destruct Ha as (a' & A & Ha). apply bind_ok in Ha. destruct Ha as (b' & B & Ha).
    apply (index_pos (env_of d0)) in A. apply (index_pos (env_of d0)) in B. rewrite <- NV. split; [apply A|apply B]. }
  assert (Forall (fun kv => fst kv < num_vars p) (le_co (o_lin (p_obj p)))) as FL.
  { apply Forall_forall. intros [i v] Hin. apply Bl, K2. change i with (fst (i, v)). now apply in_map. }
  assert (Forall (fun kv => fst (fst kv) < num_vars p /\ snd (fst kv) < num_vars p) (qe_co (o_quad (p_obj p)))) as FQ.
  { apply Forall_forall. intros [[i j] v] Hin. apply (Bq (i, j)), K3. change (i, j) with (fst ((i, j), v)). now apply in_map. }
  split; [split; assumption|].
  intros x Lx. unfold obj_at at 1. cbn [o_const o_lin o_quad]. rewrite Ve, Ve2 by lia.
  assert (pen_value x (o, l, k) = (pen_value x (o_const (p_obj p), lin_to_dict (o_lin (p_obj p)), quad_to_dict false (o_quad (p_obj p))) + s * pen * violation (p_lcs p) x)%Qc) as V.
  { clear -Hst W3 K4 Bl Lx. revert Hst K4 W3. generalize (o_const (p_obj p), lin_to_dict (o_lin (p_obj p)), quad_to_dict false (o_quad (p_obj p))) as st.
    unfold violation. induction (p_lcs p) as [|c cs IH]; intros st Hst K4 W3; cbn [foldM] in Hst; [injection Hst as ->; simpl; ring|].
    apply bind_ok in Hst. destruct Hst as (s1 & H1 & H2). inversion K4 as [|? ? K4a K4b]; inversion W3 as [|? ? W3a W3b]; subst. rewrite (IH _ H2 K4b W3b). simpl.
    assert (pen_value x s1 = (pen_value x st + s * pen * ((lc_rhs c - lc_at c x) * (lc_rhs c - lc_at c x)))%Qc) as ->; [|ring].
    set (c' := mkLC (lc_name c) (mkLin (length x) (le_int (lc_lin c)) (le_co (lc_lin c))) (lc_sense c) (lc_rhs c)).
    assert (lin_wf (lc_lin c')) as Wc. { split; [apply W3a|]. apply Forall_forall. intros [i v] Hi. simpl. rewrite Lx. apply Bl, K4a. change i with (fst (i, v)). now apply in_map. }
    assert (lc_at c x = lc_at c' x) as ->.
    { unfold lc_at. rewrite <- (lin_entries_at (lc_lin c') x Wc) by (simpl; lia). simpl. apply lin_entries_in; [apply W3a|]. destruct Wc as [_ Wc]. exact Wc. }
    change (lc_rhs c) with (lc_rhs c'). change (pen_con s pen st c) with (pen_con s pen st c') in H1. eapply pen_con_spec; eauto. }
  unfold pen_value in V. cbn [fst snd] in V. rewrite V. unfold obj_at, lin_to_dict, quad_to_dict. 
  rewrite (lin_entries_in (o_lin (p_obj p))), (quad_entries_in (o_quad (p_obj p))); [reflexivity|apply W2| |apply W1|]; rewrite Lx; assumption.
Qed.
Lemma penalize_fits x : length x = num_vars p -> typed q x -> in_bounds q x -> typed p x.
Proof using W H.
  intros L T B. destruct penalize_spec as (V & _). unfold typed in *. rewrite V in T. now apply copy_typed.
Qed.
End Penalize.
