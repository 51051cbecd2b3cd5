(** * from_docplex: what is added, step by step *)
From Verif Require Export SpecDoc SubstTotal.
Local Open Scope string_scope.
Local Open Scope list_scope.
Local Open Scope nat_scope.

(** ** Variables *)
Lemma add_variable_any p lb ub ty nm q l : add_variable p lb ub ty nm = (q, Ok l) ->
  exists s, l = [s] /\ q = add_var p (mkVar s lb ub ty) /\ ~ In s (map fst (p_vidx p)) /\ (lb <= ub)%Qc /\
    forall t, nm = Some t -> s = t.
Proof.
  intros H.
  assert (forall name fmt, add_variables p (KCount 1) lb ub ty (Some name) fmt = (q, Ok l) ->
    exists s, l = [s] /\ q = add_var p (mkVar s lb ub ty) /\ ~ In s (map fst (p_vidx p)) /\ (lb <= ub)%Qc) as G.
  { intros name fmt E. unfold add_variables in E. cbn [Z.ltb Z.compare] in E.
    destruct (contains "{{}}" fmt); [inversion E|]. destruct (1 <? count_slots fmt); [inversion E|].
    change (Z.to_nat 1) with 1 in E. cbn [add_count] in E.
    destruct (find_name _ _ _ _ _ _) as [[s k]|e]; [|inversion E].
    destruct (add_named_cases p s lb ub ty) as [(e & En & _)|[(e & En & _)|(En & F & L)]]; rewrite En in E; [inversion E|inversion E|].
    injection E as <- <-. exists s. split; [reflexivity|]. split; [reflexivity|]. split; [exact F|exact L]. }
  destruct nm as [t|].
  - assert (ok_state (add_variable p lb ub ty (Some t)) = Ok q) as O by (rewrite H; reflexivity).
    destruct (add_variable_inv _ _ _ _ _ _ O) as (Eq & F & L).
    destruct (G t "" H) as (s & -> & Eq' & _ & _). exists s. rewrite Eq' in Eq.
    assert (s = t) as ->. { unfold add_var in Eq. apply (f_equal p_vars) in Eq. cbn in Eq. apply app_inv_head in Eq. injection Eq as E. exact E. }
    split; [reflexivity|]. split; [exact Eq'|]. split; [exact F|]. split; [exact L|]. intros u Hu. injection Hu as <-. reflexivity.
  - destruct (G "x" "{}" H) as (s & A & B & C & D). exists s. split; [exact A|]. split; [exact B|]. split; [exact C|].
    split; [exact D|]. intros t Ht; discriminate Ht.
Qed.

(** The variable an import makes: binary variables get the bounds 0 and 1. *)
Definition imports (d : dvar) (v : variable) : Prop :=
  (forall s, dv_name d = Some s -> v_name v = s) /\ dv_type d = dtype_of (v_type v) /\
  (v_type v = BINARY -> v_lb v = 0%Qc /\ v_ub v = 1%Qc) /\ (v_type v <> BINARY -> v_lb v = dv_lb d /\ v_ub v = dv_ub d).

Definition var_of (d : dvar) (s : string) : variable :=
  match dv_type d with
  | DBinary => mkVar s 0 1 BINARY
  | DInteger => mkVar s (dv_lb d) (dv_ub d) INTEGER
  | _ => mkVar s (dv_lb d) (dv_ub d) CONTINUOUS
  end.

Lemma import_var_inv st d st' : import_var st d = Ok st' ->
  exists s, fst st' = add_var (fst st) (var_of d s) /\ snd st' = snd st ++ [s] /\ ~ In s (map fst (p_vidx (fst st))) /\
    (v_lb (var_of d s) <= v_ub (var_of d s))%Qc /\ (forall t, dv_name d = Some t -> s = t) /\ dv_type d <> DOtherType.
Proof.
  intros H. unfold import_var in H. unfold var_of.
  assert (forall lb ub ty, (match add_variable (fst st) lb ub ty (dv_name d) with
       | (q, Ok (s :: _)) => Ok (q, snd st ++ [s]) | (_, Ok []) => Err IndexError | (_, Err e) => Err e end) = Ok st' ->
       exists s, fst st' = add_var (fst st) (mkVar s lb ub ty) /\ snd st' = snd st ++ [s] /\ ~ In s (map fst (p_vidx (fst st))) /\
       (lb <= ub)%Qc /\ (forall t, dv_name d = Some t -> s = t)) as G.
  { intros lb ub ty E. destruct (add_variable (fst st) lb ub ty (dv_name d)) as [q [l|e]] eqn:Ea; [|discriminate E].
    destruct (add_variable_any _ _ _ _ _ _ _ Ea) as (s & -> & Eq & F & L & N). cbn in E. injection E as <-. cbn. subst q.
    exists s. split; [reflexivity|]. split; [reflexivity|]. auto. }
  destruct (dv_type d).
  - destruct (G _ _ _ H) as (s & A & B & C & D & E). exists s. split; [exact A|]. split; [exact B|]. repeat (split; [assumption|]). discriminate.
  - destruct (G _ _ _ H) as (s & A & B & C & D & E). exists s. split; [exact A|]. split; [exact B|]. repeat (split; [assumption|]). discriminate.
  - destruct (G _ _ _ H) as (s & A & B & C & D & E). exists s. split; [exact A|]. split; [exact B|]. repeat (split; [assumption|]). discriminate.
  - discriminate H.
Qed.

Lemma var_of_name d s : v_name (var_of d s) = s.
Proof. unfold var_of. destruct (dv_type d); reflexivity. Qed.
Lemma var_of_imports d s : dv_type d <> DOtherType -> (forall t, dv_name d = Some t -> s = t) -> imports d (var_of d s).
Proof.
  intros T N. unfold imports. rewrite var_of_name. split; [exact N|]. unfold var_of.
  destruct (dv_type d); cbn; [| | |contradiction T; reflexivity]; (split; [reflexivity|]); (split; [intros E; try discriminate E; auto|intros E; auto]).
  contradiction E; reflexivity.
Qed.

(** Everything but the variables. *)
Definition same_rest (p q : qp) : Prop :=
  p_lcs q = p_lcs p /\ p_lidx q = p_lidx p /\ p_qcs q = p_qcs p /\ p_qidx q = p_qidx p /\ p_obj q = p_obj p /\ p_name q = p_name p /\ p_status q = p_status p.
Lemma same_rest_refl p : same_rest p p. Proof. repeat (split; [reflexivity|]). reflexivity. Qed.
Lemma same_rest_trans a b c : same_rest a b -> same_rest b c -> same_rest a c.
Proof. intros (A1 & A2 & A3 & A4 & A5 & A6 & A7) (B1 & B2 & B3 & B4 & B5 & B6 & B7). unfold same_rest. intuition congruence. Qed.

Lemma import_vars_inv l : forall st st', idx_exact (fst st) -> snd st = var_names (fst st) -> foldM import_var l st = Ok st' ->
  idx_exact (fst st') /\ snd st' = var_names (fst st') /\ same_rest (fst st) (fst st') /\
  exists vs, p_vars (fst st') = p_vars (fst st) ++ vs /\ Forall2 imports l vs /\ Forall (fun v => (v_lb v <= v_ub v)%Qc) vs.
Proof.
  induction l as [|d l IH]; intros st st' X N H; cbn [foldM] in H.
  - injection H as <-. split; [exact X|]. split; [exact N|]. split; [apply same_rest_refl|]. exists []. rewrite app_nil_r. auto.
  - destruct (import_var st d) as [st1|e] eqn:E1; [|discriminate H]. cbn [bind] in H.
    destruct (import_var_inv _ _ _ E1) as (s & Q & Nm & F & L & G & T).
    assert (idx_exact (fst st1)) as X1. { rewrite Q. apply add_var_exact; [exact X|]. rewrite var_of_name. exact F. }
    assert (snd st1 = var_names (fst st1)) as N1. { rewrite Q, Nm, add_var_names, var_of_name, N. reflexivity. }
    destruct (IH _ _ X1 N1 H) as (X2 & N2 & R2 & vs & V & I & B).
    split; [exact X2|]. split; [exact N2|].
    assert (same_rest (fst st) (fst st1)) as R1 by (rewrite Q; repeat (split; [reflexivity|]); reflexivity).
    split; [exact (same_rest_trans _ _ _ R1 R2)|]. exists (var_of d s :: vs). split; [|split].
    + rewrite V, Q. cbn. rewrite <- app_assoc. reflexivity.
    + constructor; [apply var_of_imports; assumption|exact I].
    + constructor; assumption.
Qed.

(** ** Coefficients *)
Lemma name_at_inv names i s : name_at names i = Ok s -> nth_error names i = Some s.
Proof. unfold name_at. destruct (nth_error names i); intros H; [injection H as ->; reflexivity|discriminate H]. Qed.

Lemma dgetq_fresh {K} (eqb : K -> K -> bool) (sp : forall a b, reflect (a = b) (eqb a b)) k d :
  ~ In k (map fst d) -> dgetq eqb k d = 0%Qc.
Proof. intros H. unfold dgetq. rewrite (proj2 (dget_none _ sp _ _) H). reflexivity. Qed.

Section Put.
  Variable names : list string.
  Hypothesis ND : NoDup names.
  Definition legal (d : list (string * Qc)) : Prop := NoDup (map fst d) /\ incl (map fst d) names.
  Definition legal2 (d : list ((string * string) * Qc)) : Prop :=
    NoDup (map fst d) /\ forall s t, In (s, t) (map fst d) -> In s names /\ In t names.

  Lemma legal_set s v d : In s names -> legal d -> legal (dset String.eqb s v d).
  Proof using.
    intros I (A & B). split; [apply (dset_nodup _ str_eqb_sp); exact A|]. intros a Ha.
    apply (dset_keys _ str_eqb_sp) in Ha as [->|Ha]; [exact I|apply B; exact Ha].
  Qed.
  Lemma legal2_set s t v d : In s names -> In t names -> legal2 d -> legal2 (dset str2_eqb (s, t) v d).
  Proof using.
    intros I J (A & B). split; [apply (dset_nodup _ str2_eqb_sp); exact A|]. intros a b Ha.
    apply (dset_keys _ str2_eqb_sp) in Ha as [E|Ha]; [injection E as -> ->; auto|apply B; exact Ha].
  Qed.

  Lemma put_lin_spec l : forall d0 d, NoDup (map fst l) ->
    (forall i s, In i (map fst l) -> nth_error names i = Some s -> ~ In s (map fst d0)) -> legal d0 ->
    put_lin names l d0 = Ok d ->
    legal d /\ forall x, length x = length names -> dsum (valof names x) d = (dsum (valof names x) d0 + dsum (at_ x) l)%Qc.
  Proof using ND.
    induction l as [|[i v] l IH]; intros d0 d N F L H; unfold put_lin in H; cbn [foldM fst snd] in H.
    - injection H as <-. split; [exact L|]. intros x _. rewrite dsum_nil. ring.
    - destruct (name_at names i) as [s|e] eqn:E; [|discriminate H]. cbn [bind] in H. apply name_at_inv in E.
      inversion N as [|? ? N1 N2]; subst.
      assert (~ In s (map fst d0)) as Fs by (apply (F i s); [left; reflexivity|exact E]).
      destruct (IH (dset String.eqb s v d0) d N2) as (Ld & Sd).
      + intros j t Hj Et Hin. apply (dset_keys _ str_eqb_sp) in Hin as [->|Hin].
        * apply N1. rewrite (name_inj _ _ _ _ ND E Et). exact Hj.
        * apply (F j t); [right; exact Hj|exact Et|exact Hin].
      + apply legal_set; [exact (nth_error_In _ _ E)|exact L].
      + exact H.
      + split; [exact Ld|]. intros x Hx. rewrite (Sd x Hx), (dsum_dset _ str_eqb_sp) by apply L.
        rewrite (dgetq_fresh _ str_eqb_sp) by exact Fs. rewrite dsum_cons. cbn [fst snd]. rewrite (valof_nth names x i s ND E). ring.
  Qed.

  Lemma take_lin_spec l : forall d0 d, legal d0 -> take_lin names l d0 = Ok d ->
    legal d /\ forall x, length x = length names -> dsum (valof names x) d = (dsum (valof names x) d0 - dsum (at_ x) l)%Qc.
  Proof using ND.
    induction l as [|[i v] l IH]; intros d0 d L H; unfold take_lin in H; cbn [foldM fst snd] in H.
    - injection H as <-. split; [exact L|]. intros x _. rewrite dsum_nil. ring.
    - destruct (name_at names i) as [s|e] eqn:E; [|discriminate H]. cbn [bind] in H. apply name_at_inv in E.
      destruct (IH _ d (legal_set s _ d0 (nth_error_In _ _ E) L) H) as (Ld & Sd).
      split; [exact Ld|]. intros x Hx. rewrite (Sd x Hx), (dsum_dset _ str_eqb_sp) by apply L.
      rewrite dsum_cons. cbn [fst snd]. rewrite (valof_nth names x i s ND E). ring.
  Qed.

  Lemma put_quad_spec l : forall d0 d, NoDup (map fst l) ->
    (forall i j s t, In (i, j) (map fst l) -> nth_error names i = Some s -> nth_error names j = Some t -> ~ In (s, t) (map fst d0)) -> legal2 d0 ->
    put_quad names l d0 = Ok d ->
    legal2 d /\ forall x, length x = length names ->
      dsum (valof2 names x) d = (dsum (valof2 names x) d0 + dsum (fun ij => (at_ x (fst ij) * at_ x (snd ij))%Qc) l)%Qc.
  Proof using ND.
    induction l as [|[[i j] v] l IH]; intros d0 d N F L H; unfold put_quad in H; cbn [foldM fst snd] in H.
    - injection H as <-. split; [exact L|]. intros x _. rewrite dsum_nil. ring.
    - destruct (name_at names i) as [s|e] eqn:E; [|discriminate H]. cbn [bind] in H. apply name_at_inv in E.
      destruct (name_at names j) as [t|e] eqn:Et; [|discriminate H]. cbn [bind] in H. apply name_at_inv in Et.
      inversion N as [|? ? N1 N2]; subst.
      assert (~ In (s, t) (map fst d0)) as Fs by (apply (F i j s t); [left; reflexivity|exact E|exact Et]).
      destruct (IH (dset str2_eqb (s, t) v d0) d N2) as (Ld & Sd).
      + intros i' j' s' t' Hj Es' Et' Hin. apply (dset_keys _ str2_eqb_sp) in Hin as [Hp|Hin].
        * injection Hp as -> ->. apply N1. rewrite (name_inj _ _ _ _ ND E Es'), (name_inj _ _ _ _ ND Et Et'). exact Hj.
        * apply (F i' j' s' t'); [right; exact Hj|exact Es'|exact Et'|exact Hin].
      + apply legal2_set; [exact (nth_error_In _ _ E)|exact (nth_error_In _ _ Et)|exact L].
      + exact H.
      + split; [exact Ld|]. intros x Hx. rewrite (Sd x Hx), (dsum_dset _ str2_eqb_sp) by apply L.
        rewrite (dgetq_fresh _ str2_eqb_sp) by exact Fs. rewrite dsum_cons. unfold valof2 at 2. cbn [fst snd].
        rewrite (valof_nth names x i s ND E), (valof_nth names x j t ND Et). ring.
  Qed.

  Lemma take_quad_spec l : forall d0 d, legal2 d0 -> take_quad names l d0 = Ok d ->
    legal2 d /\ forall x, length x = length names ->
      dsum (valof2 names x) d = (dsum (valof2 names x) d0 - dsum (fun ij => (at_ x (fst ij) * at_ x (snd ij))%Qc) l)%Qc.
  Proof using ND.
    induction l as [|[[i j] v] l IH]; intros d0 d L H; unfold take_quad in H; cbn [foldM fst snd] in H.
    - injection H as <-. split; [exact L|]. intros x _. rewrite dsum_nil. ring.
    - destruct (name_at names i) as [s|e] eqn:E; [|discriminate H]. cbn [bind] in H. apply name_at_inv in E.
      destruct (name_at names j) as [t|e] eqn:Et; [|discriminate H]. cbn [bind] in H. apply name_at_inv in Et.
      destruct (IH _ d (legal2_set s t _ d0 (nth_error_In _ _ E) (nth_error_In _ _ Et) L) H) as (Ld & Sd).
      split; [exact Ld|]. intros x Hx. rewrite (Sd x Hx), (dsum_dset _ str2_eqb_sp) by apply L.
      rewrite dsum_cons. unfold valof2 at 2. cbn [fst snd].
      rewrite (valof_nth names x i s ND E), (valof_nth names x j t ND Et). ring.
  Qed.

  Lemma name_at_total i : i < length names -> exists s, name_at names i = Ok s.
  Proof using. intros H. unfold name_at. destruct (nth_error names i) eqn:E; [eexists; reflexivity|]. apply nth_error_None in E. lia. Qed.
  Lemma put_lin_total l d0 : Forall (fun kv => fst kv < length names) l -> exists d, put_lin names l d0 = Ok d.
  Proof using.
    intros F. apply foldM_total. intros d [i v] I. apply (proj1 (Forall_forall _ _) F) in I. cbn in I |- *.
    destruct (name_at_total i I) as (s & ->). eexists; reflexivity.
  Qed.
  Lemma take_lin_total l d0 : Forall (fun kv => fst kv < length names) l -> exists d, take_lin names l d0 = Ok d.
  Proof using.
    intros F. apply foldM_total. intros d [i v] I. apply (proj1 (Forall_forall _ _) F) in I. cbn in I |- *.
    destruct (name_at_total i I) as (s & ->). eexists; reflexivity.
  Qed.
  Lemma put_quad_total l d0 : Forall (fun kv => fst (fst kv) < length names /\ snd (fst kv) < length names) l -> exists d, put_quad names l d0 = Ok d.
  Proof using.
    intros F. apply foldM_total. intros d [[i j] v] I. apply (proj1 (Forall_forall _ _) F) in I. cbn in I |- *.
    destruct (name_at_total i (proj1 I)) as (s & ->). destruct (name_at_total j (proj2 I)) as (t & ->). eexists; reflexivity.
  Qed.
  Lemma take_quad_total l d0 : Forall (fun kv => fst (fst kv) < length names /\ snd (fst kv) < length names) l -> exists d, take_quad names l d0 = Ok d.
  Proof using.
    intros F. apply foldM_total. intros d [[i j] v] I. apply (proj1 (Forall_forall _ _) F) in I. cbn in I |- *.
    destruct (name_at_total i (proj1 I)) as (s & ->). destruct (name_at_total j (proj2 I)) as (t & ->). eexists; reflexivity.
  Qed.
  Lemma legal_nil : legal []. Proof using. split; [constructor|intros a []]. Qed.
  Lemma legal2_nil : legal2 []. Proof using. split; [constructor|intros a b []]. Qed.
End Put.

Lemma sense_text_ok s : sense_convert (SStr (sense_text s)) = Ok s.
Proof. destruct s; reflexivity. Qed.

Lemma dval_sum e x : dval e x = (de_const e + dsum (at_ x) (de_lin e) + dsum (fun ij => (at_ x (fst ij) * at_ x (snd ij))%Qc) (de_quad e))%Qc.
Proof. reflexivity. Qed.

Lemma holds_shift s a b a' b' : (a - b = a' - b')%Qc -> (holds s a b <-> holds s a' b').
Proof.
  intros H. assert (a = (a' + (b - b'))%Qc) as -> by (rewrite <- (Qcplus_0_r a); replace 0%Qc with ((a' - b') - (a - b))%Qc by (rewrite H; ring); ring).
  clear H. destruct s; cbn; split; intros H; try qlra.
Qed.
