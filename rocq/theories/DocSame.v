(** * Facts about docplex: the round trip of any program that can be exported *)
From Verif Require Export CplexFacts DocWf.
From Verif Require Import IntBinFacts IntBinProps.
Local Open Scope nat_scope.

(** ** The constraints of the exported model *)
Definition lin_label (c : lincon) : list string := match le_co (lc_lin c) with [] => [] | _ => [lc_name c] end.
Definition bent_label (c : quadcon) : list string := match le_co (qc_lin c), qe_co (qc_quad c) with _ :: _, [] => [qc_name c] | _, _ => [] end.
Definition quad_label (c : quadcon) : list string := match qe_co (qc_quad c) with [] => [] | _ => [qc_name c] end.

Lemma mapM_labels {T} (f : T -> result (list dcon)) (k : dcon -> bool) (na : T -> list string) l : forall ds,
  (forall a d, In a l -> f a = Ok d -> map dcon_name (filter k d) = map Some (na a)) -> mapM f l = Ok ds ->
  map dcon_name (filter k (concat ds)) = map Some (flat_map na l).
Proof.
  induction l as [|a l IH]; intros ds H E; cbn [mapM] in E; [injection E as <-; reflexivity|]. apply bind_ok in E. destruct E as (d & E1 & E). apply bind_ok in E. destruct E as (ds' & E2 & E). injection E as <-.
  cbn [concat flat_map]. rewrite filter_app, !map_app, (H a d (or_introl eq_refl) E1), (IH ds'); auto. intros b e Hb. apply H. now right.
Qed.
Lemma mapM_all {T} (f : T -> result (list dcon)) (P : dcon -> Prop) l : forall ds, (forall a d, In a l -> f a = Ok d -> Forall P d) -> mapM f l = Ok ds -> Forall P (concat ds).
Proof.
  induction l as [|a l IH]; intros ds H E; cbn [mapM] in E; [injection E as <-; constructor|]. apply bind_ok in E. destruct E as (d & E1 & E). apply bind_ok in E. destruct E as (ds' & E2 & E). injection E as <-.
  cbn [concat]. apply Forall_app. split; [apply (H a d); auto; now left|]. apply IH; auto. intros b e Hb. apply H. now right.
Qed.
Lemma trivial_ok s r d : export_trivial s r = Ok d -> d = [].
Proof. unfold export_trivial. destruct (match s with EQ => _ | _ => _ end); intro H; [now injection H as <-|discriminate H]. Qed.
Lemma lincon_export n c d : lin_wf (lc_lin c) -> le_dim (lc_lin c) <= n -> export_lincon c = Ok d ->
  map dcon_name (filter is_linear d) = map Some (lin_label c) /\ filter is_quadratic d = [] /\ Forall (dcon_wf n) d.
Proof.
  intros W L H. unfold export_lincon in H. unfold lin_label. destruct (le_co (lc_lin c)) as [|a l].
  - assert (d = []) as -> by (destruct (qeqb (lc_rhs c) 0); [now injection H as <-|exact (trivial_ok _ _ _ H)]). repeat split. constructor.
  - injection H as <-. split; [reflexivity|]. split; [reflexivity|]. constructor; [|constructor]. destruct (export_expr_spec n 0 (lc_lin c) [] W L (Forall_nil _)) as (A & _ & B & _).
    split; [exact A|]. split; [apply de_wf_num|]. split; [auto|reflexivity].
Qed.
Lemma quadcon_export n c d : lin_wf (qc_lin c) -> le_dim (qc_lin c) <= n -> quad_wf (qc_quad c) -> qe_dim (qc_quad c) <= n -> export_quadcon c = Ok d ->
  map dcon_name (filter is_linear d) = map Some (bent_label c) /\ map dcon_name (filter is_quadratic d) = map Some (quad_label c) /\ Forall (dcon_wf n) d.
Proof.
  intros W L W' L' H. unfold export_quadcon in H. unfold bent_label, quad_label.
  pose proof (export_expr_spec n 0 (qc_lin c) [] W L (Forall_nil _)) as A. pose proof (export_expr_spec n 0 (qc_lin c) (quad_to_dict false (qc_quad c)) W L (DocFacts3.quad_range n _ W' L')) as B. cbv zeta in A, B.
  destruct (le_co (qc_lin c)) as [|a l]; destruct (qe_co (qc_quad c)) as [|b q].
  - assert (d = []) as -> by (destruct (qeqb (qc_rhs c) 0); [now injection H as <-|exact (trivial_ok _ _ _ H)]). repeat split. constructor.
  - injection H as <-. split; [reflexivity|]. split; [reflexivity|]. constructor; [|constructor]. split; [apply B|apply de_wf_num].
  - injection H as <-. split; [reflexivity|]. split; [reflexivity|]. constructor; [|constructor]. destruct A as (A1 & _ & A3 & _). split; [exact A1|]. split; [apply de_wf_num|]. split; [auto|reflexivity].
  - injection H as <-. split; [reflexivity|]. split; [reflexivity|]. constructor; [|constructor]. split; [apply B|apply de_wf_num].
Qed.
Lemma flat_none {A B} (l : list A) : flat_map (fun _ => [] : list B) l = [].
Proof. induction l; auto. Qed.

Lemma export_parts p m : prog_wf p -> exprs_small p -> to_docplex p = Ok m ->
  dmodel_wf m /\ Forall dplain (dm_vars m) /\ dm_name m = p_name p /\ dm_vars m = map export_var (p_vars p) /\
  map dcon_name (filter is_linear (dm_cons m)) = map Some (flat_map lin_label (p_lcs p) ++ flat_map bent_label (p_qcs p)) /\
  map dcon_name (filter is_quadratic (dm_cons m)) = map Some (flat_map quad_label (p_qcs p)).
Proof.
  intros (_ & _ & _ & _ & (Ew1 & Ew2 & Ew3 & Ew4) & _) (S1 & S2 & S3 & S4) H. rewrite Forall_forall in Ew3, Ew4, S3, S4. unfold to_docplex in H.
  apply bind_ok in H. destruct H as (ls & El & H). apply bind_ok in H. destruct H as (qs & Eq & H). injection H as <-. cbn [dm_vars dm_cons dm_name].
  assert (forall c d, In c (p_lcs p) -> export_lincon c = Ok d -> _) as L by (intros c d Hc; exact (lincon_export (num_vars p) c d (Ew3 c Hc) (S3 c Hc))).
  assert (forall c d, In c (p_qcs p) -> export_quadcon c = Ok d -> _) as Q by (intros c d Hc; exact (quadcon_export (num_vars p) c d (proj1 (Ew4 c Hc)) (proj1 (S4 c Hc)) (proj2 (Ew4 c Hc)) (proj2 (S4 c Hc)))).
  split; [|split; [|split; [reflexivity|split; [reflexivity|split]]]].
  - split; [|split].
    + cbn [dm_vars dm_obj]. rewrite map_length. apply (export_expr_spec (num_vars p)); [exact Ew1|exact S1|]. now apply DocFacts3.quad_range.
    + cbn [dm_vars dm_cons]. rewrite map_length. apply Forall_app. split; [apply (mapM_all export_lincon _ (p_lcs p)); auto; intros c d Hc E; apply (L c d Hc E)|].
      apply (mapM_all export_quadcon _ (p_qcs p)); auto. intros c d Hc E. apply (Q c d Hc E).
    + cbn [dm_vars]. apply Forall_map, Forall_forall. intros v _. unfold export_var. destruct (v_type v); discriminate.
  - apply Forall_map, Forall_forall. intros v _. unfold dplain, export_var. destruct (v_type v); cbn; auto; discriminate.
  - rewrite filter_app, !map_app. f_equal.
    + apply (mapM_labels export_lincon); auto. intros c d Hc E. apply (L c d Hc E).
    + apply (mapM_labels export_quadcon); auto. intros c d Hc E. apply (Q c d Hc E).
  - rewrite filter_app, map_app. rewrite (mapM_labels export_lincon is_quadratic (fun _ => []) (p_lcs p) ls); auto.
    + rewrite (mapM_labels export_quadcon is_quadratic quad_label (p_qcs p) qs); auto; [now rewrite flat_none|]. intros c d Hc E. apply (Q c d Hc E).
    + intros c d Hc E. destruct (L c d Hc E) as (_ & N & _). now rewrite N.
Qed.

(** ** The imported program *)
Lemma loose_freed p x : loose p x <-> feasible (freed_program p) x.
Proof.
  unfold loose, feasible, in_bounds, typed, lcs_hold, qcs_hold. cbn [freed_program p_vars p_lcs p_qcs]. rewrite !Forall2_map_l.
  assert (forall v a, has_type (freed v) a <-> has_type v a) as T by (intros v a; unfold freed, has_type; destruct (v_type v) eqn:E; rewrite ?E; cbn; tauto).
  assert (Forall2 (fun v a => has_type (freed v) a) (p_vars p) x <-> Forall2 has_type (p_vars p) x) as TT by (rewrite !Forall2_at; split; intros [L H]; (split; [exact L|]); intros i v Hv; apply T, H, Hv).
  rewrite TT. split.
  - intros (A & B & C & D). split; [|tauto]. rewrite Forall2_at in *. destruct A as [L A]. destruct D as [_ D]. split; [exact L|]. intros i v Hv. specialize (A i v Hv). specialize (D i v Hv).
    unfold freed, in_range, has_type in *. destruct (v_type v) eqn:E; cbn; destruct D as [D|D]; try discriminate D; auto; destruct A as [-> | ->]; split; (apply Qcle_refl || (unfold Qcle; cbn; discriminate)).
  - intros (A & B & C & D). split; [exact B|]. split; [exact C|]. split; [exact D|]. rewrite Forall2_at in *. destruct A as [L A]. split; [exact L|]. intros i v Hv. specialize (A i v Hv).
    unfold freed in A. destruct (v_type v); auto.
Qed.
Lemma freed_imports v w : imports (export_var v) w -> w = freed v.
Proof.
  intro I. apply export_imports; [unfold plain, freed; destruct (v_type v) eqn:E; rewrite ?E; cbn; auto; discriminate|].
  assert (export_var (freed v) = export_var v) as ->; [|exact I]. unfold export_var, freed. destruct (v_type v) eqn:E; rewrite ?E; reflexivity.
Qed.
Lemma labels_in p : prog_wf p -> ~ In EmptyString (flat_map lin_label (p_lcs p) ++ flat_map bent_label (p_qcs p)) /\ ~ In EmptyString (flat_map quad_label (p_qcs p)).
Proof.
  intros (_ & _ & _ & _ & _ & (Nl & Nq)). rewrite Forall_forall in Nl, Nq. split.
  - intro H. apply in_app_or in H. destruct H as [H|H]; apply in_flat_map in H; destruct H as (c & Hc & H).
    + apply (Nl c Hc). unfold lin_label in H. destruct (le_co (lc_lin c)); [destruct H|destruct H as [H|[]]; exact H].
    + apply (Nq c Hc). unfold bent_label in H. destruct (le_co (qc_lin c)); [destruct H|]. destruct (qe_co (qc_quad c)); [destruct H as [H|[]]; exact H|destruct H].
  - intro H. apply in_flat_map in H. destruct H as (c & Hc & H). apply (Nq c Hc). unfold quad_label in H. destruct (qe_co (qc_quad c)); [destruct H|destruct H as [H|[]]; exact H].
Qed.
Lemma made_names {C} (R : dcon -> C -> Prop) (nm : C -> string) l cs ss : (forall d c s, R d c -> dcon_name d = Some s -> s <> EmptyString -> nm c = s) -> Forall2 R l cs ->
  map dcon_name l = map Some ss -> ~ In EmptyString ss -> map nm cs = ss.
Proof.
  intros H F. revert ss. induction F as [|d c l cs Hd F IH]; intros ss E N; destruct ss as [|s ss]; try discriminate E; [reflexivity|]. cbn in E. injection E as E1 E2. cbn. f_equal.
  - apply (H d c s Hd E1). intro Z. apply N. now left.
  - apply IH; [exact E2|]. intro Z. apply N. now right.
Qed.
Lemma round_trip_any p m p' : prog_wf p -> exprs_small p -> to_docplex p = Ok m -> from_docplex m = Ok p' ->
  p_name p' = p_name p /\ p_vars p' = map freed (p_vars p) /\ o_sense (p_obj p') = o_sense (p_obj p) /\
  (forall x, length x = num_vars p -> obj_at (p_obj p') x = obj_at (p_obj p) x) /\ (forall x, feasible p' x <-> feasible (freed_program p) x) /\
  map lc_name (p_lcs p') = flat_map lin_label (p_lcs p) ++ flat_map bent_label (p_qcs p) /\ map qc_name (p_qcs p') = flat_map quad_label (p_qcs p).
Proof.
  intros W S E I. destruct (export_parts p m W S E) as (Wm & Pm & Nm & Vm & Lm & Qm). pose proof (export_spec p W S) as X. rewrite E in X. destruct X as (X1 & X2 & X3 & _).
  destruct (from_docplex_spec m p' Wm I) as (_ & Pn & Pv & _ & Os & _ & _ & _ & _ & _ & Ov & Lc & Qc'). assert (length (dm_vars m) = num_vars p) as Ln by (rewrite Vm; apply map_length).
  rewrite Ln in *. destruct (labels_in p W) as [N1 N2]. split; [congruence|]. split.
  { rewrite Vm in Pv. apply (Forall2_eq_map imports export_var freed) in Pv; [exact Pv|]. intros v w _. apply freed_imports. }
  split; [congruence|]. split; [intros x Hx; rewrite (Ov x Hx); auto|]. split; [intro x; rewrite (import_solutions m p' x Wm Pm I), X1; apply loose_freed|]. split.
  - apply (made_names (lc_made (num_vars p)) lc_name _ _ _) with (2 := Lc); auto. intros d c s H. apply H.
  - apply (made_names (qc_made (num_vars p)) qc_name _ _ _) with (2 := Qc'); auto. intros d c s H. apply H.
Qed.
(** ** When the import goes through *)
Lemma flat_nodup {T} (lab : T -> list string) (nm : T -> string) l : (forall a, lab a = [] \/ lab a = [nm a]) -> NoDup (map nm l) -> NoDup (flat_map lab l).
Proof.
  intros H N. induction l as [|a l IH]; cbn; [constructor|]. inversion N as [|? ? Na N']; subst. destruct (H a) as [-> | ->]; cbn; auto. constructor; auto.
  intro K. apply Na. apply in_flat_map in K. destruct K as (b & Hb & K). destruct (H b) as [Z|Z]; rewrite Z in K; [destruct K|]. destruct K as [<-|[]]. now apply in_map.
Qed.
Lemma lin_label_or c : lin_label c = [] \/ lin_label c = [lc_name c]. Proof. unfold lin_label. destruct (le_co (lc_lin c)); auto. Qed.
Lemma bent_label_or c : bent_label c = [] \/ bent_label c = [qc_name c]. Proof. unfold bent_label. destruct (le_co (qc_lin c)), (qe_co (qc_quad c)); auto. Qed.
Lemma quad_label_or c : quad_label c = [] \/ quad_label c = [qc_name c]. Proof. unfold quad_label. destruct (qe_co (qc_quad c)); auto. Qed.
Lemma in_lin_label p s : In s (flat_map lin_label (p_lcs p)) <-> exists c, In c (p_lcs p) /\ le_co (lc_lin c) <> [] /\ lc_name c = s.
Proof.
  rewrite in_flat_map. unfold lin_label. split; intros (c & Hc & H); exists c; (split; [exact Hc|]); destruct (le_co (lc_lin c)) eqn:E.
  - destruct H.
  - destruct H as [<-|[]]. split; [discriminate|reflexivity].
  - now destruct H as [[] _].
  - left. apply H.
Qed.
Lemma in_bent_label p s : In s (flat_map bent_label (p_qcs p)) <-> exists c, In c (p_qcs p) /\ le_co (qc_lin c) <> [] /\ qe_co (qc_quad c) = [] /\ qc_name c = s.
Proof.
  rewrite in_flat_map. unfold bent_label. split.
  - intros (c & Hc & H). exists c. split; [exact Hc|]. destruct (le_co (qc_lin c)); [destruct H|]. destruct (qe_co (qc_quad c)); [|destruct H]. destruct H as [<-|[]]. split; [discriminate|auto].
  - intros (c & Hc & A & B & <-). exists c. split; [exact Hc|]. rewrite B. destruct (le_co (qc_lin c)); [now contradiction A|now left].
Qed.
Lemma import_accepts p m : prog_wf p -> exprs_small p -> ~ In EmptyString (var_names p) -> to_docplex p = Ok m ->
  ((exists p', from_docplex m = Ok p') <-> forall c d, In c (p_lcs p) -> le_co (lc_lin c) <> [] -> In d (p_qcs p) -> le_co (qc_lin d) <> [] -> qe_co (qc_quad d) = [] -> lc_name c <> qc_name d).
Proof.
  intros W S Ne E. destruct (export_parts p m W S E) as (Wm & Pm & Nm & Vm & Lm & Qm). destruct (labels_in p W) as [N1 N2]. split.
  - intros (p' & I) c d Hc Tc Hd Td Qd N. destruct (round_trip_any p m p' W S E I) as (_ & _ & _ & _ & _ & L & _). destruct (from_docplex_ready m p' I) as [(_ & Il & _) _].
    apply index_finds_nodup in Il. rewrite L in Il. apply NoDup_app_parts in Il. destruct Il as (_ & _ & Z). apply (Z (lc_name c)); [apply in_lin_label; eauto|]. apply in_bent_label. exists d. auto.
  - intro H. pose proof W as (Iv & Il & Iq & Bo & _). apply from_docplex_total; [exact Wm| | | |].
    + rewrite Vm. apply Forall_map. eapply Forall_impl; [|exact Bo]. cbn. intros v Hv. unfold export_var. destruct (v_type v); cbn; auto.
    + right. exists (var_names p). split; [|split; [exact (index_finds_nodup _ _ Iv)|exact Ne]]. rewrite Vm. unfold var_names. rewrite !map_map. apply map_ext. intros v. unfold export_var. destruct (v_type v); reflexivity.
    + right. eexists. split; [exact Lm|]. split; [|exact N1]. apply NoDup_app_intro.
      * apply (flat_nodup _ lc_name); [apply lin_label_or|exact (index_finds_nodup _ _ Il)].
      * apply (flat_nodup _ qc_name); [apply bent_label_or|exact (index_finds_nodup _ _ Iq)].
      * intros s A B. apply in_lin_label in A. destruct A as (c & Hc & Tc & Nc). apply in_bent_label in B. destruct B as (d & Hd & Td & Qd & Nd). apply (H c d); auto. congruence.
    + right. eexists. split; [exact Qm|]. split; [|exact N2]. apply (flat_nodup _ qc_name); [apply quad_label_or|exact (index_finds_nodup _ _ Iq)].
Qed.
Lemma flat_filter {T} (lab : T -> list string) (nm : T -> string) (f : T -> bool) l : (forall a, lab a = if f a then [nm a] else []) -> flat_map lab l = map nm (filter f l).
Proof. intro H. induction l as [|a l IH]; [reflexivity|]. cbn. rewrite H, IH. destruct (f a); reflexivity. Qed.
Lemma labels_filter p : flat_map lin_label (p_lcs p) = map lc_name (with_terms p) /\ flat_map bent_label (p_qcs p) = map qc_name (without_products p) /\
  flat_map quad_label (p_qcs p) = map qc_name (with_products p).
Proof.
  split; [|split]; apply flat_filter; intro c; unfold lin_label, bent_label, quad_label; [destruct (le_co (lc_lin c))|destruct (le_co (qc_lin c)), (qe_co (qc_quad c))|destruct (qe_co (qc_quad c))]; reflexivity.
Qed.
Lemma export_refused p : prog_wf p -> exprs_small p -> (to_docplex p = Err DOcplexException <-> never p).
Proof. intros W S. pose proof (export_spec p W S) as X. destruct (to_docplex p) as [m|e]; [split; [discriminate|tauto]|]. destruct X as [-> N]. tauto. Qed.
Lemma clash_in p : (forall c d, In c (p_lcs p) -> le_co (lc_lin c) <> [] -> In d (p_qcs p) -> le_co (qc_lin d) <> [] -> qe_co (qc_quad d) = [] -> lc_name c <> qc_name d) <->
  forall c d, In c (with_terms p) -> In d (without_products p) -> lc_name c <> qc_name d.
Proof.
  unfold with_terms, without_products. split; intros H c d.
  - rewrite !filter_In. intros [Hc A] [Hd B]. apply andb_prop in B. destruct B as [B1 B2]. apply H; auto.
    + intro Z. rewrite Z in A. discriminate A.
    + intro Z. rewrite Z in B1. discriminate B1.
    + destruct (qe_co (qc_quad d)); [reflexivity|discriminate B2].
  - intros Hc A Hd B1 B2. apply H; apply filter_In; (split; [assumption|]).
    + destruct (le_co (lc_lin c)); [now contradiction A|reflexivity].
    + rewrite B2. destruct (le_co (qc_lin d)); [now contradiction B1|reflexivity].
Qed.

(** ** Any model *)
Lemma import_freed st v : import_var st (dfreed v) = import_var st v.
Proof. unfold import_var, dfreed. destruct (dv_type v) eqn:E; rewrite ?E; reflexivity. Qed.
Lemma from_freed m : from_docplex (dfreed_model m) = from_docplex m.
Proof.
  unfold from_docplex, dfreed_model. cbn [dm_vars dm_name dm_obj dm_sense dm_cons].
  assert (forall st, foldM import_var (map dfreed (dm_vars m)) st = foldM import_var (dm_vars m) st) as ->; [|reflexivity].
  induction (dm_vars m) as [|v l IH]; intro st; [reflexivity|]. cbn [map foldM]. rewrite import_freed. destruct (import_var st v); [apply IH|reflexivity].
Qed.
Lemma dfreed_wf m : dmodel_wf m -> dmodel_wf (dfreed_model m) /\ Forall dplain (dm_vars (dfreed_model m)).
Proof.
  intros (A & B & C). unfold dmodel_wf, dfreed_model. cbn [dm_vars dm_obj dm_cons]. rewrite map_length. repeat split; auto.
  - apply A.
  - apply A.
  - apply A.
  - apply A.
  - apply Forall_map. eapply Forall_impl; [|exact C]. intros v H. unfold dfreed. destruct (dv_type v) eqn:E; cbn; rewrite ?E; auto; discriminate.
  - apply Forall_map, Forall_forall. intros v _. unfold dplain, dfreed. destruct (dv_type v) eqn:E; cbn; rewrite ?E; auto; discriminate.
Qed.
Lemma foldM_each {A S} (f : S -> A -> result S) (P : A -> Prop) l : (forall s a s', f s a = Ok s' -> P a) -> forall s s', foldM f l s = Ok s' -> Forall P l.
Proof. intro H. induction l as [|a l IH]; intros s s' E; [constructor|]. cbn [foldM] in E. apply bind_ok in E. destruct E as (s1 & E1 & E2). constructor; eauto. Qed.
Lemma import_supported m p : from_docplex m = Ok p -> Forall (fun v => dv_type v <> DOtherType) (dm_vars m) /\ Forall (fun c => c <> DOtherCon) (dm_cons m).
Proof.
  intro H. unfold from_docplex in H. apply bind_ok in H. destruct H as (st & E1 & H). apply bind_ok in H. destruct H as (l & _ & H). apply bind_ok in H. destruct H as (q & _ & H).
  apply bind_ok in H. destruct H as (p1 & _ & H). apply bind_ok in H. destruct H as (p2 & E2 & _). split.
  - revert E1. apply foldM_each. intros s v s' E T. unfold import_var in E. rewrite T in E. discriminate E.
  - revert E2. apply foldM_each. intros s c s' E T. rewrite T in E. discriminate E.
Qed.
