(** * Arithmetic of docplex expressions, to_docplex and the round trip *)
From Verif Require Export DocFacts2.
Local Open Scope string_scope.
Local Open Scope list_scope.
Local Open Scope nat_scope.

(** ** Values *)
Lemma fold_dadd_sum {K} (eqb : K -> K -> bool) (sp : forall a b, reflect (a = b) (eqb a b)) f l : forall d,
  dsum f (fold_left (fun d kv => dadd eqb (fst kv) (snd kv) d) l d) = (dsum f d + dsum f l)%Qc.
Proof.
  induction l as [|[k v] l IH]; intros d; cbn [fold_left fst snd]; [rewrite dsum_nil; ring|].
  rewrite IH, (dsum_dadd _ sp), dsum_cons. cbn [fst snd]. ring.
Qed.
Lemma fold_dadd_nodup {K} (eqb : K -> K -> bool) (sp : forall a b, reflect (a = b) (eqb a b)) l : forall d : list (K * Qc),
  NoDup (map fst d) -> NoDup (map fst (fold_left (fun d kv => dadd eqb (fst kv) (snd kv) d) l d)).
Proof. induction l as [|[k v] l IH]; intros d H; cbn [fold_left fst snd]; [exact H|]. apply IH. unfold dadd. apply (dset_nodup _ sp). exact H. Qed.
Lemma fold_dadd_Forall {K} (eqb : K -> K -> bool) (sp : forall a b, reflect (a = b) (eqb a b)) (P : K -> Prop) l : forall d : list (K * Qc),
  Forall (fun kv => P (fst kv)) d -> Forall (fun kv => P (fst kv)) l -> Forall (fun kv => P (fst kv)) (fold_left (fun d kv => dadd eqb (fst kv) (snd kv) d) l d).
Proof.
  induction l as [|[k v] l IH]; intros d H F; cbn [fold_left fst snd]; [exact H|]. inversion F; subst. apply IH; [|assumption].
  unfold dadd. apply (dset_Forall _ sp); assumption.
Qed.

Lemma dval_num c x : dval (d_num c) x = c.
Proof. rewrite dval_sum. cbn [d_num de_const de_lin de_quad]. rewrite !dsum_nil. ring. Qed.
Lemma dval_var i x : dval (d_var i) x = at_ x i.
Proof. rewrite dval_sum. cbn [d_var de_const de_lin de_quad]. rewrite dsum_cons, !dsum_nil. cbn [fst snd]. ring. Qed.
Lemma dval_add a b x : dval (d_add a b) x = (dval a x + dval b x)%Qc.
Proof. rewrite !dval_sum. cbn [d_add de_const de_lin de_quad]. rewrite (fold_dadd_sum _ nat_eqb_sp), (fold_dadd_sum _ nat2_eqb_sp). ring. Qed.
Lemma dval_scale c a x : dval (d_scale c a) x = (c * dval a x)%Qc.
Proof. rewrite !dval_sum. cbn [d_scale de_const de_lin de_quad]. rewrite !dsum_scale. ring. Qed.
Lemma dval_sub a b x : dval (d_sub a b) x = (dval a x - dval b x)%Qc.
Proof. unfold d_sub. rewrite dval_add, dval_scale. ring. Qed.
Lemma dval_sum_from l x : forall a, dval (fold_left d_add l a) x = (dval a x + sumof (fun e => dval e x) l)%Qc.
Proof. induction l as [|e l IH]; intros a; cbn [fold_left]; [cbn; ring|]. rewrite IH, dval_add. cbn. ring. Qed.
Lemma dval_sum_of l x : dval (d_sum l) x = sumof (fun e => dval e x) l.
Proof. unfold d_sum. rewrite dval_sum_from, dval_num. ring. Qed.
Lemma at_pair x i j : (at_ x (fst (d_pair i j)) * at_ x (snd (d_pair i j)) = at_ x i * at_ x j)%Qc.
Proof. unfold d_pair. cbn [fst snd]. destruct (Nat.le_ge_cases i j) as [H|H]; [rewrite Nat.min_l, Nat.max_r by exact H; reflexivity|rewrite Nat.min_r, Nat.max_l by exact H; ring]. Qed.
Lemma dval_mul a b x : de_quad a = [] -> de_quad b = [] -> dval (d_mul a b) x = (dval a x * dval b x)%Qc.
Proof.
  intros Qa Qb. rewrite !dval_sum, Qa, Qb. cbn [d_mul de_const de_lin de_quad].
  rewrite (fold_dadd_sum _ nat_eqb_sp), (fold_dadd_sum _ nat2_eqb_sp), dsum_app, !dsum_scale, !dsum_nil.
  assert (dsum (fun ij : nat * nat => (at_ x (fst ij) * at_ x (snd ij))%Qc)
            (flat_map (fun ka => map (fun kb => (d_pair (fst ka) (fst kb), (snd ka * snd kb)%Qc)) (de_lin b)) (de_lin a))
          = (dsum (at_ x) (de_lin a) * dsum (at_ x) (de_lin b))%Qc) as ->.
  { unfold dsum. rewrite sumof_flat_map, sumof_mul. apply sumof_ext. intros [i v] _. rewrite sumof_map. apply sumof_ext. intros [j w] _.
    cbn [fst snd]. rewrite at_pair. ring. }
  ring.
Qed.

(** ** Shapes *)
Lemma de_wf_num n c : de_wf n (d_num c).
Proof. repeat split; constructor. Qed.
Lemma de_wf_var n i : i < n -> de_wf n (d_var i).
Proof. intros H. split; [|split; [|split]]; cbn; try constructor; auto; constructor. Qed.
Lemma de_wf_add n a b : de_wf n a -> de_wf n b -> de_wf n (d_add a b).
Proof.
  intros (A1 & A2 & A3 & A4) (B1 & B2 & B3 & B4). unfold de_wf. cbn [d_add de_const de_lin de_quad]. split; [|split; [|split]].
  - apply (fold_dadd_nodup _ nat_eqb_sp). exact A1.
  - apply (fold_dadd_nodup _ nat2_eqb_sp). exact A2.
  - apply (fold_dadd_Forall _ nat_eqb_sp (fun k => k < n)); assumption.
  - apply (fold_dadd_Forall _ nat2_eqb_sp (fun k => fst k < n /\ snd k < n)); assumption.
Qed.
Lemma scale_fst {K} (c : Qc) (d : list (K * Qc)) : map fst (map (fun kv => (fst kv, (c * snd kv)%Qc)) d) = map fst d.
Proof. rewrite map_map. reflexivity. Qed.
Lemma scale_Forall {K} (P : K -> Prop) (c : Qc) (d : list (K * Qc)) : Forall (fun kv => P (fst kv)) d -> Forall (fun kv => P (fst kv)) (map (fun kv => (fst kv, (c * snd kv)%Qc)) d).
Proof. intros F. apply Forall_map. exact F. Qed.
Lemma de_wf_scale n c a : de_wf n a -> de_wf n (d_scale c a).
Proof.
  intros (A1 & A2 & A3 & A4). unfold de_wf. cbn [d_scale de_const de_lin de_quad]. rewrite !scale_fst.
  split; [exact A1|]. split; [exact A2|]. split.
  - apply (scale_Forall (fun k => k < n)). exact A3.
  - apply (scale_Forall (fun k => fst k < n /\ snd k < n)). exact A4.
Qed.
Lemma de_wf_sub n a b : de_wf n a -> de_wf n b -> de_wf n (d_sub a b).
Proof. intros A B. apply de_wf_add; [exact A|apply de_wf_scale; exact B]. Qed.
Lemma de_wf_sum_from n l : forall a, de_wf n a -> Forall (de_wf n) l -> de_wf n (fold_left d_add l a).
Proof. induction l as [|e l IH]; intros a A F; cbn [fold_left]; [exact A|]. inversion F; subst. apply IH; [apply de_wf_add; assumption|assumption]. Qed.
Lemma de_wf_sum n l : Forall (de_wf n) l -> de_wf n (d_sum l).
Proof. apply de_wf_sum_from. apply de_wf_num. Qed.
Lemma de_wf_mul n a b : de_wf n a -> de_wf n b -> de_wf n (d_mul a b).
Proof.
  intros (A1 & A2 & A3 & A4) (B1 & B2 & B3 & B4). unfold de_wf. cbn [d_mul de_const de_lin de_quad]. split; [|split; [|split]].
  - apply (fold_dadd_nodup _ nat_eqb_sp). constructor.
  - apply (fold_dadd_nodup _ nat2_eqb_sp). constructor.
  - apply (fold_dadd_Forall _ nat_eqb_sp (fun k => k < n)); [constructor|]. apply Forall_app. split; apply (scale_Forall (fun k => k < n)); assumption.
  - apply (fold_dadd_Forall _ nat2_eqb_sp (fun k => fst k < n /\ snd k < n)); [constructor|].
    apply Forall_flat_map. apply Forall_forall. intros [i v] Hi. apply Forall_map. apply Forall_forall. intros [j w] Hj.
    apply (proj1 (Forall_forall _ _) A3) in Hi. apply (proj1 (Forall_forall _ _) B3) in Hj. cbn in Hi, Hj |- *. lia.
Qed.
Lemma linear_add a b : de_quad a = [] -> de_quad b = [] -> de_quad (d_add a b) = [].
Proof. intros A B. cbn. rewrite A, B. reflexivity. Qed.
Lemma linear_scale c a : de_quad a = [] -> de_quad (d_scale c a) = [].
Proof. intros A. cbn. rewrite A. reflexivity. Qed.
Lemma linear_sub a b : de_quad a = [] -> de_quad b = [] -> de_quad (d_sub a b) = [].
Proof. intros A B. apply linear_add; [exact A|apply linear_scale; exact B]. Qed.
Lemma linear_sum_from l : forall a, de_quad a = [] -> Forall (fun e => de_quad e = []) l -> de_quad (fold_left d_add l a) = [].
Proof. induction l as [|e l IH]; intros a A F; cbn [fold_left]; [exact A|]. inversion F; subst. apply IH; [apply linear_add; assumption|assumption]. Qed.
Lemma linear_sum l : Forall (fun e => de_quad e = []) l -> de_quad (d_sum l) = [].
Proof. apply linear_sum_from. reflexivity. Qed.

(** ** to_docplex *)
Lemma export_lin n l : forall e, Forall (fun kv => fst kv < n) l -> de_wf n e ->
  let e' := fold_left (fun e kv => d_add e (d_scale (snd kv) (d_var (fst kv)))) l e in
  de_wf n e' /\ de_const e' = de_const e /\ (de_quad e = [] -> de_quad e' = []) /\ forall x, dval e' x = (dval e x + dsum (at_ x) l)%Qc.
Proof.
  induction l as [|[i v] l IH]; intros e F W e'; subst e'; cbn [fold_left fst snd].
  - split; [exact W|]. split; [reflexivity|]. split; [auto|]. intros x. rewrite dsum_nil. ring.
  - inversion F as [|? ? F1 F2]; subst. cbn [fst] in F1.
    destruct (IH (d_add e (d_scale v (d_var i))) F2) as (A & B & C & D); [apply de_wf_add; [exact W|apply de_wf_scale, de_wf_var; exact F1]|].
    split; [exact A|]. split; [rewrite B; cbn; ring|]. split.
    + intros Q. apply C. apply linear_add; [exact Q|reflexivity].
    + intros x. rewrite D, dval_add, dval_scale, dval_var, dsum_cons. cbn [fst snd]. ring.
Qed.
Lemma export_quad n q : forall e, Forall (fun kv => fst (fst kv) < n /\ snd (fst kv) < n) q -> de_wf n e ->
  let e' := fold_left (fun e kv => d_add e (d_mul (d_scale (snd kv) (d_var (fst (fst kv)))) (d_var (snd (fst kv))))) q e in
  de_wf n e' /\ de_const e' = de_const e /\ forall x, dval e' x = (dval e x + dsum (fun ij => (at_ x (fst ij) * at_ x (snd ij))%Qc) q)%Qc.
Proof.
  induction q as [|[[i j] v] q IH]; intros e F W e'; subst e'; cbn [fold_left fst snd].
  - split; [exact W|]. split; [reflexivity|]. intros x. rewrite dsum_nil. ring.
  - inversion F as [|? ? F1 F2]; subst. cbn [fst snd] in F1. destruct F1 as (Fi & Fj).
    destruct (IH (d_add e (d_mul (d_scale v (d_var i)) (d_var j))) F2) as (A & B & D).
    { apply de_wf_add; [exact W|]. apply de_wf_mul; [apply de_wf_scale|]; apply de_wf_var; assumption. }
    split; [exact A|]. split; [rewrite B; cbn [d_add de_const d_mul d_scale d_var]; ring|].
    intros x. rewrite D, dval_add, dval_mul, dval_scale, !dval_var, dsum_cons by reflexivity. cbn [fst snd]. ring.
Qed.
Lemma export_expr_spec n c l q : lin_wf l -> le_dim l <= n -> Forall (fun kv => fst (fst kv) < n /\ snd (fst kv) < n) q ->
  let e := export_expr c l q in
  de_wf n e /\ de_const e = c /\ (q = [] -> de_quad e = []) /\
  forall x, length x = n -> dval e x = (c + lin_at l x + dsum (fun ij => (at_ x (fst ij) * at_ x (snd ij))%Qc) q)%Qc.
Proof.
  intros W D F e. subst e. unfold export_expr, lin_to_dict.
  assert (Forall (fun kv => fst kv < n) (le_co l)) as Fl. { eapply Forall_impl; [|exact (proj2 W)]. cbn. intros; lia. }
  destruct (export_lin n (le_co l) (d_num c) Fl (de_wf_num n c)) as (A & B & C & E).
  set (e0 := fold_left _ (le_co l) (d_num c)) in *.
  destruct (export_quad n q e0 F A) as (A2 & B2 & E2).
  split; [exact A2|]. split; [rewrite B2, B; reflexivity|]. split; [intros ->; cbn; apply C; reflexivity|].
  intros x Hx. rewrite E2, E, dval_num, (lin_entries_in l x) by (try apply W; rewrite Hx; exact Fl). reflexivity.
Qed.

Lemma quad_range n e : quad_wf e -> qe_dim e <= n -> Forall (fun kv => fst (fst kv) < n /\ snd (fst kv) < n) (qe_co e).
Proof. intros W D. eapply Forall_impl; [|exact (proj2 W)]. cbn. intros; lia. Qed.

(** Constraints that survive the export. *)
Definition lc_exported (n : nat) (c : lincon) (d : dcon) : Prop :=
  exists e, d = DLinear (Some (lc_name c)) (lc_sense c) e (d_num (lc_rhs c)) /\ de_wf n e /\ de_const e = 0%Qc /\ de_quad e = [] /\
    forall x, length x = n -> dval e x = lc_at c x.
Definition qc_exported (n : nat) (c : quadcon) (d : dcon) : Prop :=
  exists e, d = DQuadratic (Some (qc_name c)) (qc_sense c) e (d_num (qc_rhs c)) /\ de_wf n e /\ de_const e = 0%Qc /\
    forall x, length x = n -> dval e x = qc_at c x.

Lemma export_lincons n l : Forall (fun c => lin_wf (lc_lin c) /\ le_dim (lc_lin c) <= n) l ->
  Forall (fun c => le_co (lc_lin c) = [] -> lc_rhs c = 0%Qc) l ->
  exists ds, mapM export_lincon l = Ok ds /\ Forall2 (lc_exported n) (filter (fun c => negb (void_lc c)) l) (concat ds).
Proof.
  induction l as [|c l IH]; intros W Z; [exists []; split; [reflexivity|constructor]|].
  inversion W as [|? ? [W1 W2] W3]; inversion Z as [|? ? Z1 Z2]; subst. destruct (IH W3 Z2) as (ds & E & R).
  cbn [mapM filter]. unfold export_lincon, void_lc. destruct (le_co (lc_lin c)) as [|kv co] eqn:Ec.
  - rewrite (Z1 eq_refl). destruct (qeqb_spec 0 0) as [_|N]; [|congruence]. exists ([] :: ds). cbn [bind]. unfold export_lincon in E. rewrite E. split; [reflexivity|exact R].
  - cbn [bind]. unfold export_lincon in E. rewrite E. cbn [bind]. eexists. split; [reflexivity|]. cbn [negb concat app].
    constructor; [|exact R]. destruct (export_expr_spec n 0 (lc_lin c) [] W1 W2 (Forall_nil _)) as (A & B & C & D).
    exists (export_expr 0 (lc_lin c) []). split; [reflexivity|]. split; [exact A|]. split; [exact B|]. split; [apply C; reflexivity|].
    intros x Hx. rewrite (D x Hx), dsum_nil. unfold lc_at. ring.
Qed.
Lemma export_quadcons n l : Forall (fun c => (lin_wf (qc_lin c) /\ quad_wf (qc_quad c)) /\ le_dim (qc_lin c) <= n /\ qe_dim (qc_quad c) <= n) l ->
  Forall (fun c => qe_co (qc_quad c) = [] -> le_co (qc_lin c) = [] /\ qc_rhs c = 0%Qc) l ->
  exists ds, mapM export_quadcon l = Ok ds /\ Forall2 (qc_exported n) (filter (fun c => negb (void_qc c)) l) (concat ds).
Proof.
  induction l as [|c l IH]; intros W Z; [exists []; split; [reflexivity|constructor]|].
  inversion W as [|? ? [[W1 W1'] [W2 W2']] W3]; inversion Z as [|? ? Z1 Z2]; subst. destruct (IH W3 Z2) as (ds & E & R).
  cbn [mapM filter]. destruct (qe_co (qc_quad c)) as [|kv co] eqn:Ec.
  - destruct (Z1 eq_refl) as (Zl & Zr). unfold export_quadcon at 1. unfold void_qc. rewrite Ec, Zl, Zr.
    destruct (qeqb_spec 0 0) as [_|N]; [|congruence]. exists ([] :: ds). cbn [bind]. rewrite E. split; [reflexivity|exact R].
  - assert (export_quadcon c = Ok [DQuadratic (Some (qc_name c)) (qc_sense c) (export_expr 0 (qc_lin c) (quad_to_dict false (qc_quad c))) (d_num (qc_rhs c))]) as ->.
    { unfold export_quadcon. rewrite Ec. destruct (le_co (qc_lin c)); reflexivity. }
    assert (void_qc c = false) as -> by (unfold void_qc; rewrite Ec; destruct (le_co (qc_lin c)); reflexivity).
    cbn [bind]. rewrite E. cbn [bind]. eexists. split; [reflexivity|]. cbn [negb concat app]. constructor; [|exact R].
    destruct (export_expr_spec n 0 (qc_lin c) (quad_to_dict false (qc_quad c)) W1 W2 (quad_range n (qc_quad c) W1' W2')) as (A & B & C & D).
    eexists. split; [reflexivity|]. split; [exact A|]. split; [exact B|].
    intros x Hx. rewrite (D x Hx). unfold qc_at. cbn [quad_to_dict quad_entries]. rewrite (quad_entries_in (qc_quad c) x); [unfold quad_to_dict, quad_entries; ring|apply W1'|].
    rewrite Hx. apply quad_range; assumption.
Qed.

Lemma export_imports v w : plain v -> imports (export_var v) w -> w = v.
Proof.
  intros P (N & T & B & O). destruct w as [nm lb ub ty], v as [nm' lb' ub' ty']. unfold export_var in N, T, O. unfold plain in P. cbn in P.
  destruct ty'; cbn in *.
  - destruct ty; try discriminate T. rewrite (N nm' eq_refl). destruct O as (-> & ->); [discriminate|]. reflexivity.
  - destruct ty; try discriminate T. rewrite (N nm' eq_refl). destruct (B eq_refl) as (-> & ->). destruct (P eq_refl) as (-> & ->). reflexivity.
  - destruct ty; try discriminate T. rewrite (N nm' eq_refl). destruct O as (-> & ->); [discriminate|]. reflexivity.
Qed.
Lemma Forall2_eq_map {A B C} (R : B -> C -> Prop) (f : A -> B) (g : A -> C) l m :
  (forall a c, In a l -> R (f a) c -> c = g a) -> Forall2 R (map f l) m -> m = map g l.
Proof.
  revert m. induction l as [|a l IH]; intros m H F; inversion F; subst; [reflexivity|]. cbn. f_equal.
  - apply H; [left; reflexivity|assumption].
  - apply IH; [|assumption]. intros b c I. apply H. right; exact I.
Qed.
Lemma Forall2_compose {A B C} (R : A -> B -> Prop) (S : B -> C -> Prop) (T : A -> C -> Prop) l m k :
  (forall a b c, In a l -> R a b -> S b c -> T a c) -> Forall2 R l m -> Forall2 S m k -> Forall2 T l k.
Proof.
  intros H F. revert k. induction F as [|a b l m Hab F IH]; intros k G; inversion G; subst; constructor.
  - apply (H a b); [left; reflexivity|assumption|assumption].
  - apply IH; [|assumption]. intros a' b' c' I. apply H. right; exact I.
Qed.
Lemma filter_all {A} (f : A -> bool) l : Forall (fun a => f a = true) l -> filter f l = l.
Proof. induction 1 as [|a l H F IH]; cbn; [reflexivity|]. rewrite H, IH. reflexivity. Qed.
Lemma filter_none {A} (f : A -> bool) l : Forall (fun a => f a = false) l -> filter f l = [].
Proof. induction 1 as [|a l H F IH]; cbn; [reflexivity|]. rewrite H, IH. reflexivity. Qed.
Lemma Forall2_Forall_r {A B} (R : A -> B -> Prop) (P : B -> Prop) l m : (forall a b, In a l -> R a b -> P b) -> Forall2 R l m -> Forall P m.
Proof. intros H F. induction F as [|a b l m Hab F IH]; constructor; [apply (H a b); [left; reflexivity|exact Hab]|apply IH; intros a' b' I; apply H; right; exact I]. Qed.
Lemma Forall2_map_eq {A B C} (R : A -> B -> Prop) (f : A -> C) (g : B -> C) l m : (forall a b, R a b -> g b = f a) -> Forall2 R l m -> map g m = map f l.
Proof. intros H F. induction F as [|a b l m Hab F IH]; cbn; [reflexivity|]. rewrite (H _ _ Hab), IH. reflexivity. Qed.
Lemma NoDup_map_filter {A B} (f : A -> B) (p : A -> bool) l : NoDup (map f l) -> NoDup (map f (filter p l)).
Proof.
  induction l as [|a l IH]; cbn; intros H; [constructor|]. inversion H as [|? ? H1 H2]; subst. destruct (p a); cbn; [constructor|]; auto.
  intros I. apply H1. apply in_map_iff in I as (b & E & Hb). apply filter_In in Hb as (Hb & _). rewrite <- E. apply in_map. exact Hb.
Qed.

Lemma round_trip p : prog_wf p -> exprs_small p -> Forall plain (p_vars p) -> ~ In EmptyString (var_names p) ->
  Forall (fun c => le_co (lc_lin c) = [] -> lc_rhs c = 0%Qc) (p_lcs p) ->
  Forall (fun c => qe_co (qc_quad c) = [] -> le_co (qc_lin c) = [] /\ qc_rhs c = 0%Qc) (p_qcs p) ->
  exists m p', to_docplex p = Ok m /\ from_docplex m = Ok p' /\
    p_name p' = p_name p /\ p_vars p' = p_vars p /\ o_sense (p_obj p') = o_sense (p_obj p) /\
    (forall x, length x = num_vars p -> obj_at (p_obj p') x = obj_at (p_obj p) x) /\
    Forall2 (same_lc (num_vars p)) (filter (fun c => negb (void_lc c)) (p_lcs p)) (p_lcs p') /\
    Forall2 (same_qc (num_vars p)) (filter (fun c => negb (void_qc c)) (p_qcs p)) (p_qcs p').
Proof.
  intros (Iv & Il & Iq & Bo & (Ew1 & Ew2 & Ew3 & Ew4) & (Nl & Nq)) (S1 & S2 & S3 & S4) Pl Ne Zl Zq.
  assert (Forall (fun c => lin_wf (lc_lin c) /\ le_dim (lc_lin c) <= num_vars p) (p_lcs p)) as WL.
  { apply Forall_forall. intros c Hc. split; [apply (proj1 (Forall_forall _ _) Ew3)|apply (proj1 (Forall_forall _ _) S3)]; exact Hc. }
  assert (Forall (fun c => (lin_wf (qc_lin c) /\ quad_wf (qc_quad c)) /\ le_dim (qc_lin c) <= num_vars p /\ qe_dim (qc_quad c) <= num_vars p) (p_qcs p)) as WQ.
  { apply Forall_forall. intros c Hc. split; [apply (proj1 (Forall_forall _ _) Ew4)|apply (proj1 (Forall_forall _ _) S4)]; exact Hc. }
  destruct (export_lincons (num_vars p) (p_lcs p) WL Zl) as (ls & El & Rl).
  destruct (export_quadcons (num_vars p) (p_qcs p) WQ Zq) as (qs & Eq & Rq).
  unfold to_docplex. rewrite El. cbn [bind]. rewrite Eq. cbn [bind].
  set (m := mkDM _ _ _ _ _).
  assert (length (dm_vars m) = num_vars p) as Ln by (cbn; apply map_length).
  destruct (export_expr_spec (num_vars p) (o_const (p_obj p)) (o_lin (p_obj p)) (quad_to_dict false (o_quad (p_obj p))) Ew1 S1 (quad_range _ _ Ew2 S2)) as (A & B & _ & D).
  assert (Forall (fun d => is_linear d = true /\ is_quadratic d = false /\ dcon_wf (num_vars p) d) (concat ls)) as FL.
  { refine (Forall2_Forall_r _ _ _ _ _ Rl). intros c d _ (e & -> & H1 & H2 & H3 & _). split; [reflexivity|]. split; [reflexivity|]. split; [exact H1|]. split; [apply de_wf_num|]. split; [exact H3|reflexivity]. }
  assert (Forall (fun d => is_linear d = false /\ is_quadratic d = true /\ dcon_wf (num_vars p) d) (concat qs)) as FQ.
  { refine (Forall2_Forall_r _ _ _ _ _ Rq). intros c d _ (e & -> & H1 & H2 & _). split; [reflexivity|]. split; [reflexivity|]. split; [exact H1|apply de_wf_num]. }
  assert (filter is_linear (dm_cons m) = concat ls) as CL.
  { cbn. rewrite filter_app, filter_all, filter_none, app_nil_r; [reflexivity| |]; (eapply Forall_impl; [|eassumption]); cbn; tauto. }
  assert (filter is_quadratic (dm_cons m) = concat qs) as CQ.
  { cbn. rewrite filter_app, filter_none, filter_all; [reflexivity| |]; (eapply Forall_impl; [|eassumption]); cbn; tauto. }
  assert (dmodel_wf m) as W.
  { unfold dmodel_wf. rewrite Ln. split; [exact A|]. split.
    - cbn. apply Forall_app. split; (eapply Forall_impl; [|eassumption]); cbn; tauto.
    - cbn. apply Forall_map. apply Forall_forall. intros v _. unfold export_var. destruct (v_type v); discriminate. }
  assert (map dv_name (dm_vars m) = map Some (var_names p)) as Nm.
  { cbn. unfold var_names. rewrite !map_map. apply map_ext. intros v. unfold export_var. destruct (v_type v); reflexivity. }
  assert (map dcon_name (concat ls) = map Some (map lc_name (filter (fun c => negb (void_lc c)) (p_lcs p)))) as NL.
  { rewrite map_map. refine (Forall2_map_eq _ _ _ _ _ _ Rl). intros c d (e & -> & _). reflexivity. }
  assert (map dcon_name (concat qs) = map Some (map qc_name (filter (fun c => negb (void_qc c)) (p_qcs p)))) as NQ.
  { rewrite map_map. refine (Forall2_map_eq _ _ _ _ _ _ Rq). intros c d (e & -> & _). reflexivity. }
  destruct (from_docplex_total m W) as (p' & Ep).
  { cbn. apply Forall_map. eapply Forall_impl; [|exact Bo]. cbn. intros v Hv. unfold export_var. destruct (v_type v); cbn; auto. }
  { right. exists (var_names p). split; [exact Nm|]. split; [exact (index_finds_nodup _ _ Iv)|exact Ne]. }
  { right. eexists. rewrite CL. split; [exact NL|]. split; [apply NoDup_map_filter; exact (index_finds_nodup _ _ Il)|].
    intros I. apply in_map_iff in I as (c & E & I). apply filter_In in I as (I & _). exact (proj1 (Forall_forall _ _) Nl c I E). }
  { right. eexists. rewrite CQ. split; [exact NQ|]. split; [apply NoDup_map_filter; exact (index_finds_nodup _ _ Iq)|].
    intros I. apply in_map_iff in I as (c & E & I). apply filter_In in I as (I & _). exact (proj1 (Forall_forall _ _) Nq c I E). }
  destruct (from_docplex_spec m p' W Ep) as (X & Pn & Pv & _ & Os & Oc & _ & _ & _ & _ & Ov & Lc & Qc').
  exists m, p'. split; [reflexivity|]. split; [exact Ep|]. split; [exact Pn|]. rewrite Ln in Ov, Lc, Qc'. rewrite CL in Lc. rewrite CQ in Qc'.
  split.
  { rewrite <- (map_id (p_vars p)). apply (Forall2_eq_map imports export_var (fun v => v)) in Pv; [exact Pv|].
    intros v w Hv. apply export_imports. exact (proj1 (Forall_forall _ _) Pl v Hv). }
  split; [exact Os|]. split.
  { intros x Hx. rewrite (Ov x Hx). cbn [m dm_obj]. rewrite (D x Hx). unfold obj_at.
    rewrite (quad_entries_in (o_quad (p_obj p)) x); [reflexivity|apply Ew2|]. rewrite Hx. apply quad_range; assumption. }
  split.
  - refine (Forall2_compose _ _ _ _ _ _ _ Rl Lc). intros c d c' Hc (e & -> & P1 & P2 & P3 & P4) (Q1 & Q2 & Q3 & Q4 & Q5 & Q6 & Q7). cbn in Q1, Q2, Q6. rewrite P2 in Q6.
    apply filter_In in Hc as (Hc & _). split; [apply Q1; [reflexivity|exact (proj1 (Forall_forall _ _) Nl c Hc)]|]. split; [exact Q2|].
    assert (lc_rhs c' = lc_rhs c) as Er by (rewrite Q6; ring). split; [exact Er|]. intros x Hx. specialize (Q7 x Hx).
    rewrite dval_num, (P4 x Hx), Er in Q7. replace (lc_at c' x) with (lc_at c' x - lc_rhs c + lc_rhs c)%Qc by ring. rewrite Q7. ring.
  - refine (Forall2_compose _ _ _ _ _ _ _ Rq Qc'). intros c d c' Hc (e & -> & P1 & P2 & P4) (Q1 & Q2 & Q3 & Q4 & Q5 & Q6 & Q7). cbn in Q1, Q2, Q6. rewrite P2 in Q6.
    apply filter_In in Hc as (Hc & _). split; [apply Q1; [reflexivity|exact (proj1 (Forall_forall _ _) Nq c Hc)]|]. split; [exact Q2|].
    assert (qc_rhs c' = qc_rhs c) as Er by (rewrite Q6; ring). split; [exact Er|]. intros x Hx. specialize (Q7 x Hx).
    rewrite dval_num, (P4 x Hx), Er in Q7. replace (qc_at c' x) with (qc_at c' x - qc_rhs c + qc_rhs c)%Qc by ring. rewrite Q7. ring.
Qed.

(** ** Solutions *)
Lemma import_same d v : dplain d -> imports d v -> same_var d v.
Proof.
  intros P (N & T & B & O). split; [exact N|]. split; [exact T|]. destruct (v_type v) eqn:E; cbn in T.
  - apply O. discriminate.
  - destruct (P T) as (-> & ->). exact (B eq_refl).
  - apply O. discriminate.
Qed.
Lemma made_lincon n d c : lc_made n d c -> same_lincon n d c.
Proof.
  intros (A & B & _ & _ & _ & C). split; [exact A|]. split; [exact B|]. intros x Hx. rewrite B. destruct d; try contradiction. cbn.
  apply holds_shift. apply C. exact Hx.
Qed.
Lemma made_quadcon n d c : qc_made n d c -> same_quadcon n d c.
Proof.
  intros (A & B & _ & _ & _ & C). split; [exact A|]. split; [exact B|]. intros x Hx. rewrite B. destruct d; try contradiction. cbn.
  apply holds_shift. apply C. exact Hx.
Qed.
Lemma Forall2_impl {A B} (R S : A -> B -> Prop) l m : (forall a b, In a l -> R a b -> S a b) -> Forall2 R l m -> Forall2 S l m.
Proof. intros H F. induction F; constructor; [apply H; [left; reflexivity|assumption]|apply IHF; intros a b I; apply H; right; exact I]. Qed.

Lemma import_faithful m p : dmodel_wf m -> Forall dplain (dm_vars m) -> from_docplex m = Ok p ->
  p_name p = dm_name m /\ Forall2 same_var (dm_vars m) (p_vars p) /\ o_sense (p_obj p) = dm_sense m /\
  (forall x, length x = length (dm_vars m) -> obj_at (p_obj p) x = dval (dm_obj m) x) /\
  Forall2 (same_lincon (length (dm_vars m))) (filter is_linear (dm_cons m)) (p_lcs p) /\
  Forall2 (same_quadcon (length (dm_vars m))) (filter is_quadratic (dm_cons m)) (p_qcs p).
Proof.
  intros W P H. destruct (from_docplex_spec m p W H) as (X & Pn & Pv & _ & Os & Oc & _ & _ & _ & _ & Ov & Lc & Qc').
  split; [exact Pn|]. split.
  - refine (Forall2_impl _ _ _ _ _ Pv). intros d v I. apply import_same. exact (proj1 (Forall_forall _ _) P d I).
  - split; [exact Os|]. split; [exact Ov|]. split.
    + refine (Forall2_impl _ _ _ _ _ Lc). intros d c _. apply made_lincon.
    + refine (Forall2_impl _ _ _ _ _ Qc'). intros d c _. apply made_quadcon.
Qed.

Lemma same_var_takes d v a : dv_type d <> DOtherType -> same_var d v -> (dvar_takes d a <-> in_range v a /\ has_type v a).
Proof.
  intros T (_ & E & L & U). unfold dvar_takes, in_range, has_type. rewrite L, U, E. destruct (v_type v); cbn; tauto.
Qed.
Lemma Forall2_iff_and {A B C} (R : A -> B -> Prop) (S T : C -> B -> Prop) (Q : A -> C -> Prop) l m k :
  Forall2 Q l m -> (forall a c b, In a l -> Q a c -> (R a b <-> S c b /\ T c b)) -> (Forall2 R l k <-> Forall2 S m k /\ Forall2 T m k).
Proof.
  intros F H. revert k. induction F as [|a c l m Hac F IH]; intros k.
  - split; [intros G; inversion G; split; constructor|intros (G & _); inversion G; constructor].
  - split.
    + intros G. inversion G; subst. apply (H a c) in H2; [|left; reflexivity|exact Hac]. apply IH in H4; [|intros; apply H; [right; assumption|assumption]].
      split; constructor; tauto.
    + intros (G1 & G2). inversion G1; subst. inversion G2; subst. constructor.
      * apply (H a c); [left; reflexivity|exact Hac|tauto].
      * apply IH; [intros; apply H; [right; assumption|assumption]|tauto].
Qed.
Lemma Forall2_Forall_iff {A B} (R : A -> B -> Prop) (P : A -> Prop) (Q : B -> Prop) l m :
  Forall2 R l m -> (forall a b, R a b -> (Q b <-> P a)) -> (Forall Q m <-> Forall P l).
Proof.
  intros F H. induction F as [|a b l m Hab F IH]; [split; constructor|]. split; intros G; inversion G; subst; constructor.
  - apply (H _ _ Hab). assumption.
  - apply IH. assumption.
  - apply (H _ _ Hab). assumption.
  - apply IH. assumption.
Qed.
Lemma Forall_kinds n (P : dcon -> Prop) l : Forall (dcon_wf n) l -> (Forall P l <-> Forall P (filter is_linear l) /\ Forall P (filter is_quadratic l)).
Proof.
  induction 1 as [|d l Hd F IH]; cbn; [split; auto|]. destruct d; cbn in *; [| |contradiction].
  - split; [intros G; inversion G; subst; split; [constructor|]; tauto|intros (G1 & G2); inversion G1; subst; constructor; tauto].
  - split; [intros G; inversion G; subst; split; [|constructor]; tauto|intros (G1 & G2); inversion G2; subst; constructor; tauto].
Qed.
Lemma import_solutions m p x : dmodel_wf m -> Forall dplain (dm_vars m) -> from_docplex m = Ok p -> (feasible p x <-> dsolution m x).
Proof.
  intros W P H. destruct (import_faithful m p W P H) as (_ & Pv & _ & _ & Lc & Qc'). destruct W as (_ & Wc & Wt).
  unfold feasible, dsolution, in_bounds, typed, lcs_hold, qcs_hold.
  rewrite (Forall2_iff_and dvar_takes in_range has_type same_var (dm_vars m) (p_vars p) x Pv).
  2:{ intros d v a I. apply same_var_takes. exact (proj1 (Forall_forall _ _) Wt d I). }
  rewrite (Forall_kinds _ (dcon_holds x) (dm_cons m) Wc).
  assert (Forall2 in_range (p_vars p) x -> length x = length (dm_vars m)) as Lx.
  { intros F. rewrite <- (Forall2_length _ _ _ F), <- (Forall2_length _ _ _ Pv). reflexivity. }
  assert (length x = length (dm_vars m) ->
    (Forall (fun c => holds (lc_sense c) (lc_at c x) (lc_rhs c)) (p_lcs p) <-> Forall (dcon_holds x) (filter is_linear (dm_cons m))) /\
    (Forall (fun c => holds (qc_sense c) (qc_at c x) (qc_rhs c)) (p_qcs p) <-> Forall (dcon_holds x) (filter is_quadratic (dm_cons m)))) as G.
  { intros Hx. split.
    - apply (Forall2_Forall_iff _ _ _ _ _ Lc). intros d c (_ & _ & E). apply E. exact Hx.
    - apply (Forall2_Forall_iff _ _ _ _ _ Qc'). intros d c (_ & _ & E). apply E. exact Hx. }
  split.
  - intros (A & B & C & D). specialize (G (Lx A)). tauto.
  - intros ((A & B) & C & D). specialize (G (Lx A)). tauto.
Qed.
