(** * Facts about warm start: initial values and the aggregation of samples *)
From Verif Require Export SpecWarm AlgoFacts3.
Local Open Scope string_scope.
Local Open Scope list_scope.
Local Open Scope nat_scope.

(** ** Initial values *)
Definition into (eps v : Qc) : Qc := if qltb v eps then eps else if qltb (1 - eps)%Qc v then (1 - eps)%Qc else v.
Lemma into_range eps v : (0 <= eps)%Qc -> (eps <= 1 / qz 2)%Qc -> (eps <= into eps v)%Qc /\ (into eps v <= 1 - eps)%Qc.
Proof.
  intros H1 H2. assert (eps <= 1 - eps)%Qc as H. { assert (1 / qz 2 + 1 / qz 2 = 1)%Qc as E by (apply Qc_is_canon; reflexivity). qlra. }
  unfold into. destruct (qltb_spec v eps); [split; qlra|]. destruct (qltb_spec (1 - eps) v); split; qlra.
Qed.
Lemma into_nearest eps v w : (0 <= eps)%Qc -> (eps <= 1 / qz 2)%Qc -> (eps <= w)%Qc -> (w <= 1 - eps)%Qc -> (gap (into eps v) v <= gap w v)%Qc.
Proof.
  intros H1 H2 L U. assert (eps <= 1 - eps)%Qc as H by (eapply Qcle_trans; eauto). unfold into, gap. destruct (qltb_spec v eps) as [A|A].
  - destruct (qltb_spec eps v), (qltb_spec w v); qlra.
  - destruct (qltb_spec (1 - eps) v) as [B|B]; [destruct (qltb_spec (1 - eps) v), (qltb_spec w v); qlra|]. destruct (qltb_spec v v); [|destruct (qltb_spec w v)]; qlra.
Qed.
Lemma into_inside eps v : (eps <= v)%Qc -> (v <= 1 - eps)%Qc -> into eps v = v.
Proof. intros L U. unfold into. destruct (qltb_spec v eps); [exfalso; qlra|]. destruct (qltb_spec (1 - eps) v); auto. exfalso. qlra. Qed.

(** ** Decimal digits *)
Lemma py_int_qn k : py_int (qn k) = Z.of_nat k.
Proof. unfold py_int. destruct (qleb_spec 0 (qn k)) as [H|H]; [|exfalso; apply H; apply qn_nonneg]. apply floor_qz. Qed.
Lemma digit_char k : k < 10 -> str_Z (Z.of_nat k) = String (ascii_of_nat (48 + k)) "".
Proof. intro H. do 10 (destruct k as [|k]; [reflexivity|]). lia. Qed.
Lemma char_float_digit k : k < 10 -> char_float (ascii_of_nat (48 + k)) = Ok (qn k).
Proof. intro H. do 10 (destruct k as [|k]; [reflexivity|]). lia. Qed.
Lemma str_nil_r s : (s ++ "")%string = s.
Proof. induction s; cbn; congruence. Qed.
Lemma point_str_cons v x : point_str (v :: x) = (str_Z (py_int v) ++ point_str x)%string.
Proof. unfold point_str. cbn [map]. destruct x as [|w x]; [cbn; now rewrite str_nil_r|reflexivity]. Qed.
Lemma str_point_str x : decimal x -> str_point (point_str x) = Ok x.
Proof.
  induction 1 as [|v x (k & K & ->) D IH]; [reflexivity|]. rewrite point_str_cons, py_int_qn, digit_char by auto. cbn [append list_ascii_of_string]. unfold str_point in *. cbn [list_ascii_of_string mapM].
  rewrite char_float_digit by auto. cbn [bind]. rewrite IH. reflexivity.
Qed.
Lemma point_str_inj x y : decimal x -> decimal y -> point_str x = point_str y -> x = y.
Proof. intros Dx Dy E. pose proof (str_point_str x Dx) as A. rewrite E, (str_point_str y Dy) in A. congruence. Qed.
Lemma bits_decimal n x : bits n x -> decimal x.
Proof. intros [_ B]. eapply Forall_impl; [|exact B]. intros a [->| ->]; [exists 0|exists 1]; split; try lia; apply Qc_is_canon; reflexivity. Qed.

(** ** The dictionary of the aggregator *)
Lemma agg_foldM results : forall ls d, samples_are results ls -> foldM agg_result results d = Ok (fold_left agg_add (concat ls) d).
Proof.
  induction results as [|r results IH]; intros ls d S; inversion S as [|? l ? ls' E S']; subst; [reflexivity|]. cbn [foldM concat]. unfold agg_result at 1. rewrite E. cbn [bind]. rewrite fold_left_app. now apply IH.
Qed.
Definition key_of (s : sample) : string := point_str (s_x s).
Definition at_key (k : string) (l : list sample) : list sample := filter (fun s => String.eqb (key_of s) k) l.
Definition agg_inv (d : list (string * (Qc * Qc))) (l : list sample) : Prop :=
  NoDup (map fst d) /\ sumof (fun kv => snd (snd kv)) d = total_prob l /\
  (forall k f q, In (k, (f, q)) d -> at_key k l <> [] /\ q = total_prob (at_key k l) /\ exists t, In t (at_key k l) /\ s_fval t = f) /\
  forall t, In t l -> In (key_of t) (map fst d).
Lemma at_key_snoc k l s : at_key k (l ++ [s]) = if String.eqb (key_of s) k then at_key k l ++ [s] else at_key k l.
Proof. unfold at_key. rewrite filter_app. cbn [filter]. destruct (String.eqb (key_of s) k); [reflexivity|apply app_nil_r]. Qed.
Lemma total_snoc l s : total_prob (l ++ [s]) = (total_prob l + s_prob s)%Qc.
Proof. unfold total_prob. rewrite sumof_app, sumof_cons, sumof_nil. ring. Qed.
Lemma at_key_none (k : string) l : ~ In k (map key_of l) -> at_key k l = [].
Proof. intro N. unfold at_key. induction l as [|a l IH]; cbn; auto. destruct (String.eqb_spec (key_of a) k) as [E|E]; [exfalso; apply N; cbn; auto|]. apply IH. intro H. apply N. cbn. auto. Qed.
Lemma dset_sum k v d : NoDup (map fst d) -> sumof (fun kv : string * (Qc * Qc) => snd (snd kv)) (dset String.eqb k v d) =
  (sumof (fun kv => snd (snd kv)) d - match dget String.eqb k d with Some w => snd w | None => 0%Qc end + snd v)%Qc.
Proof.
  induction d as [|[k' w] d IH]; intro N; cbn [dset dget].
  - rewrite !sumof_cons, !sumof_nil. cbn [snd]. ring.
  - destruct (String.eqb_spec k k') as [->|X]; rewrite !sumof_cons; cbn [snd]; [ring|]. rewrite IH by now inversion N. ring.
Qed.
Lemma agg_dset_in (k : string) (v : Qc * Qc) d k' w : NoDup (map fst d) -> In (k', w) (dset String.eqb k v d) -> (k' = k /\ w = v) \/ (k' <> k /\ In (k', w) d).
Proof.
  intros N I. pose proof (dset_nodup _ str_eqb_sp k v d N) as N'. destruct (String.eqb_spec k' k) as [->|X].
  - left. split; auto. apply (in_dget _ str_eqb_sp) in I; auto. rewrite (dget_dset_same _ str_eqb_sp) in I. congruence.
  - right. split; auto. apply (in_dget _ str_eqb_sp) in I; auto. rewrite (dget_dset_other _ str_eqb_sp) in I by auto. now apply (dget_in _ str_eqb_sp) in I.
Qed.
Lemma agg_step d l s : agg_inv d l -> agg_inv (agg_add d s) (l ++ [s]).
Proof.
  intros (N & T & K & A). unfold agg_add. fold (key_of s). set (k := key_of s). set (v := (s_fval s, _)).
  assert (match dget String.eqb k d with Some w => snd w | None => 0%Qc end = total_prob (at_key k l)) as G.
  { destruct (dget String.eqb k d) as [[f q]|] eqn:E.
    - apply (dget_in _ str_eqb_sp) in E. destruct (K k f q E) as (_ & -> & _). reflexivity.
    - rewrite at_key_none; [reflexivity|]. intro H. apply in_map_iff in H. destruct H as (t & Et & Ht). apply A in Ht. rewrite Et in Ht. apply in_map_iff in Ht. destruct Ht as ([k' w] & Ek & Hk). cbn in Ek. subst k'. apply (in_dget _ str_eqb_sp) in Hk; auto. congruence. }
  assert (snd v = (total_prob (at_key k l) + s_prob s)%Qc) as Sv. { unfold v. cbn [snd]. rewrite <- G. destruct (dget String.eqb k d) as [[f q]|]; cbn [snd]; ring. }
  split; [now apply (dset_nodup _ str_eqb_sp)|]. split. { rewrite dset_sum by auto. rewrite G, T, Sv, total_snoc. ring. }
  split.
  - intros k' f q I. apply agg_dset_in in I; auto. rewrite at_key_snoc. fold k. destruct I as [[-> E]|[X I]].
    + rewrite String.eqb_refl. split; [intro H; apply app_eq_nil in H; destruct H; discriminate|]. rewrite total_snoc. split; [rewrite <- Sv, <- E; reflexivity|]. exists s. split; [apply in_or_app; right; now left|]. unfold v in E. congruence.
    + destruct (String.eqb_spec k k'); [congruence|]. auto.
  - intros t Ht. apply (dset_keys _ str_eqb_sp). apply in_app_or in Ht. destruct Ht as [Ht|[<-|[]]]; [right; auto|now left].
Qed.
Lemma agg_all l : agg_inv (fold_left agg_add l []) l.
Proof.
  assert (forall l0 d, agg_inv d l0 -> agg_inv (fold_left agg_add l d) (l0 ++ l)) as H.
  { induction l as [|s l IH]; intros l0 d I; cbn [fold_left]; [now rewrite app_nil_r|]. replace (l0 ++ s :: l) with ((l0 ++ [s]) ++ l) by now rewrite <- app_assoc. apply IH. now apply agg_step. }
  apply (H [] []). split; [constructor|]. split; [reflexivity|]. split; [easy|easy].
Qed.
Lemma picks_filter {A} (f : A -> bool) (P : A -> Prop) l : (forall a, In a l -> (f a = true <-> P a)) -> picks P l (filter f l).
Proof.
  induction l as [|a l IH]; intro H; cbn; [constructor|]. assert (picks P l (filter f l)) by (apply IH; intros; apply H; now right). destruct (f a) eqn:E; constructor; auto.
  - apply H; auto. now left.
  - rewrite <- (H a (or_introl eq_refl)). congruence.
Qed.
Lemma aggregate_total results ls out : samples_are results ls -> mean_aggregate results = Ok out -> total_prob out = (sumof total_prob ls / qn (length results))%Qc.
Proof.
  intros S E. unfold mean_aggregate in E. rewrite (agg_foldM results ls [] S) in E. cbn [bind] in E. apply mapM_ok in E. destruct (agg_all (concat ls)) as (_ & T & _).
  assert (forall d o, Forall2 (fun kv b => (do x <- str_point (fst kv); Ok (mkSample x (fst (snd kv)) (snd (snd kv) / qn (length results))%Qc SUCCESS)) = Ok b) d o ->
    total_prob o = (sumof (fun kv : string * (Qc * Qc) => snd (snd kv)) d / qn (length results))%Qc) as G.
  { induction 1 as [|kv b d o E1 F IH]; unfold total_prob in *; [rewrite !sumof_nil; unfold Qcdiv; ring|]. rewrite !sumof_cons, IH. apply bind_ok in E1. destruct E1 as (x & _ & E1). injection E1 as <-. cbn [s_prob]. unfold Qcdiv. ring. }
  rewrite (G _ _ E), T. f_equal. clear. induction ls as [|l ls IH]; cbn [concat]; [reflexivity|]. unfold total_prob in *. rewrite sumof_app, sumof_cons, IH. reflexivity.
Qed.
Lemma aggregate_points results ls : samples_are results ls -> Forall (Forall (fun s => decimal (s_x s))) ls -> exists out, mean_aggregate results = Ok out /\ NoDup (map s_x out) /\
  (forall s, In s out -> s_status s = SUCCESS /\ exists m, picks (fun t => s_x t = s_x s) (concat ls) m /\ m <> [] /\ s_prob s = (total_prob m / qn (length results))%Qc /\ exists t, In t m /\ s_fval t = s_fval s) /\
  forall t, In t (concat ls) -> exists s, In s out /\ s_x s = s_x t.
Proof.
  intros S D. assert (forall t, In t (concat ls) -> decimal (s_x t)) as Dt. { intros t Ht. apply in_concat in Ht. destruct Ht as (l & Hl & Ht). rewrite Forall_forall in D. specialize (D l Hl). rewrite Forall_forall in D. auto. }
  unfold mean_aggregate. rewrite (agg_foldM results ls [] S). cbn [bind]. destruct (agg_all (concat ls)) as (N & _ & K & A). set (d := fold_left agg_add (concat ls) []) in *.
  assert (forall k v, In (k, v) d -> exists t, In t (concat ls) /\ k = key_of t) as Kt. { intros k [f q] I. destruct (K k f q I) as (_ & _ & t & Ht & _). apply filter_In in Ht. destruct Ht as [Ht E]. apply String.eqb_eq in E. exists t. split; auto. }
  assert (exists out, mapM (fun kv => do x <- str_point (fst kv); Ok (mkSample x (fst (snd kv)) (snd (snd kv) / qn (length results))%Qc SUCCESS)) d = Ok out /\
    Forall2 (fun kv s => key_of s = fst kv /\ decimal (s_x s) /\ s_fval s = fst (snd kv) /\ s_prob s = (snd (snd kv) / qn (length results))%Qc /\ s_status s = SUCCESS) d out) as (out & E & F).
  { clear -Kt Dt. induction d as [|[k v] d IH]; [exists []; split; [reflexivity|constructor]|]. destruct IH as (out & E & F); [intros; eapply Kt; right; eauto|]. destruct (Kt k v (or_introl eq_refl)) as (t & Ht & ->).
    exists (mkSample (s_x t) (fst v) (snd v / qn (length results))%Qc SUCCESS :: out). cbn [mapM fst snd]. unfold key_of. rewrite (str_point_str _ (Dt t Ht)). cbn [bind]. rewrite E. cbn [bind]. split; auto. constructor; auto. cbn [key_of s_x s_fval s_prob s_status fst snd]. auto. }
  rewrite E. exists out. split; auto. split.
  { clear -F N. induction F as [|kv s d out (E1 & D1 & _) F IH]; [constructor|]. cbn [map] in *. inversion N as [|? ? N1 N2]; subst. constructor; auto. intro H. apply in_map_iff in H. destruct H as (s' & Es & Hs). apply N1. destruct (Forall2_in_r _ _ _ _ F Hs) as (kv' & Hk & E2 & _).
    rewrite <- E1. unfold key_of in *. rewrite <- Es, E2. apply in_map_iff. eauto. }
  split.
  - intros s Hs. destruct (Forall2_in_r _ _ _ _ F Hs) as ([k [f q]] & Hk & E1 & D1 & E2 & E3 & E4). cbn [fst snd] in *. split; auto. exists (at_key k (concat ls)). destruct (K k f q Hk) as (K1 & K2 & t & Ht & Ft). split.
    + apply picks_filter. intros t' Ht'. rewrite String.eqb_eq. rewrite <- E1. split; [apply point_str_inj; auto|]. unfold key_of. congruence.
    + split; auto. split; [congruence|]. exists t. split; auto. congruence.
  - intros t Ht. specialize (A t Ht). apply in_map_iff in A. destruct A as ([k v] & Ek & Hk). cbn in Ek. destruct (Forall2_in_l _ _ _ _ F Hk) as (s & Hs & E1 & D1 & _). exists s. split; auto. cbn [fst] in E1. apply point_str_inj; auto. unfold key_of in *. congruence.
Qed.
(** ** Points with fractions *)
Lemma floor_between v k : (qn k <= v)%Qc -> (v < qn k + 1)%Qc -> qfloor v = Z.of_nat k.
Proof.
  intros A B. apply Z.le_antisymm; [|now apply floor_greatest]. pose proof (qfloor_le v) as F. assert (qz (qfloor v) < qz (Z.of_nat k + 1))%Qc as L by (rewrite qz_add, qz_1; change (qz (Z.of_nat k)) with (qn k); qlra).
  apply (proj1 (qz_lt _ _)) in L. lia.
Qed.
Lemma digits_str x y : digits_of x y -> point_str x = point_str y /\ decimal y.
Proof.
  induction 1 as [|v w x y (k & K & -> & H) D [IH1 IH2]]; [split; [reflexivity|constructor]|]. split; [|constructor; [exists k; auto|exact IH2]].
  rewrite !point_str_cons, IH1, py_int_qn. do 2 f_equal. unfold py_int. pose proof (qn_nonneg k) as Nk. destruct H as [[A B]|(-> & A & B)].
  - destruct (qleb_spec 0 v) as [P|P]; [|exfalso; qlra]. now rewrite (floor_between v k).
  - destruct (qleb_spec 0 v) as [P|P].
    + assert (v = qn 0) as -> by (apply Qcle_antisym; [exact B|exact P]). apply (floor_qz 0).
    + rewrite (floor_between (- v) 0); [reflexivity| |]; change (qn 0) with 0%Qc; qlra.
Qed.
Lemma digits_aggregate results ls ts : samples_are results ls -> Forall2 (Forall2 (fun s t => digits_of (s_x s) (s_x t) /\ s_fval t = s_fval s /\ s_prob t = s_prob s)) ls ts ->
  exists out, mean_aggregate results = Ok out /\ NoDup (map s_x out) /\
  (forall s, In s out -> s_status s = SUCCESS /\ exists m, picks (fun t => s_x t = s_x s) (concat ts) m /\ m <> [] /\ s_prob s = (total_prob m / qn (length results))%Qc /\ exists t, In t m /\ s_fval t = s_fval s) /\
  forall t, In t (concat ts) -> exists s, In s out /\ s_x s = s_x t.
Proof.
  intros S D. set (results' := map (fun l => mkRes None None [] None SUCCESS (Some l)) ts).
  assert (samples_are results' ts) as S' by (unfold results', samples_are; clear; induction ts; cbn; constructor; auto).
  assert (length results = length results') as L by (unfold results'; rewrite map_length; clear -S D; revert results S; induction D; intros results S; inversion S; subst; cbn; auto).
  assert (mean_aggregate results = mean_aggregate results') as E.
  { unfold mean_aggregate. rewrite (agg_foldM _ _ [] S), (agg_foldM _ _ [] S'), L. cbn [bind]. f_equal. generalize (@nil (string * (Qc * Qc))). clear - D.
    assert (Forall2 (fun s t => digits_of (s_x s) (s_x t) /\ s_fval t = s_fval s /\ s_prob t = s_prob s) (concat ls) (concat ts)) as F by (induction D; cbn [concat]; [constructor|now apply Forall2_app]).
    induction F as [|s t l m (H & Hf & Hp) F IH]; intro d; [reflexivity|]. cbn [fold_left]. rewrite IH. f_equal. unfold agg_add. now rewrite (proj1 (digits_str _ _ H)), Hf, Hp. }
  rewrite E, L. apply aggregate_points; [exact S'|]. clear - D. induction D as [|l m ls ts H D IH]; constructor; [|exact IH]. clear - H. induction H as [|s t l m (A & _) H IH]; constructor; [exact (proj2 (digits_str _ _ A))|exact IH].
Qed.
