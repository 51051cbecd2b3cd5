(** * Facts about the aggregation of samples with any coordinates *)
From Verif Require Export WarmFacts.
Local Open Scope string_scope.
Local Open Scope list_scope.
Local Open Scope nat_scope.

(** ** Numerals *)
Definition digs (ds : list nat) : string := fold_right (fun d s => String (ascii_of_nat (48 + d)) s) "" ds.
Lemma digs_app a b : digs (a ++ b) = (digs a ++ digs b)%string.
Proof. unfold digs. induction a as [|d a IH]; [reflexivity|]. cbn [app fold_right]. rewrite IH. reflexivity. Qed.
Lemma numeral_snoc ds d : numeral (ds ++ [d]) = 10 * numeral ds + d.
Proof. unfold numeral. now rewrite fold_left_app. Qed.
Lemma numeral_pos ds : hd 0 ds <> 0 -> numeral ds <> 0.
Proof.
  unfold numeral. destruct ds as [|d ds]; cbn [hd fold_left]; [easy|]. intro H. assert (10 * 0 + d <> 0) as P by lia. revert P. generalize (10 * 0 + d). clear.
  induction ds as [|e ds IH]; intros a P; cbn [fold_left]; auto. apply IH. lia.
Qed.
Lemma spells_str ds : forall n, spells n ds -> str_nat n = digs ds.
Proof.
  induction ds as [|d ds IH] using rev_ind; intros n (F & V & Z & H).
  - cbn in V. subst n. specialize (Z eq_refl). discriminate Z.
  - apply Forall_app in F. destruct F as [F Fd]. inversion Fd as [|? ? Hd _]. subst. rewrite numeral_snoc in *. rewrite str_nat_eq, digs_app. destruct ds as [|e ds].
    + cbn [numeral fold_left]. change (numeral []) with 0. destruct (Nat.ltb_spec (10 * 0 + d) 10); [|lia]. unfold digit. rewrite Nat.mod_small by lia. reflexivity.
    + assert (10 * numeral (e :: ds) + d <> 0 -> e <> 0) as He by (intro N; exact (H N)).
      assert (numeral (e :: ds) <> 0) as Np.
      { intro E. destruct (Nat.eq_dec d 0) as [->|Nd].
        - rewrite E in Z. specialize (Z eq_refl). apply (f_equal (@length nat)) in Z. rewrite app_length in Z. cbn in Z. lia.
        - apply (numeral_pos (e :: ds)); [|exact E]. cbn. apply He. lia. }
      destruct (Nat.ltb_spec (10 * numeral (e :: ds) + d) 10); [lia|].
      replace ((10 * numeral (e :: ds) + d) / 10) with (numeral (e :: ds)) by (apply (Nat.div_unique _ _ _ d); lia).
      rewrite (IH (numeral (e :: ds))).
      * unfold digit. replace ((10 * numeral (e :: ds) + d) mod 10) with d by (apply (Nat.mod_unique _ _ (numeral (e :: ds))); lia). reflexivity.
      * split; auto. split; auto. split; [contradiction|]. intros _. cbn. apply He. lia.
Qed.
Lemma spells_ex n : exists ds, spells n ds.
Proof.
  induction n as [n IH] using lt_wf_ind. destruct (Nat.lt_ge_cases n 10) as [L|L].
  - exists [n]. split; [constructor; [exact L|constructor]|]. split; [reflexivity|]. split; [intros ->; reflexivity|auto].
  - destruct (IH (n / 10)) as (ds & F & V & _ & H). { apply Nat.div_lt; lia. }
    assert (n / 10 <> 0) as N by (pose proof (Nat.div_le_mono 10 n 10 ltac:(lia) L) as P; cbn in P; lia).
    exists (ds ++ [n mod 10]). split; [apply Forall_app; split; auto; constructor; [apply Nat.mod_upper_bound; lia|constructor]|].
    split; [rewrite numeral_snoc, V; symmetry; apply Nat.div_mod; lia|]. split; [lia|]. intros _. specialize (H N). destruct ds; [elim H; reflexivity|exact H].
Qed.

(** ** Points *)
Lemma whole_py v n : whole_part v n -> py_int v = Z.of_nat n.
Proof.
  intros H. unfold py_int. pose proof (qn_nonneg n) as Nk. destruct H as [[A B]|(-> & A & B)].
  - destruct (qleb_spec 0 v) as [P|P]; [|exfalso; qlra]. now rewrite (floor_between v n).
  - destruct (qleb_spec 0 v) as [P|P].
    + assert (v = qn 0) as -> by (apply Qcle_antisym; [exact B|exact P]). apply (floor_qz 0).
    + rewrite (floor_between (- v) 0); [reflexivity| |]; change (qn 0) with 0%Qc; qlra.
Qed.
Lemma str_Z_nat n : str_Z (Z.of_nat n) = str_nat n.
Proof. unfold str_Z. destruct (Z.ltb_spec (Z.of_nat n) 0); [lia|]. now rewrite Zabs2Nat.id. Qed.
Lemma point_digs l : Forall (fun d => d < 10) l -> point_str (map qn l) = digs l /\ decimal (map qn l).
Proof.
  induction 1 as [|d l Hd F [IH1 IH2]]; [split; [reflexivity|constructor]|]. cbn [map]. split; [|constructor; [exists d; auto|exact IH2]].
  rewrite point_str_cons, IH1, py_int_qn, digit_char by auto. reflexivity.
Qed.
Lemma run_str x y : run_together x y -> point_str x = point_str y /\ decimal y.
Proof.
  intros (dss & F & ->). assert (Forall (fun d => d < 10) (concat dss)) as D.
  { clear -F. induction F as [|v ds x dss (n & _ & S) F IH]; cbn [concat]; [constructor|]. apply Forall_app. split; [apply S|exact IH]. }
  destruct (point_digs _ D) as [E Dm]. split; auto. rewrite E. clear -F. induction F as [|v ds x dss (n & W & S) F IH]; [reflexivity|].
  cbn [concat]. rewrite point_str_cons, digs_app, IH, (whole_py v n W), str_Z_nat, (spells_str ds n S). reflexivity.
Qed.
Lemma whole_ex v : (- (1) < v)%Qc -> exists n, whole_part v n.
Proof.
  intro H. destruct (qleb_spec 0 v) as [P|P].
  - exists (Z.to_nat (qfloor v)). left. assert (0 <= qfloor v)%Z as Z by (apply floor_greatest; exact P). unfold qn. rewrite Z2Nat.id by auto.
    split; [apply qfloor_le|apply qfloor_lt].
  - exists 0. right. split; auto. split; auto. apply Qclt_le_weak, Qcnot_le_lt. exact P.
Qed.
Lemma run_total x : Forall (fun v => (- (1) < v)%Qc) x -> exists y, run_together x y.
Proof.
  intro H. assert (exists dss, Forall2 (fun v ds => exists n, whole_part v n /\ spells n ds) x dss) as (dss & F).
  { induction H as [|v x Hv H (dss & F)]; [exists []; constructor|]. destruct (whole_ex v Hv) as (n & W). destruct (spells_ex n) as (ds & S). exists (ds :: dss). constructor; eauto. }
  exists (map qn (concat dss)), dss. auto.
Qed.

(** ** The aggregation *)
Lemma run_aggregate results ls ts : samples_are results ls -> Forall2 (Forall2 (fun s t => run_together (s_x s) (s_x t) /\ s_fval t = s_fval s /\ s_prob t = s_prob s)) ls ts ->
  exists out, mean_aggregate results = Ok out /\ NoDup (map s_x out) /\
  (forall s, In s out -> s_status s = SUCCESS /\ exists m, picks (fun t => s_x t = s_x s) (concat ts) m /\ m <> [] /\ s_prob s = (total_prob m / qn (length results))%Qc /\ exists t, In t m /\ s_fval t = s_fval s) /\
  forall t, In t (concat ts) -> exists s, In s out /\ s_x s = s_x t.
Proof.
  intros S D. set (results' := map (fun l => mkRes None None [] None SUCCESS (Some l)) ts).
  assert (samples_are results' ts) as S' by (unfold results', samples_are; clear; induction ts; cbn; constructor; auto).
  assert (length results = length results') as L by (unfold results'; rewrite map_length; clear -S D; revert results S; induction D; intros results S; inversion S; subst; cbn; auto).
  assert (mean_aggregate results = mean_aggregate results') as E.
  { unfold mean_aggregate. rewrite (agg_foldM _ _ [] S), (agg_foldM _ _ [] S'), L. cbn [bind]. f_equal. generalize (@nil (string * (Qc * Qc))). clear - D.
    assert (Forall2 (fun s t => run_together (s_x s) (s_x t) /\ s_fval t = s_fval s /\ s_prob t = s_prob s) (concat ls) (concat ts)) as F by (induction D; cbn [concat]; [constructor|now apply Forall2_app]).
    induction F as [|s t l m (H & Hf & Hp) F IH]; intro d; [reflexivity|]. cbn [fold_left]. rewrite IH. f_equal. unfold agg_add. now rewrite (proj1 (run_str _ _ H)), Hf, Hp. }
  rewrite E, L. apply aggregate_points; [exact S'|]. clear - D. induction D as [|l m ls ts H D IH]; constructor; [|exact IH]. clear - H. induction H as [|s t l m (A & _) H IH]; constructor; [exact (proj2 (run_str _ _ A))|exact IH].
Qed.
Lemma char_float_err c e : char_float c = Err e -> e = ValueError.
Proof. unfold char_float. destruct (_ && _); congruence. Qed.
Lemma mapM_fails {A B} (f : A -> result B) e0 l : (forall a e, In a l -> f a = Err e -> e = e0) -> (exists a, In a l /\ exists e, f a = Err e) -> mapM f l = Err e0.
Proof.
  induction l as [|a l IH]; intros H (b & Hb & e & Eb); [destruct Hb|]. cbn [mapM]. destruct (f a) as [c|e'] eqn:E; cbn [bind].
  - destruct Hb as [<-|Hb]; [congruence|]. rewrite IH; [reflexivity| |eauto]. intros x y Hx. apply H. now right.
  - f_equal. apply (H a); auto. now left.
Qed.
Lemma str_point_err s e : str_point s = Err e -> e = ValueError.
Proof.
  unfold str_point. induction (list_ascii_of_string s) as [|c l IH]; cbn [mapM]; [discriminate|]. destruct (char_float c) as [v|e'] eqn:E; cbn [bind].
  - destruct (mapM char_float l) as [?|?]; cbn [bind]; [discriminate|]. exact IH.
  - apply char_float_err in E. congruence.
Qed.
Lemma ascii_app a b : list_ascii_of_string (a ++ b) = list_ascii_of_string a ++ list_ascii_of_string b.
Proof. induction a as [|c a IH]; cbn; [reflexivity|]. now rewrite IH. Qed.
Lemma minus_in x v : In v x -> (v <= - (1))%Qc -> In "-"%char (list_ascii_of_string (point_str x)).
Proof.
  intros Hv L. induction x as [|w x IH]; [destruct Hv|]. rewrite point_str_cons, ascii_app. apply in_or_app. destruct Hv as [<-|Hv]; [|right; auto]. left.
  assert (py_int w < 0)%Z as P.
  { unfold py_int. destruct (qleb_spec 0 w) as [Q|Q]; [exfalso; qlra|]. assert (1 <= qfloor (- w))%Z; [|lia]. apply floor_greatest. rewrite qz_1. qlra. }
  unfold str_Z. destruct (Z.ltb_spec (py_int w) 0); [|lia]. now left.
Qed.
Lemma minus_aggregate results ls t v : samples_are results ls -> In t (concat ls) -> In v (s_x t) -> (v <= - (1))%Qc -> mean_aggregate results = Err ValueError.
Proof.
  intros S Ht Hv L. unfold mean_aggregate. rewrite (agg_foldM results ls [] S). cbn [bind]. destruct (agg_all (concat ls)) as (_ & _ & _ & A). apply mapM_fails.
  - intros kv e _ E. destruct (str_point (fst kv)) as [x|e'] eqn:E1; cbn [bind] in E; [discriminate|]. apply str_point_err in E1. congruence.
  - specialize (A t Ht). apply in_map_iff in A. destruct A as (kv & Ek & Hk). exists kv. split; auto. exists ValueError.
    assert (str_point (fst kv) = Err ValueError) as ->; [|reflexivity]. rewrite Ek. unfold str_point. apply mapM_fails; [intros c e _; apply char_float_err|].
    exists "-"%char. split; [eapply minus_in; eauto|]. exists ValueError. reflexivity.
Qed.
Lemma run_all ls : (forall t, In t (concat ls) -> Forall (fun v => (- (1) < v)%Qc) (s_x t)) ->
  exists ts, Forall2 (Forall2 (fun s t => run_together (s_x s) (s_x t) /\ s_fval t = s_fval s /\ s_prob t = s_prob s)) ls ts.
Proof.
  induction ls as [|l ls IH]; intro H; [exists []; constructor|]. destruct IH as (ts & F); [intros t Ht; apply H; cbn; apply in_or_app; auto|].
  assert (exists m, Forall2 (fun s t => run_together (s_x s) (s_x t) /\ s_fval t = s_fval s /\ s_prob t = s_prob s) l m) as (m & G).
  { assert (forall t, In t l -> Forall (fun v => (- (1) < v)%Qc) (s_x t)) as K by (intros t Ht; apply H; cbn; apply in_or_app; auto). clear -K.
    induction l as [|s l IH]; [exists []; constructor|]. destruct IH as (m & G); [intros t Ht; apply K; now right|]. destruct (run_total (s_x s) (K s (or_introl eq_refl))) as (y & R).
    exists (mkSample y (s_fval s) (s_prob s) SUCCESS :: m). constructor; auto. }
  exists (m :: ts). constructor; auto.
Qed.
