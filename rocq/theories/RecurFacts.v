(** * Facts about the recursive optimizer: the strongest correlation, unrolling *)
From Verif Require Export SpecRecur SubstTotal AlgoFacts3.
Local Open Scope nat_scope.

(** ** Names *)
Lemma without_in a s l : In s (without a l) <-> In s l /\ s <> a.
Proof. unfold without. rewrite filter_In, negb_true_iff. split; intros [A B]; split; auto; [now apply String.eqb_neq|now apply String.eqb_neq]. Qed.
Lemma without_nodup a l : NoDup l -> NoDup (without a l).
Proof. apply NoDup_filter. Qed.
Lemma without_fresh a l : ~ In a l -> without a l = l.
Proof.
  induction l as [|b l IH]; intro N; cbn; auto. destruct (str_eqb_sp b a) as [E|E]; cbn.
  - exfalso. apply N. now left.
  - f_equal. apply IH. intro. apply N. now right.
Qed.
Lemma without_length a l : NoDup l -> In a l -> S (length (without a l)) = length l.
Proof.
  induction l as [|b l IH]; intros N Hin; [destruct Hin|]. inversion N as [|? ? Nb Nl]; subst. cbn [without filter]. destruct (str_eqb_sp b a) as [->|E]; cbn [negb].
  - fold (without a l). rewrite without_fresh; auto.
  - cbn [length]. destruct Hin as [->|Hin]; [congruence|]. fold (without a l). rewrite IH; auto.
Qed.

Lemma el_nodup names rep rest : eliminates names rep rest -> NoDup names -> NoDup rest /\ NoDup (map fst rep) /\ incl (map fst rep) names /\ incl rest names /\
  (forall s, In s rest -> ~ In s (map fst rep)) /\ length names = length rep + length rest.
Proof.
  induction 1 as [names|names a b eq rep rest Ha Hb Nab E IH]; intro N.
  - split; auto. split; [constructor|]. split; [apply incl_nil_l|]. split; [apply incl_refl|]. split; auto.
  - destruct (IH (without_nodup _ _ N)) as (I1 & I2 & I3 & I4 & I5 & I6). cbn [map fst length]. repeat split; auto.
    + constructor; auto. intro Hin. apply I3, without_in in Hin. destruct Hin. congruence.
    + intros s [<-|Hs]; auto. apply I3, without_in in Hs. tauto.
    + intros s Hs. apply I4, without_in in Hs. tauto.
    + intros s Hs [<-|Hin]; [|eapply I5; eauto]. apply I4, without_in in Hs. destruct Hs. congruence.
    + rewrite <- (without_length a names) by auto. lia.
Qed.
(** An assignment of the remaining variables extends to all. *)
Lemma el_extend names rep rest : eliminates names rep rest -> NoDup names -> forall f : string -> Qc,
  exists val, respects rep val /\ forall s, In s rest -> val s = f s.
Proof.
  induction 1 as [names|names a b eq rep rest Ha Hb Nab E IH]; intros N f.
  - exists f. split; [constructor|auto].
  - destruct (IH (without_nodup _ _ N) f) as (val & R & V). destruct (el_nodup _ _ _ E (without_nodup _ _ N)) as (I1 & I2 & I3 & I4 & I5 & I6).
    set (val' := fun s => if String.eqb s a then (if eq then val b else (1 - val b)%Qc) else val s).
    assert (forall s, s <> a -> val' s = val s) as O by (intros s Ns; unfold val'; destruct (str_eqb_sp s a); [contradiction|auto]).
    exists val'. split.
    + constructor.
      * cbn [fst snd]. rewrite (O b) by congruence. unfold val'. now rewrite String.eqb_refl.
      * assert (eliminates (without a names) rep rest -> Forall (fun e : string * (string * bool) => fst e <> a /\ fst (snd e) <> a) rep) as Fr.
        { clear -N. intro E. assert (~ In a (without a names)) as Na by (rewrite without_in; tauto). clear N.
          induction E as [|names' a' b' eq' rep rest Ha' Hb' Nab' E IH]; constructor.
          - cbn. split; intros ->; contradiction.
          - apply IH. rewrite without_in. tauto. }
        specialize (Fr E). clear -Fr R O. unfold respects in *. induction R as [|e l He R IH]; inversion Fr as [|? ? [F1 F2] Fr']; subst; constructor; auto.
        now rewrite !O.
    + intros s Hs. rewrite O; auto. apply I4, without_in in Hs. tauto.
Qed.

(** ** find_value *)
Definition knows (val : string -> Qc) (d : list (string * Qc)) : Prop := forall s v, dget String.eqb s d = Some v -> v = val s.
Lemma knows_dset val d s : knows val d -> knows val (dset String.eqb s (val s) d).
Proof. intros K t v H. rewrite (dget_dset _ str_eqb_sp) in H. destruct (str_eqb_sp t s) as [->|]; [congruence|eauto]. Qed.
Lemma find_value_spec (all : repls) val : NoDup (map fst all) -> respects all val -> forall names rep rest, eliminates names rep rest ->
  incl rep all -> forall fuel d s, length rep <= fuel -> In s names -> knows val d -> (forall t, In t rest -> In t (map fst d)) ->
  exists d', find_value fuel all d s = Ok (val s, d') /\ knows val d' /\ incl (map fst d) (map fst d') /\ In s (map fst d').
Proof.
  intros N R. induction 1 as [names|names a b eq rep rest Ha Hb Nab E IH]; intros I fuel d s Hf Hs K C.
  - assert (In s (map fst d)) as Hd by auto. exists d. destruct fuel; cbn [find_value];
      (destruct (dget String.eqb s d) as [v|] eqn:Ev; [rewrite (K _ _ Ev); auto using incl_refl|apply (dget_none _ str_eqb_sp) in Ev; contradiction]).
  - destruct (str_eqb_sp s a) as [->|Ns].
    + destruct fuel as [|f]; [cbn in Hf; lia|]. cbn [find_value]. destruct (dget String.eqb a d) as [v|] eqn:Ev.
      { exists d. rewrite (K _ _ Ev). split; auto. split; auto. split; [apply incl_refl|]. apply (dget_in _ str_eqb_sp) in Ev. apply (in_map fst _ _ Ev). }
      assert (dget String.eqb a all = Some (b, eq)) as -> by (apply (in_dget _ str_eqb_sp); auto; apply I; now left).
      destruct (IH (fun e H => I e (or_intror H)) f d b) as (d' & E' & K' & C' & B'); auto; [cbn in Hf; lia|now apply without_in; auto|].
      rewrite E'. cbn [bind fst snd]. assert ((if eq then val b else (1 - val b)%Qc) = val a) as Ea.
      { unfold respects in R. rewrite Forall_forall in R. specialize (R (a, (b, eq)) (I _ (or_introl eq_refl))). cbn in R. auto. }
      rewrite Ea. exists (dset String.eqb a (val a) d'). split; auto. split; [now apply knows_dset|].
      assert (forall t, In t (map fst (dset String.eqb a (val a) d')) <-> t = a \/ In t (map fst d')) as Q by (intro; apply (dset_keys _ str_eqb_sp)).
      split; [intros t Ht|]; apply Q; auto.
    + destruct (IH (fun e H => I e (or_intror H)) fuel d s) as (d' & E' & K' & C' & B'); eauto; [cbn in Hf; lia|now apply without_in; auto].
Qed.

(** ** The values of the remaining variables *)
Lemma base_fold x l : forall k d d', foldM (fun d iv => do a <- py_nth x (Z.of_nat (fst iv)); Ok (dset String.eqb (v_name (snd iv)) a d)) (combine (seq k (length l)) l) d = Ok d' ->
  (forall s v, dget String.eqb s d' = Some v -> (exists i w, nth_error l i = Some w /\ v_name w = s /\ v = at_ x (k + i)) \/ dget String.eqb s d = Some v) /\
  (forall s, In s (map fst d') <-> In s (map v_name l) \/ In s (map fst d)) /\ (l <> [] -> k + length l <= length x).
Proof.
  induction l as [|w l IH]; intros k d d' H; cbn [length seq combine foldM] in H.
  - injection H as <-. split; auto. split; [cbn; tauto|congruence].
  - apply bind_ok in H. destruct H as (d1 & H1 & H). cbn [fst snd] in H1. apply bind_ok in H1. destruct H1 as (a & Ha & H1). injection H1 as <-.
    destruct (IH _ _ _ H) as (I1 & I2 & I3). clear IH H. assert (k < length x /\ a = at_ x k) as [Hk ->].
    { unfold py_nth, py_index in Ha. replace (0 <=? Z.of_nat k)%Z with true in Ha by (symmetry; apply Z.leb_le; lia).
      destruct (Z.of_nat k <? Z.of_nat (length x))%Z eqn:E; [|discriminate]. apply Z.ltb_lt in E. rewrite Nat2Z.id in Ha.
      destruct (nth_error x k) eqn:En; [|discriminate]. injection Ha as <-. split; [lia|]. unfold at_. symmetry. now apply nth_error_nth. }
    split; [|split].
    + intros s v Hv. destruct (I1 s v Hv) as [(i & w' & E1 & E2 & ->)|Hd].
      * left. exists (S i), w'. split; auto. split; auto. f_equal. lia.
      * rewrite (dget_dset _ str_eqb_sp) in Hd. destruct (str_eqb_sp s (v_name w)) as [->|]; auto. injection Hd as <-. left. exists 0, w. split; [reflexivity|]. split; [reflexivity|]. f_equal; lia.
    + intro s. rewrite I2, (dset_keys _ str_eqb_sp). cbn [map]. cbn. intuition congruence.
    + intros _. cbn [length]. destruct l as [|w' l]; [cbn; lia|]. specialize (I3 ltac:(congruence)). cbn [length] in *. lia.
Qed.
Lemma base_values_spec vars x d : base_values vars x = Ok d -> vars <> [] -> exists x', x = Some x' /\ length vars <= length x' /\
  (forall s v, dget String.eqb s d = Some v -> exists i w, nth_error vars i = Some w /\ v_name w = s /\ v = at_ x' i) /\
  (forall s, In s (map fst d) <-> In s (map v_name vars)).
Proof.
  intros H N. unfold base_values in H. destruct x as [x'|].
  - destruct (base_fold x' vars 0 [] d H) as (I1 & I2 & I3). exists x'. split; auto. split; [now apply I3|]. split.
    + intros s v Hv. destruct (I1 s v Hv) as [?|]; auto. discriminate.
    + intro s. rewrite I2. cbn. tauto.
  - destruct vars as [|w vars]; [congruence|]. discriminate.
Qed.
Lemma base_values_total vars x : length x = length vars -> exists d, base_values vars (Some x) = Ok d.
Proof.
  intro L. unfold base_values. assert (forall k l d, k + length l <= length x -> exists d', foldM (fun d iv => do a <- py_nth x (Z.of_nat (fst iv)); Ok (dset String.eqb (v_name (snd iv)) a d)) (combine (seq k (length l)) l) d = Ok d') as G.
  { intros k l. revert k. induction l as [|w l IH]; intros k d Hk; cbn [length seq combine foldM]; [eauto|]. cbn [length] in Hk.
    destruct (py_nth_at x k) as [E _]; [lia|]. cbn [fst snd]. rewrite E. cbn [bind]. apply IH. lia. }
  apply G. cbn. lia.
Qed.

(** ** Unrolling *)
Lemma unroll_spec names rep rest val d : NoDup names -> eliminates names rep rest -> respects rep val -> knows val d ->
  (forall t, In t rest -> In t (map fst d)) -> unroll rep d names = Ok (map val names).
Proof.
  intros N E R K C. destruct (el_nodup _ _ _ E N) as (_ & Nr & _). unfold unroll.
  assert (forall l d, incl l names -> knows val d -> (forall t, In t rest -> In t (map fst d)) ->
    exists d', foldM (fun d s => do vv <- find_value (S (length rep)) rep d s; Ok (snd vv)) l d = Ok d' /\ knows val d' /\ incl (map fst d) (map fst d') /\ incl l (map fst d')) as G.
  { induction l as [|s l IH]; intros d0 I K0 C0; cbn [foldM].
    - exists d0. split; auto. split; auto. split; [apply incl_refl|apply incl_nil_l].
    - destruct (find_value_spec rep val Nr R names rep rest E (incl_refl _) (S (length rep)) d0 s) as (d1 & E1 & K1 & I1 & S1); auto; [now apply I; left|].
      rewrite E1. cbn [bind snd]. destruct (IH d1) as (d2 & E2 & K2 & I2 & S2); auto; [intros t Ht; apply I; now right|].
      exists d2. split; auto. split; auto. split; [intros t Ht; auto|]. intros t [<-|Ht]; auto. }
  destruct (G names d (incl_refl _) K C) as (d' & -> & K' & _ & S'). cbn [bind]. clear -K' S'.
  induction names as [|s l IH]; cbn [mapM map]; auto. destruct (dget String.eqb s d') as [v|] eqn:Ev.
  - rewrite (K' _ _ Ev). cbn [bind]. rewrite IH; auto. intros t Ht. apply S'. now right.
  - apply (dget_none _ str_eqb_sp) in Ev. exfalso. apply Ev, S'. now left.
Qed.

(** ** The strongest correlation *)
Lemma argmax_fold l : forall k b v, fold_left argmax_step l (k, b, v) =
    (k + length l, snd (fst (fold_left argmax_step l (k, b, v))), snd (fold_left argmax_step l (k, b, v))) /\
  (forall a, In a l -> (a <= snd (fold_left argmax_step l (k, b, v)))%Qc) /\ (v <= snd (fold_left argmax_step l (k, b, v)))%Qc /\
  ((snd (fst (fold_left argmax_step l (k, b, v))) = b /\ snd (fold_left argmax_step l (k, b, v)) = v) \/
   exists i, nth_error l i = Some (snd (fold_left argmax_step l (k, b, v))) /\ snd (fst (fold_left argmax_step l (k, b, v))) = k + i).
Proof.
  induction l as [|a l IH]; intros k b v; cbn [fold_left].
  - cbn [fst snd length]. rewrite Nat.add_0_r. split; auto. split; [intros ? []|]. split; [apply Qcle_refl|auto].
  - assert (argmax_step (k, b, v) a = if qltb v a then (S k, k, a) else (S k, b, v)) as -> by reflexivity.
    destruct (qltb_spec v a) as [L|L].
    + destruct (IH (S k) k a) as (I1 & I2 & I3 & I4). set (r := fold_left argmax_step l (S k, k, a)) in *. split; [rewrite I1 at 1; cbn [length]; f_equal; f_equal; lia|].
      split; [intros c [<-|Hc]; auto|]. split; [qlra|]. right. destruct I4 as [[E1 E2]|(i & E1 & E2)].
      * exists 0. split; [cbn; congruence|lia].
      * exists (S i). split; auto. lia.
    + apply Qcnot_lt_le in L. destruct (IH (S k) b v) as (I1 & I2 & I3 & I4). set (r := fold_left argmax_step l (S k, b, v)) in *. split; [rewrite I1 at 1; cbn [length]; f_equal; f_equal; lia|].
      split; [intros c [<-|Hc]; auto; qlra|]. split; auto. destruct I4 as [|(i & E1 & E2)]; auto. right. exists (S i). split; auto. lia.
Qed.
Lemma argmax_spec l k : argmax l = Ok k -> exists v, nth_error l k = Some v /\ forall a, In a l -> (a <= v)%Qc.
Proof.
  destruct l as [|a l]; [discriminate|]. intro H. injection H as <-. destruct (argmax_fold l 1 0 a) as (_ & I2 & I3 & I4). set (r := fold_left argmax_step l (1, 0, a)) in *.
  exists (snd r). split; [|intros c [<-|Hc]; auto]. destruct I4 as [[E1 E2]|(i & E1 & E2)]; rewrite E2; cbn; [now rewrite E1|auto].
Qed.
Lemma concat_nth {A} n (rows : list (list A)) : 0 < n -> Forall (fun r => length r = n) rows -> forall k,
  nth_error (concat rows) k = match nth_error rows (k / n) with Some r => nth_error r (k mod n) | None => None end.
Proof.
  intros Hn F. induction F as [|r rows Hr F IH]; intro k; cbn [concat].
  - destruct k; destruct (_ / _); reflexivity.
  - destruct (Nat.lt_ge_cases k n) as [L|L].
    + rewrite nth_error_app1 by lia. rewrite Nat.div_small, Nat.mod_small by auto. reflexivity.
    + rewrite nth_error_app2 by lia. rewrite Hr, IH. assert (exists k', k = k' + 1 * n) as [k' ->] by (exists (k - n); lia).
      rewrite Nat.div_add, Nat.mod_add by lia. replace (k' + 1 * n - n) with k' by lia. rewrite Nat.add_1_r. reflexivity.
Qed.
Lemma nth_combine_seq {A} (l : list A) : forall s i, nth_error (combine (seq s (length l)) l) i = match nth_error l i with Some a => Some (s + i, a) | None => None end.
Proof.
  induction l as [|a l IH]; intros s [|i]; cbn; auto; [now rewrite Nat.add_0_r|]. rewrite IH. destruct (nth_error l i); auto. do 2 f_equal. lia.
Qed.
Section Strongest.
Variables (m : list (list Qc)) (n : nat).
Hypothesis L : length m = n.
Hypothesis F : Forall (fun r => length r = n) m.
Lemma abs_flat_nth i j : i < n -> j < n -> nth_error (abs_flat m) (i * n + j) = Some (if Nat.eqb i j then (- (1))%Qc else qabs (get2 m i j)).
Proof using L F.
  intros Hi Hj. unfold abs_flat. set (rows := map _ _). assert (Forall (fun r => length r = n) rows) as Fr.
  { apply Forall_forall. intros r Hr. apply in_map_iff in Hr. destruct Hr as ([k r'] & <- & Hin). apply in_combine_r in Hin. rewrite Forall_forall in F. specialize (F _ Hin).
    cbn. unfold abs_row. rewrite map_length, combine_length, seq_length. lia. }
  rewrite (concat_nth n) by (auto; lia). rewrite Nat.div_add_l, Nat.div_small, Nat.add_0_r by lia.
  rewrite Nat.add_comm, Nat.mod_add, Nat.mod_small by lia. unfold rows. rewrite nth_error_map, nth_combine_seq.
  destruct (nth_error m i) as [r|] eqn:Er; [|apply nth_error_None in Er; lia]. cbn [option_map fst snd]. unfold abs_row.
  assert (length r = n) as Lr by (eapply Forall_forall in F; [exact F|eapply nth_error_In; eauto]).
  rewrite nth_error_map, nth_combine_seq. destruct (nth_error r j) as [c|] eqn:Ec; [|apply nth_error_None in Ec; lia]. cbn [option_map fst snd].
  unfold get2. rewrite (nth_error_nth _ _ _ Er), (nth_error_nth _ _ _ Ec). reflexivity.
Qed.
Lemma abs_flat_length : length (abs_flat m) = n * n.
Proof using L F.
  unfold abs_flat. rewrite <- L at 1. assert (forall s l, Forall (fun r => length r = n) l ->
    length (concat (map (fun ir => abs_row (fst ir) (snd ir)) (combine (seq s (length l)) l))) = length l * n) as G.
  { intros s l. revert s. induction l as [|r l IH]; intros s Fl; cbn [length seq combine map concat]; auto. inversion Fl; subst. rewrite app_length, IH by auto. cbn [fst snd].
    unfold abs_row. rewrite map_length, combine_length, seq_length. lia. }
  now apply G.
Qed.
Lemma strongest_spec i j : strongest m = Ok (i, j) -> i < n /\ j < n /\
  (2 <= n -> i <> j /\ forall i' j', i' < n -> j' < n -> i' <> j' -> (qabs (get2 m i' j') <= qabs (get2 m i j))%Qc).
Proof using L F.
  unfold strongest. rewrite L. intro H. apply bind_ok in H. destruct H as (k & Hk & H). injection H as Ei Ej.
  apply argmax_spec in Hk. destruct Hk as (v & Hv & M). assert (k < n * n) as Lk by (rewrite <- abs_flat_length; apply nth_error_Some; congruence).
  assert (0 < n) as Pn by (destruct n; lia). assert (i < n) as Hi by (subst i; apply Nat.div_lt_upper_bound; lia).
  assert (j = k mod n) as Ej' by (rewrite Nat.mod_eq by lia; rewrite <- Ej; rewrite Nat.mul_comm; reflexivity).
  assert (j < n) as Hj by (rewrite Ej'; apply Nat.mod_upper_bound; lia). assert (k = i * n + j) as Ek by (subst i; rewrite Ej', Nat.mul_comm; apply Nat.div_mod; lia).
  split; auto. split; auto. intro N2. rewrite Ek, abs_flat_nth in Hv by auto. injection Hv as Hv.
  assert (forall i' j', i' < n -> j' < n -> i' <> j' -> (qabs (get2 m i' j') <= v)%Qc) as B.
  { intros i' j' Hi' Hj' Ne. apply M. apply (nth_error_In _ (i' * n + j')). rewrite abs_flat_nth by auto. apply Nat.eqb_neq in Ne. now rewrite Ne. }
  destruct (Nat.eqb_spec i j) as [E|E].
  - exfalso. specialize (B 0 1 ltac:(lia) ltac:(lia) ltac:(lia)). pose proof (qabs_nonneg (get2 m 0 1)). subst v. qlra.
  - split; auto. now rewrite Hv.
Qed.
Lemma strongest_total : 0 < n -> exists ij, strongest m = Ok ij.
Proof using L F.
  intro P. unfold strongest. pose proof abs_flat_length as A. destruct (abs_flat m) as [|a l] eqn:E; [cbn in A; destruct n; lia|]. cbn. eauto.
Qed.
End Strongest.
