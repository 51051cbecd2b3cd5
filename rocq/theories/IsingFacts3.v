(** * Facts about from_ising *)
From Verif Require Export IsingFacts2.
Local Open Scope list_scope.
Local Open Scope nat_scope.

Definition zz (x : list Qc) (ij : nat * nat) : Qc := if fst ij =? snd ij then spin x (fst ij) else (spin x (fst ij) * spin x (snd ij))%Qc.
Definition in_n (n : nat) (m : matrix) : Prop := Forall (fun kv => fst (fst kv) < n /\ snd (fst kv) < n) m.
Definition upper_only (m : matrix) : Prop := forall i j, j < i -> mget m i j = 0%Qc.
(** ** Reading the terms *)
Lemma diag_code n p c x : ising_term n (p, c) -> length x = n -> pauli_diag p x = zz x (code p).
Proof.
  intros H L. pose proof (term_shape n p c H) as (X & Lp & S). destruct S as [(i & Hi & E)|(i & j & Hij & Hj & E)].
  - unfold code. rewrite E. unfold zz. cbn [fst snd]. rewrite Nat.eqb_refl. rewrite <- (diag_one n i x) by auto. f_equal.
    apply (code_inj n p c (one_z n i) c); [auto|now apply term_one|]. unfold code, one_z. cbn [fst]. now rewrite E, flagged_one.
  - unfold code. rewrite E. unfold zz. cbn [fst snd]. destruct (Nat.eqb_spec i j); [lia|]. rewrite <- (diag_two n i j x) by (auto; lia). f_equal.
    assert (ising_term n (two_z n i j, c)) as T by (apply term_two; lia). apply (code_inj n p c (two_z n i j) c); auto.
    pose proof (term_shape n _ c T) as (_ & _ & S). unfold code. rewrite E.
    assert (forall k, In k (flagged (fst (two_z n i j))) <-> k = i \/ k = j) as K.
    { intro k. rewrite flagged_in. unfold two_z. cbn [fst]. rewrite !nth_error_update, update_length, no_flags_length.
      destruct (Nat.eqb_spec j k) as [->|N1]; [destruct (Nat.ltb_spec k n); [tauto|lia]|].
      destruct (Nat.eqb_spec i k) as [->|N2]; [destruct (Nat.ltb_spec k n); [tauto|lia]|]. split; [|intros [->| ->]; congruence].
      intro Hk. assert (k < n) as Kn by (rewrite <- (no_flags_length n); apply nth_error_Some; congruence). rewrite nth_no_flags in Hk by assumption. discriminate Hk. }
    destruct S as [(k & _ & S)|(k & l & Hkl & _ & S)]; rewrite S in K |- *.
    + exfalso. assert (In i [k]) as [A|[]] by (apply K; auto). assert (In j [k]) as [B|[]] by (apply K; auto). lia.
    + assert (k = i \/ k = j) as A by (apply K; simpl; auto). assert (l = i \/ l = j) as B by (apply K; simpl; auto). f_equal; lia.
Qed.
Lemma read_term_good n m t : ising_term n t -> read_term m t = Ok (dset nat2_eqb (code (fst t)) (snd t) m).
Proof.
  destruct t as [p c]. intro H. pose proof (term_shape n p c H) as (X & _ & S). destruct p as [z xs]. cbn [fst snd] in *. subst xs.
  assert (flagged (no_flags n) = []) as F.
  { destruct (flagged (no_flags n)) as [|i l] eqn:E; auto. exfalso. assert (In i (flagged (no_flags n))) as A by (rewrite E; simpl; auto).
    apply flagged_in in A. assert (i < n) as B by (rewrite <- (no_flags_length n); apply nth_error_Some; congruence). rewrite nth_no_flags in A by assumption. discriminate A. }
  unfold read_term, code. cbn [fst snd]. destruct S as [(i & _ & E)|(i & j & _ & _ & E)]; rewrite E; cbn [bind]; now rewrite F.
Qed.
Lemma read_fold n l : good_terms n l -> NoDup (map fst l) -> forall m,
  (forall t, In t l -> ~ In (code (fst t)) (map fst m)) -> NoDup (map fst m) -> in_n n m -> upper_only m ->
  exists m', foldM read_term l m = Ok m' /\ NoDup (map fst m') /\ in_n n m' /\ upper_only m' /\
    forall x, length x = n -> dsum (zz x) m' = (dsum (zz x) m + ev x l)%Qc.
Proof.
  intro G. induction G as [|t l H G IH]; intros N m F Nm R U.
  - exists m. split; [reflexivity|]. repeat split; auto. intros. unfold ev. simpl. ring.
  - inversion N as [|? ? N1 N2]; subst. cbn [foldM]. rewrite (read_term_good n m t H). cbn [bind].
    destruct t as [p c]. cbn [fst snd] in *. pose proof (code_range n p c H) as CR. apply in_pairs in CR || idtac.
    destruct (IH N2 (dset nat2_eqb (code p) c m)) as (m' & E & A & B & C & D).
    + intros [q d] Hin K. apply (dset_keys _ nat2_eqb_sp) in K. destruct K as [K|K]; [|exact (F (q, d) (or_intror Hin) K)].
      cbn [fst] in K. apply N1. unfold good_terms in G. rewrite Forall_forall in G. rewrite <- (code_inj n q d p c (G _ Hin) H K). apply in_map_iff. exists (q, d). auto.
    + now apply (dset_nodup _ nat2_eqb_sp).
    + apply (dset_Forall _ nat2_eqb_sp); auto. cbn [fst]. rewrite (surjective_pairing (code p)) in CR. apply in_pairs in CR. exact CR.
    + intros i j Hij. unfold mget. rewrite (dgetq_dset _ nat2_eqb_sp). destruct (nat2_eqb_sp (i, j) (code p)) as [K|_]; [|now apply U].
      exfalso. pose proof (term_shape n p c H) as (_ & _ & S). unfold code in K. destruct S as [(k & _ & S)|(k & l' & Hk & _ & S)]; rewrite S in K; injection K as -> ->; lia.
    + exists m'. split; [exact E|]. split; auto. split; auto. split; auto. intros x Lx. rewrite (D x Lx).
      rewrite (dsum_dset _ nat2_eqb_sp), (dgetq_notin _ nat2_eqb_sp) by exact (F (p, c) (or_introl eq_refl)).
      unfold ev. cbn [sumof fst snd]. rewrite <- (diag_code n p c x H Lx). ring.
Qed.

(** ** The two loops *)
Definition pot (x : list Qc) (st : from_state) : Qc :=
  (fr_off st + dsum (zz x) (fr_m st) + dsum (at_ x) (fr_lin st) + dsum (xx x) (fr_quad st))%Qc.
Lemma mget_dadd m k v i j : mget (dadd nat2_eqb k v m) i j = if nat2_eqb (i, j) k then (mget m (fst k) (snd k) + v)%Qc else mget m i j.
Proof. unfold mget, dadd. rewrite (dgetq_dset _ nat2_eqb_sp), <- surjective_pairing. reflexivity. Qed.
Lemma dadd_in_n n k v m : fst k < n -> snd k < n -> in_n n m -> in_n n (dadd nat2_eqb k v m).
Proof. intros. unfold dadd. apply (dset_Forall _ nat2_eqb_sp); auto. Qed.
Lemma pair_fold n x L : NoDup L -> (forall i j, In (i, j) L -> i < n /\ j < n) -> forall st,
  (forall i j, In (i, j) L -> i < j -> ~ In (i, j) (map fst (fr_quad st))) -> NoDup (map fst (fr_quad st)) -> NoDup (map fst (fr_m st)) -> in_n n (fr_m st) ->
  in_n n (fr_quad st) -> Forall (fun kv => fst (fst kv) < snd (fst kv)) (fr_quad st) ->
  let st' := fold_left from_pair L st in
  pot x st' = pot x st /\ fr_lin st' = fr_lin st /\ NoDup (map fst (fr_quad st')) /\ NoDup (map fst (fr_m st')) /\ in_n n (fr_m st') /\ in_n n (fr_quad st') /\
  Forall (fun kv => fst (fst kv) < snd (fst kv)) (fr_quad st') /\
  (forall i j, In (i, j) L -> i < j -> mget (fr_m st') i j = 0%Qc) /\
  (forall i j, i <> j -> mget (fr_m st) i j = 0%Qc -> mget (fr_m st') i j = 0%Qc).
Proof.
  intro N. induction N as [|[a b] L Hn N IH]; intros R st F Nq Nm Rm Rq U; cbv zeta.
  - cbn [fold_left]. split; [reflexivity|]. split; [reflexivity|]. split; auto. split; auto. split; auto. split; auto. split; auto. split; [intros i j []|auto].
  - cbn [fold_left]. destruct (R a b (or_introl eq_refl)) as [Ra Rb].
    assert (forall i j, In (i, j) L -> i < n /\ j < n) as R' by (intros; apply R; simpl; auto).
    destruct (Nat.leb_spec b a) as [Hba|Hab].
    + assert (from_pair st (a, b) = st) as -> by (unfold from_pair; destruct (Nat.leb_spec b a); [reflexivity|lia]).
      specialize (IH R' st). cbv zeta in IH. destruct IH as (I1 & I2 & I3 & I4 & I5 & I6 & I7 & I8 & I9); auto.
      { intros i j Hin. apply F. simpl. auto. }
      split; auto. split; auto. split; auto. split; auto. split; auto. split; auto. split; auto. split; auto.
      intros i j [E|Hin] Hij; [|auto]. injection E as -> ->. lia.
    + set (st1 := from_pair st (a, b)). assert (fr_quad st1 = dset nat2_eqb (a, b) (mget (fr_m st) a b * qz 4)%Qc (fr_quad st)) as Eq.
      { unfold st1, from_pair. destruct (Nat.leb_spec b a); [lia|reflexivity]. }
      assert (fr_lin st1 = fr_lin st) as El by (unfold st1, from_pair; destruct (Nat.leb_spec b a); reflexivity).
      assert (fr_off st1 = (fr_off st - mget (fr_m st) a b)%Qc) as Eo by (unfold st1, from_pair; destruct (Nat.leb_spec b a); [lia|reflexivity]).
      assert (fr_m st1 = dadd nat2_eqb (b, b) (mget (fr_m st) a b) (dadd nat2_eqb (a, a) (mget (fr_m st) a b) (dadd nat2_eqb (a, b) (- mget (fr_m st) a b)%Qc (fr_m st)))) as Em.
      { unfold st1, from_pair. destruct (Nat.leb_spec b a); [lia|reflexivity]. }
      assert (forall i j, i <> j -> mget (fr_m st1) i j = if nat2_eqb (i, j) (a, b) then 0%Qc else mget (fr_m st) i j) as Mg.
      { intros i j Hij. rewrite Em, !mget_dadd. destruct (nat2_eqb_sp (i, j) (b, b)) as [E|_]; [injection E; lia|].
        destruct (nat2_eqb_sp (i, j) (a, a)) as [E|_]; [injection E; lia|]. destruct (nat2_eqb (i, j) (a, b)); auto. cbn [fst snd]. ring. }
      specialize (IH R' st1). cbv zeta in IH. rewrite Eq, El in IH. destruct IH as (I1 & I2 & I3 & I4 & I5 & I6 & I7 & I8 & I9).
      * intros i j Hin Hij K. apply (dset_keys _ nat2_eqb_sp) in K. destruct K as [K|K].
        -- injection K as -> ->. contradiction.
        -- exact (F i j (or_intror Hin) Hij K).
      * now apply (dset_nodup _ nat2_eqb_sp).
      * rewrite Em. do 3 apply (dadd_nodup _ nat2_eqb_sp). assumption.
      * rewrite Em. do 3 (apply dadd_in_n; [assumption|assumption|]). assumption.
      * apply (dset_Forall _ nat2_eqb_sp); auto.
      * apply (dset_Forall _ nat2_eqb_sp); auto.
      * split.
        { rewrite I1. unfold pot. rewrite Eq, El, Eo, Em. rewrite !(dsum_dadd _ nat2_eqb_sp), (dsum_dset _ nat2_eqb_sp).
          rewrite (dgetq_notin _ nat2_eqb_sp) by (apply F; [simpl; auto|assumption]). unfold zz at 2 3 4. cbn [fst snd]. rewrite !Nat.eqb_refl.
          destruct (Nat.eqb_spec a b); [lia|]. unfold xx at 2. cbn [fst snd]. unfold spin. rewrite qz4_2. change (qz 2) with (1 + 1)%Qc. ring. }
        split; auto. split; auto. split; auto. split; auto. split; auto. split; auto. split.
        -- intros i j [E|Hin] Hij; [|auto]. injection E as <- <-. apply I9; [lia|]. rewrite Mg by lia. destruct (nat2_eqb_sp (a, b) (a, b)); [reflexivity|congruence].
        -- intros i j Hij Z. apply I9; auto. rewrite Mg by assumption. now destruct (nat2_eqb (i, j) (a, b)).
Qed.
Lemma diag_fold n x linear L : bits n x -> NoDup L -> (forall i, In i L -> i < n) -> forall st,
  (forall i, In i L -> ~ In i (map fst (fr_lin st)) /\ ~ In (i, i) (map fst (fr_quad st))) ->
  NoDup (map fst (fr_quad st)) -> NoDup (map fst (fr_lin st)) -> NoDup (map fst (fr_m st)) -> in_n n (fr_m st) ->
  in_n n (fr_quad st) -> Forall (fun kv => fst kv < n) (fr_lin st) ->
  let st' := fold_left (from_diag linear) L st in
  pot x st' = pot x st /\ NoDup (map fst (fr_quad st')) /\ NoDup (map fst (fr_lin st')) /\ NoDup (map fst (fr_m st')) /\ in_n n (fr_m st') /\
  in_n n (fr_quad st') /\ Forall (fun kv => fst kv < n) (fr_lin st') /\
  (forall i, In i L -> mget (fr_m st') i i = 0%Qc) /\
  (forall i j, mget (fr_m st) i j = 0%Qc -> mget (fr_m st') i j = 0%Qc).
Proof.
  intros X N. induction N as [|a L Hn N IH]; intros R st F Nq Nl Nm Rm Rq Rl; cbv zeta.
  - cbn [fold_left]. split; [reflexivity|]. split; auto. split; auto. split; auto. split; auto. split; auto. split; auto. split; [intros i []|auto].
  - cbn [fold_left]. assert (a < n) as Ra by (apply R; simpl; auto).
    assert (forall i, In i L -> i < n) as R' by (intros; apply R; simpl; auto).
    destruct (F a (or_introl eq_refl)) as [F1 F2]. set (st1 := from_diag linear st a).
    assert (forall i j, mget (fr_m st1) i j = if nat2_eqb (i, j) (a, a) then 0%Qc else mget (fr_m st) i j) as Mg.
    { intros i j. unfold st1, from_diag. cbn [fr_m]. rewrite mget_dadd. destruct (nat2_eqb (i, j) (a, a)); auto. cbn [fst snd]. ring. }
    specialize (IH R' st1). cbv zeta in IH. destruct IH as (I1 & I2 & I3 & I4 & I5 & I6 & I7 & I8 & I9).
    + intros i Hin. destruct (F i (or_intror Hin)) as [A B]. unfold st1, from_diag. cbn [fr_lin fr_quad]. destruct linear; split; auto.
      * intro K. apply (dset_keys _ nat_eqb_sp) in K. destruct K as [->|K]; contradiction.
      * intro K. apply (dset_keys _ nat2_eqb_sp) in K. destruct K as [K|K]; [|contradiction]. injection K as ->. contradiction.
    + unfold st1, from_diag. cbn [fr_quad]. destruct linear; auto. now apply (dset_nodup _ nat2_eqb_sp).
    + unfold st1, from_diag. cbn [fr_lin]. destruct linear; auto. now apply (dset_nodup _ nat_eqb_sp).
    + unfold st1, from_diag. cbn [fr_m]. now apply (dadd_nodup _ nat2_eqb_sp).
    + unfold st1, from_diag. cbn [fr_m]. now apply dadd_in_n.
    + unfold st1, from_diag. cbn [fr_quad]. destruct linear; auto. apply (dset_Forall _ nat2_eqb_sp); auto.
    + unfold st1, from_diag. cbn [fr_lin]. destruct linear; auto. apply (dset_Forall _ nat_eqb_sp); auto.
    + split.
      { rewrite I1. unfold pot, st1, from_diag. cbn [fr_m fr_lin fr_quad fr_off]. rewrite (dsum_dadd _ nat2_eqb_sp).
        destruct linear.
        - rewrite (dsum_dset _ nat_eqb_sp), (dgetq_notin _ nat_eqb_sp) by assumption. unfold zz at 2. cbn [fst snd]. rewrite Nat.eqb_refl. unfold spin. ring.
        - rewrite (dsum_dset _ nat2_eqb_sp), (dgetq_notin _ nat2_eqb_sp) by assumption. unfold zz at 2, xx at 2. cbn [fst snd]. rewrite Nat.eqb_refl.
          rewrite (bits_sq n x a X). unfold spin. ring. }
      split; auto. split; auto. split; auto. split; auto. split; auto. split; auto. split.
      * intros i [<-|Hin]; [|auto]. apply I9. rewrite Mg. destruct (nat2_eqb_sp (a, a) (a, a)); [reflexivity|congruence].
      * intros i j Z. apply I9. rewrite Mg. now destruct (nat2_eqb (i, j) (a, a)).
Qed.
Lemma from_terms_spec n linear m off x : bits n x -> NoDup (map fst m) -> in_n n m -> upper_only m ->
  let st := from_terms n linear m off in
  NoDup (map fst (fr_lin st)) /\ NoDup (map fst (fr_quad st)) /\ Forall (fun kv => fst kv < n) (fr_lin st) /\ in_n n (fr_quad st) /\
  (fr_off st + dsum (at_ x) (fr_lin st) + dsum (xx x) (fr_quad st) = off + dsum (zz x) m)%Qc.
Proof.
  intros X Nm R U. cbv zeta. unfold from_terms. change (row_major n) with (pairs n).
  pose proof (pair_fold n x (pairs n) (pairs_nodup n)) as P. assert (forall i j, In (i, j) (pairs n) -> i < n /\ j < n) as Pr by (intros i j; apply in_pairs).
  specialize (P Pr (mkFrom m [] [] off)). cbv zeta in P. cbn [fr_m fr_lin fr_quad fr_off map] in P.
  destruct P as (P1 & P2 & P3 & P4 & P5 & P6 & P7 & P8 & P9); auto; try (now constructor).
  set (st1 := fold_left from_pair (pairs n) (mkFrom m [] [] off)) in *.
  pose proof (diag_fold n x linear (seq 0 n) X (seq_NoDup n 0)) as D. assert (forall i, In i (seq 0 n) -> i < n) as Dr by (intros i Hi; apply in_seq in Hi; lia).
  specialize (D Dr st1). cbv zeta in D. destruct D as (D1 & D2 & D3 & D4 & D5 & D6 & D7 & D8 & D9); auto.
  - intros i Hi. rewrite P2. split; [intros []|]. intro K. apply in_map_iff in K. destruct K as ([[a b] v] & E & K). rewrite Forall_forall in P7. apply P7 in K. simpl in *. injection E as -> ->. lia.
  - rewrite P2. constructor.
  - rewrite P2. constructor.
  - split; [exact D3|]. split; [exact D2|]. split; [exact D7|]. split; [exact D6|].
    rewrite P1 in D1. unfold pot in D1 at 2. cbn [fr_m fr_lin fr_quad fr_off] in D1. rewrite !dsum_nil in D1.
    set (st2 := fold_left (from_diag linear) (seq 0 n) st1) in *. unfold pot in D1.
    assert (dsum (zz x) (fr_m st2) = 0%Qc) as Z.
    { rewrite (dsum_keys _ nat2_eqb_sp _ _ (pairs n)); auto using pairs_nodup.
      - apply sumof_zero. intros [i j] Hin. apply in_pairs in Hin. enough (dgetq nat2_eqb (i, j) (fr_m st2) = 0%Qc) as -> by ring.
        change (mget (fr_m st2) i j = 0%Qc). destruct (Nat.lt_trichotomy i j) as [H|[H|H]].
        + apply D9, P8; auto. now apply in_pairs.
        + subst j. apply D8. apply in_seq. lia.
        + apply D9, P9; [lia|]. now apply U.
      - intros k Hk. apply in_map_iff in Hk. destruct Hk as ([[i j] v] & <- & Hk). unfold in_n in D5. rewrite Forall_forall in D5. apply D5 in Hk. now apply in_pairs. }
    rewrite Z in D1. revert D1. generalize (fr_off st2) (dsum (at_ x) (fr_lin st2)) (dsum (xx x) (fr_quad st2)). intros a b c D1.
    transitivity (a + 0 + b + c)%Qc; [ring|]. rewrite D1. ring.
Qed.
Lemma diag_shape linear L : forall st, let st' := fold_left (from_diag linear) L st in
  (linear = true -> fr_quad st' = fr_quad st) /\ (linear = false -> fr_lin st' = fr_lin st).
Proof.
  induction L as [|a L IH]; intro st; cbv zeta; [auto|]. cbn [fold_left]. destruct (IH (from_diag linear st a)) as [A B].
  split; intro E; rewrite ?A, ?B by assumption; unfold from_diag; cbn [fr_quad fr_lin]; rewrite E; reflexivity.
Qed.
Lemma from_terms_shape n linear m off : NoDup (map fst m) -> in_n n m ->
  let st := from_terms n linear m off in
  (linear = true -> Forall (fun kv => fst (fst kv) < snd (fst kv)) (fr_quad st)) /\ (linear = false -> fr_lin st = []).
Proof.
  intros Nm R. cbv zeta. unfold from_terms. change (row_major n) with (pairs n).
  pose proof (pair_fold n [] (pairs n) (pairs_nodup n)) as P. assert (forall i j, In (i, j) (pairs n) -> i < n /\ j < n) as Pr by (intros i j; apply in_pairs).
  specialize (P Pr (mkFrom m [] [] off)). cbv zeta in P. cbn [fr_m fr_lin fr_quad fr_off map] in P.
  destruct P as (P1 & P2 & P3 & P4 & P5 & P6 & P7 & P8 & P9); auto; try (now constructor).
  destruct (diag_shape linear (seq 0 n) (fold_left from_pair (pairs n) (mkFrom m [] [] off))) as [A B].
  split; intro E; [rewrite A|rewrite B]; auto.
Qed.
(** Reading one coefficient off a form *)
Definition unit_at (n i : nat) : list Qc := update i 1%Qc (repeat 0%Qc n).
Lemma unit_get n i k : i < n -> at_ (unit_at n i) k = if k =? i then 1%Qc else 0%Qc.
Proof.
  intro H. unfold unit_at, at_. rewrite nth_update by (rewrite repeat_length; assumption). destruct (Nat.eqb_spec i k) as [->|N].
  - now rewrite Nat.eqb_refl.
  - destruct (Nat.eqb_spec k i); [lia|]. destruct (nth_in_or_default k (repeat 0%Qc n) 0%Qc) as [K| ->]; auto. now apply repeat_spec in K.
Qed.
Lemma unit_length n i : length (unit_at n i) = n.
Proof. unfold unit_at. rewrite update_length. apply repeat_length. Qed.
Lemma lin_at_unit e n i : i < n -> lin_at e (unit_at n i) = coef1 e i.
Proof.
  intro H. unfold lin_at. rewrite unit_length. erewrite sumof_ext.
  - apply (sumof_seq_pick (coef1 e) n i H).
  - intros k _. rewrite unit_get by assumption. simpl. destruct (k =? i); ring.
Qed.
Lemma quad_at_unit e n i : i < n -> quad_at e (unit_at n i) = coef2 e i i.
Proof.
  intro H. unfold quad_at. rewrite unit_length. transitivity (sumof (fun a => if a =? i then coef2 e a i else 0%Qc) (seq 0 n)).
  - apply sumof_ext. intros a _. rewrite unit_get by assumption. destruct (a =? i).
    + rewrite <- (sumof_seq_pick (coef2 e a) n i H). apply sumof_ext. intros b _. rewrite unit_get by assumption. destruct (b =? i); ring.
    + apply sumof_zero. intros b _. ring.
  - apply (sumof_seq_pick (fun a => coef2 e a i) n i H).
Qed.
