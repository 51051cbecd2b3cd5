(** * Facts about the Python layer *)
From Verif Require Export Py NumFacts.
From Coq Require Import Permutation.
Local Open Scope nat_scope.

(** ** result *)
Lemma bind_ok {A B} (r : result A) (f : A -> result B) b :
  bind r f = Ok b -> exists a, r = Ok a /\ f a = Ok b.
Proof. destruct r; simpl; [eauto|discriminate]. Qed.
Lemma bind_err {A B} (r : result A) (f : A -> result B) e :
  bind r f = Err e -> r = Err e \/ exists a, r = Ok a /\ f a = Err e.
Proof. destruct r; simpl; [eauto|intros [=]; subst; auto]. Qed.

Ltac inv_ok :=
  repeat match goal with
  | H : bind _ _ = Ok _ |- _ => apply bind_ok in H; destruct H as (? & ? & ?)
  | H : Ok _ = Ok _ |- _ => injection H; clear H; intros; subst
  | H : Err _ = Ok _ |- _ => discriminate H
  | H : Ok _ = Err _ |- _ => discriminate H
  | H : (_, _) = (_, _) |- _ => injection H; clear H; intros; subst
  end.

Lemma mapM_ok {A B} (f : A -> result B) l bs :
  mapM f l = Ok bs -> Forall2 (fun a b => f a = Ok b) l bs.
Proof.
  revert bs; induction l as [|a l IH]; simpl; intros bs H; inv_ok; auto.
Qed.
Lemma mapM_length {A B} (f : A -> result B) l bs : mapM f l = Ok bs -> length bs = length l.
Proof. intro H. apply mapM_ok in H. induction H; simpl; congruence. Qed.

Lemma foldM_app {A S} (f : S -> A -> result S) l1 l2 s :
  foldM f (l1 ++ l2) s = bind (foldM f l1 s) (foldM f l2).
Proof.
  revert s; induction l1 as [|a l1 IH]; simpl; intros s; [reflexivity|].
  destruct (f s a); simpl; auto.
Qed.
Lemma foldM_inv {A S} (P : S -> Prop) (f : S -> A -> result S) l :
  (forall s a s', In a l -> P s -> f s a = Ok s' -> P s') ->
  forall s s', P s -> foldM f l s = Ok s' -> P s'.
Proof.
  induction l as [|a l IH]; simpl; intros H s s' Hs E; inv_ok; [assumption|].
  eapply IH; [intros; eapply H; eauto | eapply H; eauto | eassumption].
Qed.

(** ** Boolean equalities *)
Lemma nat_eqb_sp : forall a b : nat, reflect (a = b) (Nat.eqb a b).
Proof. exact Nat.eqb_spec. Qed.
Lemma str_eqb_sp : forall a b : string, reflect (a = b) (String.eqb a b).
Proof. exact String.eqb_spec. Qed.
Lemma nat2_eqb_sp : forall a b : nat * nat, reflect (a = b) (nat2_eqb a b).
Proof.
  intros [a1 a2] [b1 b2]. unfold nat2_eqb; simpl.
  destruct (Nat.eqb_spec a1 b1), (Nat.eqb_spec a2 b2); simpl; constructor; congruence.
Qed.
Lemma str2_eqb_sp : forall a b : string * string, reflect (a = b) (str2_eqb a b).
Proof.
  intros [a1 a2] [b1 b2]. unfold str2_eqb; simpl.
  destruct (String.eqb_spec a1 b1), (String.eqb_spec a2 b2); simpl; constructor; congruence.
Qed.

(** ** Dictionaries *)
Section Dict.
Context {K V : Type} (eqb : K -> K -> bool) (sp : forall a b, reflect (a = b) (eqb a b)).
Implicit Types (d : list (K * V)).

Lemma dget_dset_same k v d : dget eqb k (dset eqb k v d) = Some v.
Proof.
  induction d as [|[k' v'] d IH]; simpl.
  - destruct (sp k k); congruence.
  - destruct (sp k k'); simpl; [destruct (sp k k'); congruence|].
    destruct (sp k k'); [congruence|exact IH].
Qed.
Lemma dget_dset_other k k' v d : k <> k' -> dget eqb k (dset eqb k' v d) = dget eqb k d.
Proof.
  intro Hne. induction d as [|[k0 v0] d IH]; simpl.
  - destruct (sp k k'); congruence.
  - destruct (sp k' k0); simpl.
    + subst k0. destruct (sp k k'); congruence.
    + destruct (sp k k0); auto.
Qed.
Lemma dget_dset k k' v d : dget eqb k (dset eqb k' v d) = if eqb k k' then Some v else dget eqb k d.
Proof. destruct (sp k k'); [subst; apply dget_dset_same | now apply dget_dset_other]. Qed.

Lemma dget_in k v d : dget eqb k d = Some v -> In (k, v) d.
Proof.
  induction d as [|[k' v'] d IH]; simpl; [discriminate|].
  destruct (sp k k'); [intros [=]; subst; auto|auto].
Qed.
Lemma dget_none k d : dget eqb k d = None <-> ~ In k (map fst d).
Proof.
  induction d as [|[k' v'] d IH]; simpl; [tauto|].
  destruct (sp k k'); [split; [discriminate|intros H; exfalso; auto]|].
  rewrite IH. split; [intros H [?|?]; [congruence|auto] | tauto].
Qed.
Lemma in_dget k v d : NoDup (map fst d) -> In (k, v) d -> dget eqb k d = Some v.
Proof.
  induction d as [|[k' v'] d IH]; simpl; [tauto|]. intros Hnd [H|H].
  - injection H; intros; subst. destruct (sp k k); congruence.
  - inversion Hnd; subst. destruct (sp k k').
    + subst. exfalso. apply H2. apply in_map_iff. now exists (k', v).
    + now apply IH.
Qed.
Lemma dhas_in k d : dhas eqb k d = true <-> In k (map fst d).
Proof.
  unfold dhas. destruct (dget eqb k d) eqn:E.
  - split; auto. intros _. apply dget_in in E. apply in_map_iff. now exists (k, v).
  - apply dget_none in E. split; [discriminate|tauto].
Qed.
Lemma dhas_false k d : dhas eqb k d = false <-> ~ In k (map fst d).
Proof. rewrite <- dhas_in. destruct (dhas eqb k d); split; congruence. Qed.

Lemma dset_keys k v d : forall k', In k' (map fst (dset eqb k v d)) <-> k' = k \/ In k' (map fst d).
Proof.
  intro k'. induction d as [|[k0 v0] d IH]; simpl; [intuition congruence|].
  destruct (sp k k0); simpl; [subst; intuition congruence|]. rewrite IH. intuition congruence.
Qed.
Lemma dset_nodup k v d : NoDup (map fst d) -> NoDup (map fst (dset eqb k v d)).
Proof.
  induction d as [|[k0 v0] d IH]; simpl; intro H.
  - constructor; auto.
  - inversion H; subst. destruct (sp k k0); simpl; constructor; auto.
    rewrite dset_keys. intros [?|?]; [congruence|contradiction].
Qed.
Lemma dset_fresh k v d : ~ In k (map fst d) -> dset eqb k v d = d ++ [(k, v)].
Proof.
  induction d as [|[k0 v0] d IH]; simpl; intro H; [reflexivity|].
  destruct (sp k k0); [subst; exfalso; auto|]. rewrite IH; auto.
Qed.
Lemma dset_Forall (P : K * V -> Prop) k v d : P (k, v) -> Forall P d -> Forall P (dset eqb k v d).
Proof.
  intros Hkv. induction 1 as [|[k0 v0] d H0 H IH]; simpl; [auto|].
  destruct (sp k k0); [subst; auto|auto].
Qed.
Lemma drem_Forall (P : K * V -> Prop) k d : Forall P d -> Forall P (drem eqb k d).
Proof.
  induction 1 as [|[k0 v0] d H0 H IH]; simpl; [auto|]. destruct (sp k k0); auto.
Qed.
Lemma drem_incl k d : incl (drem eqb k d) d.
Proof.
  induction d as [|[k0 v0] d IH]; simpl; [apply incl_refl|].
  destruct (sp k k0); [apply incl_tl, incl_refl|]. apply incl_cons; [left; auto|]. now apply incl_tl.
Qed.
Lemma drem_nodup k d : NoDup (map fst d) -> NoDup (map fst (drem eqb k d)).
Proof.
  induction d as [|[k0 v0] d IH]; simpl; intro H; [constructor|].
  inversion H; subst. destruct (sp k k0); simpl; [assumption|]. constructor; auto.
  intro Hin. apply H2. apply in_map_iff in Hin. destruct Hin as ([a b] & Ha & Hb). simpl in Ha. subst.
  apply drem_incl in Hb. apply in_map_iff. now exists (k0, b).
Qed.
Lemma dget_drem_same k d : NoDup (map fst d) -> dget eqb k (drem eqb k d) = None.
Proof.
  induction d as [|[k0 v0] d IH]; simpl; intro H; [reflexivity|].
  inversion H; subst. destruct (sp k k0); simpl.
  - subst. now apply dget_none.
  - destruct (sp k k0); [congruence|auto].
Qed.
Lemma dget_drem_other k k' d : k <> k' -> dget eqb k (drem eqb k' d) = dget eqb k d.
Proof.
  intro Hne. induction d as [|[k0 v0] d IH]; simpl; [reflexivity|].
  destruct (sp k' k0); simpl.
  - subst. destruct (sp k k0); congruence.
  - destruct (sp k k0); auto.
Qed.
End Dict.

(** Numeric dictionaries: sums over items. *)
Section QDict.
Context {K : Type} (eqb : K -> K -> bool) (sp : forall a b, reflect (a = b) (eqb a b)).
Implicit Types (d : list (K * Qc)).
Local Open Scope Qc_scope.

Definition dsum (f : K -> Qc) (d : list (K * Qc)) : Qc := sumof (fun kv => snd kv * f (fst kv)) d.

Lemma dsum_nil f : dsum f [] = 0. Proof. reflexivity. Qed.
Lemma dsum_cons f k v d : dsum f ((k, v) :: d) = v * f k + dsum f d. Proof. reflexivity. Qed.
Lemma dsum_app f d1 d2 : dsum f (d1 ++ d2) = dsum f d1 + dsum f d2.
Proof. apply sumof_app. Qed.
Lemma dsum_ext f g d : (forall k v, In (k, v) d -> f k = g k) -> dsum f d = dsum g d.
Proof. intro H. apply sumof_ext. intros [k v] Hin. simpl. now rewrite (H k v Hin). Qed.

Lemma dsum_dset f k v d : dsum f (dset eqb k v d) = dsum f d + (v - dgetq eqb k d) * f k.
Proof.
  induction d as [|[k0 v0] d IH]; unfold dgetq; simpl.
  - unfold dsum; simpl. ring.
  - destruct (sp k k0); rewrite !dsum_cons.
    + subst. ring.
    + rewrite IH. unfold dgetq. ring.
Qed.
Lemma dsum_dadd f k v d : dsum f (dadd eqb k v d) = dsum f d + v * f k.
Proof. unfold dadd. rewrite dsum_dset. ring. Qed.
Lemma dsum_drem f k d : dsum f (drem eqb k d) = dsum f d - dgetq eqb k d * f k.
Proof.
  induction d as [|[k0 v0] d IH]; unfold dgetq; simpl.
  - unfold dsum; simpl. ring.
  - destruct (sp k k0); rewrite !dsum_cons.
    + subst. ring.
    + rewrite IH. unfold dgetq. ring.
Qed.
Lemma dsum_filter_nz f d : dsum f (filter (fun kv => negb (qeqb (snd kv) 0)) d) = dsum f d.
Proof.
  unfold dsum. rewrite sumof_filter. apply sumof_ext. intros [k v] _. simpl.
  destruct (qeqb_spec v 0); simpl; [subst; ring|reflexivity].
Qed.
Lemma dsum_scale f c d : dsum f (map (fun kv => (fst kv, c * snd kv)) d) = c * dsum f d.
Proof. unfold dsum. rewrite sumof_map, <- sumof_scale. apply sumof_ext. intros [k v] _. simpl. ring. Qed.

Lemma dgetq_dset k k' v d : dgetq eqb k (dset eqb k' v d) = if eqb k k' then v else dgetq eqb k d.
Proof. unfold dgetq. rewrite (dget_dset eqb sp). destruct (eqb k k'); reflexivity. Qed.
Lemma dgetq_notin k d : ~ In k (map fst d) -> dgetq eqb k d = 0.
Proof. intro H. apply (dget_none eqb sp) in H. unfold dgetq. now rewrite H. Qed.
Lemma dgetq_drem k k' d : NoDup (map fst d) -> dgetq eqb k (drem eqb k' d) = if eqb k k' then 0 else dgetq eqb k d.
Proof.
  intro H. unfold dgetq. destruct (sp k k').
  - subst. now rewrite (dget_drem_same eqb sp).
  - now rewrite (dget_drem_other eqb sp).
Qed.

(** A sum over items is a sum over any list of keys that covers the dictionary. *)
Lemma dsum_keys f d ks :
  NoDup (map fst d) -> NoDup ks -> incl (map fst d) ks ->
  dsum f d = sumof (fun k => dgetq eqb k d * f k) ks.
Proof.
  revert d. induction ks as [|k ks IH]; intros d Hd Hks Hin.
  - destruct d as [|[k v] d]; [reflexivity|]. exfalso. apply (Hin k). now left.
  - inversion Hks; subst. simpl.
    rewrite (sumof_ext (fun k0 => dgetq eqb k0 d * f k0) (fun k0 => dgetq eqb k0 (drem eqb k d) * f k0)).
    + rewrite <- IH.
      * rewrite dsum_drem. ring.
      * now apply (drem_nodup eqb sp).
      * assumption.
      * intros k' Hk'. apply in_map_iff in Hk'. destruct Hk' as ([a b] & <- & Hab). simpl.
        assert (In (a, b) d) by (eapply (drem_incl eqb sp); eauto).
        assert (In a (map fst d)) by (apply in_map_iff; now exists (a, b)).
        apply Hin in H0. destruct H0; [|assumption]. subst a. exfalso.
        pose proof (dget_drem_same eqb sp k d Hd) as Hn. apply (dget_none eqb sp) in Hn. apply Hn.
        apply in_map_iff. now exists (k, b).
    + intros k' Hk'. rewrite dgetq_drem by assumption. destruct (sp k' k); [subst; contradiction|reflexivity].
Qed.
End QDict.

(** ** List operations *)
Lemma py_index_some n z i : py_index n z = Some i -> i < n /\ (z = Z.of_nat i \/ z = Z.of_nat i - Z.of_nat n)%Z.
Proof.
  unfold py_index. destruct (Z.leb_spec 0 z).
  - destruct (Z.ltb_spec z (Z.of_nat n)); [intros [=]; subst|discriminate]. lia.
  - destruct (Z.leb_spec (- Z.of_nat n) z); [intros [=]; subst|discriminate]. lia.
Qed.
Lemma py_index_nat n i : i < n -> py_index n (Z.of_nat i) = Some i.
Proof.
  intro H. unfold py_index. destruct (Z.leb_spec 0 (Z.of_nat i)); [|lia].
  destruct (Z.ltb_spec (Z.of_nat i) (Z.of_nat n)); [|lia]. now rewrite Nat2Z.id.
Qed.
Lemma py_nth_out {A} (l : list A) z : (z < - Z.of_nat (length l) \/ Z.of_nat (length l) <= z)%Z -> py_nth l z = Err IndexError.
Proof. intro H. unfold py_nth, py_index. destruct (Z.leb_spec 0 z); [destruct (Z.ltb_spec z (Z.of_nat (length l))); [lia|reflexivity]|destruct (Z.leb_spec (- Z.of_nat (length l)) z); [lia|reflexivity]]. Qed.
Lemma py_nth_in {A} (l : list A) z i a : nth_error l i = Some a -> z = Z.of_nat i \/ (z = Z.of_nat i - Z.of_nat (length l))%Z -> py_nth l z = Ok a.
Proof.
  intros N H. assert (i < length l) as L by (apply nth_error_Some; congruence). unfold py_nth, py_index. destruct (Z.leb_spec 0 z).
  - destruct (Z.ltb_spec z (Z.of_nat (length l))); [|lia]. replace (Z.to_nat z) with i by lia. now rewrite N.
  - destruct (Z.leb_spec (- Z.of_nat (length l)) z); [|lia]. replace (Z.to_nat (Z.of_nat (length l) + z)) with i by lia. now rewrite N.
Qed.
Lemma py_index_none n i : n <= i -> py_index n (Z.of_nat i) = None.
Proof.
  intro H. unfold py_index. destruct (Z.leb_spec 0 (Z.of_nat i)); [|lia].
  destruct (Z.ltb_spec (Z.of_nat i) (Z.of_nat n)); [lia|reflexivity].
Qed.

Lemma update_length {A} i (a : A) l : length (update i a l) = length l.
Proof. revert i; induction l as [|b l IH]; intros [|i]; simpl; auto. Qed.
Lemma nth_error_update {A} i j (a : A) l :
  nth_error (update i a l) j = if Nat.eqb i j then (if i <? length l then Some a else None) else nth_error l j.
Proof.
  revert i j; induction l as [|b l IH]; intros i j.
  - destruct i, j; simpl; auto. destruct (i =? j); auto.
  - destruct i, j; simpl; auto. rewrite IH. destruct (i =? j); auto.
Qed.
Lemma nth_update {A} i j (a d : A) l :
  i < length l -> nth j (update i a l) d = if Nat.eqb i j then a else nth j l d.
Proof.
  revert i j; induction l as [|b l IH]; intros i j H; simpl in H; [lia|].
  destruct i, j; simpl; auto. apply IH. lia.
Qed.
Lemma update_map {A B} (f : A -> B) i a l : map f (update i a l) = update i (f a) (map f l).
Proof. revert i; induction l as [|b l IH]; intros [|i]; simpl; auto. now rewrite IH. Qed.
Lemma update_same {A} i (a : A) l : nth_error l i = Some a -> update i a l = l.
Proof.
  revert i; induction l as [|b l IH]; intros [|i]; simpl; try discriminate; intro H.
  - congruence.
  - now rewrite IH.
Qed.
Lemma Forall_update {A} (P : A -> Prop) i a l : P a -> Forall P l -> Forall P (update i a l).
Proof. intros Ha H. revert i; induction H as [|b l Hb H IH]; intros [|i]; simpl; auto. Qed.
Lemma in_update {A} i (a b : A) l : In b (update i a l) -> b = a \/ In b l.
Proof. revert i; induction l as [|c l IH]; intros [|i]; simpl; auto; intros [?|H]; auto. apply IH in H. tauto. Qed.

Lemma delete_at_app {A} i (l : list A) : i < length l -> delete_at i l = firstn i l ++ skipn (S i) l.
Proof.
  revert i; induction l as [|b l IH]; intros [|i] H; simpl in *; try lia; auto. rewrite IH by lia. reflexivity.
Qed.
Lemma delete_at_in {A} i (a : A) l : In a (delete_at i l) -> In a l.
Proof. revert i; induction l as [|b l IH]; intros [|i]; simpl; auto. intros [?|H]; eauto. Qed.
Lemma delete_at_length {A} i (l : list A) : i < length l -> S (length (delete_at i l)) = length l.
Proof. revert i; induction l as [|b l IH]; intros [|i] H; simpl in *; try lia. f_equal. apply IH. lia. Qed.
Lemma delete_at_map {A B} (f : A -> B) i l : map f (delete_at i l) = delete_at i (map f l).
Proof. revert i; induction l as [|b l IH]; intros [|i]; simpl; auto. now rewrite IH. Qed.
Lemma delete_at_nodup {A} i (l : list A) : NoDup l -> NoDup (delete_at i l).
Proof.
  intro H. revert i; induction H as [|a l Hn H IH]; intros [|i]; simpl; auto using NoDup_nil.
  constructor; auto. intro Hin. apply delete_at_in in Hin. contradiction.
Qed.
Lemma delete_at_notin {A} i (l : list A) a : NoDup l -> nth_error l i = Some a -> ~ In a (delete_at i l).
Proof.
  intro H. revert i; induction H as [|b l Hn H IH]; intros [|i]; simpl; try discriminate.
  - intros [=]; subst. assumption.
  - intros Hi [?|?]; [subst|eapply IH; eauto]. apply Hn. eapply nth_error_In; eauto.
Qed.

(** ** Decimal printing is injective *)
Lemma string_app_nil_r s : (s ++ "")%string = s.
Proof. induction s; simpl; congruence. Qed.
Lemma string_app_assoc a b c : ((a ++ b) ++ c)%string = (a ++ (b ++ c))%string.
Proof. induction a; simpl; congruence. Qed.
Lemma string_app_inj_l a b c : (a ++ b)%string = (a ++ c)%string -> b = c.
Proof. induction a; simpl; [auto|]. intros [=]. auto. Qed.
Lemma string_length_app a b : String.length (a ++ b) = String.length a + String.length b.
Proof. induction a; simpl; auto. Qed.
Lemma string_app_inj_len a b c d :
  (a ++ b)%string = (c ++ d)%string -> String.length b = String.length d -> a = c /\ b = d.
Proof.
  intros H Hl.
  assert (String.length a = String.length c) as La.
  { apply (f_equal String.length) in H. rewrite !string_length_app in H. lia. }
  revert c La H. induction a as [|x a IH]; intros [|y c] La H; simpl in *; try discriminate; auto.
  injection H; intros H1 H2. subst. destruct (IH c) as [-> ->]; auto.
Qed.
Lemma string_app_inj_r a b c : (a ++ c)%string = (b ++ c)%string -> a = b.
Proof. intro H. now apply string_app_inj_len in H. Qed.

Lemma digit_inj a b : digit a = digit b -> a mod 10 = b mod 10.
Proof.
  unfold digit. intro H. assert (ascii_of_nat (48 + a mod 10) = ascii_of_nat (48 + b mod 10)) as E by congruence. clear H.
  assert (forall n, n < 10 -> nat_of_ascii (ascii_of_nat (48 + n)) = 48 + n) as R.
  { intros n Hn. apply nat_ascii_embedding. lia. }
  assert (a mod 10 < 10) by (apply Nat.mod_upper_bound; lia).
  assert (b mod 10 < 10) by (apply Nat.mod_upper_bound; lia).
  assert (48 + a mod 10 = 48 + b mod 10); [|lia].
  rewrite <- (R (a mod 10)), <- (R (b mod 10)) by assumption. now rewrite E.
Qed.
Lemma str_fuel_stable n f1 f2 : n <= f1 -> n <= f2 -> str_fuel f1 n = str_fuel f2 n.
Proof.
  revert f1 f2. induction n as [n IH] using lt_wf_ind; intros f1 f2 H1 H2.
  destruct f1 as [|f1], f2 as [|f2]; cbn [str_fuel]; auto.
  - assert (n = 0) by lia. subst. reflexivity.
  - assert (n = 0) by lia. subst. reflexivity.
  - destruct (Nat.ltb_spec n 10); auto. f_equal.
    assert (n / 10 < n) by (apply Nat.div_lt; lia). apply IH; lia.
Qed.
Lemma str_nat_eq n : str_nat n = if n <? 10 then digit n else (str_nat (n / 10) ++ digit n)%string.
Proof.
  unfold str_nat at 1. destruct n as [|n]; [reflexivity|]. cbn [str_fuel].
  destruct (Nat.ltb_spec (S n) 10); auto. f_equal.
  assert (S n / 10 < S n) by (apply Nat.div_lt; lia). apply str_fuel_stable; lia.
Qed.
Lemma str_nat_pos n : 0 < String.length (str_nat n).
Proof.
  rewrite str_nat_eq. destruct (n <? 10); [simpl; lia|]. rewrite string_length_app. simpl. lia.
Qed.
Lemma str_nat_inj a b : str_nat a = str_nat b -> a = b.
Proof.
  revert b. induction a as [a IH] using lt_wf_ind; intros b H.
  rewrite (str_nat_eq a), (str_nat_eq b) in H.
  destruct (Nat.ltb_spec a 10), (Nat.ltb_spec b 10).
  - apply digit_inj in H. rewrite !Nat.mod_small in H; auto.
  - exfalso. apply (f_equal String.length) in H. rewrite string_length_app in H. cbn [String.length digit] in H.
    pose proof (str_nat_pos (b / 10)). lia.
  - exfalso. apply (f_equal String.length) in H. rewrite string_length_app in H. cbn [String.length digit] in H.
    pose proof (str_nat_pos (a / 10)). lia.
  - apply string_app_inj_len in H; [|reflexivity]. destruct H as [Ha Hb].
    apply digit_inj in Hb. apply IH in Ha; [|apply Nat.div_lt; lia].
    rewrite (Nat.div_mod a 10), (Nat.div_mod b 10) by lia. congruence.
Qed.
(** Every character of a printed number is a digit. *)
Lemma all_chars_app P a b : all_chars P (a ++ b) = all_chars P a && all_chars P b.
Proof. induction a; simpl; [reflexivity|]. now rewrite IHa, andb_assoc. Qed.
Lemma digit_digit n : all_chars is_digit (digit n) = true.
Proof.
  unfold digit. cbn [all_chars]. unfold is_digit.
  assert (n mod 10 < 10) by (apply Nat.mod_upper_bound; lia).
  rewrite nat_ascii_embedding by lia.
  destruct (Nat.leb_spec 48 (48 + n mod 10)); [|lia]. destruct (Nat.leb_spec (48 + n mod 10) 57); [|lia]. reflexivity.
Qed.
Lemma str_nat_digits n : all_chars is_digit (str_nat n) = true.
Proof.
  induction n as [n IH] using lt_wf_ind. rewrite str_nat_eq.
  destruct (Nat.ltb_spec n 10); [apply digit_digit|].
  rewrite all_chars_app, IH, digit_digit; [reflexivity|apply Nat.div_lt; lia].
Qed.
