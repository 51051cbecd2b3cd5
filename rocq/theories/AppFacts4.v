(** * The most likely sample: facts *)
From Verif Require Export AppFacts SpecAlgo.
From Verif Require Import NumFacts PyFacts AlgoFacts RecurFacts.
Local Open Scope nat_scope.

(** ** The position of the maximum *)
Lemma argmax_first_fold l : forall k b v done, length done = k -> b < k -> nth b done 0%Qc = v ->
  (forall i, i < k -> (nth i done 0 <= v)%Qc) -> (forall i, i < b -> (nth i done 0 < v)%Qc) ->
  first_largest (done ++ l) (snd (fst (fold_left argmax_step l (k, b, v)))).
Proof.
  induction l as [|a l IH]; intros k b v done L B V M F; cbn [fold_left].
  - rewrite app_nil_r. cbn [fst snd]. split; [lia|]. rewrite V. split; [intros i Hi; apply M; lia|exact F].
  - assert (argmax_step (k, b, v) a = if qltb v a then (S k, k, a) else (S k, b, v)) as -> by reflexivity.
    replace (done ++ a :: l) with ((done ++ [a]) ++ l) by (rewrite <- app_assoc; reflexivity).
    assert (HA : nth k (done ++ [a]) 0%Qc = a) by (rewrite app_nth2 by lia; rewrite L, Nat.sub_diag; reflexivity).
    assert (HB : forall i, i < k -> nth i (done ++ [a]) 0%Qc = nth i done 0%Qc) by (intros; apply app_nth1; lia).
    destruct (qltb_spec v a) as [Q|Q]; apply IH; try (rewrite app_length; cbn; lia); try lia; try assumption.
    + intros i Hi. destruct (Nat.eq_dec i k) as [->|N]; [rewrite HA; apply Qcle_refl|]. rewrite HB by lia. specialize (M i ltac:(lia)). qlra.
    + intros i Hi. rewrite HB by lia. specialize (M i ltac:(lia)). qlra.
    + rewrite HB by lia. exact V.
    + intros i Hi. destruct (Nat.eq_dec i k) as [->|N]; [rewrite HA; qlra|]. rewrite HB by lia. apply M; lia.
    + intros i Hi. rewrite HB by lia. apply F; lia.
Qed.
Lemma argmax_first l : l <> [] -> exists k, argmax l = Ok k /\ first_largest l k.
Proof.
  destruct l as [|a l]; [congruence|]. intros _. eexists. split; [reflexivity|]. apply (argmax_first_fold l 1 0 a [a]); try reflexivity; try lia.
  intros i Hi. replace i with 0 by lia. apply Qcle_refl.
Qed.

(** ** The digits *)
Lemma low_bits_spec n : forall k, low_bits n k = basis_point n k.
Proof.
  unfold basis_point. induction n as [|n IH]; intros k; [reflexivity|]. cbn [low_bits seq map]. f_equal.
  - rewrite Nat.bit0_odd. rewrite <- Nat.bit0_mod, Nat.bit0_odd. destruct (Nat.odd k); reflexivity.
  - rewrite IH, <- seq_shift, map_map. apply map_ext. intros i. cbn [Nat.testbit]. rewrite Nat.div2_div. reflexivity.
Qed.
Lemma likely_vec_spec v : v <> [] -> exists k, first_largest (map abs2 v) k /\ likely_vec v = Ok (basis_point (Nat.log2 (length v)) k).
Proof.
  intros N. destruct (argmax_first (map abs2 v)) as (k & E & F); [destruct v; [congruence|discriminate]|]. exists k. split; [exact F|].
  unfold likely_vec. destruct v as [|a v]; [congruence|]. change (fun a : Qc * Qc => (fst a * fst a + snd a * snd a)%Qc) with abs2. rewrite E. cbn [bind]. rewrite low_bits_spec. reflexivity.
Qed.

(** ** The last of the sorted entries *)
Section Last.
Context {A : Type} (key : A -> Qc).
Let lt (a b : A) : bool := qltb (key a) (key b).
Lemma insert_last a l b l' : l = l' ++ [b] -> (forall c, In c l -> (key c <= key b)%Qc) ->
  exists l'', insert_by lt a l = l'' ++ [if qltb (key b) (key a) then a else b].
Proof.
  revert l'. induction l as [|c l IH]; intros l' E M; [destruct l'; discriminate E|]. cbn [insert_by]. unfold lt at 1.
  destruct (qltb_spec (key c) (key a)) as [Q|Q].
  - destruct l' as [|d l']; cbn in E; injection E as -> E.
    + subst l. cbn. destruct (qltb_spec (key b) (key a)); [exists [b]; reflexivity|contradiction].
    + destruct (IH l' E) as (l'' & ->); [intros e He; apply M; right; exact He|]. exists (d :: l''). reflexivity.
  - destruct (qltb_spec (key b) (key a)) as [Q'|Q']; [exfalso; specialize (M c (or_introl eq_refl)); apply Q; qlra|].
    rewrite E. exists (a :: l'). reflexivity.
Qed.
Lemma sort_last l : l <> [] -> exists l1 b l2 l', l = l1 ++ b :: l2 /\ sort_by lt l = l' ++ [b] /\
  Forall (fun c => (key c <= key b)%Qc) l1 /\ Forall (fun c => (key c < key b)%Qc) l2.
Proof.
  induction l as [|a l IH]; [congruence|]. intros _. destruct l as [|a' l].
  - exists [], a, [], []. repeat split; auto.
  - destruct IH as (l1 & b & l2 & l' & E & S & F1 & F2); [discriminate|]. change (sort_by lt (a :: a' :: l)) with (insert_by lt a (sort_by lt (a' :: l))).
    destruct (insert_last a (sort_by lt (a' :: l)) b l' S) as (l'' & E').
    { intros c Hc. apply (Permutation_in _ (sort_perm lt _)) in Hc. rewrite E in Hc. apply in_app_or in Hc. destruct Hc as [Hc|[<-|Hc]].
      - exact (proj1 (Forall_forall _ _) F1 c Hc).
      - apply Qcle_refl.
      - apply Qclt_le_weak. exact (proj1 (Forall_forall _ _) F2 c Hc). }
    rewrite E'. destruct (qltb_spec (key b) (key a)) as [Q|Q].
    + exists [], a, (a' :: l), l''. split; [reflexivity|]. split; [reflexivity|]. split; [constructor|]. rewrite E. apply Forall_app. split.
      * eapply Forall_impl; [|exact F1]. cbn. intros; qlra.
      * constructor; [exact Q|]. eapply Forall_impl; [|exact F2]. cbn. intros; qlra.
    + exists (a :: l1), b, l2, l''. split; [rewrite E; reflexivity|]. split; [reflexivity|]. split; [|exact F2]. constructor; [qlra|exact F1].
Qed.
End Last.
Lemma likely_dict_spec d : d <> [] -> exists d1 k c d2, d = d1 ++ (k, c) :: d2 /\
  Forall (fun e => (snd e <= c)%Qc) d1 /\ Forall (fun e => (snd e < c)%Qc) d2 /\ likely_dict d = Ok (map digit_q (rev k)).
Proof.
  intros N. destruct (sort_last (@snd (list bool) Qc) d N) as (l1 & (k & c) & l2 & l' & E & S & F1 & F2). exists l1, k, c, l2.
  split; [exact E|]. split; [exact F1|]. split; [exact F2|]. unfold likely_dict. rewrite S, rev_app_distr. reflexivity.
Qed.
