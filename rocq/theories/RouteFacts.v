(** * Vehicle routing: what [interpret] makes of any point *)
From Verif Require Export SpecRoute.
From Verif Require Import VrpFacts2 IntBinFacts.
Local Open Scope list_scope.
Local Open Scope nat_scope.

Lemma last_step (s t : nat) l : last (t :: l) s = last l t.
Proof. revert s t. induction l as [|b l IH]; intros s t; [reflexivity|]. change (last (t :: b :: l) s) with (last (b :: l) s). rewrite !IH. reflexivity. Qed.
Lemma one_route_any d : forall fuel s l r rest, length l <= fuel -> one_route fuel d s l = (r, rest) ->
  trail d s r /\ Permutation (r ++ rest) l /\ (ends_at s r = d /\ r <> [] \/ forall e, In e rest -> fst e <> ends_at s r).
Proof.
  induction fuel as [|fuel IH]; intros s l r rest Hl; cbn [one_route].
  - intros [= <- <-]. destruct l; [|cbn in Hl; lia]. split; [constructor|]. split; [reflexivity|]. right. intros e [].
  - pose proof (pop_from_spec s l) as Hp. destruct (pop_from s l) as [[[a t] l']|].
    + destruct Hp as (Ea & P). cbn [fst snd] in *. subst a. destruct (Nat.eqb_spec t d) as [->|Nt].
      * intros [= <- <-]. split; [constructor|]. split; [exact P|]. left. split; [reflexivity|discriminate].
      * destruct (one_route fuel d t l') as [r' rest'] eqn:E. intros [= <- <-]. assert (length l' <= fuel) as Hf by (apply Permutation_length in P; cbn in P; lia).
        destruct (IH t l' r' rest' Hf E) as (T & P' & En). split; [constructor; assumption|]. split; [cbn; rewrite P'; exact P|]. unfold ends_at in *. cbn [map snd]. rewrite last_step.
        destruct En as [[En _]|En]; [left; split; [exact En|discriminate]|right; exact En].
    + intros [= <- <-]. split; [constructor|]. split; [reflexivity|]. right. intros e He Ee. unfold ends_at in Ee. cbn in Ee. assert (1 <= outs s l); [|lia]. apply outs_in. destruct e as [a b]. cbn in Ee. subst a. eauto.
Qed.
Lemma all_routes_any d : forall k l routes left, all_routes k d l = (routes, left) ->
  length routes = k /\ Forall (trail d d) routes /\ Permutation (concat routes ++ left) l /\
  forall m r, nth_error routes m = Some r -> ends_at d r = d /\ r <> [] \/ forall e, In e (concat (skipn (S m) routes) ++ left) -> fst e <> ends_at d r.
Proof.
  induction k as [|k IH]; intros l routes left; cbn [all_routes].
  - intros [= <- <-]. split; [reflexivity|]. split; [constructor|]. split; [reflexivity|]. intros [|m] r H; discriminate H.
  - destruct (one_route (length l) d d l) as [r rest] eqn:E. destruct (all_routes k d rest) as [routes' left'] eqn:E2. intros [= <- <-].
    destruct (one_route_any d _ d l r rest (le_n _) E) as (T & P & En). destruct (IH _ _ _ E2) as (L & F & P2 & M). split; [cbn; lia|]. split; [constructor; assumption|].
    split; [cbn; rewrite <- app_assoc, P2; exact P|]. intros [|m] r0 H.
    + injection H as <-. destruct En as [En|En]; [left; exact En|right]. intros e He. apply En. eapply Permutation_in; [exact P2|exact He].
    + apply (M m r0 H).
Qed.
Lemma combine_firstn {A B} (l : list A) : forall (x : list B), combine l x = combine l (firstn (length l) x).
Proof. induction l as [|a l IH]; intros [|b x]; cbn; try reflexivity. now rewrite <- IH. Qed.
Lemma chosen_any n x : n * (n - 1) <= length x -> chosen_arcs n x = Ok (picked_arcs n (firstn (n * (n - 1)) x)).
Proof.
  intro H. rewrite <- (chosen_arcs_spec n (firstn (n * (n - 1)) x)) by (rewrite firstn_length; lia). unfold chosen_arcs. rewrite arcs_length, firstn_length.
  assert (length x <? n * (n - 1) = false) as -> by (apply Nat.ltb_ge; lia). assert (Nat.min (n * (n - 1)) (length x) <? n * (n - 1) = false) as -> by (apply Nat.ltb_ge; lia).
  rewrite combine_firstn, arcs_length. reflexivity.
Qed.
Lemma at_firstn k (x : list Qc) i : i < k -> at_ (firstn k x) i = at_ x i.
Proof. revert x i. induction k; intros [|a x] [|i] H; try lia; try reflexivity. cbn. apply IHk. lia. Qed.
Lemma picked_any n x i j : In (i, j) (picked_arcs n (firstn (n * (n - 1)) x)) <-> i < n /\ j < n /\ i <> j /\ at_ x (edge_number n i j) <> 0%Qc.
Proof.
  unfold picked_arcs. rewrite filter_In, arcs_in. cbn [fst snd]. unfold arc_at. split.
  - intros ((A & B & C) & D). repeat (split; [assumption|]). rewrite at_firstn in D by (apply (arcs_at n i j A B C)). intro K. unfold arc_idx in D. unfold edge_number in K. rewrite K in D. discriminate D.
  - intros (A & B & C & D). split; [auto|]. rewrite at_firstn by (apply (arcs_at n i j A B C)). change (arc_idx n i j) with (edge_number n i j). destruct (qeqb_spec (at_ x (edge_number n i j)) 0); [contradiction|reflexivity].
Qed.
Lemma interpret_any g vehicles depot x : g_n g * (g_n g - 1) <= length x -> exists own left, vrp_interpret g vehicles depot x = Ok (own ++ left) /\
  length own = Z.to_nat vehicles /\ Forall (trail depot depot) own /\ (left = [] \/ exists l, l <> [] /\ left = [l]) /\ NoDup (concat (own ++ left)) /\
  (forall i j, In (i, j) (concat (own ++ left)) <-> i < g_n g /\ j < g_n g /\ i <> j /\ at_ x (edge_number (g_n g) i j) <> 0%Qc) /\
  forall m r, nth_error own m = Some r -> ends_at depot r = depot /\ r <> [] \/ forall e, In e (concat (skipn (S m) (own ++ left))) -> fst e <> ends_at depot r.
Proof.
  intro H. unfold vrp_interpret. rewrite chosen_any by exact H. cbn [bind]. destruct (all_routes (Z.to_nat vehicles) depot (picked_arcs (g_n g) (firstn (g_n g * (g_n g - 1)) x))) as [own left] eqn:E.
  destruct (all_routes_any _ _ _ _ _ E) as (L & F & P & M). exists own, (match left with [] => [] | _ => [left] end).
  assert (concat (own ++ match left with [] => [] | _ => [left] end) = concat own ++ left) as Ec. { rewrite concat_app. destruct left; [now rewrite !app_nil_r|]. cbn. now rewrite app_nil_r. }
  split. { destruct left; [now rewrite app_nil_r|reflexivity]. } split; [exact L|]. split; [exact F|]. split. { destruct left; [now left|right]. eexists. split; [|reflexivity]. discriminate. }
  rewrite Ec. split. { eapply Permutation_NoDup; [symmetry; exact P|]. apply picked_arcs_nodup. }
  split. { intros i j. rewrite <- picked_any. split; intro K; [eapply Permutation_in; [exact P|exact K]|eapply Permutation_in; [symmetry; exact P|exact K]]. }
  intros m r Hm. destruct (M m r Hm) as [K|K]; [left; exact K|right]. intros e He. apply K. assert (S m <= length own) as Lm by (apply nth_error_Some; congruence).
  rewrite skipn_app in He. replace (S m - length own) with 0 in He by lia. cbn [skipn] in He. rewrite concat_app in He. destruct left; [now rewrite app_nil_r in *|]. cbn in He. now rewrite app_nil_r in He.
Qed.
Lemma interpret_short g vehicles depot x : length x < g_n g * (g_n g - 1) -> vrp_interpret g vehicles depot x = Err IndexError.
Proof. intro H. unfold vrp_interpret, chosen_arcs. rewrite arcs_length. apply Nat.ltb_lt in H. now rewrite H. Qed.

(** Missing edges *)
Lemma weight_missing g i j : ~ joined g i j -> weight_of g i j = Err KeyError.
Proof.
  intro H. unfold weight_of. destruct (find (same_edge i j) (g_edges g)) as [[e w]|] eqn:E; [|reflexivity]. apply find_some in E. destruct E as [I S0]. exfalso. apply H. exists (e, w). split; [exact I|]. destruct e as [a b]. unfold same_edge in S0. cbn in *.
  apply orb_true_iff in S0. destruct S0 as [S0|S0]; apply andb_true_iff in S0; destruct S0 as [A B]; apply Nat.eqb_eq in A, B; subst; auto.
Qed.
Lemma weight_errs g i j e : weight_of g i j = Err e -> e = KeyError.
Proof. unfold weight_of. destruct (find (same_edge i j) (g_edges g)) as [[? [w|]]|]; congruence. Qed.
Lemma mapM_raises {A B} (f : A -> result B) e l a : (forall b e', f b = Err e' -> e' = e) -> In a l -> f a = Err e -> mapM f l = Err e.
Proof.
  intros H I E. induction l as [|b l IH]; [destruct I|]. cbn [mapM]. destruct (f b) eqn:Eb; cbn [bind]; [|f_equal; eauto]. destruct I as [->|I]; [congruence|]. rewrite (IH I). reflexivity.
Qed.
Lemma tsp_missing g i j : i < g_n g -> j < g_n g -> i <> j -> ~ joined g i j -> tsp_program g = Err KeyError.
Proof.
  intros Hi Hj N H. unfold tsp_program. rewrite (mapM_raises (tsp_term g) KeyError _ (i, j, 0)); [reflexivity| | |].
  - intros [[a b] k] e. unfold tsp_term. destruct (weight_of g a b) eqn:E; cbn [bind]; [discriminate|]. intros [= <-]. eapply weight_errs; eauto.
  - unfold tsp_triples. apply in_flat_map. exists i. split; [apply in_seq; lia|]. apply in_flat_map. exists j. split; [apply in_seq; lia|]. destruct (Nat.eqb_spec i j); [contradiction|]. apply in_map. apply in_seq. lia.
  - unfold tsp_term. rewrite (weight_missing g i j H). reflexivity.
Qed.
Lemma vrp_missing g vehicles depot i j : i < g_n g -> j < g_n g -> i <> j -> ~ joined g i j -> vrp_program g vehicles depot = Err KeyError.
Proof.
  intros Hi Hj N H. unfold vrp_program. rewrite (mapM_raises _ KeyError _ (i, j)); [reflexivity| | |].
  - intros [a b] e. cbn [fst snd]. destruct (weight_of g a b) eqn:E; cbn [bind]; [discriminate|]. intros [= <-]. eapply weight_errs; eauto.
  - apply arcs_in. auto.
  - cbn [fst snd]. rewrite (weight_missing g i j H). reflexivity.
Qed.
