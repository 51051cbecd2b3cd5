(** * Lemmas on variables in bulk *)
From Verif Require Export Bulk Spec.
From Verif Require Import ProgramFacts ProgramProps IntBinFacts.
Local Open Scope string_scope.
Local Open Scope list_scope.
Local Open Scope nat_scope.

Section Grow.
Variables (lb ub : Qc) (ty : vartype).
Record grown (p q : qp) (names : list string) : Prop := {
  gr_vars : p_vars q = p_vars p ++ map (fun nm => mkVar nm lb ub ty) names;
  gr_rest : p_lcs q = p_lcs p /\ p_qcs q = p_qcs p /\ p_obj q = p_obj p /\ p_lidx q = p_lidx p /\ p_qidx q = p_qidx p /\ p_name q = p_name p;
  gr_new : NoDup names /\ forall nm, In nm names -> ~ In nm (map fst (p_vidx p));
  gr_keys : map fst (p_vidx q) = map fst (p_vidx p) ++ names;
  gr_bounds : names = [] \/ (lb <= ub)%Qc }.
Lemma grown_nil p : grown p p [].
Proof. constructor; cbn; rewrite ?app_nil_r; auto 10. split; [constructor|intros nm []]. Qed.
Lemma grown_one p q nm u : add_named p nm lb ub ty = (q, Ok u) -> grown p q [nm].
Proof.
  intro E. destruct (add_named_cases p nm lb ub ty) as [(e & E' & _)|[(e & E' & Hn & _)|(E' & Hn & Hb)]]; rewrite E' in E; try discriminate. injection E as <- _. constructor; cbn; auto 10.
  - split; [repeat constructor; intros []|]. intros s [<-|[]]. exact Hn.
  - rewrite (dset_fresh _ str_eqb_sp) by exact Hn. now rewrite map_app.
Qed.
Lemma grown_trans p q r l m : grown p q l -> grown q r m -> grown p r (l ++ m).
Proof.
  intros [V R [N1 N2] K B] [V2 R2 [M1 M2] K2 B2]. constructor.
  - now rewrite V2, V, map_app, app_assoc.
  - destruct R as (A1 & A2 & A3 & A4 & A5 & A6), R2 as (B1 & B2' & B3 & B4 & B5 & B6). repeat split; congruence.
  - split.
    + apply NoDup_app_intro; auto. intros s Hs Ht. apply (M2 s Ht). rewrite K. apply in_or_app. now right.
    + intros s Hs. apply in_app_or in Hs. destruct Hs as [Hs|Hs]; [now apply N2|]. intro Ht. apply (M2 s Hs). rewrite K. apply in_or_app. now left.
  - now rewrite K2, K, app_assoc.
  - destruct B as [->|B]; [|now right]. exact B2.
Qed.
Lemma seq_grown name fmt : forall keys p q l, add_seq p keys lb ub ty name fmt = (q, Ok l) -> grown p q l.
Proof.
  induction keys as [|k keys IH]; intros p q l; cbn [add_seq]; [intros [= <- <-]; apply grown_nil|]. destruct (py_format fmt k) as [t|]; [|discriminate].
  destruct (add_named p (name ++ t)%string lb ub ty) as [p1 [u|e]] eqn:E; [|discriminate]. destruct (add_seq p1 keys lb ub ty name fmt) as [p2 [l2|e]] eqn:E2; [|discriminate]. intros [= <- <-].
  apply (grown_trans p p1 p2 [_] l2); [now apply (grown_one _ _ _ u)|now apply IH].
Qed.
Lemma count_grown name fmt : forall n k p q l, add_count p n k lb ub ty name fmt = (q, Ok l) -> grown p q l.
Proof.
  induction n as [|n IH]; intros k p q l; cbn [add_count]; [intros [= <- <-]; apply grown_nil|]. destruct (find_name _ _ _ _ _ _) as [[nm k']|]; [|discriminate].
  destruct (add_named p nm lb ub ty) as [p1 [u|e]] eqn:E; [|discriminate]. destruct (add_count p1 n k' lb ub ty name fmt) as [p2 [l2|e]] eqn:E2; [|discriminate]. intros [= <- <-].
  apply (grown_trans p p1 p2 [_] l2); [now apply (grown_one _ _ _ u)|now apply (IH k')].
Qed.
Lemma add_grown name fmt p keys q l : add_variables p keys lb ub ty name fmt = (q, Ok l) -> grown p q l.
Proof.
  unfold add_variables. destruct keys as [n|keys].
  - destruct (n <? 1)%Z; [discriminate|]. destruct (contains _ fmt); [discriminate|]. destruct (1 <? count_slots fmt); [discriminate|]. apply count_grown.
  - destruct (contains _ fmt); [discriminate|]. destruct (1 <? count_slots fmt); [discriminate|]. apply seq_grown.
Qed.
(** Sequences *)
Definition key_name (name pre post k : string) : string := (name ++ pre ++ k ++ post)%string.
Lemma named_err_ok p nm : ~ In nm (map fst (p_vidx p)) -> (lb <= ub)%Qc -> exists q, add_named p nm lb ub ty = (q, Ok tt).
Proof.
  intros H B. destruct (add_named_cases p nm lb ub ty) as [(e & E & D)|[(e & E & _ & D)|(E & _ & _)]]; [apply (dhas_in _ str_eqb_sp) in D; contradiction|contradiction|eauto].
Qed.
Lemma named_taken p nm : In nm (map fst (p_vidx p)) -> add_named p nm lb ub ty = (p, Err QiskitOptimizationError).
Proof. intro H. unfold add_named. apply (dhas_in _ str_eqb_sp) in H. now rewrite H. Qed.
Lemma seq_ok name pre post : no_brace pre = true -> no_brace post = true -> (lb <= ub)%Qc -> forall keys p, NoDup (map (key_name name pre post) keys) ->
  (forall k, In k keys -> ~ In (key_name name pre post k) (map fst (p_vidx p))) -> exists q, add_seq p keys lb ub ty name (pre ++ "{}" ++ post)%string = (q, Ok (map (key_name name pre post) keys)).
Proof.
  intros H1 H2 Hb. induction keys as [|k keys IH]; intros p N H; cbn [add_seq map]; [eauto|]. inversion N as [|? ? Na Nb]; subst. rewrite format_slot by assumption. destruct (named_err_ok p (key_name name pre post k)) as (q & E); [apply H; now left|exact Hb|].
  change (name ++ pre ++ k ++ post)%string with (key_name name pre post k). rewrite E. destruct (grown_one _ _ _ _ E) as [_ _ _ K _]. destruct (IH q Nb) as (r & Er).
  - intros s Hs C. rewrite K in C. apply in_app_or in C. destruct C as [C|[C|[]]]; [apply (H s); [now right|exact C]|]. apply Na. rewrite C. now apply in_map.
  - rewrite Er. eauto.
Qed.
Lemma seq_clash name pre post : no_brace pre = true -> no_brace post = true -> (lb <= ub)%Qc -> forall keys p,
  (~ NoDup (map (key_name name pre post) keys) \/ exists k, In k keys /\ In (key_name name pre post k) (map fst (p_vidx p))) -> exists q, add_seq p keys lb ub ty name (pre ++ "{}" ++ post)%string = (q, Err QiskitOptimizationError).
Proof.
  intros H1 H2 Hb. induction keys as [|k keys IH]; intros p H; cbn [add_seq map]; [destruct H as [H|(k & [] & _)]; exfalso; apply H; constructor|]. rewrite format_slot by assumption. change (name ++ pre ++ k ++ post)%string with (key_name name pre post k).
  destruct (in_dec string_dec (key_name name pre post k) (map fst (p_vidx p))) as [I|N]; [rewrite (named_taken p _ I); eauto|]. destruct (named_err_ok p _ N Hb) as (q & E). rewrite E. destruct (grown_one _ _ _ _ E) as [_ _ _ K _].
  destruct (IH q) as (r & Er); [|rewrite Er; eauto]. destruct H as [H|(s & [<-|Hs] & Ht)]; [|contradiction|].
  - destruct (in_dec string_dec (key_name name pre post k) (map (key_name name pre post) keys)) as [I|N2].
    + right. apply in_map_iff in I. destruct I as (s & Es & Hs). exists s. split; [exact Hs|]. rewrite K, Es. apply in_or_app. right. now left.
    + left. intro C. apply H. cbn. now constructor.
  - right. exists s. split; [exact Hs|]. rewrite K. apply in_or_app. now left.
Qed.
End Grow.
(** Dictionaries *)
Lemma dict_zip_from {A} names : forall (l : list A) d, length names = length l -> NoDup names -> (forall s, In s names -> ~ In s (map fst d)) ->
  fold_left (fun d na => dset String.eqb (fst na) (snd na) d) (combine names l) d = d ++ combine names l.
Proof.
  induction names as [|s names IH]; intros [|a l] d L N H; try discriminate L; cbn [combine fold_left]; [now rewrite app_nil_r|]. inversion N as [|? ? Na Nb]; subst. cbn [fst snd]. rewrite (dset_fresh _ str_eqb_sp) by (apply H; now left).
  rewrite IH; [now rewrite <- app_assoc|now injection L|exact Nb|]. intros t Ht C. rewrite map_app in C. apply in_app_or in C. destruct C as [C|[C|[]]]; [apply (H t); [now right|exact C]|]. cbn in C. subst t. contradiction.
Qed.
Lemma dict_zip_combine {A} names (l : list A) : length names = length l -> NoDup names -> dict_zip names l = combine names l.
Proof. intros L N. unfold dict_zip. rewrite dict_zip_from; auto. Qed.

(** ** Formats that are refused *)
Lemma count_mid b : forall n a, String.length a <= n -> S (count_slots b) <= count_slots (a ++ "{}" ++ b)%string.
Proof.
  induction n as [|n IH]; intros [|c a] L; cbn [String.length] in L; try lia; try (cbn [String.append count_slots]; reflexivity).
  destruct a as [|d a].
  - change (String c "" ++ "{}" ++ b)%string with (String c (String "{" (String "}" b))). cbn [count_slots]. destruct (Ascii.eqb c "{"); cbn [andb]; reflexivity.
  - change (String c (String d a) ++ "{}" ++ b)%string with (String c (String d (a ++ "{}" ++ b))). cbn [String.length] in L.
    change (count_slots (String c (String d (a ++ "{}" ++ b)%string))) with (if Ascii.eqb c "{" && Ascii.eqb d "}" then S (count_slots (a ++ "{}" ++ b)%string) else count_slots (String d a ++ "{}" ++ b)%string).
    destruct (Ascii.eqb c "{" && Ascii.eqb d "}"); [specialize (IH a ltac:(lia)); lia|]. apply IH. cbn [String.length]. lia.
Qed.
Lemma substring_first s b : substring 0 (String.length s) (s ++ b)%string = s.
Proof. induction s as [|c s IH]; cbn [String.length String.append substring]; [destruct b; reflexivity|now rewrite IH]. Qed.
Lemma substring_mid s b a : substring (String.length a) (String.length s) (a ++ s ++ b)%string = s.
Proof. induction a as [|c a IH]; cbn [String.length String.append substring]; [apply substring_first|exact IH]. Qed.
Lemma contains_mid s a b : s <> ""%string -> contains s (a ++ s ++ b)%string = true.
Proof.
  intro N. unfold contains. destruct (String.index 0 s (a ++ s ++ b)%string) eqn:E; [reflexivity|]. exfalso.
  apply (index_correct3 0 (String.length a) _ _ E N ltac:(lia)). apply substring_mid.
Qed.
Lemma format_refused p keys lb ub ty name fmt : (exists a b, fmt = (a ++ "{{}}" ++ b)%string) \/ (exists a b c, fmt = (a ++ "{}" ++ b ++ "{}" ++ c)%string) ->
  add_variables p keys lb ub ty name fmt = (p, Err QiskitOptimizationError).
Proof.
  intro H. assert (contains "{{}}" fmt = true \/ 1 <? count_slots fmt = true) as C.
  { destruct H as [(a & b & ->)|(a & b & c & ->)]; [left; now apply contains_mid|right]. apply Nat.ltb_lt. pose proof (count_mid (b ++ "{}" ++ c) _ a (le_n _)) as A. pose proof (count_mid c _ b (le_n _)) as B. lia. }
  unfold add_variables. destruct keys as [n|l]; [destruct (n <? 1)%Z; [reflexivity|]|]; destruct (contains "{{}}" fmt); try reflexivity; destruct C as [C|C]; try discriminate C; rewrite C; reflexivity.
Qed.
