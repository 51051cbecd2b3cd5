(** * Instance files: facts *)
From Verif Require Export SpecFiles.
From Verif Require Import PyFacts ProgramFacts.
Local Open Scope string_scope.
Local Open Scope list_scope.
Local Open Scope nat_scope.

(** ** Gset *)
Lemma gset_fold n edges : Forall (fun e => 1 <= fst (fst e) <= n /\ 1 <= snd (fst e) <= n /\ fst (fst e) <> snd (fst e)) edges -> forall w0,
  exists w, foldM (gset_edge n) (gset_lines n edges) w0 = Ok w /\
    forall i j, entry w i j = if existsb (fun e => nat2_eqb (S i, S j) (fst e)) edges then Z.of_nat j else entry w0 i j.
Proof.
  induction 1 as [|[[s t] v] edges (Hs & Ht & N) F IH]; intros w0; [exists w0; split; reflexivity|].
  cbn [fst snd] in *. unfold gset_lines. cbn [map foldM gset_edge fst snd]. unfold put_entry.
  replace (Z.of_nat s - 1)%Z with (Z.of_nat (s - 1)) by lia. replace (Z.of_nat t - 1)%Z with (Z.of_nat (t - 1)) by lia.
  rewrite !py_index_nat by lia. cbn [bind].
  destruct (IH (dset nat2_eqb (s - 1, t - 1) (Z.of_nat (t - 1)) w0)) as (w & E & H). exists w. split; [exact E|].
  intros i j. rewrite H. cbn [existsb fst]. destruct (existsb (fun e => nat2_eqb (S i, S j) (fst e)) edges); [rewrite orb_true_r; reflexivity|]. rewrite orb_false_r.
  unfold entry. rewrite (dget_dset _ nat2_eqb_sp). destruct (nat2_eqb_sp (S i, S j) (s, t)) as [E1|N1]; destruct (nat2_eqb_sp (i, j) (s - 1, t - 1)) as [E2|N2]; try reflexivity.
  - injection E2 as -> ->. reflexivity.
  - injection E1 as <- <-. exfalso. apply N2. f_equal; lia.
  - injection E2 as -> ->. exfalso. apply N1. f_equal; lia.
Qed.

Lemma nth_map_seq {A} (f : nat -> A) n i d : i < n -> nth i (map f (seq 0 n)) d = f i.
Proof. intros H. rewrite (nth_indep _ d (f 0)) by (rewrite map_length, seq_length; exact H). rewrite map_nth, seq_nth by exact H. reflexivity. Qed.

(** What is read: the matrix has the shape and the pattern of the file; in the place of the weight of an edge stands its second end. *)
Lemma gset_shape n edges : gset_wf n edges -> exists m, parse_gset (gset_file n edges) = Ok m /\
  length m = n /\ Forall (fun r => length r = n) m /\
  (forall i j, i < n -> j < n -> mat_at m i j = mat_at m j i) /\
  (forall s t w, In (s, t, w) edges -> mat_at m (s - 1) (t - 1) = Z.of_nat (t - 1)) /\
  (forall i j, i < n -> j < n -> ~ In (S i, S j) (map fst edges) -> ~ In (S j, S i) (map fst edges) -> mat_at m i j = 0%Z).
Proof.
  intros (F & N & O). unfold parse_gset, gset_file. replace (Z.of_nat n <? 0)%Z with false by lia. rewrite Nat2Z.id.
  destruct (gset_fold n edges F []) as (w & E & H). rewrite E. cbn [bind].
  unfold gset_lines at 1. rewrite map_length, Z.eqb_refl. cbn [negb]. eexists. split; [reflexivity|].
  assert (H0 : forall i j, entry w i j = if existsb (fun e => nat2_eqb (S i, S j) (fst e)) edges then Z.of_nat j else 0%Z) by (intros; rewrite H; reflexivity).
  assert (HM : forall i j, i < n -> j < n -> mat_at (map (fun i => map (fun j => (entry w i j + entry w j i)%Z) (seq 0 n)) (seq 0 n)) i j = (entry w i j + entry w j i)%Z).
  { intros i j Hi Hj. unfold mat_at. rewrite nth_map_seq by exact Hi. rewrite nth_map_seq by exact Hj. reflexivity. }
  assert (HX : forall i j, existsb (fun e : nat * nat * Z => nat2_eqb (S i, S j) (fst e)) edges = true <-> In (S i, S j) (map fst edges)).
  { intros i j. rewrite existsb_exists, in_map_iff. split; intros (e & A & B).
    - exists e. split; [|exact A]. destruct (nat2_eqb_sp (S i, S j) (fst e)); [auto|discriminate].
    - exists e. split; [exact B|]. rewrite A. destruct (nat2_eqb_sp (S i, S j) (S i, S j)); [reflexivity|congruence]. }
  assert (HN : forall i j, ~ In (S i, S j) (map fst edges) -> entry w i j = 0%Z).
  { intros i j Hn. rewrite H0. destruct (existsb _ edges) eqn:Ex; [exfalso; apply Hn, HX, Ex|reflexivity]. }
  split; [rewrite map_length; apply seq_length|]. split; [apply Forall_forall; intros r Hr; apply in_map_iff in Hr; destruct Hr as (i & <- & _); rewrite map_length; apply seq_length|].
  split; [intros i j Hi Hj; rewrite !HM by assumption; apply Z.add_comm|]. split.
  - intros s t v Hin. pose proof (proj1 (Forall_forall _ _) F _ Hin) as (Hs & Ht & Hd). cbn [fst snd] in Hs, Ht, Hd.
    assert (Hi : In (s, t) (map fst edges)) by (apply in_map_iff; exists (s, t, v); auto). rewrite HM by lia.
    rewrite (HN (t - 1) (s - 1)); [|replace (S (t - 1)) with t by lia; replace (S (s - 1)) with s by lia; apply O, Hi].
    rewrite H0. replace (existsb _ edges) with true; [lia|]. symmetry. apply HX. replace (S (t - 1)) with t by lia. replace (S (s - 1)) with s by lia. exact Hi.
  - intros i j Hi Hj A B. rewrite HM by assumption. rewrite !HN by assumption. reflexivity.
Qed.

(** ** Tsplib *)
Lemma foldM_stops {A B} (f : A -> B -> result A) (l : list B) b : (forall a, exists e, f a b = Err e) -> In b l -> forall a, exists e, foldM f l a = Err e.
Proof.
  intros Hb. induction l as [|c l IH]; intros [].
  - subst c. intros a. cbn [foldM]. destruct (Hb a) as (e & E). rewrite E. exists e. reflexivity.
  - intros a. cbn [foldM]. destruct (f a c) as [a'|e]; [apply IH; assumption|exists e; reflexivity].
Qed.
Lemma split_none s : no_colon s = true -> split_colon s = [s].
Proof.
  unfold no_colon. induction s as [|c s IH]; [reflexivity|]. cbn. intros H. apply andb_true_iff in H as [H1 H2]. apply negb_true_iff in H1.
  rewrite H1, (IH H2). reflexivity.
Qed.
Lemma split_first a b : no_colon a = true -> split_colon (a ++ String ":" b) = a :: split_colon b.
Proof.
  unfold no_colon. induction a as [|c s IH]; [reflexivity|]. cbn. intros H. apply andb_true_iff in H as [H1 H2]. apply negb_true_iff in H1.
  rewrite H1. rewrite (IH H2). reflexivity.
Qed.

Lemma after_colon_spec a b : no_colon a = true -> no_colon b = true -> after_colon (a ++ String ":" b) = Ok b.
Proof. intros A B. unfold after_colon. rewrite (split_first _ _ A), (split_none _ B). reflexivity. Qed.
Lemma all_chars_app P a b : all_chars P (a ++ b) = all_chars P a && all_chars P b.
Proof. induction a as [|c a IH]; [reflexivity|]. cbn. rewrite IH. apply andb_assoc. Qed.
Lemma ends_line b : String.eqb (b ++ endl) "TSP" = false /\ String.eqb (b ++ endl) "EUC_2D" = false.
Proof.
  assert (H : forall b w, all_chars (fun c => negb (Ascii.eqb c newline)) w = true -> String.eqb (b ++ endl) w = false).
  { intros b0 w Hw. destruct (String.eqb_spec (b0 ++ endl) w) as [E|]; [|reflexivity]. rewrite <- E, all_chars_app in Hw. apply andb_true_iff in Hw as [_ Hw]. discriminate Hw. }
  split; apply H; reflexivity.
Qed.

Lemma prefix_app w r : prefix w (w ++ r) = true.
Proof. induction w as [|c w IH]; [destruct r; reflexivity|]. cbn. destruct (ascii_dec c c); [exact IH|congruence]. Qed.
Section Tsplib.
Variable int_of : string -> result Z.
Variable float_of : string -> result Qc.
Lemma type_rejected a b : no_colon a = true -> no_colon b = true ->
  forall st, tsplib_line int_of float_of st ("TYPE" ++ a ++ String ":" (b ++ endl)) = Err QiskitOptimizationError.
Proof.
  intros A B st. unfold tsplib_line. change (prefix "NAME" _) with false. cbv iota.
  rewrite (prefix_app "TYPE").
  replace ("TYPE" ++ a ++ String ":" (b ++ endl))%string with (("TYPE" ++ a) ++ String ":" (b ++ endl))%string by reflexivity.
  rewrite after_colon_spec; [|exact A|unfold no_colon in *; rewrite all_chars_app, B; reflexivity].
  cbn [bind]. rewrite (proj1 (ends_line b)). reflexivity.
Qed.
Lemma weight_type_rejected a b : no_colon a = true -> no_colon b = true ->
  forall st, tsplib_line int_of float_of st ("EDGE_WEIGHT_TYPE" ++ a ++ String ":" (b ++ endl)) = Err QiskitOptimizationError.
Proof.
  intros A B st. unfold tsplib_line. change (prefix "NAME" _) with false. change (prefix "TYPE" _) with false. change (prefix "DIMENSION" _) with false. cbv iota.
  rewrite (prefix_app "EDGE_WEIGHT_TYPE").
  replace ("EDGE_WEIGHT_TYPE" ++ a ++ String ":" (b ++ endl))%string with (("EDGE_WEIGHT_TYPE" ++ a) ++ String ":" (b ++ endl))%string by reflexivity.
  rewrite after_colon_spec; [|exact A|unfold no_colon in *; rewrite all_chars_app, B; reflexivity].
  cbn [bind]. rewrite (proj2 (ends_line b)). reflexivity.
Qed.
Lemma coords_stop file line : (forall st, exists e, tsplib_line int_of float_of st line = Err e) -> In line file ->
  exists e, tsplib_coords int_of float_of file = Err e.
Proof. intros H I. unfold tsplib_coords. destruct (foldM_stops _ _ _ H I (false, [])) as (e & E). rewrite E. exists e. reflexivity. Qed.

(** Once the section has begun it goes on. *)
Lemma section_stays line st st' : tsplib_line int_of float_of st line = Ok st' -> fst st = true -> fst st' = true.
Proof.
  unfold tsplib_line. intros E S. rewrite S in E.
  repeat match type of E with
  | (if ?c then _ else _) = _ => destruct c
  | bind ?r _ = _ => destruct r; cbn [bind] in E
  | match ?l with _ => _ end = _ => destruct l
  | Err _ = Ok _ => discriminate E
  | Ok _ = Ok _ => injection E as <-
  end; try assumption; reflexivity.
Qed.
Lemma fold_stays l : forall st st', foldM (tsplib_line int_of float_of) l st = Ok st' -> fst st = true -> fst st' = true.
Proof.
  induction l as [|a l IH]; intros st st' E S; cbn [foldM] in E; [injection E as <-; exact S|].
  destruct (tsplib_line int_of float_of st a) as [s1|] eqn:E1; [|discriminate E]. apply (IH s1 st' E). eapply section_stays; eauto.
Qed.
Lemma foldM_app {A B} (f : A -> B -> result A) l1 l2 a : foldM f (l1 ++ l2) a = (do b <- foldM f l1 a; foldM f l2 b).
Proof. revert a. induction l1 as [|b l1 IH]; intros a; cbn; [reflexivity|]. destruct (f a b); cbn; [apply IH|reflexivity]. Qed.
Lemma eof_rejected pre mid post e0 : int_of "EOF" = Err e0 ->
  exists e, tsplib_coords int_of float_of (pre ++ ("NODE_COORD_SECTION" ++ endl)%string :: mid ++ ("EOF" ++ endl)%string :: post) = Err e.
Proof.
  intros HI. unfold tsplib_coords. rewrite foldM_app. destruct (foldM _ pre _) as [s1|e]; [|exists e; reflexivity].
  cbn [bind]. cbn [foldM]. change (tsplib_line int_of float_of s1 ("NODE_COORD_SECTION" ++ endl)) with (Ok (true, snd s1)). cbv iota. cbn [bind].
  rewrite foldM_app. destruct (foldM _ mid _) as [s2|e] eqn:E2; [|exists e; reflexivity]. pose proof (fold_stays _ _ _ E2 eq_refl) as S2.
  cbn [bind foldM]. unfold tsplib_line at 1. change (prefix "NAME" _) with false. change (prefix "TYPE" _) with false. change (prefix "DIMENSION" _) with false.
  change (prefix "EDGE_WEIGHT_TYPE" _) with false. change (prefix "NODE_COORD_SECTION" _) with false. cbv iota. rewrite S2.
  change (words ("EOF" ++ endl)) with ["EOF"]. cbv iota. rewrite HI. cbn [bind]. exists e0. reflexivity.
Qed.

Lemma words_word cur w r : all_chars (fun c => negb (is_space c)) w = true -> words_from cur (w ++ r) = words_from (cur ++ w) r.
Proof.
  revert cur. induction w as [|c w IH]; intros cur; cbn [all_chars].
  - intros _. cbn. f_equal. induction cur as [|d cur IH]; [reflexivity|]. cbn. f_equal. exact IH.
  - intros H. apply andb_true_iff in H as [H1 H2]. cbn. apply negb_true_iff in H1. rewrite H1, IH by exact H2. f_equal.
    clear. induction cur as [|d cur IH]; [reflexivity|]. cbn. f_equal. exact IH.
Qed.
Lemma words_space c w r : is_space c = true -> plain_word w = true -> words_from "" (w ++ String c r) = w :: words_from "" r.
Proof.
  unfold plain_word. intros Hc H. apply andb_true_iff in H as [H1 H2]. rewrite words_word by exact H2. cbn [append words_from]. rewrite Hc.
  apply negb_true_iff in H1. rewrite H1. reflexivity.
Qed.
Lemma words_line a b c : plain_word a = true -> plain_word b = true -> plain_word c = true -> words (coord_line (a, b, c)) = [a; b; c].
Proof.
  intros A B C. unfold words, coord_line. cbn [fst snd append]. rewrite !words_space by (reflexivity || assumption). unfold endl. rewrite words_space by (reflexivity || assumption). reflexivity.
Qed.
Lemma digit_no_space c : is_digit c = true -> is_space c = false.
Proof. destruct c as [b0 b1 b2 b3 b4 b5 b6 b7]. destruct b0, b1, b2, b3, b4, b5, b6, b7; vm_compute; intros H; (reflexivity || discriminate H). Qed.
Lemma numeral_plain a : numeral a = true -> plain_word a = true.
Proof.
  unfold numeral, plain_word. intros H. apply andb_true_iff in H as [H1 H2]. rewrite H1. cbn [andb]. clear H1.
  induction a as [|c a IH]; [reflexivity|]. cbn in *. apply andb_true_iff in H2 as [H H2]. rewrite (digit_no_space _ H). cbn. apply IH, H2.
Qed.
Lemma numeral_prefix c w a r : numeral a = true -> is_digit c = false -> prefix (String c w) (a ++ r) = false.
Proof.
  unfold numeral. destruct a as [|d a]; [discriminate|]. cbn. intros H Hc. apply andb_true_iff in H as [Hd _].
  destruct (ascii_dec c d) as [->|]; [congruence|reflexivity].
Qed.
Lemma coord_line_step a b c k x y cs : numeral a = true -> plain_word b = true -> plain_word c = true ->
  int_of a = Ok (Z.of_nat (S k)) -> float_of b = Ok x -> float_of c = Ok y -> k < length cs ->
  tsplib_line int_of float_of (true, cs) (coord_line (a, b, c)) = Ok (true, update k (x, y) cs).
Proof.
  intros A B C HI HX HY HK. unfold tsplib_line.
  assert (HP : forall d w, is_digit d = false -> prefix (String d w) (coord_line (a, b, c)) = false) by (intros d w Hd; unfold coord_line; cbn [fst snd]; apply numeral_prefix; assumption).
  rewrite !HP by reflexivity. cbv iota. cbn [fst snd]. rewrite words_line by (assumption || (apply numeral_plain; assumption)).
  rewrite HI. cbn [bind]. rewrite HX. cbn [bind]. replace (Z.of_nat (S k) - 1)%Z with (Z.of_nat k) by lia. rewrite py_index_nat by exact HK.
  rewrite HY. reflexivity.
Qed.
(** Short lines *)
Lemma endl_line st : fst st = true -> tsplib_line int_of float_of st endl = Err IndexError.
Proof. intro S. unfold tsplib_line. cbn [prefix endl]. change (prefix _ endl) with false. cbv iota. rewrite S. reflexivity. Qed.
Lemma short_line_step st ws : fst st = true -> length ws < 3 -> (forall a, nth_error ws 0 = Some a -> numeral a = true /\ exists z, int_of a = Ok z) -> (forall b, nth_error ws 1 = Some b -> plain_word b = true /\ exists x, float_of b = Ok x) ->
  tsplib_line int_of float_of st (short_line ws) = Err IndexError.
Proof.
  intros S L A B. destruct ws as [|a [|b [|? ?]]]; [exact (endl_line st S)| | |cbn in L; lia].
  - destruct (A a eq_refl) as (N & z & I). unfold tsplib_line, short_line.
    assert (HP : forall d w, is_digit d = false -> prefix (String d w) (a ++ endl) = false) by (intros d w Hd; apply numeral_prefix; assumption).
    rewrite !HP by reflexivity. cbv iota. rewrite S. unfold words, endl. rewrite words_space by (reflexivity || (apply numeral_plain; assumption)). cbn [words_from String.eqb]. cbv iota. rewrite I. reflexivity.
  - destruct (A a eq_refl) as (N & z & I). destruct (B b eq_refl) as (P & x & F). unfold tsplib_line, short_line.
    assert (HP : forall d w, is_digit d = false -> prefix (String d w) (a ++ " " ++ b ++ endl) = false) by (intros d w Hd; apply numeral_prefix; assumption).
    rewrite !HP by reflexivity. cbv iota. rewrite S. unfold words, endl. cbn [append]. rewrite words_space by (reflexivity || (apply numeral_plain; assumption)). rewrite words_space by (reflexivity || assumption). cbn [words_from String.eqb]. cbv iota. rewrite I. cbn [bind]. rewrite F. reflexivity.
Qed.
Lemma split_one s : no_colon s = true -> split_colon s = [s].
Proof.
  induction s as [|c s IH]; [reflexivity|]. intro H. cbn in H. apply andb_true_iff in H as [H1 H2]. cbn [split_colon]. apply negb_true_iff in H1. rewrite H1, (IH H2). reflexivity.
Qed.
Lemma keyed_rejected pre line post st key : In key ["NAME"; "TYPE"; "DIMENSION"; "EDGE_WEIGHT_TYPE"] -> prefix key line = true -> no_colon line = true ->
  foldM (tsplib_line int_of float_of) pre (false, []) = Ok st -> tsplib_coords int_of float_of (pre ++ line :: post) = Err IndexError.
Proof.
  intros K P N E. unfold tsplib_coords. rewrite foldM_app, E. cbn [bind foldM].
  assert (after_colon line = Err IndexError) as A by (unfold after_colon; now rewrite split_one).
  assert (tsplib_line int_of float_of st line = Err IndexError) as ->; [|reflexivity].
  unfold tsplib_line. rewrite A. cbn [bind].
  destruct (prefix "NAME" line) eqn:E1; [reflexivity|]. destruct (prefix "TYPE" line) eqn:E2; [reflexivity|]. destruct (prefix "DIMENSION" line) eqn:E3; [reflexivity|].
  destruct (prefix "EDGE_WEIGHT_TYPE" line) eqn:E4; [reflexivity|]. destruct K as [<-|[<-|[<-|[<-|[]]]]]; congruence.
Qed.
Lemma short_rejected pre mid post ws c : tsplib_coords int_of float_of (pre ++ ("NODE_COORD_SECTION" ++ endl)%string :: mid) = Ok c -> length ws < 3 ->
  (forall a, nth_error ws 0 = Some a -> numeral a = true /\ exists z, int_of a = Ok z) -> (forall b, nth_error ws 1 = Some b -> plain_word b = true /\ exists x, float_of b = Ok x) ->
  tsplib_coords int_of float_of (pre ++ ("NODE_COORD_SECTION" ++ endl)%string :: mid ++ short_line ws :: post) = Err IndexError.
Proof.
  intros C L A B. unfold tsplib_coords in *. rewrite foldM_app in *. destruct (foldM _ pre _) as [s1|e]; cbn [bind] in *; [|discriminate C].
  cbn [foldM] in *. change (tsplib_line int_of float_of s1 ("NODE_COORD_SECTION" ++ endl)) with (Ok (true, snd s1)) in *. cbv iota in *. cbn [bind] in *.
  rewrite foldM_app. destruct (foldM _ mid _) as [s2|e] eqn:E2; cbn [bind] in *; [|discriminate C]. pose proof (fold_stays _ _ _ E2 eq_refl) as S2.
  cbn [foldM]. rewrite (short_line_step s2 ws S2 L A B). reflexivity.
Qed.
Lemma update_mid {A} (v v0 : A) done rest : update (length done) v (done ++ v0 :: rest) = done ++ v :: rest.
Proof. induction done as [|d done IH]; cbn; [reflexivity|]. f_equal. exact IH. Qed.

Lemma rows_read rows vals : forall done,
  Forall (fun r => numeral (fst (fst r)) = true /\ plain_word (snd (fst r)) = true /\ plain_word (snd r) = true) rows ->
  map (fun r => int_of (fst (fst r))) rows = map (fun k => Ok (Z.of_nat (S k))) (seq (length done) (length rows)) ->
  map (fun r => float_of (snd (fst r))) rows = map (fun v => Ok (fst v)) vals ->
  map (fun r => float_of (snd r)) rows = map (fun v => Ok (snd v)) vals ->
  foldM (tsplib_line int_of float_of) (map coord_line rows) (true, done ++ repeat (0, 0)%Qc (length rows)) = Ok (true, done ++ vals).
Proof.
  revert vals. induction rows as [|[[a b] c] rows IH]; intros vals done F HI HX HY.
  - destruct vals; [reflexivity|discriminate HX].
  - destruct vals as [|[x y] vals]; [discriminate HX|]. cbn [map length seq fst snd] in HI, HX, HY. injection HI as Ha HI. injection HX as Hb HX. injection HY as Hc HY.
    inversion F as [|? ? (F1 & F2 & F3) F']; subst. cbn [fst snd] in F1, F2, F3.
    cbn [map foldM length repeat]. rewrite (coord_line_step a b c (length done) x y); try assumption; [|rewrite app_length; cbn; lia].
    cbn [bind]. cbv beta iota. rewrite update_mid. replace (done ++ (x, y) :: repeat (0%Qc, 0%Qc) (length rows)) with ((done ++ [(x, y)]) ++ repeat (0%Qc, 0%Qc) (length rows)) by (rewrite <- app_assoc; reflexivity).
    rewrite (IH vals (done ++ [(x, y)])); try assumption; [rewrite <- app_assoc; reflexivity|].
    rewrite app_length. cbn [length]. replace (length done + 1) with (S (length done)) by lia. exact HI.
Qed.
Lemma plain_read dim rows vals : no_colon dim = true -> rows <> [] ->
  Forall (fun r => numeral (fst (fst r)) = true /\ plain_word (snd (fst r)) = true /\ plain_word (snd r) = true) rows ->
  int_of dim = Ok (Z.of_nat (length rows)) ->
  map (fun r => int_of (fst (fst r))) rows = map (fun k => Ok (Z.of_nat (S k))) (seq 0 (length rows)) ->
  map (fun r => float_of (snd (fst r))) rows = map (fun v => Ok (fst v)) vals ->
  map (fun r => float_of (snd r)) rows = map (fun v => Ok (snd v)) vals ->
  tsplib_coords int_of float_of (plain_file dim rows) = Ok vals.
Proof.
  intros D N F HD HI HX HY. unfold tsplib_coords, plain_file. cbn [foldM].
  assert (E1 : tsplib_line int_of float_of (false, []) ("DIMENSION:" ++ dim) = Ok (false, repeat (0, 0)%Qc (length rows))).
  { unfold tsplib_line. change (prefix "NAME" _) with false. change (prefix "TYPE" _) with false. cbv iota. rewrite (prefix_app "DIMENSION" (String ":" dim) : prefix "DIMENSION" ("DIMENSION:" ++ dim) = true).
    change ("DIMENSION:" ++ dim)%string with ("DIMENSION" ++ String ":" dim)%string. rewrite after_colon_spec; [|reflexivity|exact D]. cbn [bind]. rewrite HD. cbn [bind].
    replace (Z.of_nat (length rows) <? 0)%Z with false by lia. rewrite Nat2Z.id. reflexivity. }
  rewrite E1. cbn [bind]. change (tsplib_line int_of float_of (false, repeat (0%Qc, 0%Qc) (length rows)) ("NODE_COORD_SECTION" ++ endl)) with (Ok (true, repeat (0, 0)%Qc (length rows))).
  cbn [bind]. pose proof (rows_read rows vals [] F HI HX HY) as R. cbn [app] in R. rewrite R. cbn [bind snd].
  destruct vals as [|v vals]; [|reflexivity]. destruct rows; [congruence|discriminate HX].
Qed.
End Tsplib.

(** ** Errors of parse_gset_format *)
Lemma range_index n z : (1 - n <= z <= n)%Z -> exists i, py_index (Z.to_nat n) (z - 1) = Some i.
Proof. intro H. unfold py_index. destruct (Z.leb_spec 0 (z - 1)); [destruct (Z.ltb_spec (z - 1) (Z.of_nat (Z.to_nat n))); [eauto|lia]|destruct (Z.leb_spec (- Z.of_nat (Z.to_nat n)) (z - 1)); [eauto|lia]]. Qed.
Lemma index_range n z i : (0 <= n)%Z -> py_index (Z.to_nat n) (z - 1) = Some i -> (1 - n <= z <= n)%Z.
Proof. intros Hn. unfold py_index. destruct (Z.leb_spec 0 (z - 1)); [destruct (Z.ltb_spec (z - 1) (Z.of_nat (Z.to_nat n))); [lia|discriminate]|destruct (Z.leb_spec (- Z.of_nat (Z.to_nat n)) (z - 1)); [lia|discriminate]]. Qed.
Lemma gset_edge_ok n w line : gset_line_ok n line -> exists w', gset_edge (Z.to_nat n) w line = Ok w'.
Proof. intros (s & t & v & -> & S & T). cbn [gset_edge]. unfold put_entry. destruct (range_index n s S) as (i & ->). destruct (range_index n t T) as (j & ->). eauto. Qed.
Lemma gset_fold_ok n lines : Forall (gset_line_ok n) lines -> forall w, exists w', foldM (gset_edge (Z.to_nat n)) lines w = Ok w'.
Proof. induction 1 as [|l lines H _ IH]; intro w; cbn [foldM]; [eauto|]. destruct (gset_edge_ok n w l H) as (w' & ->). apply IH. Qed.
Lemma gset_edge_bad n w line : (0 <= n)%Z -> ~ gset_line_ok n line -> gset_edge (Z.to_nat n) w line = Err (if Nat.eqb (length line) 3 then IndexError else ValueError).
Proof.
  intros Hn N. destruct line as [|s [|t [|v [|? ?]]]]; try reflexivity. cbn [length Nat.eqb gset_edge]. unfold put_entry. destruct (py_index _ (s - 1)) as [i|] eqn:S; [|reflexivity]. destruct (py_index _ (t - 1)) as [j|] eqn:T; [|reflexivity].
  exfalso. apply N. exists s, t, v. split; [reflexivity|]. split; eapply index_range; eauto.
Qed.
