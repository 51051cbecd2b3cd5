(** * Facts about problems read from files *)
From Verif Require Export Read SpecRead SpecDraw DrawFacts FilesFacts DocFacts3.
Local Open Scope string_scope.
Local Open Scope list_scope.
Local Open Scope nat_scope.

(** ** strip *)
Lemma lstrip_spec s : exists a, s = (a ++ lstrip s)%string /\ all_chars py_space a = true /\ match lstrip s with String c _ => py_space c = false | "" => True end.
Proof.
  induction s as [|c s (a & E & A & B)]; [exists ""; cbn; auto|]. cbn [lstrip]. destruct (py_space c) eqn:C; [|exists ""; cbn; auto]. exists (String c a). cbn. rewrite C, A, <- E. auto.
Qed.
Fixpoint last_char (s : string) : option ascii := match s with "" => None | String c "" => Some c | String _ r => last_char r end.
Lemma rstrip_spec s : exists b, s = (rstrip s ++ b)%string /\ all_chars py_space b = true /\ match last_char (rstrip s) with Some c => py_space c = false | None => True end.
Proof.
  induction s as [|c s (b & E & A & B)]; [exists ""; cbn; auto|]. cbn [rstrip]. destruct (rstrip s) as [|d t] eqn:R.
  - cbn in E. subst b. destruct (py_space c) eqn:C; [exists (String c s); cbn; rewrite C, A; auto|exists s; cbn; rewrite C, A; auto].
  - exists b. rewrite E. split; [reflexivity|]. split; [exact A|exact B].
Qed.
Lemma rstrip_head c r : py_space c = false -> exists t, rstrip (String c r) = String c t.
Proof. intro C. cbn. destruct (rstrip r); [rewrite C|]; eauto. Qed.
Lemma strip_spec s : exists a b, s = (a ++ strip s ++ b)%string /\ all_chars py_space a = true /\ all_chars py_space b = true /\
  (forall c t, strip s = String c t -> py_space c = false) /\ (forall c t, strip s = (t ++ String c "")%string -> py_space c = false).
Proof.
  destruct (lstrip_spec s) as (a & E & A & Ha). destruct (rstrip_spec (lstrip s)) as (b & E2 & B & Hb). exists a, b. unfold strip. split; [now rewrite <- E2|]. split; [exact A|]. split; [exact B|]. split.
  - intros c t H. destruct (lstrip s) as [|d r]; [discriminate H|]. destruct (rstrip_head d r Ha) as (t' & R). rewrite R in H. congruence.
  - intros c t H. rewrite H in Hb. clear -Hb. assert (last_char (t ++ String c "") = Some c) as L. { clear. induction t as [|d t IH]; [reflexivity|]. cbn. destruct (t ++ String c "")%string eqn:E; [now destruct t|exact IH]. } now rewrite L in Hb.
Qed.
(** A text whose ends are no white space is left alone, whatever white space is put around it. *)
Lemma lstrip_space a s : all_chars py_space a = true -> lstrip (a ++ s) = lstrip s.
Proof. induction a as [|c a IH]; [reflexivity|]. cbn. intro H. apply andb_true_iff in H as [-> H]. auto. Qed.
Lemma rstrip_space b : all_chars py_space b = true -> rstrip b = "".
Proof. induction b as [|c b IH]; [reflexivity|]. cbn. intro H. apply andb_true_iff in H as [C H]. now rewrite IH, C. Qed.
Lemma rstrip_app b : all_chars py_space b = true -> forall s, (forall c t, s = (t ++ String c "")%string -> py_space c = false) -> rstrip (s ++ b) = s.
Proof.
  intros H s. induction s as [|c s IH]; intro E; [now apply rstrip_space|]. cbn. destruct s as [|d s].
  - cbn [append]. rewrite (rstrip_space b H). now rewrite (E c "" eq_refl).
  - rewrite IH; [reflexivity|]. intros e t F. apply (E e (String c t)). now rewrite F.
Qed.
Lemma strip_around a s b : all_chars py_space a = true -> all_chars py_space b = true ->
  (forall c t, s = String c t -> py_space c = false) -> (forall c t, s = (t ++ String c "")%string -> py_space c = false) -> strip (a ++ s ++ b) = s.
Proof.
  intros A B H1 H2. unfold strip. rewrite (lstrip_space a _ A). destruct s as [|c s].
  - cbn [append]. rewrite <- (string_app_nil_r b) at 1. rewrite (lstrip_space b _ B). reflexivity.
  - cbn [append lstrip]. rewrite (H1 c s eq_refl). exact (rstrip_app b B (String c s) H2).
Qed.
Lemma drop_app w r : drop (String.length w) (w ++ r) = r.
Proof. induction w as [|c w IH]; [reflexivity|exact IH]. Qed.

(** ** The loop *)
Lemma name_prefix_comment l : prefix name_prefix l = true -> prefix "\" l = true.
Proof. destruct l as [|c l]; [discriminate|]. unfold name_prefix. cbn [prefix]. destruct (ascii_dec "\" c); [intros _; now destruct l|discriminate]. Qed.
Lemma loop_skip name b rest : Forall (fun l => prefix "\" l = true /\ prefix name_prefix l = false) b -> name_loop name (b ++ rest) = name_loop name rest.
Proof. induction 1 as [|l b [H1 H2] F IH]; [reflexivity|]. cbn [app name_loop]. rewrite H1, H2. exact IH. Qed.
Lemma loop_over name b s rest : Forall (fun l => prefix "\" l = true) b -> name_loop name (b ++ (name_prefix ++ s)%string :: rest) = name_loop (strip s) rest.
Proof.
  intro F. revert name. induction F as [|l b H F IH]; intro name.
  - cbn [app name_loop]. rewrite (prefix_app name_prefix s), drop_app. rewrite (name_prefix_comment _ (prefix_app name_prefix s)). reflexivity.
  - cbn [app name_loop]. rewrite H. cbn [negb]. apply IH.
Qed.
Lemma loop_end name rest : match rest with [] => True | l :: _ => prefix "\" l = false end -> name_loop name rest = name.
Proof.
  destruct rest as [|l r]; [reflexivity|]. intro H. cbn [name_loop]. rewrite H. destruct (prefix name_prefix l) eqn:E; [|reflexivity]. rewrite (name_prefix_comment l E) in H. discriminate H.
Qed.

(** ** The graph of coordinates *)
Lemma py_max_spec l : forall a, (a <= py_max a l)%Qc /\ Forall (fun x => (x <= py_max a l)%Qc) l.
Proof.
  unfold py_max. induction l as [|x l IH]; intro a; [split; [apply Qcle_refl|constructor]|]. cbn [fold_left]. destruct (qltb_spec a x) as [L|L].
  - destruct (IH x) as [A B]. split; [qlra|constructor; assumption].
  - destruct (IH a) as [A B]. split; [exact A|]. constructor; [|exact B]. apply Qcle_trans with a; [now apply Qcnot_lt_le|exact A].
Qed.
Lemma py_min_spec l : forall a, (py_min a l <= a)%Qc /\ Forall (fun x => (py_min a l <= x)%Qc) l.
Proof.
  unfold py_min. induction l as [|x l IH]; intro a; [split; [apply Qcle_refl|constructor]|]. cbn [fold_left]. destruct (qltb_spec x a) as [L|L].
  - destruct (IH x) as [A B]. split; [qlra|constructor; assumption].
  - destruct (IH a) as [A B]. split; [exact A|]. constructor; [|exact B]. apply Qcle_trans with a; [exact A|now apply Qcnot_lt_le].
Qed.
Lemma rect_complete hyp n x0 x1 y0 y1 pos : hypot_like hyp -> length pos = n -> Forall (fun c => x0 <= fst c /\ fst c <= x1 /\ y0 <= snd c /\ snd c <= y1)%Qc pos ->
  complete (geometric hyp n (hyp (x1 - x0) (y1 - y0) + 1)%Qc pos) (fun i j => np_rint (distance hyp pos i j)).
Proof.
  intros Hyp L F. split; [|split; [|split; [|split]]].
  - apply Forall_forall. intros e He. apply geometric_in in He. destruct He as (i & j & H & _ & ->). cbn. lia.
  - assert (forall i j, i < j < n -> joined (geometric hyp n (hyp (x1 - x0) (y1 - y0) + 1)%Qc pos) i j) as G.
    { intros i j H. eexists. split; [apply geometric_in; exists i, j; split; [exact H|]; split; [|reflexivity]|now left]. apply Qcle_trans with (hyp (x1 - x0) (y1 - y0))%Qc; [|qlra].
      assert (forall k : nat, (k < n)%nat -> x0 <= fst (coord pos k) /\ fst (coord pos k) <= x1 /\ y0 <= snd (coord pos k) /\ snd (coord pos k) <= y1)%Qc as Fk. { intros k Hk. rewrite Forall_forall in F. apply F. apply nth_In. lia. }
      assert (forall lo hi a b, lo <= a -> a <= hi -> lo <= b -> b <= hi -> qabs (a - b) <= qabs (hi - lo))%Qc as D. { intros lo hi a b A1 A2 B1 B2. apply qabs_bound. pose proof (qabs_le (hi - lo)). split; qlra. }
      destruct Hyp as [_ M]. destruct (Fk i ltac:(lia)) as (A1 & A2 & A3 & A4). destruct (Fk j ltac:(lia)) as (B1 & B2 & B3 & B4). apply M; apply D; assumption. }
    intros i j Hi Hj N. cbn [g_n geometric] in Hi, Hj. destruct (Nat.lt_ge_cases i j); [apply G; lia|]. destruct (G j i ltac:(lia)) as (e & A & B). exists e. split; [exact A|]. tauto.
  - intros e He. apply geometric_in in He. destruct He as (i & j & _ & _ & ->). reflexivity.
  - intros i j. now rewrite (distance_sym hyp Hyp).
  - intro i. rewrite (distance_same hyp Hyp). apply rint_0.
Qed.
Lemma tsplib_graph_spec hyp pos : hypot_like hyp -> pos <> [] -> exists g, tsplib_graph hyp pos = Ok g /\ g_n g = length pos /\ complete g (fun i j => np_rint (distance hyp pos i j)).
Proof.
  intros H N. destruct pos as [|c r]; [congruence|]. cbn [tsplib_graph]. eexists. split; [reflexivity|]. split; [reflexivity|]. apply rect_complete; [exact H|reflexivity|].
  destruct (py_max_spec (map fst r) (fst c)) as [A1 A2]. destruct (py_min_spec (map fst r) (fst c)) as [B1 B2]. destruct (py_max_spec (map snd r) (snd c)) as [C1 C2]. destruct (py_min_spec (map snd r) (snd c)) as [D1 D2].
  rewrite Forall_map in A2, B2, C2, D2. constructor; [auto|]. rewrite Forall_forall in *. intros x Hx. auto.
Qed.

(** ** The name of the problem *)
Lemma comment_prefix l : comment l <-> prefix "\" l = true.
Proof.
  split; [intros (t & ->); apply prefix_app|]. destruct l as [|c l]; [discriminate|]. cbn [prefix]. destruct (ascii_dec "\" c) as [<-|]; [intros _; exists l; reflexivity|discriminate].
Qed.
Lemma prefix_split w : forall l, prefix w l = true -> exists t, l = (w ++ t)%string.
Proof.
  induction w as [|c w IH]; intros l H; [exists l; reflexivity|]. destruct l as [|d l]; [discriminate H|]. cbn [prefix] in H. destruct (ascii_dec c d) as [<-|]; [|discriminate H]. destruct (IH l H) as (t & ->). exists t. reflexivity.
Qed.
Lemma no_name_prefix l : (forall t, ~ names_problem l t) -> prefix name_prefix l = false.
Proof. intro H. destruct (prefix name_prefix l) eqn:E; [|reflexivity]. destruct (prefix_split _ _ E) as (t & ->). now destruct (H t). Qed.
Lemma skip_all b : Forall comment b -> Forall (fun l => forall t, ~ names_problem l t) b -> Forall (fun l => prefix "\" l = true /\ prefix name_prefix l = false) b.
Proof. intros H1 H2. rewrite Forall_forall in *. intros l Hl. split; [now apply comment_prefix, H1|now apply no_name_prefix, H2]. Qed.
Lemma rest_ends rest : match rest with [] => True | l :: _ => ~ comment l end -> match rest with [] => True | l :: _ => prefix "\" l = false end.
Proof. destruct rest as [|l r]; [auto|]. intro H. destruct (prefix "\" l) eqn:E; [|reflexivity]. now apply comment_prefix in E. Qed.
Lemma parse_named file b1 l s b2 rest : top file (b1 ++ l :: b2) rest -> names_problem l s -> Forall (fun l => forall t, ~ names_problem l t) b2 -> parse_problem_name file = strip s.
Proof.
  intros (-> & F & R) -> N. unfold parse_problem_name. rewrite <- app_assoc. apply Forall_app in F as [F1 F2]. inversion F2 as [|? ? _ F3]; subst. cbn [app]. change ("\Problem name:" ++ s)%string with (name_prefix ++ s)%string. rewrite loop_over.
  - rewrite loop_skip by (apply skip_all; assumption). apply loop_end. now apply rest_ends.
  - eapply Forall_impl; [|exact F1]. intro a. apply comment_prefix.
Qed.
Lemma parse_unnamed file b rest : top file b rest -> Forall (fun l => forall t, ~ names_problem l t) b -> parse_problem_name file = "".
Proof. intros (-> & F & R) N. unfold parse_problem_name. rewrite loop_skip by (apply skip_all; assumption). apply loop_end. now apply rest_ends. Qed.
Lemma white_space c : white c = py_space c.
Proof. destruct c as [[] [] [] [] [] [] [] []]; vm_compute; reflexivity. Qed.
Lemma all_white s : all_chars white s = all_chars py_space s.
Proof. induction s as [|c s IH]; cbn [all_chars]; [reflexivity|]. now rewrite white_space, IH. Qed.
Lemma trims_strip s n : trims s n <-> n = strip s.
Proof.
  split.
  - intros ((H1 & H2) & a & b & -> & A & B). rewrite all_white in A, B. symmetry. apply strip_around; auto; intros c t E; rewrite <- white_space; eauto.
  - intros ->. destruct (strip_spec s) as (a & b & E & A & B & H1 & H2). rewrite <- all_white in A, B. split; [split; intros c t Et; rewrite white_space; eauto|eauto].
Qed.
Lemma lp_file_name m file : lp_file m file -> parse_problem_name file = strip (dm_name m).
Proof.
  intros (b1 & b2 & rest & T & N). rewrite (parse_named file b1 _ (" " ++ dm_name m ++ String newline "") b2 rest T eq_refl N). symmetry. apply trims_strip.
  pose proof (proj2 (trims_strip (dm_name m) _) eq_refl) as (T1 & a & b & E & A & B). split; [exact T1|]. exists (String " " a), (b ++ String newline "")%string. split; [|split; [exact A|rewrite all_chars_app, B; reflexivity]].
  cbn [append]. f_equal. rewrite E at 1. now rewrite !string_app_assoc.
Qed.
