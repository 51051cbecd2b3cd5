(** * Lemmas on drawings and random instances *)
From Verif Require Export SpecDraw.
From Verif Require Import TspFacts AppFacts IntBinFacts.
Local Open Scope string_scope.
Local Open Scope list_scope.
Local Open Scope nat_scope.

Lemma painted_map order (h : nat -> string) v c : painted order (map h order) v c <-> In v order /\ c = h v.
Proof.
  split.
  - intros (k & A & B). rewrite nth_error_map, A in B. cbn in B. split; [now apply nth_error_In in A|congruence].
  - intros (A & ->). apply In_nth_error in A. destruct A as (k & A). exists k. rewrite nth_error_map, A. auto.
Qed.
Lemma colors_map (f : Qc -> string) n order x : Permutation order (seq 0 n) -> n <= length x ->
  mapM (fun v => do a <- value_at x v; Ok (f a)) order = Ok (map (fun v => f (at_ x v)) order).
Proof.
  intros P L. apply mapM_all. intros v Hv. assert (v < n) as Hn by (apply (Permutation_in _ P) in Hv; apply in_seq in Hv; lia). unfold value_at, at_.
  destruct (nth_error x v) as [a|] eqn:E; [|apply nth_error_None in E; lia]. cbn. f_equal. f_equal. symmetry. now apply nth_error_nth.
Qed.
Lemma colors_spec (f : Qc -> string) n order x : Permutation order (seq 0 n) -> n <= length x ->
  exists cs, mapM (fun v => do a <- value_at x v; Ok (f a)) order = Ok cs /\ length cs = n /\ forall v c, painted order cs v c <-> v < n /\ c = f (at_ x v).
Proof.
  intros P L. eexists. split; [now apply (colors_map f n)|]. split; [rewrite map_length; apply Permutation_length in P; now rewrite seq_length in P|]. intros v c. rewrite painted_map. split; intros [A B]; (split; [|exact B]).
  - apply (Permutation_in _ P) in A. apply in_seq in A. lia.
  - apply (Permutation_in _ (Permutation_sym P)). apply in_seq. lia.
Qed.
Lemma colors_short (f : Qc -> string) n order x : Permutation order (seq 0 n) -> length x < n -> mapM (fun v => do a <- value_at x v; Ok (f a)) order = Err IndexError.
Proof.
  intros P L. assert (In (length x) order) as I by (apply (Permutation_in _ (Permutation_sym P)); apply in_seq; lia). clear P. induction order as [|v order IH]; [destruct I|]. cbn [mapM].
  unfold value_at at 1. destruct (nth_error x v) eqn:E; [|reflexivity]. cbn [bind]. destruct I as [->|I]; [assert (length x < length x) by (apply nth_error_Some; congruence); lia|]. rewrite (IH I). reflexivity.
Qed.
Lemma maxcut_painted n x v c : length x = n -> painted (seq 0 n) (maxcut_colors x) v c <-> v < n /\ c = (if qeqb (at_ x v) 0 then "r" else "b").
Proof.
  intro L. assert (maxcut_colors x = map (fun v => if qeqb (at_ x v) 0 then "r" else "b") (seq 0 n)) as ->.
  { unfold maxcut_colors. assert (x = map (at_ x) (seq 0 n)) as E. { subst n. unfold at_. clear. induction x as [|a x IH]; [reflexivity|]. cbn. f_equal. rewrite IH at 1. rewrite <- seq_shift, map_map. reflexivity. }
    rewrite E at 1. rewrite map_map. reflexivity. }
  rewrite painted_map, in_seq. split; intros [A B]; (split; [lia|exact B]).
Qed.

(** ** Tours *)
Lemma closed_at l n : length l = n -> closed l = map (fun k => (nth k l n, nth ((k + 1) mod n) l n)) (seq 0 n).
Proof.
  intro L. destruct l as [|a r]; [cbn in L; subst n; reflexivity|]. unfold closed. apply (nth_ext _ _ (n, n) (n, n)).
  - rewrite combine_length, app_length, map_length, seq_length. cbn [length] in *. lia.
  - intros k Hk. rewrite combine_length, app_length in Hk. cbn [length] in Hk. assert (k < n) as Hn by (cbn in L; lia). rewrite combine_nth by (rewrite app_length; cbn; lia).
    set (g := fun k => (nth k (a :: r) n, nth ((k + 1) mod n) (a :: r) n)). rewrite (nth_indep (map g (seq 0 n)) (n, n) (g 0)) by (rewrite map_length, seq_length; exact Hn).
    rewrite map_nth, seq_nth by exact Hn. unfold g. cbn [plus]. f_equal. cbn [length] in L. destruct (Nat.eq_dec k (length r)) as [->|Nk].
    + replace (length r + 1) with n by lia. rewrite Nat.mod_same by lia. rewrite app_nth2, Nat.sub_diag by lia. reflexivity.
    + rewrite Nat.mod_small by lia. rewrite Nat.add_1_r. rewrite app_nth1 by lia. reflexivity.
Qed.
Lemma edgelist_tour n l : 0 < n -> Permutation l (seq 0 n) -> tsp_interpret (perm_matrix n l) = map One l -> tsp_edgelist (perm_matrix n l) = map (fun e => (One (fst e), One (snd e))) (closed l).
Proof.
  intros Hn P E. assert (length l = n) as L by (apply Permutation_length in P; now rewrite seq_length in P). unfold tsp_edgelist. rewrite E, map_length, (closed_at l n L), map_map, L. apply map_ext_in. intros k Hk. apply in_seq in Hk. cbn [fst snd].
  assert ((k + 1) mod n < n) as Hm by (apply Nat.mod_upper_bound; lia). rewrite (nth_indep (map One l) (Many []) (One n)), (nth_indep (map One l) (Many []) (One n) (n := (k + 1) mod n)) by (rewrite map_length; lia). rewrite !map_nth. reflexivity.
Qed.
Lemma closed_sum n w l : 0 < n -> length l = n -> tsp_value l w = Ok (sumof (fun e => w (fst e) (snd e)) (closed l)).
Proof. intros Hn L. rewrite (value_sum n Hn w l L), (closed_at l n L), sumof_map. reflexivity. Qed.
Lemma closed_nodes l : map fst (closed l) = l /\ Permutation (map snd (closed l)) l.
Proof.
  destruct l as [|a r]; [split; constructor|]. unfold closed.
  assert (forall (l1 l2 : list nat), length l1 = length l2 -> map fst (combine l1 l2) = l1 /\ map snd (combine l1 l2) = l2) as G. { clear. induction l1 as [|a l1 IH]; intros [|b l2] H; try discriminate H; [split; reflexivity|]. injection H as H. destruct (IH l2 H) as [A B]. cbn. now rewrite A, B. }
  destruct (G (a :: r) (r ++ [a])) as [A B]; [rewrite app_length; cbn; lia|]. rewrite A, B. split; [reflexivity|]. symmetry. apply Permutation_cons_append.
Qed.

(** ** Routes of vehicles *)
Lemma flat_nth {A B} (f : nat -> list A -> list B) (l : list (list A)) : forall s, flat_map (fun k => f k (nth (k - s) l [])) (seq s (length l)) = concat (map (fun kr => f (fst kr) (snd kr)) (combine (seq s (length l)) l)).
Proof.
  induction l as [|r l IH]; intro s; [reflexivity|]. cbn [length seq flat_map combine map concat fst snd]. rewrite Nat.sub_diag. cbn [nth]. f_equal. rewrite <- IH. rewrite !flat_map_concat_map. f_equal. apply map_ext_in. intros k Hk. apply in_seq in Hk. replace (k - s) with (S (k - S s)) by lia. reflexivity.
Qed.
Lemma vrp_edges routes : vrp_edgelist routes = concat routes.
Proof.
  unfold vrp_edgelist. rewrite (flat_map_ext _ (fun k => nth (k - 0) routes [])) by (intro; now rewrite Nat.sub_0_r). rewrite (flat_nth (fun _ r => r) routes 0). f_equal.
  generalize 0. induction routes as [|r routes IH]; intro s; [reflexivity|]. cbn. now rewrite IH.
Qed.
Lemma map_const {A B} (c : B) (l : list A) : map (fun _ => c) l = repeat c (length l).
Proof. induction l; cbn; congruence. Qed.
Lemma combine_swap {A B C} (f : A -> B -> C) l : forall m, map (fun ab => f (fst ab) (snd ab)) (combine l m) = map (fun ba => f (snd ba) (fst ba)) (combine m l).
Proof. induction l as [|a l IH]; intros [|b m]; cbn; try reflexivity. now rewrite IH. Qed.
Lemma combine_map_r {A B C} (f : B -> C) (l : list A) : forall m, combine l (map f m) = map (fun ab => (fst ab, f (snd ab))) (combine l m).
Proof. induction l as [|a l IH]; intros [|b m]; cbn; try reflexivity. now rewrite IH. Qed.
Lemma vrp_colors routes : exists cols, length cols = length routes /\ NoDup cols /\ Forall (fun c => 0 <= c /\ c < 1)%Qc cols /\
  vrp_edge_color routes = concat (map (fun rc => repeat (snd rc) (length (fst rc))) (combine routes cols)).
Proof.
  set (m := length routes). exists (map (fun k => (qn k / qn m)%Qc) (seq 0 m)). split; [now rewrite map_length, seq_length|]. split.
  { destruct (Nat.eq_dec m 0) as [->|Nm]; [constructor|]. assert (qn m <> 0%Qc) as Nq by (intro K; apply Nm; apply qn_inj; exact K).
    apply FinFun.Injective_map_NoDup; [|apply seq_NoDup]. intros i j E. apply qn_inj. apply (f_equal (fun c => (c * qn m)%Qc)) in E. unfold Qcdiv in E. rewrite <- !Qcmult_assoc, !(Qcmult_comm (/ qn m)), !Qcmult_inv_r, !Qcmult_1_r in E by exact Nq. exact E. }
  split. { apply Forall_forall. intros c Hc. apply in_map_iff in Hc. destruct Hc as (k & <- & Hk). apply in_seq in Hk. assert (qn m <> 0%Qc) as Nq by (intro K; apply (f_equal (fun c => c)) in K; assert (m = 0) by (apply qn_inj; exact K); lia).
    assert (qn k / qn m * qn m = qn k)%Qc as E by (unfold Qcdiv; rewrite <- Qcmult_assoc, (Qcmult_comm (/ qn m)), Qcmult_inv_r, Qcmult_1_r by exact Nq; reflexivity).
    assert (0 <= qn k)%Qc as A by (rewrite <- qn_0; apply qn_le; lia). assert (qn k + 1 <= qn m)%Qc as B by (rewrite Qcplus_comm, <- qn_S; apply qn_le; lia). set (c := (qn k / qn m)%Qc) in *. split; qnra. }
  unfold vrp_edge_color. fold m. rewrite (flat_map_ext _ (fun k => (fun k r => repeat (qn k / qn m)%Qc (length r)) k (nth (k - 0) routes []))) by (intro; now rewrite Nat.sub_0_r, map_const).
  unfold m at 2. rewrite (flat_nth (fun k r => repeat (qn k / qn m)%Qc (length r)) routes 0). f_equal. rewrite combine_map_r, map_map. cbn [fst snd].
  rewrite (combine_swap (fun k (r : list (nat * nat)) => repeat (qn k / qn m)%Qc (length r))). reflexivity.
Qed.
Lemma rint_spec q : integral (np_rint q) /\ (- (1 / qz 2) <= np_rint q - q)%Qc /\ (np_rint q - q <= 1 / qz 2)%Qc.
Proof.
  unfold np_rint. pose proof (qfloor_le q) as A. pose proof (qfloor_lt q) as B. assert (forall z, qz (z + 1) = qz z + 1)%Qc as E by (intro; rewrite qz_add; reflexivity).
  assert (1 / qz 2 + 1 / qz 2 = 1)%Qc as H2 by (apply Qc_is_canon; vm_compute; reflexivity).
  destruct (q - qz (qfloor q) ?= 1 / qz 2)%Qc eqn:C.
  - apply Qceq_alt in C. destruct (Z.even (qfloor q)); (split; [eexists; reflexivity|]); rewrite ?E; split; qlra.
  - apply Qclt_alt in C. split; [eexists; reflexivity|]. split; qlra.
  - apply Qcgt_alt in C. split; [eexists; reflexivity|]. rewrite E. split; qlra.
Qed.
(** A number in the middle goes to the even side. *)
Lemma rint_half q : qabs (np_rint q - q) = (1 / qz 2)%Qc -> exists z, np_rint q = qz (2 * z).
Proof.
  assert (1 / qz 2 + 1 / qz 2 = 1)%Qc as H2 by (apply Qc_is_canon; vm_compute; reflexivity). assert (0 < 1 / qz 2)%Qc as H0 by (apply qltb_iff; reflexivity).
  intro H. assert (np_rint q - q = 1 / qz 2 \/ np_rint q - q = - (1 / qz 2))%Qc as D. { unfold qabs in H. destruct (qleb 0 (np_rint q - q)); [left; exact H|right; rewrite <- H; ring]. } clear H.
  unfold np_rint in *. pose proof (qfloor_le q) as A. pose proof (qfloor_lt q) as B. assert (forall z, qz (z + 1) = qz z + 1)%Qc as E by (intro; rewrite qz_add; reflexivity).
  destruct (q - qz (qfloor q) ?= 1 / qz 2)%Qc eqn:C.
  - destruct (Z.even (qfloor q)) eqn:Ev.
    + apply Z.even_spec in Ev. destruct Ev as [z Ez]. exists z. now rewrite Ez.
    + rewrite <- Z.negb_odd in Ev. apply negb_false_iff, Z.odd_spec in Ev. destruct Ev as [z Ez]. exists (z + 1)%Z. f_equal. lia.
  - apply Qclt_alt in C. exfalso. destruct D as [D|D]; set (f := qz (qfloor q)) in *; clearbody f; qlra.
  - apply Qcgt_alt in C. exfalso. rewrite E in D. destruct D as [D|D]; set (f := qz (qfloor q)) in *; clearbody f; qlra.
Qed.
Lemma rint_rounds q : rounds_even q (np_rint q).
Proof. destruct (rint_spec q) as (I & A & B). split; [exact I|]. split; [apply qabs_bound; auto|apply rint_half]. Qed.
Lemma rint_0 : np_rint 0 = 0%Qc.
Proof. apply Qc_is_canon. vm_compute. reflexivity. Qed.

(** ** Geometric graphs *)
Section Geometric.
Variable hyp : Qc -> Qc -> Qc.
Hypothesis Hyp : hypot_like hyp.
Lemma hyp_opp a b : hyp (- a)%Qc (- b)%Qc = hyp a b.
Proof using Hyp. destruct Hyp as [_ M]. apply Qcle_antisym; apply M; rewrite qabs_opp; apply Qcle_refl. Qed.
Lemma hyp_nonneg a b : (0 <= hyp a b)%Qc.
Proof using Hyp. destruct Hyp as [Z M]. rewrite <- Z. apply M; (replace (qabs 0) with 0%Qc by reflexivity; apply qabs_nonneg). Qed.
Lemma distance_sym pos i j : distance hyp pos i j = distance hyp pos j i.
Proof using Hyp. unfold distance. rewrite <- hyp_opp. f_equal; ring. Qed.
Lemma distance_same pos i : distance hyp pos i i = 0%Qc.
Proof using Hyp. unfold distance. destruct Hyp as [Z _]. transitivity (hyp 0%Qc 0%Qc); [f_equal; ring|exact Z]. Qed.
Lemma geometric_in n r pos e : In e (g_edges (geometric hyp n r pos)) <->
  exists i j, i < j < n /\ (distance hyp pos i j <= r)%Qc /\ e = ((i, j), Some (np_rint (distance hyp pos i j))).
Proof using.
  unfold geometric. cbn [g_edges]. rewrite in_flat_map. setoid_rewrite in_flat_map. split.
  - intros (i & Hi & j & Hj & H). apply in_seq in Hi, Hj. destruct (qleb_spec (distance hyp pos i j) r); [|destruct H]. destruct H as [<-|[]]. exists i, j. split; [lia|auto].
  - intros (i & j & H & L & ->). exists i. split; [apply in_seq; lia|]. exists j. split; [apply in_seq; lia|]. destruct (qleb_spec (distance hyp pos i j) r); [now left|contradiction].
Qed.
Lemma geometric_complete n lo hi pos : length pos = n -> Forall (fun c => lo <= fst c /\ fst c <= hi /\ lo <= snd c /\ snd c <= hi)%Qc pos ->
  complete (geometric hyp n (hyp (hi - lo) (hi - lo) + 1)%Qc pos) (fun i j => np_rint (distance hyp pos i j)).
Proof using Hyp.
  intros L F. split; [|split; [|split; [|split]]].
  - apply Forall_forall. intros e He. apply geometric_in in He. destruct He as (i & j & H & _ & ->). cbn. lia.
  - assert (forall i j, i < j < n -> joined (geometric hyp n (hyp (hi - lo) (hi - lo) + 1)%Qc pos) i j) as G.
    { intros i j H. eexists. split; [apply geometric_in; exists i, j; split; [exact H|]; split; [|reflexivity]|now left]. apply Qcle_trans with (hyp (hi - lo) (hi - lo))%Qc; [|qlra].
      assert (forall k : nat, (k < n)%nat -> lo <= fst (coord pos k) /\ fst (coord pos k) <= hi /\ lo <= snd (coord pos k) /\ snd (coord pos k) <= hi)%Qc as Fk. { intros k Hk. rewrite Forall_forall in F. apply F. apply nth_In. lia. }
      assert (forall a b, lo <= a -> a <= hi -> lo <= b -> b <= hi -> qabs (a - b) <= qabs (hi - lo))%Qc as D. { intros a b A1 A2 B1 B2. apply qabs_bound. pose proof (qabs_le (hi - lo)). split; qlra. }
      destruct Hyp as [_ M]. destruct (Fk i ltac:(lia)) as (A1 & A2 & A3 & A4). destruct (Fk j ltac:(lia)) as (B1 & B2 & B3 & B4). apply M; apply D; assumption. }
    intros i j Hi Hj N. cbn [g_n geometric] in Hi, Hj. destruct (Nat.lt_ge_cases i j); [apply G; lia|]. destruct (G j i ltac:(lia)) as (e & A & B). exists e. split; [exact A|]. tauto.
  - intros e He. apply geometric_in in He. destruct He as (i & j & _ & _ & ->). reflexivity.
  - intros i j. now rewrite distance_sym.
  - intro i. rewrite distance_same. apply rint_0.
Qed.
End Geometric.
Lemma draw_length {S} (draw : S -> Qc * S) n : forall st, length (fst (draw_pairs draw n st)) = n.
Proof. induction n as [|n IH]; intro st; [reflexivity|]. cbn. destruct (draw st) as [a st1]. destruct (draw st1) as [b st2]. specialize (IH st2). destruct (draw_pairs draw n st2). cbn in *. lia. Qed.
Lemma draw_all {S} (draw : S -> Qc * S) (P : Qc -> Prop) n : (forall st, P (fst (draw st))) -> forall st, Forall (fun c => P (fst c) /\ P (snd c)) (fst (draw_pairs draw n st)).
Proof.
  intro H. induction n as [|n IH]; intro st; [constructor|]. cbn. pose proof (H st) as A. destruct (draw st) as [a st1]. pose proof (H st1) as B. destruct (draw st1) as [b st2]. specialize (IH st2). destruct (draw_pairs draw n st2). cbn in *. constructor; [split; assumption|exact IH].
Qed.
