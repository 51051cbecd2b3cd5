(** * Facts about graphs with labels and graphs given as matrices *)
From Verif Require Import SpecGraph AppFacts AppFacts2 RouteFacts PyFacts.
From Coq Require Import Lia.
Local Open Scope nat_scope.

Lemma label_eqb_spec a b : label_eqb a b = true <-> a = b.
Proof.
  destruct a, b; cbn; try (split; congruence).
  - rewrite Z.eqb_eq. split; congruence.
  - rewrite String.eqb_eq. split; congruence.
Qed.
Lemma number_inj i j : number i = number j -> i = j.
Proof. unfold number. intros [= H]. lia. Qed.
Lemma slot_of_number n i : i < n -> slot_of n (number i) = Ok i.
Proof. intro H. unfold number. cbn. destruct (Z.leb_spec 0 (Z.of_nat i)); [|lia]. destruct (Z.ltb_spec (Z.of_nat i) (Z.of_nat n)); [|lia]. cbn. now rewrite Nat2Z.id. Qed.
Lemma slot_of_ok n l i : slot_of n l = Ok i -> i < n /\ l = number i.
Proof.
  destruct l as [z|s]; cbn; [|discriminate]. destruct (Z.leb_spec 0 z); [|discriminate]. destruct (Z.ltb_spec z (Z.of_nat n)); [|discriminate]. cbn. intros [= <-]. unfold number. split; [lia|]. now rewrite Z2Nat.id.
Qed.
Lemma slot_of_err n l e : slot_of n l = Err e -> e = KeyError /\ ~ numbered n l.
Proof.
  intro H. split.
  - destruct l as [z|s]; cbn in H; [|congruence]. destruct (_ && _)%bool; congruence.
  - intros (i & Hi & ->). rewrite (slot_of_number n i Hi) in H. discriminate H.
Qed.
Lemma slots_of_ok n e e' : slots_of n e = Ok e' -> fst (fst e') < n /\ snd (fst e') < n /\ e = ((number (fst (fst e')), number (snd (fst e'))), snd e').
Proof.
  destruct e as [[a b] w]. unfold slots_of. cbn [fst snd]. destruct (slot_of n a) as [i|] eqn:A; cbn [bind]; [|discriminate]. destruct (slot_of n b) as [j|] eqn:B; cbn [bind]; [|discriminate]. intros [= <-]. cbn [fst snd].
  apply slot_of_ok in A, B. destruct A as (A & ->), B as (B & ->). auto.
Qed.
Lemma slots_of_err n e x : slots_of n e = Err x -> x = KeyError /\ ~ (numbered n (fst (fst e)) /\ numbered n (snd (fst e))).
Proof.
  destruct e as [[a b] w]. unfold slots_of. cbn [fst snd]. destruct (slot_of n a) as [i|] eqn:A; cbn [bind].
  - destruct (slot_of n b) as [j|] eqn:B; cbn [bind]; [discriminate|]. intros [= <-]. apply slot_of_err in B. tauto.
  - intros [= <-]. apply slot_of_err in A. tauto.
Qed.
Lemma mapM_first {A B} (f : A -> result B) l e : mapM f l = Err e -> exists a, In a l /\ f a = Err e.
Proof.
  induction l as [|a l IH]; cbn [mapM]; [discriminate|]. destruct (f a) as [b|x] eqn:E; cbn [bind].
  - destruct (mapM f l) as [bs|y] eqn:M; cbn [bind]; [discriminate|]. intros [= ->]. destruct (IH eq_refl) as (a' & I & F). exists a'. cbn. auto.
  - intros [= ->]. exists a. cbn. auto.
Qed.
Lemma edges_same g es : mapM (slots_of (lg_n g)) (lg_edges g) = Ok es -> same_graph g (mkGraph (lg_n g) es).
Proof.
  intro M. split; [reflexivity|]. unfold graph_wf. cbn [g_n g_edges]. revert M. generalize (lg_edges g) as l. intro l. revert es. induction l as [|e l IH]; cbn [mapM]; intros es M.
  - injection M as <-. cbn. auto.
  - destruct (slots_of (lg_n g) e) as [e'|] eqn:E; cbn [bind] in M; [|discriminate M]. destruct (mapM (slots_of (lg_n g)) l) as [es'|] eqn:M'; cbn [bind] in M; [|discriminate M]. injection M as <-.
    destruct (IH es' eq_refl) as (A & B). apply slots_of_ok in E. destruct E as (E1 & E2 & E3). split; [constructor; auto|]. cbn [map]. now rewrite <- B, <- E3.
Qed.
Lemma over_made f g : (forall h, graph_wf h -> exists p, f h = Ok p) ->
  made_or_key (over_edges f g) (forall e, In e (lg_edges g) -> numbered (length (lg_nodes g)) (fst (fst e)) /\ numbered (length (lg_nodes g)) (snd (fst e))) /\
  forall p, over_edges f g = Ok p -> exists h, same_graph g h /\ f h = Ok p.
Proof.
  intro F. unfold over_edges. destruct (mapM (slots_of (lg_n g)) (lg_edges g)) as [es|x] eqn:M; cbn [bind].
  - apply edges_same in M. split; [|intros p E; eauto]. split; [intros _; apply F; exact (proj1 (proj2 M))|]. intro N. exfalso. apply N. destruct M as (_ & W & M). intros e I. rewrite M in I. apply in_map_iff in I.
    destruct I as (e' & <- & I). cbn [fst snd]. apply (proj1 (Forall_forall _ _) W) in I. cbn in I. split; eexists; (split; [|reflexivity]); tauto.
  - split; [|discriminate]. apply mapM_first in M. destruct M as (e & I & M). apply slots_of_err in M. destruct M as (-> & N). split; [|reflexivity]. intro H. exfalso. exact (N (H e I)).
Qed.
Lemma labels_proper g : NoDup (lg_nodes g) -> (forall l, In l (lg_nodes g) -> numbered (length (lg_nodes g)) l) -> proper g.
Proof.
  intros D N. unfold proper. apply NoDup_Permutation_bis; [exact D|rewrite map_length, seq_length; lia|]. intros l I. destruct (N l I) as (i & Hi & ->). apply in_map, in_seq. lia.
Qed.
Lemma numbers_nodup n : NoDup (map number (seq 0 n)).
Proof. apply FinFun.Injective_map_NoDup; [exact number_inj|apply seq_NoDup]. Qed.
Lemma numbers_proper g : (forall i, i < length (lg_nodes g) -> In (number i) (lg_nodes g)) -> proper g.
Proof.
  intro N. unfold proper. symmetry. apply NoDup_Permutation_bis; [apply numbers_nodup|rewrite map_length, seq_length; lia|]. intros l I. apply in_map_iff in I. destruct I as (i & <- & I). apply N. apply in_seq in I. lia.
Qed.

(** ** Cliques *)
Lemma ljoined_iff g a b : ljoined g a b = true <-> adjacent g a b.
Proof.
  unfold ljoined, adjacent. rewrite existsb_exists. split; intros ([[u v] w] & I & H); exists ((u, v), w); (split; [exact I|]); cbn [fst snd] in *.
  - apply orb_prop in H. destruct H as [H|H]; apply andb_prop in H; destruct H as (H1 & H2); apply label_eqb_spec in H1, H2; subst; auto.
  - destruct H as [H|H]; injection H as -> ->; rewrite !(proj2 (label_eqb_spec _ _) eq_refl); cbn; rewrite ?orb_true_r; reflexivity.
Qed.
Lemma adjacent_sym g a b : adjacent g a b -> adjacent g b a.
Proof. intros (e & I & H). exists e. tauto. Qed.
Lemma co_pairs_in g a b l : NoDup l -> (In (a, b) (co_pairs g l) \/ In (b, a) (co_pairs g l) <-> In a l /\ In b l /\ a <> b /\ ~ adjacent g a b).
Proof.
  induction l as [|c l IH]; intro D; cbn [co_pairs In]; [tauto|]. inversion D as [|? ? Nc D']; subst. specialize (IH D'). rewrite !in_app_iff, !in_map_iff. setoid_rewrite filter_In.
  assert (K : forall u v, (exists x, (c, x) = (u, v) /\ In x l /\ negb (ljoined g c x) = true) <-> u = c /\ In v l /\ ~ adjacent g u v).
  { intros u v. split.
    - intros (x & [= <- <-] & I & H). split; [reflexivity|]. split; [exact I|]. rewrite <- ljoined_iff. destruct (ljoined g c x); [discriminate H|discriminate].
    - intros (-> & I & H). exists v. split; [reflexivity|]. split; [exact I|]. rewrite <- ljoined_iff in H. destruct (ljoined g c v); [now destruct H|reflexivity]. }
  rewrite !K. clear K. split.
  - intros [[(-> & I & H)|I]|[(-> & I & H)|I]].
    + split; [auto|]. split; [auto|]. split; [|exact H]. intros ->. contradiction.
    + destruct (proj1 IH (or_introl I)) as (A & B & C). auto.
    + split; [auto|]. split; [auto|]. split; [intros ->; contradiction|]. intro J. apply H, adjacent_sym, J.
    + destruct (proj1 IH (or_intror I)) as (A & B & C). auto.
  - intros ([->|Ia] & [->|Ib] & N & H).
    + now destruct N.
    + left. left. auto.
    + right. left. split; [reflexivity|]. split; [exact Ia|]. intro J. apply H, adjacent_sym, J.
    + destruct (proj2 IH) as [J|J]; auto.
Qed.
Definition pair_vars (n : nat) (e : label * label) : result (nat * nat) := do i <- slot_of n (fst e); do j <- slot_of n (snd e); Ok (i, j).
Lemma pair_vars_ok n e ij : pair_vars n e = Ok ij -> fst ij < n /\ snd ij < n /\ e = (number (fst ij), number (snd ij)).
Proof.
  destruct e as [a b]. unfold pair_vars. cbn [fst snd]. destruct (slot_of n a) as [i|] eqn:A; cbn [bind]; [|discriminate]. destruct (slot_of n b) as [j|] eqn:B; cbn [bind]; [|discriminate]. intros [= <-]. cbn [fst snd].
  apply slot_of_ok in A, B. destruct A as (A & ->), B as (B & ->). auto.
Qed.
Lemma pair_vars_err n e x : pair_vars n e = Err x -> x = KeyError /\ ~ (numbered n (fst e) /\ numbered n (snd e)).
Proof.
  destruct e as [a b]. unfold pair_vars. cbn [fst snd]. destruct (slot_of n a) as [i|] eqn:A; cbn [bind].
  - destruct (slot_of n b) as [j|] eqn:B; cbn [bind]; [discriminate|]. intros [= <-]. apply slot_of_err in B. tauto.
  - intros [= <-]. apply slot_of_err in A. tauto.
Qed.
Lemma clique_made g size : lg_ok g ->
  let n := length (lg_nodes g) in
  made_or_key (clique_labelled g size) (forall a b, In a (lg_nodes g) -> In b (lg_nodes g) -> a <> b -> ~ adjacent g a b -> numbered n a) /\
  forall p, clique_labelled g size = Ok p -> binary_program p n (match size with None => MAXIMIZE | Some _ => MINIMIZE end) /\
    forall x, (feasible p x <-> bits n x /\ (forall i j, In i (clique_interpret x) -> In j (clique_interpret x) -> i <> j -> In (number i) (lg_nodes g) -> In (number j) (lg_nodes g) -> adjacent g (number i) (number j)) /\
                              forall k, size = Some k -> Z.of_nat (length (clique_interpret x)) = k) /\
      (bits n x -> obj_at (p_obj p) x = match size with None => qn (length (clique_interpret x)) | Some _ => 0%Qc end).
Proof.
  intros (D & _) n. unfold clique_labelled. change (lg_n g) with n. change (fun e : label * label => _) with (pair_vars n). destruct (mapM (pair_vars n) (co_pairs g (lg_nodes g))) as [ps|x] eqn:M; cbn [bind].
  - assert (forall e, In e (co_pairs g (lg_nodes g)) -> exists ij, In ij ps /\ pair_vars n e = Ok ij) as M1.
    { revert M. generalize (co_pairs g (lg_nodes g)) as l. intro l. clear. revert ps. induction l as [|e l IH]; intros ps M e' I; [destruct I|]. cbn [mapM] in M. destruct (pair_vars n e) as [u|] eqn:E; cbn [bind] in M; [|discriminate M].
      destruct (mapM (pair_vars n) l) as [us|] eqn:E'; cbn [bind] in M; [|discriminate M]. injection M as <-. destruct I as [<-|I]; [exists u; cbn; auto|]. destruct (IH us eq_refl e' I) as (v & J & V). exists v. cbn. auto. }
    assert (forall ij, In ij ps -> exists e, In e (co_pairs g (lg_nodes g)) /\ pair_vars n e = Ok ij) as M2.
    { revert M. generalize (co_pairs g (lg_nodes g)) as l. intro l. clear. revert ps. induction l as [|e l IH]; intros ps M ij I; cbn [mapM] in M; [injection M as <-; destruct I|]. destruct (pair_vars n e) as [u|] eqn:E; cbn [bind] in M; [|discriminate M].
      destruct (mapM (pair_vars n) l) as [us|] eqn:E'; cbn [bind] in M; [|discriminate M]. injection M as <-. destruct I as [<-|I]; [exists e; cbn; auto|]. destruct (IH us eq_refl ij I) as (v & J & V). exists v. cbn. auto. }
    assert (Forall (fun e => fst e < n /\ snd e < n) ps) as W. { apply Forall_forall. intros ij I. destruct (M2 ij I) as (e & _ & P). apply pair_vars_ok in P. tauto. }
    destruct (clique_model_spec n ps size W) as (p & E & B & F). split.
    + split; [intros _; eauto|]. intro N. exfalso. apply N. intros a b Ia Ib Nab NA. destruct (proj2 (co_pairs_in g a b (lg_nodes g) D)) as [J|J]; [auto| |];
        destruct (M1 _ J) as (ij & _ & P); apply pair_vars_ok in P; destruct P as (P1 & P2 & [= -> ->]); eexists; (split; [|reflexivity]); assumption.
    + intros p' E'. rewrite E in E'. injection E' as <-. split; [exact B|]. intro x. destruct (F x) as (Fx & O). split; [|exact O]. rewrite Fx. apply iff_rest. intro Bx. apply and_iff_compat_r. split.
      * intros H i j Ii Ij Nij Ni Nj. destruct (ljoined g (number i) (number j)) eqn:L; [now apply ljoined_iff|]. exfalso.
        assert (~ adjacent g (number i) (number j)) as NA by (rewrite <- ljoined_iff, L; discriminate). destruct (proj2 (co_pairs_in g (number i) (number j) (lg_nodes g) D)) as [J|J].
        { split; [exact Ni|]. split; [exact Nj|]. split; [|exact NA]. intro K. apply Nij, number_inj, K. }
        -- destruct (M1 _ J) as ([u v] & I & P). apply pair_vars_ok in P. cbn [fst snd] in P. destruct P as (_ & _ & [= P1 P2]). apply Nat2Z.inj in P1, P2. subst u v. apply (H (i, j) I). cbn. auto.
        -- destruct (M1 _ J) as ([u v] & I & P). apply pair_vars_ok in P. cbn [fst snd] in P. destruct P as (_ & _ & [= P1 P2]). apply Nat2Z.inj in P1, P2. subst u v. apply (H (j, i) I). cbn. auto.
      * intros H [u v] I (Iu & Iv). cbn [fst snd] in *. destruct (M2 _ I) as (e & J & P). apply pair_vars_ok in P. cbn [fst snd] in P. destruct P as (_ & _ & ->).
        destruct (proj1 (co_pairs_in g (number u) (number v) (lg_nodes g) D) (or_introl J)) as (A & C & N & NA). apply NA, H; auto.
  - split; [|discriminate]. apply mapM_first in M. destruct M as ([a b] & I & M). apply pair_vars_err in M. destruct M as (-> & N). cbn [fst snd] in N. split; [|reflexivity]. intro H. exfalso.
    destruct (proj1 (co_pairs_in g a b (lg_nodes g) D) (or_introl I)) as (Ia & Ib & Nab & NA). apply N. split; [apply (H a b); auto|]. apply (H b a); auto. intro J. apply NA, adjacent_sym, J.
Qed.

(** ** Tours *)
Lemma found_node g i j : lg_ok g -> joined (mkGraph (lg_n g) (found_edges g)) i j -> In (number i) (lg_nodes g).
Proof.
  intros (_ & W) (e & I & H). cbn [g_edges] in I. unfold found_edges in I. apply in_flat_map in I. destruct I as (e0 & I & J). destruct (slots_of (lg_n g) e0) as [e'|] eqn:V; [|destruct J]. destruct J as [<-|[]]. apply slots_of_ok in V. destruct V as (_ & _ & V).
  destruct (W e0 I) as (A & B). rewrite V in A, B. cbn [fst snd] in A, B. destruct H as [H|H]; rewrite H in A, B; assumption.
Qed.
Lemma tour_proper g r : lg_ok g -> 2 <= length (lg_nodes g) ->
  (forall i j, i < lg_n g -> j < lg_n g -> i <> j -> ~ joined (mkGraph (lg_n g) (found_edges g)) i j -> r = Err KeyError) -> (exists p : qp, r = Ok p) -> proper g.
Proof.
  intros K L R (p & ->). apply numbers_proper. intros i Hi. set (j := if Nat.eqb i 0 then 1 else 0). apply (found_node g i j K). assert (i <> j) as N by (unfold j; destruct (Nat.eqb_spec i 0); lia). assert (j < lg_n g) as Hj by (unfold j, lg_n; destruct (Nat.eqb_spec i 0); lia).
  destruct (existsb (same_edge i j) (g_edges (mkGraph (lg_n g) (found_edges g)))) eqn:E; [now apply joined_iff|]. assert (~ joined (mkGraph (lg_n g) (found_edges g)) i j) as NJ by (rewrite <- joined_iff, E; discriminate). discriminate (R i j Hi Hj N NJ).
Qed.

(** ** Matrices *)
Lemma row_wf n a i : i < n -> Forall (fun e => fst (fst e) < n /\ snd (fst e) < n) (row_edges n a i).
Proof. intro H. apply Forall_forall. intros e I. unfold row_edges in I. apply in_map_iff in I. destruct I as (j & <- & I). cbn [fst snd]. apply in_app_iff in I. rewrite !filter_In, !in_seq in I. lia. Qed.
Lemma matrix_wf n a : graph_wf (matrix_graph n a).
Proof. unfold graph_wf, matrix_graph. cbn [g_n g_edges]. apply Forall_flat_map, Forall_forall. intros i I. apply row_wf. apply in_seq in I. lia. Qed.
Lemma row_sum n a i (f : nat -> Qc) : i < n -> f i = 0%Qc -> (forall j, i < j -> j < n -> a i j = 0%Qc -> a j i = 0%Qc -> f j = 0%Qc) ->
  sumof (fun e => f (snd (fst e))) (row_edges n a i) = sumof (fun j => if i <? j then f j else 0%Qc) (seq 0 n).
Proof.
  intros Hi F0 F. unfold row_edges. rewrite sumof_map, sumof_app. cbn [fst snd]. rewrite !sumof_filter. rewrite <- sumof_add. replace (seq 0 n) with (seq 0 i ++ seq i (n - i)) by (rewrite <- seq_app; f_equal; lia).
  rewrite sumof_app. rewrite (sumof_ext (fun j => if i <? j then f j else 0%Qc) (fun _ => 0%Qc) (seq 0 i)).
  2: { intros j I. apply in_seq in I. destruct (Nat.ltb_spec i j); [lia|reflexivity]. }
  rewrite (sumof_zero (fun _ => 0%Qc) (seq 0 i)) by reflexivity. rewrite Qcplus_0_l. apply sumof_ext. intros j I. apply in_seq in I. destruct (Nat.ltb_spec i j) as [L|L].
  - destruct (qeqb_spec (a i j) 0) as [E|E]; cbn [negb andb]; [|ring]. destruct (qeqb_spec (a j i) 0) as [E'|E']; cbn [negb]; [|ring]. rewrite (F j L ltac:(lia) E E'). ring.
  - assert (j = i) as -> by lia. rewrite F0. destruct (negb _), (_ && _)%bool; ring.
Qed.
Lemma pair_sum_rows n (f : nat -> nat -> Qc) : sumof (fun i => sumof (fun j => if i <? j then f i j else 0%Qc) (seq 0 n)) (seq 0 n) = pair_sum n f.
Proof.
  unfold pair_sum. rewrite sumof_swap. apply sumof_ext. intros j I. apply in_seq in I. replace (seq 0 n) with (seq 0 j ++ seq j (n - j)) by (rewrite <- seq_app; f_equal; lia). rewrite sumof_app.
  rewrite (sumof_ext (fun i => if i <? j then f i j else 0%Qc) (fun _ => 0%Qc) (seq j (n - j))).
  2: { intros i I'. apply in_seq in I'. destruct (Nat.ltb_spec i j); [lia|reflexivity]. }
  rewrite (sumof_zero (fun _ => 0%Qc)) by reflexivity. rewrite Qcplus_0_r. apply sumof_ext. intros i I'. apply in_seq in I'. destruct (Nat.ltb_spec i j); [reflexivity|lia].
Qed.
Lemma matrix_cut n a x : bits n x ->
  sumof edge_weight (filter (crossing (fst (two_sides 0 x)) (snd (two_sides 0 x))) (g_edges (matrix_graph n a))) =
  pair_sum n (fun i j => if qeqb (at_ x i) (at_ x j) then 0%Qc else late_entry a i j).
Proof.
  intro B. rewrite sumof_filter. unfold matrix_graph. cbn [g_edges]. rewrite sumof_flat_map. rewrite <- pair_sum_rows. apply sumof_ext. intros i I. apply in_seq in I.
  rewrite (sumof_ext _ (fun e => (fun j => if qeqb (at_ x i) (at_ x j) then 0%Qc else late_entry a i j) (snd (fst e))) (row_edges n a i)).
  - apply (row_sum n a i (fun j => if qeqb (at_ x i) (at_ x j) then 0%Qc else late_entry a i j)); [lia| |].
    + destruct (qeqb_spec (at_ x i) (at_ x i)); [reflexivity|congruence].
    + intros j L Hj E E'. unfold late_entry. rewrite E, E'. destruct (qeqb (at_ x i) (at_ x j)), (qeqb 0 0); reflexivity.
  - intros e J. pose proof (proj1 (Forall_forall _ _) (row_wf n a i ltac:(lia)) e J) as (W1 & W2). rewrite (crossing_differ n x e B W1 W2). unfold row_edges in J. apply in_map_iff in J. destruct J as (j & <- & _). cbn [fst snd]. unfold edge_weight. cbn [snd].
    destruct (qeqb (at_ x i) (at_ x j)); reflexivity.
Qed.
