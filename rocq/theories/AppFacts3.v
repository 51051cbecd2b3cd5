(** * Sets, knapsacks and partitions of numbers *)
From Verif Require Export AppFacts2.
Local Open Scope string_scope.
Local Open Scope list_scope.
Local Open Scope nat_scope.

Lemma pick_items {A} (items : list A) x : forall pre, length x = length items ->
  mapM (fun i => match nth_error (pre ++ items) i with Some s => Ok s | None => Err IndexError end) (picked (length pre) x) = Ok (chosen items x).
Proof.
  revert items. induction x as [|a x IH]; intros [|s items] pre E; try discriminate E; [reflexivity|].
  cbn [picked]. unfold chosen. cbn [combine filter fst]. specialize (IH items (pre ++ [s]) ltac:(cbn in E; lia)).
  rewrite app_length, Nat.add_1_r, <- app_assoc in IH. cbn [app] in IH. destruct (qeqb a 0); cbn [negb]; [exact IH|].
  cbn [mapM map snd]. rewrite nth_error_app2, Nat.sub_diag by lia. cbn [nth_error bind]. rewrite IH. reflexivity.
Qed.
Lemma pick_subsets_spec subs x : length x = length subs -> pick_subsets subs x = Ok (chosen subs x).
Proof. exact (pick_items subs x []). Qed.
Lemma chosen_length {A} (items : list A) x : length x = length items -> length (chosen items x) = length (picked 0 x).
Proof. intros E. pose proof (pick_items items x [] E) as H. exact (mapM_length _ _ _ H). Qed.
Lemma chosen_incl {A} (items : list A) x s : In s (chosen items x) -> In s items.
Proof. unfold chosen. rewrite in_map_iff. intros ([a t] & <- & H). apply filter_In in H as (H & _). apply in_combine_r in H. exact H. Qed.

(** ** Elements *)
Lemma put_sorted_in z l e : In e (put_sorted z l) <-> e = z \/ In e l.
Proof.
  induction l as [|y l IH]; cbn; [intuition|]. destruct (z <? y)%Z; [cbn; intuition|]. destruct (Z.eqb_spec z y) as [->|N]; [cbn; intuition|].
  cbn. rewrite IH. intuition.
Qed.
Lemma elements_in subs e : In e (elements subs) <-> exists s, In s subs /\ In e s.
Proof.
  unfold elements, unique. transitivity (In e (concat subs)); [|rewrite in_concat; reflexivity].
  induction (concat subs) as [|z l IH]; cbn; [tauto|]. rewrite put_sorted_in, IH. intuition.
Qed.
Lemma has_elem_iff e s : has_elem e s = true <-> In e s.
Proof. unfold has_elem. rewrite existsb_exists. split; [intros (z & I & H); apply Z.eqb_eq in H; subst; exact I|]. intros I. exists e. split; [exact I|apply Z.eqb_refl]. Qed.
Definition times (e : Z) (l : list (list Z)) : nat := length (filter (has_elem e) l).
Lemma times_0 e l : times e l = 0 <-> Forall (fun t => ~ In e t) l.
Proof.
  unfold times. induction l as [|s l IH]; cbn; [split; constructor|]. rewrite Forall_cons_iff, <- IH, <- has_elem_iff. destruct (has_elem e s); cbn; intuition (try discriminate; try congruence).
Qed.
Lemma times_app e l m : times e (l ++ m) = times e l + times e m.
Proof. unfold times. rewrite filter_app, app_length. reflexivity. Qed.
Lemma times_cons e s l : times e (s :: l) = (if has_elem e s then 1 else 0) + times e l.
Proof. unfold times. cbn. destruct (has_elem e s); reflexivity. Qed.
Lemma times_once e l : times e l = 1 <-> once e l.
Proof.
  split.
  - induction l as [|s l IH]; [discriminate|]. rewrite times_cons. intros H. destruct (has_elem e s) eqn:Es.
    + exists [], s, l. split; [reflexivity|]. split; [apply has_elem_iff; exact Es|]. apply times_0. change ([] ++ l) with l. lia.
    + destruct (IH H) as (l1 & t & l2 & -> & I & F). exists (s :: l1), t, l2. split; [reflexivity|]. split; [exact I|]. cbn. constructor; [|exact F].
      rewrite <- has_elem_iff, Es. discriminate.
  - intros (l1 & s & l2 & -> & I & F). rewrite <- times_0 in F. rewrite times_app in F. rewrite times_app, times_cons, (proj2 (has_elem_iff e s) I). lia.
Qed.
Lemma times_disjoint l : (forall e, times e l <= 1) <-> ForallOrdPairs disjoint l.
Proof.
  induction l as [|s l IH]; [split; [constructor|cbn; unfold times; cbn; lia]|]. split.
  - intros H. constructor.
    + apply Forall_forall. intros t It e Ie Ie'. specialize (H e). rewrite times_cons, (proj2 (has_elem_iff e s) Ie) in H.
      assert (times e l = 0) as Z by lia. apply times_0 in Z. exact (proj1 (Forall_forall _ _) Z t It Ie').
    + apply IH. intros e. specialize (H e). rewrite times_cons in H. lia.
  - intros H e. inversion H as [|? ? F O]; subst. rewrite times_cons. destruct (has_elem e s) eqn:Es; [|apply IH; exact O].
    apply has_elem_iff in Es. assert (times e l = 0) as ->; [|lia]. apply times_0. eapply Forall_impl; [|exact F]. intros t D. exact (D e Es).
Qed.
Lemma holders_from e subs : forall x s, length x = length subs -> Forall (fun a => a = 0 \/ a = 1)%Qc x ->
  sumof (fun iu => nth (fst iu - s) x 0%Qc) (filter (fun iu => has_elem e (snd iu)) (combine (seq s (length subs)) subs)) = qn (times e (chosen subs x)).
Proof.
  induction subs as [|t subs IH]; intros [|a x] s E F; try discriminate E; [reflexivity|]. inversion F as [|? ? Fa F']; subst.
  cbn [length seq combine filter snd]. specialize (IH x (S s) ltac:(cbn in E; lia) F').
  assert (sumof (fun iu => nth (fst iu - s) (a :: x) 0%Qc) (filter (fun iu => has_elem e (snd iu)) (combine (seq (S s) (length subs)) subs)) = qn (times e (chosen subs x))) as Es.
  { rewrite <- IH. apply sumof_ext. intros [i u] I. apply filter_In in I as (I & _). apply in_combine_l in I. apply in_seq in I. cbn [fst].
    destruct (i - s) as [|k] eqn:Ek; [lia|]. replace (i - S s) with k by lia. reflexivity. }
  unfold chosen. cbn [combine filter fst]. destruct Fa as [->| ->]; [change (qeqb 0 0) with true|change (qeqb 1 0) with false]; cbn [negb map snd]; fold (chosen subs x).
  - destruct (has_elem e t); [|exact Es]. rewrite sumof_cons, Es. cbn [fst]. rewrite Nat.sub_diag. cbn. ring.
  - rewrite times_cons, qn_add. destruct (has_elem e t); [|rewrite Es, qn_0; ring]. rewrite sumof_cons, Es. cbn [fst]. rewrite Nat.sub_diag. cbn [nth]. f_equal.
Qed.
Lemma holders_val e subs x : bits (length subs) x -> dval (holders e subs) x = qn (times e (chosen subs x)).
Proof.
  intros (E & F). unfold holders. rewrite dval_sum_of, sumof_map. rewrite <- (holders_from e subs x 0 E F). apply sumof_ext. intros [i u] _. cbn [fst]. rewrite Nat.sub_0_r. apply dval_var.
Qed.
Lemma holders_con s c e subs : app_con (length subs) (DLinear None s (holders e subs) (d_num c)).
Proof.
  apply num_con.
  - apply de_wf_sum, Forall_map, Forall_forall. intros [i u] I. apply filter_In in I as (I & _). apply in_combine_l in I. apply in_seq in I. apply de_wf_var. cbn. lia.
  - apply linear_sum, Forall_map, Forall_forall. reflexivity.
Qed.
Lemma one_le k : (qn k <= 1)%Qc <-> k <= 1.
Proof. change 1%Qc with (qn 1). apply qn_le. Qed.
Lemma packing_spec subs : exists p, packing_program subs = Ok p /\ binary_program p (length subs) MAXIMIZE /\
  forall x, length x = length subs -> exists l, pick_subsets subs x = Ok l /\ l = chosen subs x /\
    (feasible p x <-> bits (length subs) x /\ ForallOrdPairs disjoint l) /\ (bits (length subs) x -> obj_at (p_obj p) x = qn (length l)).
Proof.
  edestruct (simple_model "Set packing" (length subs) MAXIMIZE (sum_all (length subs))) as (p & E & B & L & O & F); [apply sum_all_wf| |].
  - apply Forall_map, Forall_forall. intros e _. apply (holders_con LE 1 e subs).
  - exists p. split; [exact E|]. split; [exact B|]. intros x Lx. exists (chosen subs x). split; [apply pick_subsets_spec; exact Lx|]. split; [reflexivity|]. split.
    + rewrite F. apply iff_rest. intros Bx. rewrite Forall_map_iff, Forall_forall, <- times_disjoint. split; intros H e.
      * destruct (times e (chosen subs x)) as [|[|k]] eqn:Et; try lia. assert (In e (elements subs)) as I.
        { destruct (filter (has_elem e) (chosen subs x)) as [|s l] eqn:Ef; [unfold times in Et; rewrite Ef in Et; discriminate Et|].
          assert (In s (filter (has_elem e) (chosen subs x))) as Is by (rewrite Ef; left; reflexivity). apply filter_In in Is as (Is & Ie).
          apply elements_in. exists s. split; [exact (chosen_incl _ _ _ Is)|apply has_elem_iff; exact Ie]. }
        specialize (H e I). cbn [dcon_holds] in H. rewrite (holders_val e subs x Bx), dval_num, Et in H. cbn [holds] in H. apply one_le in H. lia.
      * intros _. cbn [dcon_holds]. rewrite (holders_val e subs x Bx), dval_num. cbn [holds]. apply one_le, H.
    + intros Bx. rewrite (O x Bx), (chosen_length subs x Lx). apply sum_all_count. exact Bx.
Qed.
Lemma exact_spec subs : exists p, exact_program subs = Ok p /\ binary_program p (length subs) MINIMIZE /\
  forall x, length x = length subs -> exists l, pick_subsets subs x = Ok l /\ l = chosen subs x /\
    (feasible p x <-> bits (length subs) x /\ forall s e, In s subs -> In e s -> once e l) /\ (bits (length subs) x -> obj_at (p_obj p) x = qn (length l)).
Proof.
  edestruct (simple_model "Exact cover" (length subs) MINIMIZE (sum_all (length subs))) as (p & E & B & L & O & F); [apply sum_all_wf| |].
  - apply Forall_map, Forall_forall. intros e _. apply (holders_con EQ 1 e subs).
  - exists p. split; [exact E|]. split; [exact B|]. intros x Lx. exists (chosen subs x). split; [apply pick_subsets_spec; exact Lx|]. split; [reflexivity|]. split.
    + rewrite F. apply iff_rest. intros Bx. rewrite Forall_map_iff, Forall_forall. split.
      * intros H s e Is Ie. assert (In e (elements subs)) as I by (apply elements_in; eauto). specialize (H e I). cbn [dcon_holds] in H.
        rewrite (holders_val e subs x Bx), dval_num in H. cbn [holds] in H. apply times_once. apply qn_inj. exact H.
      * intros H e I. apply elements_in in I as (s & Is & Ie). cbn [dcon_holds]. rewrite (holders_val e subs x Bx), dval_num. cbn [holds].
        specialize (H s e Is Ie). apply times_once in H. rewrite H. reflexivity.
    + intros Bx. rewrite (O x Bx), (chosen_length subs x Lx). apply sum_all_count. exact Bx.
Qed.

Lemma put_sorted_below z l a : (a < z)%Z -> Forall (Z.lt a) l -> Forall (Z.lt a) (put_sorted z l).
Proof.
  intros Az. induction l as [|y l IH]; intros F; cbn [put_sorted]; [auto|]. inversion F; subst. destruct (Z.ltb_spec z y); [auto|]. destruct (Z.eqb_spec z y); [auto|]. constructor; auto.
Qed.
Lemma put_sorted_sorted z l : StronglySorted Z.lt l -> StronglySorted Z.lt (put_sorted z l).
Proof.
  induction l as [|y l IH]; intro So; cbn [put_sorted]; [repeat constructor|]. inversion So as [|? ? So' Fy]; subst. destruct (Z.ltb_spec z y) as [H|H].
  - constructor; [assumption|]. constructor; [assumption|]. eapply Forall_impl; [|exact Fy]. cbn. intros; lia.
  - destruct (Z.eqb_spec z y) as [E|E]; [assumption|]. constructor; [auto|]. apply put_sorted_below; [lia|assumption].
Qed.
Lemma elements_sorted subs : StronglySorted Z.lt (elements subs).
Proof. unfold elements, unique. induction (concat subs) as [|z l IH]; cbn [fold_right]; [constructor|]. now apply put_sorted_sorted. Qed.
Lemma sorted_nodup l : StronglySorted Z.lt l -> NoDup l.
Proof.
  induction 1 as [|z l So IH F]; constructor; [|assumption]. intro I. rewrite Forall_forall in F. specialize (F _ I). lia.
Qed.
Lemma packing_rows subs : exists p es, packing_program subs = Ok p /\ NoDup es /\ (forall e, In e es <-> exists s, In s subs /\ In e s) /\ length (p_lcs p) = length es.
Proof.
  edestruct (simple_model "Set packing" (length subs) MAXIMIZE (sum_all (length subs))) as (p & E & B & L & O & F); [apply sum_all_wf| |].
  - apply Forall_map, Forall_forall. intros e _. apply (holders_con LE 1 e subs).
  - exists p, (elements subs). split; [exact E|]. split; [apply sorted_nodup, elements_sorted|]. split; [apply elements_in|]. rewrite L. apply map_length.
Qed.
Lemma exact_rows subs : exists p es, exact_program subs = Ok p /\ NoDup es /\ (forall e, In e es <-> exists s, In s subs /\ In e s) /\ length (p_lcs p) = length es.
Proof.
  edestruct (simple_model "Exact cover" (length subs) MINIMIZE (sum_all (length subs))) as (p & E & B & L & O & F); [apply sum_all_wf| |].
  - apply Forall_map, Forall_forall. intros e _. apply (holders_con EQ 1 e subs).
  - exists p, (elements subs). split; [exact E|]. split; [apply sorted_nodup, elements_sorted|]. split; [apply elements_in|]. rewrite L. apply map_length.
Qed.

(** ** Knapsack *)
Lemma weighted_val l n x : dval (weighted_sum l n) x = sumof (fun i => nth i l 0 * at_ x i)%Qc (seq 0 n).
Proof. unfold weighted_sum. rewrite dval_sum_of, sumof_map. apply sumof_ext. intros i _. rewrite dval_scale, dval_var. reflexivity. Qed.
Lemma weighted_wf l n : de_wf n (weighted_sum l n) /\ de_quad (weighted_sum l n) = [].
Proof.
  split; [apply de_wf_sum|apply linear_sum]; apply Forall_map, Forall_forall; intros i I; apply in_seq in I; [|reflexivity]. apply de_wf_scale, de_wf_var. lia.
Qed.
Lemma chosen_sum (l : list Qc) x : forall (w : list Qc), Forall (fun a => a = 0 \/ a = 1)%Qc x -> length x <= length w ->
  total (chosen w x) = sumof (fun i => nth i w 0 * at_ x i)%Qc (seq 0 (length x)).
Proof.
  induction x as [|a x IH]; intros [|b w] F E; try (cbn in E; lia); [reflexivity|reflexivity|]. inversion F as [|? ? Fa F']; subst.
  cbn [length seq]. rewrite sumof_cons, sumof_seq_shift. cbn [nth]. change (at_ (a :: x) 0) with a.
  assert (sumof (fun i => nth i w 0 * at_ (a :: x) (S i))%Qc (seq 0 (length x)) = total (chosen w x)) as -> by (rewrite IH; [reflexivity|exact F'|cbn in E; lia]).
  unfold chosen. cbn [combine filter fst]. destruct Fa as [->| ->]; [change (qeqb 0 0) with true|change (qeqb 1 0) with false]; cbn [negb map snd]; fold (chosen w x).
  - ring.
  - unfold total. rewrite sumof_cons. ring.
Qed.
Lemma knapsack_spec values weights limit : length values <= length weights ->
  exists p, knapsack_program values weights limit = Ok p /\ binary_program p (length values) MAXIMIZE /\
    forall x, (feasible p x <-> bits (length values) x /\ (total (chosen weights x) <= limit)%Qc) /\
      (bits (length values) x -> obj_at (p_obj p) x = total (chosen values x)).
Proof.
  intros Lw. unfold knapsack_program. rewrite (proj2 (Nat.ltb_ge _ _) Lw).
  edestruct (simple_model "Knapsack" (length values) MAXIMIZE (weighted_sum values (length values))) as (p & E & B & L & O & F); [apply weighted_wf| |].
  - constructor; [|constructor]. apply (num_con (length values) LE (weighted_sum weights (length values)) limit); apply weighted_wf.
  - exists p. split; [exact E|]. split; [exact B|]. intros x. split.
    + rewrite F. apply iff_rest. intros Bx. rewrite Forall_cons_iff. cbn [dcon_holds]. rewrite weighted_val, dval_num. cbn [holds]. destruct Bx as (Ex & Fx).
      rewrite (chosen_sum values x weights Fx) by lia. rewrite Ex. split; [tauto|]. intros H; split; [exact H|constructor].
    + intros Bx. rewrite (O x Bx), weighted_val. destruct Bx as (Ex & Fx). rewrite (chosen_sum values x values Fx) by lia. rewrite Ex. reflexivity.
Qed.

(** ** Number partition *)
Lemma flip_chosen {A} (l : list A) : forall x, chosen l (map (fun a => if qeqb a 0 then 1 else 0)%Qc x) = left_out l x.
Proof.
  unfold chosen, left_out. induction l as [|s l IH]; intros [|a x]; try reflexivity. cbn [map combine filter fst]. specialize (IH x).
  destruct (qeqb a 0); [change (qeqb 1 0) with false|change (qeqb 0 0) with true]; cbn [negb map snd]; rewrite IH; reflexivity.
Qed.
Lemma chosen_left {A} (l : list A) : forall x, length x = length l -> Permutation (left_out l x ++ chosen l x) l.
Proof.
  unfold chosen, left_out. induction l as [|s l IH]; intros [|a x] E; try discriminate E; [constructor|]. cbn in E. specialize (IH x ltac:(lia)). cbn [combine filter fst]. destruct (qeqb a 0); cbn [negb map snd app].
  - constructor. exact IH.
  - rewrite <- Permutation_middle. constructor. exact IH.
Qed.
Lemma partition_interpret_spec nums x : length x = length nums -> partition_interpret nums x = Ok (left_out nums x, chosen nums x).
Proof.
  intros E. unfold partition_interpret. rewrite two_sides_fst, two_sides_snd.
  pose proof (pick_items nums (map (fun a => if qeqb a 0 then 1 else 0)%Qc x) [] ltac:(rewrite map_length; exact E)) as H1. pose proof (pick_items nums x [] E) as H2.
  cbn [app length] in H1, H2. rewrite flip_chosen in H1. cbv zeta. rewrite H1, H2. reflexivity.
Qed.
Lemma signed_sum nums : forall x s, length x = length nums -> Forall (fun a => a = 0 \/ a = 1)%Qc x ->
  sumof (fun ia => snd ia * (- qz 2 * nth (fst ia - s) x 0 + 1))%Qc (combine (seq s (length nums)) nums) = (total (left_out nums x) - total (chosen nums x))%Qc.
Proof.
  induction nums as [|b nums IH]; intros [|a x] s E F; try discriminate E; [reflexivity|]. inversion F as [|? ? Fa F']; subst.
  cbn [length seq combine]. rewrite sumof_cons. cbn [fst snd]. rewrite Nat.sub_diag. cbn [nth]. specialize (IH x (S s) ltac:(cbn in E; lia) F').
  rewrite (sumof_ext _ (fun ia => snd ia * (- qz 2 * nth (fst ia - S s) x 0 + 1))%Qc) with (l := combine (seq (S s) (length nums)) nums).
  2:{ intros [i u] I. apply in_combine_l in I. apply in_seq in I. cbn [fst snd]. destruct (i - s) as [|k] eqn:Ek; [lia|]. replace (i - S s) with k by lia. reflexivity. }
  rewrite IH. unfold chosen, left_out. cbn [combine filter fst]. replace (qz 2) with (1 + 1)%Qc by (apply Qc_is_canon; reflexivity).
  destruct Fa as [->| ->]; [change (qeqb 0 0) with true|change (qeqb 1 0) with false]; cbn [negb map snd]; unfold total; rewrite !sumof_cons; ring.
Qed.
Lemma partition_spec nums : exists p, partition_program nums = Ok p /\ binary_program p (length nums) MINIMIZE /\
  forall x, length x = length nums -> exists a b, partition_interpret nums x = Ok (a, b) /\ Permutation (a ++ b) nums /\
    (feasible p x <-> bits (length nums) x /\ total a = total b) /\ (bits (length nums) x -> obj_at (p_obj p) x = 0%Qc).
Proof.
  edestruct (simple_model "Number partitioning" (length nums) MINIMIZE (d_num 0)) as (p & E & B & L & O & F); [apply de_wf_num| |].
  - constructor; [|constructor]. apply (num_con (length nums) EQ (d_sum (map (fun ia => d_scale (snd ia) (d_add (d_scale (- qz 2) (d_var (fst ia))) (d_num 1))) (combine (seq 0 (length nums)) nums))) 0).
    + apply de_wf_sum, Forall_map, Forall_forall. intros [i u] I. apply in_combine_l in I. apply in_seq in I. apply de_wf_scale, de_wf_add; [apply de_wf_scale, de_wf_var; cbn; lia|apply de_wf_num].
    + apply linear_sum, Forall_map, Forall_forall. reflexivity.
  - exists p. split; [exact E|]. split; [exact B|]. intros x Lx. exists (left_out nums x), (chosen nums x). split; [apply partition_interpret_spec; exact Lx|].
    split; [apply chosen_left; exact Lx|]. split.
    + rewrite F. apply iff_rest. intros (_ & Fx). rewrite Forall_cons_iff. cbn [dcon_holds]. rewrite dval_num, dval_sum_of, sumof_map. cbn [holds].
      rewrite (sumof_ext _ (fun ia => snd ia * (- qz 2 * nth (fst ia - 0) x 0 + 1))%Qc).
      2:{ intros [i u] _. cbn [fst snd]. rewrite dval_scale, dval_add, dval_scale, dval_var, dval_num, Nat.sub_0_r. reflexivity. }
      rewrite (signed_sum nums x 0 Lx Fx). split; [intros (H & _); qlra|]. intros H. split; [qlra|constructor].
    + intros Bx. rewrite (O x Bx). apply dval_num.
Qed.
