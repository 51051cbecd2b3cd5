(** * Vehicle routing: the program *)
From Verif Require Export VrpFacts.
From Verif Require Import IntBinFacts.
Local Open Scope string_scope.
Local Open Scope list_scope.
Local Open Scope nat_scope.

(** ** The variables *)
Lemma others_split n i : i < n -> others n i = seq 0 i ++ seq (S i) (n - 1 - i).
Proof.
  intros H. unfold others. replace n with (i + S (n - 1 - i)) at 1 by lia. rewrite seq_app, filter_app. cbn [plus seq filter]. rewrite Nat.eqb_refl. cbn [negb].
  f_equal; apply filter_all, Forall_forall; intros j Ij; apply in_seq in Ij; destruct (Nat.eqb_spec i j); try reflexivity; lia.
Qed.
Lemma map_seq_shift {B} (f : nat -> B) k : forall s, map f (seq s k) = map (fun i => f (s + i)) (seq 0 k).
Proof.
  induction k as [|k IH]; intros s; cbn; [reflexivity|]. rewrite Nat.add_0_r. f_equal. rewrite (IH (S s)), <- (seq_shift k 0), map_map. apply map_ext. intros i. f_equal. lia.
Qed.
Lemma seq_as_map s k : seq s k = map (fun i => s + i) (seq 0 k).
Proof. rewrite <- (map_id (seq s k)). apply map_seq_shift. Qed.
Lemma arc_row n i : i < n -> map (arc_idx n i) (others n i) = seq (i * (n - 1)) (n - 1).
Proof.
  intros H. rewrite (others_split n i H), map_app. transitivity (seq (i * (n - 1)) (i + (n - 1 - i))); [|f_equal; lia]. rewrite seq_app. f_equal.
  - rewrite (seq_as_map (i * (n - 1)) i). apply map_ext_in. intros j Ij. apply in_seq in Ij. unfold arc_idx. destruct (Nat.ltb_spec j i); [reflexivity|lia].
  - rewrite map_seq_shift, (seq_as_map (i * (n - 1) + i)). apply map_ext_in. intros j Ij. apply in_seq in Ij. unfold arc_idx. destruct (Nat.ltb_spec (S i + j) i); lia.
Qed.
Lemma flat_seq m k : forall s, flat_map (fun i => seq (i * m) m) (seq s k) = seq (s * m) (k * m).
Proof.
  induction k as [|k IH]; intros s; cbn [seq flat_map]; [reflexivity|]. rewrite IH. replace (S k * m) with (m + k * m) by (cbn; lia). rewrite seq_app. f_equal. f_equal. cbn. lia.
Qed.
Lemma arcs_idx n : map (fun a => arc_idx n (fst a) (snd a)) (arcs n) = seq 0 (n * (n - 1)).
Proof.
  unfold arcs. change (seq 0 (n * (n - 1))) with (seq (0 * (n - 1)) (n * (n - 1))). rewrite <- (flat_seq (n - 1) n 0). rewrite flat_map_concat_map, concat_map, map_map, flat_map_concat_map. f_equal. apply map_ext_in. intros i Ii. apply in_seq in Ii.
  rewrite map_map. cbn [fst snd]. apply arc_row. lia.
Qed.
Lemma arcs_length n : length (arcs n) = n * (n - 1).
Proof. rewrite <- (map_length (fun a => arc_idx n (fst a) (snd a))), arcs_idx. apply seq_length. Qed.
Lemma arcs_in n i j : In (i, j) (arcs n) <-> i < n /\ j < n /\ i <> j.
Proof.
  unfold arcs. rewrite in_flat_map. split.
  - intros (a & Ia & H). apply in_seq in Ia. apply in_map_iff in H as (b & E & H). injection E as -> ->. apply others_in in H. lia.
  - intros (A & B & N). exists i. split; [apply in_seq; lia|]. apply in_map_iff. exists j. split; [reflexivity|]. apply others_in. split; [lia|congruence].
Qed.
Lemma arcs_nodup n : NoDup (arcs n).
Proof. apply (NoDup_map_inv (fun a => arc_idx n (fst a) (snd a))). rewrite arcs_idx. apply seq_NoDup. Qed.
Lemma arcs_at n i j : i < n -> j < n -> i <> j -> arc_idx n i j < n * (n - 1) /\ nth_error (arcs n) (arc_idx n i j) = Some (i, j).
Proof.
  intros A B N. assert (In (i, j) (arcs n)) as Ia by (apply arcs_in; auto). destruct (In_nth_error _ _ Ia) as (k & Hk).
  assert (k < n * (n - 1)) as Lk. { rewrite <- arcs_length. apply nth_error_Some. congruence. }
  assert (arc_idx n i j = k) as ->; [|auto]. pose proof (map_nth_error (fun a => arc_idx n (fst a) (snd a)) k (arcs n) Hk) as H. rewrite arcs_idx in H. cbn [fst snd] in H.
  apply (nth_error_nth _ _ 0) in H. rewrite seq_nth in H by exact Lk. cbn in H. congruence.
Qed.
Lemma arcs_point n x : length x = n * (n - 1) -> map (fun a => at_ x (arc_idx n (fst a) (snd a))) (arcs n) = x.
Proof.
  intros E. rewrite <- (map_map (fun a => arc_idx n (fst a) (snd a)) (at_ x)), arcs_idx, <- E. apply (list_nths 0%Qc x).
Qed.
Lemma arc_names_nodup n : NoDup (map (fun a => x_name2 (fst a) (snd a)) (arcs n)).
Proof.
  apply FinFun.Injective_map_NoDup; [|apply arcs_nodup]. intros [a b] [c d] E. apply x_name2_inj in E as (E1 & E2). cbn in *. congruence.
Qed.
Lemma arc_names_full n : ~ In EmptyString (map (fun a => x_name2 (fst a) (snd a)) (arcs n)).
Proof. intros H. apply in_map_iff in H as (a & H & _). discriminate H. Qed.
Lemma arc_names_at n i j k : nth_error (map (fun a => x_name2 (fst a) (snd a)) (arcs n)) k = Some (x_name2 i j) <-> i < n /\ j < n /\ i <> j /\ k = arc_idx n i j.
Proof.
  split.
  - rewrite nth_error_map. destruct (nth_error (arcs n) k) as [[a b]|] eqn:E; [|discriminate]. cbn [option_map fst snd]. intros H. assert (x_name2 a b = x_name2 i j) as H' by (revert H; generalize (x_name2 a b), (x_name2 i j); intros; congruence). apply x_name2_inj in H' as (-> & ->).
    pose proof (nth_error_In _ _ E) as Ia. apply arcs_in in Ia as (A & B & N). split; [exact A|]. split; [exact B|]. split; [exact N|].
    destruct (arcs_at n i j A B N) as (L & E2). apply (proj1 (NoDup_nth_error (arcs n)) (arcs_nodup n) k (arc_idx n i j)); [apply nth_error_Some; congruence|congruence].
  - intros (A & B & N & ->). rewrite nth_error_map. destruct (arcs_at n i j A B N) as (_ & ->). reflexivity.
Qed.

(** ** The chosen edges *)
Definition arc_at (n : nat) (x : list Qc) (i j : nat) : Qc := at_ x (arc_idx n i j).
Lemma combine_map {A B} (f : A -> B) l : combine l (map f l) = map (fun a => (a, f a)) l.
Proof. induction l as [|a l IH]; cbn; [reflexivity|]. rewrite IH. reflexivity. Qed.
Lemma filter_map {A B} (f : A -> B) (p : B -> bool) l : filter p (map f l) = map f (filter (fun a => p (f a)) l).
Proof. induction l as [|a l IH]; cbn; [reflexivity|]. destruct (p (f a)); cbn; rewrite IH; reflexivity. Qed.
Definition picked_arcs (n : nat) (x : list Qc) : list (nat * nat) := filter (fun a => negb (qeqb (arc_at n x (fst a) (snd a)) 0)) (arcs n).
Lemma chosen_arcs_spec n x : length x = n * (n - 1) -> chosen_arcs n x = Ok (picked_arcs n x).
Proof.
  intros E. unfold chosen_arcs. rewrite arcs_length, E, Nat.ltb_irrefl. f_equal. rewrite <- (arcs_point n x E) at 1. rewrite combine_map, filter_map, map_map. cbn [fst snd]. apply map_id.
Qed.
Lemma picked_arcs_in n x i j : bits (n * (n - 1)) x -> (In (i, j) (picked_arcs n x) <-> i < n /\ j < n /\ i <> j /\ arc_at n x i j = 1%Qc).
Proof.
  intros B. unfold picked_arcs. rewrite filter_In, arcs_in. cbn [fst snd]. destruct (bits_at _ x (arc_idx n i j) B) as [E|E]; unfold arc_at; rewrite E.
  - change (qeqb 0 0) with true. split; [intros (_ & H); discriminate H|]. intros (_ & _ & _ & H). discriminate H.
  - change (qeqb 1 0) with false. tauto.
Qed.
Lemma picked_arcs_nodup n x : NoDup (picked_arcs n x).
Proof. apply NoDup_filter, arcs_nodup. Qed.
Lemma picked_sum_arcs n x (f : nat * nat -> Qc) : bits (n * (n - 1)) x ->
  sumof f (picked_arcs n x) = sumof (fun a => f a * arc_at n x (fst a) (snd a))%Qc (arcs n).
Proof.
  intros B. unfold picked_arcs. rewrite sumof_filter. apply sumof_ext. intros a _. destruct (bits_at _ x (arc_idx n (fst a) (snd a)) B) as [E|E]; unfold arc_at; rewrite E.
  - change (qeqb 0 0) with true. cbn [negb]. ring.
  - change (qeqb 1 0) with false. cbn [negb]. ring.
Qed.
Lemma sum_arcs n (f : nat * nat -> Qc) : sumof f (arcs n) = sumof (fun i => sumof (fun j => f (i, j)) (others n i)) (seq 0 n).
Proof. unfold arcs. rewrite sumof_flat_map. apply sumof_ext. intros i _. rewrite sumof_map. reflexivity. Qed.
Lemma count_sum {A} (p : A -> bool) l : qn (length (filter p l)) = sumof (fun a => if p a then 1%Qc else 0%Qc) l.
Proof. rewrite <- sum_length, sumof_filter. reflexivity. Qed.
Lemma outs_sum n x v : bits (n * (n - 1)) x -> v < n -> qn (outs v (picked_arcs n x)) = sumof (fun j => arc_at n x v j) (others n v).
Proof.
  intros B V. unfold outs. rewrite count_sum, (picked_sum_arcs n x _ B), sum_arcs. rewrite <- (sumof_seq_pick (fun i => sumof (fun j => arc_at n x i j) (others n i)) n v V).
  apply sumof_ext. intros i _. cbn [fst snd]. destruct (Nat.eqb i v).
  - apply sumof_ext. intros; ring.
  - apply sumof_zero. intros; ring.
Qed.
Lemma ins_sum n x v : bits (n * (n - 1)) x -> v < n -> qn (ins v (picked_arcs n x)) = sumof (fun i => arc_at n x i v) (others n v).
Proof.
  intros B V. unfold ins. rewrite count_sum, (picked_sum_arcs n x _ B), sum_arcs. unfold others. rewrite sumof_filter. apply sumof_ext. intros i Ii. apply in_seq in Ii.
  rewrite sumof_filter. cbn [fst snd]. rewrite (sumof_ext _ (fun j => if Nat.eqb j v then if negb (Nat.eqb v i) then arc_at n x i j else 0 else 0)%Qc).
  - rewrite (sumof_seq_pick (fun j => if negb (Nat.eqb v i) then arc_at n x i j else 0)%Qc n v V). reflexivity.
  - intros j _. destruct (Nat.eqb_spec j v) as [->|N]; [rewrite (Nat.eqb_sym i v); destruct (Nat.eqb v i); cbn [negb]; ring|]. destruct (negb (Nat.eqb i j)); ring.
Qed.

(** ** The constraints *)
Definition inside (n : nat) (x : list Qc) (c : list nat) : Qc := sumof (fun i => sumof (fun j => arc_at n x i j) (filter (fun j => negb (Nat.eqb i j)) c)) c.
Definition vrp_rules (n : nat) (vehicles : Z) (depot : nat) (x : list Qc) : Prop :=
  (forall v, v < n -> v <> depot -> outs v (picked_arcs n x) = 1 /\ ins v (picked_arcs n x) = 1) /\
  Z.of_nat (outs depot (picked_arcs n x)) = vehicles /\ Z.of_nat (ins depot (picked_arcs n x)) = vehicles /\
  forall c, In c (node_sets n depot) -> (inside n x c <= qn (length c) - 1)%Qc.

Lemma vrp_rules_routes n vehicles depot x : depot < n -> bits (n * (n - 1)) x -> vrp_rules n vehicles depot x ->
  exists routes, all_routes (Z.to_nat vehicles) depot (picked_arcs n x) = (routes, []) /\ good_routes n vehicles depot routes /\ Permutation (concat routes) (picked_arcs n x).
Proof.
  intros Hd B (R1 & R2 & R3 & R4). set (l := picked_arcs n x) in *.
  assert (forall v, outs v l = ins v l) as Bal.
  { intros v. destruct (Nat.eq_dec v depot) as [->|N]; [lia|]. destruct (Nat.lt_ge_cases v n) as [L|L]; [destruct (R1 v L N); lia|].
    assert (outs v l = 0 /\ ins v l = 0) as (E1 & E2); [|lia]. split.
    - destruct (outs v l) as [|k] eqn:E; [reflexivity|]. destruct (proj1 (outs_in v l)) as (j & I); [lia|]. apply (picked_arcs_in n x v j B) in I. lia.
    - destruct (ins v l) as [|k] eqn:E; [reflexivity|]. destruct (proj1 (ins_in v l)) as (i & I); [lia|]. apply (picked_arcs_in n x i v B) in I. lia. }
  destruct (all_routes_spec depot (Z.to_nat vehicles) l ltac:(lia) Bal) as (routes & left & E & Lr & F & P & Bl & Dl).
  assert (left = []) as ->.
  { destruct left as [|[a b] left'] eqn:El; [reflexivity|]. exfalso. rewrite <- El in *.
    assert (incl left l) as Il. { intros e He. apply (Permutation_in _ P). apply in_app_iff. right. exact He. }
    set (src := fun v => negb (Nat.eqb (outs v left) 0)).
    assert (forall i j, In (i, j) left -> src i = true /\ src j = true /\ i < n /\ j < n /\ i <> j /\ i <> depot /\ j <> depot /\ arc_at n x i j = 1%Qc) as Hl.
    { intros i j I. pose proof (Il _ I) as Ix. apply (picked_arcs_in n x i j B) in Ix as (Hi & Hj & N & V).
      assert (1 <= outs i left) as Oi by (apply outs_in; eauto). assert (1 <= ins j left) as Ij by (apply ins_in; eauto). pose proof (Bl j) as Bj. pose proof (Bl depot) as Bd.
      unfold src. split; [destruct (outs i left); [lia|reflexivity]|]. split; [destruct (outs j left); [lia|reflexivity]|].
      split; [exact Hi|]. split; [exact Hj|]. split; [exact N|]. split; [intros ->; lia|]. split; [intros ->; lia|exact V]. }
    set (c := filter src (others n depot)).
    assert (forall v, In v c <-> src v = true /\ v < n /\ v <> depot) as Hc. { intros v. unfold c. rewrite filter_In, others_in. tauto. }
    assert (In (a, b) left) as Iab by (rewrite El; left; reflexivity). destruct (Hl a b Iab) as (Sa & Sb & La & Lb & Nab & Nda & Ndb & _).
    assert (2 <= length c) as L2.
    { assert (incl [a; b] c) as Ic. { intros v [<-|[<-|[]]]; apply Hc; auto. } apply (NoDup_incl_length (l := [a; b])) in Ic; [exact Ic|].
      constructor; [intros [Eab|[]]; apply Nab; symmetry; exact Eab|]. constructor; [intros []|constructor]. }
    pose proof (R4 c (node_sets_filter n depot src L2)) as Rc.
    assert (qn (length c) <= inside n x c)%Qc as Ge.
    { rewrite <- sum_length. unfold inside. apply sumof_le. intros i Ii. apply Hc in Ii as (Si & Hi & Ni).
      assert (1 <= outs i left) as Oi. { unfold src in Si. destruct (outs i left); [discriminate Si|lia]. } apply outs_in in Oi as (j & Ij). destruct (Hl i j Ij) as (_ & Sj & _ & Lj & Nij & _ & Ndj & V).
      rewrite <- V. apply (sumof_term_le (fun j => arc_at n x i j)).
      - intros b' _. unfold arc_at. destruct (bits_at _ x (arc_idx n i b') B) as [->| ->]; qlra.
      - apply filter_In. split; [apply Hc; auto|]. destruct (Nat.eqb_spec i j); [contradiction|reflexivity]. }
    qlra. }
  rewrite app_nil_r in P. exists routes. split; [exact E|]. split; [|exact P]. split; [lia|]. split; [exact F|]. split.
  - intros i j I. apply (Permutation_in _ P) in I. apply (picked_arcs_in n x i j B) in I. tauto.
  - intros v Hv Nv. change (ins v (concat routes) = 1). rewrite (ins_perm v _ _ P). apply R1; assumption.
Qed.

(** Conversely, routes keep the rules. *)
Lemma NoDup_arcs l : (forall i j, In (i, j) l -> outs i l <= 1 \/ ins j l <= 1) -> NoDup l.
Proof.
  intros H. induction l as [|[a b] l IH]; [constructor|]. constructor.
  - intros I. destruct (H a b (or_introl eq_refl)) as [K|K]; rewrite ?outs_cons, ?ins_cons in K; cbn [fst snd] in K; rewrite delta_same in K.
    + assert (1 <= outs a l) by (apply outs_in; eauto). lia.
    + assert (1 <= ins b l) by (apply ins_in; eauto). lia.
  - apply IH. intros i j I. destruct (H i j (or_intror I)) as [K|K]; rewrite ?outs_cons, ?ins_cons in K; [left|right]; lia.
Qed.
Lemma routes_rules n vehicles depot x routes : depot < n -> bits (n * (n - 1)) x -> good_routes n vehicles depot routes ->
  (forall i j, i < n -> j < n -> i <> j -> (arc_at n x i j = 1%Qc <-> In (i, j) (concat routes))) -> vrp_rules n vehicles depot x /\ Permutation (concat routes) (picked_arcs n x).
Proof.
  intros Hd B (G1 & G2 & G3 & G4) M. destruct (routes_balance depot routes G2) as (Bal & Dep).
  assert (NoDup (concat routes)) as N.
  { apply NoDup_arcs. intros i j I. destruct (G3 i j I) as (Hi & Hj & Nij). destruct (Nat.eq_dec j depot) as [->|Nj].
    - left. rewrite Bal. assert (i <> depot) as Ni by congruence. pose proof (G4 i Hi Ni) as K. unfold ins. rewrite K. lia.
    - right. pose proof (G4 j Hj Nj) as K. unfold ins. rewrite K. lia. }
  assert (Permutation (concat routes) (picked_arcs n x)) as P.
  { apply NoDup_Permutation; [exact N|apply picked_arcs_nodup|]. intros [i j]. rewrite (picked_arcs_in n x i j B). split.
    - intros I. destruct (G3 i j I) as (Hi & Hj & Nij). split; [exact Hi|]. split; [exact Hj|]. split; [exact Nij|]. apply M; assumption.
    - intros (Hi & Hj & Nij & V). apply M; assumption. }
  split; [|exact P]. split; [|split; [|split]].
  - intros v Hv Nv. rewrite <- (outs_perm v _ _ P), <- (ins_perm v _ _ P), Bal. pose proof (G4 v Hv Nv) as K. unfold ins. rewrite K. auto.
  - rewrite <- (outs_perm _ _ _ P), Dep. exact G1.
  - rewrite <- (ins_perm _ _ _ P), <- Bal, Dep. exact G1.
  - intros c Ic. apply node_sets_in in Ic as (L2 & Nc & Hc). set (C := fun v => member v c).
    assert (C depot = false) as Cd. { unfold C. destruct (member depot c) eqn:E; [|reflexivity]. apply member_iff in E. apply Hc in E. destruct E as (_ & E). contradiction. }
    assert (exists a, In a c) as (a & Ia). { clear -L2. destruct c as [|a c]; [cbn in L2; lia|]. exists a. left; reflexivity. } destruct (Hc a Ia) as (Ha & Na).
    assert (exists u v, In (u, v) (concat routes) /\ C u = true /\ C v = false) as (u & v & Iu & Cu & Cv).
    { assert (1 <= ins a (concat routes)) as K by (pose proof (G4 a Ha Na) as K; unfold ins; rewrite K; lia). apply ins_in in K as (i & K). apply in_concat in K as (r & Ir & K).
      destruct (walk_visits depot depot r i a (proj1 (Forall_forall _ _) G2 r Ir) Na K) as (r2 & W2 & H2).
      destruct (walk_leaves depot C a r2 W2 Cd) as (u & v & Iu & Cu & Cv); [apply member_iff; exact Ia|]. exists u, v. split; [|auto]. apply in_concat. exists r. split; [exact Ir|apply H2; exact Iu]. }
    apply member_iff in Cu. destruct (Hc u Cu) as (Hu & Nu).
    assert (forall i, In i c -> sumof (fun j => arc_at n x i j) (filter (fun j => negb (Nat.eqb i j)) c) <= if Nat.eqb i u then 0 else 1)%Qc as Row.
    { intros i Ii. destruct (Hc i Ii) as (Hi & Ni).
      assert (outs i (picked_arcs n x) = 1) as O1. { rewrite <- (outs_perm i _ _ P), Bal. exact (G4 i Hi Ni). }
      assert (sumof (fun j => arc_at n x i j) (others n i) = 1)%Qc as S1 by (rewrite <- (outs_sum n x i B Hi), O1; reflexivity).
      destruct (sum_one (fun j => arc_at n x i j) (others n i) (others_nodup n i) ltac:(intros; apply (bits_at (n * (n - 1))); exact B) S1) as (t & It & Et & Ht).
      destruct (Nat.eqb_spec i u) as [->|Niu].
      - assert (t = v) as ->. { destruct (G3 u v Iu) as (_ & Hv & Nuv). destruct (Nat.eq_dec v t) as [E|Ne]; [symmetry; exact E|]. exfalso.
          assert (arc_at n x u v = 1%Qc) as V by (apply M; assumption). rewrite (Ht v) in V; [discriminate V|apply others_in; split; [exact Hv|congruence]|exact Ne]. }
        rewrite (sumof_zero _ (filter _ c)); [qlra|]. intros j Ij. apply filter_In in Ij as (Ij & Nj). destruct (Hc j Ij) as (Hj & _). apply Ht.
        + apply others_in. split; [exact Hj|]. destruct (Nat.eqb_spec u j); [discriminate Nj|congruence].
        + intros ->. unfold C in Cv. apply member_iff in Ij. congruence.
      - destruct (in_dec Nat.eq_dec t c) as [Itc|Ntc].
        + rewrite (sumof_ext _ (fun j => if Nat.eq_dec j t then 1 else 0)%Qc).
          * destruct (in_dec Nat.eq_dec t (filter (fun j => negb (Nat.eqb i j)) c)) as [It'|It'].
            -- rewrite (sumof_pick Nat.eq_dec (fun _ => 1%Qc)); [qlra|apply NoDup_filter; exact Nc|exact It'].
            -- rewrite (sumof_zero _ (filter _ c)); [qlra|]. intros j Ij. destruct (Nat.eq_dec j t) as [->|_]; [contradiction|reflexivity].
          * intros j Ij. apply filter_In in Ij as (Ij & Nj). destruct (Hc j Ij) as (Hj & _). destruct (Nat.eq_dec j t) as [->|Nt]; [exact Et|]. apply Ht; [|exact Nt].
            apply others_in. split; [exact Hj|]. destruct (Nat.eqb_spec i j); [discriminate Nj|congruence].
        + rewrite (sumof_zero _ (filter _ c)); [qlra|]. intros j Ij. apply filter_In in Ij as (Ij & Nj). destruct (Hc j Ij) as (Hj & _). apply Ht.
          * apply others_in. split; [exact Hj|]. destruct (Nat.eqb_spec i j); [discriminate Nj|congruence].
          * intros ->. contradiction. }
    unfold inside. apply Qcle_trans with (sumof (fun i => if Nat.eqb i u then 0 else 1)%Qc c); [apply sumof_le; exact Row|].
    rewrite (sumof_ext _ (fun i => 1 - (if Nat.eq_dec i u then 1 else 0))%Qc).
    + rewrite sumof_sub, sum_length, (sumof_pick Nat.eq_dec (fun _ => 1%Qc) c u Nc Cu). qlra.
    + intros i _. destruct (Nat.eq_dec i u) as [->|N']; [rewrite Nat.eqb_refl|destruct (Nat.eqb_spec i u); [contradiction|]]; ring.
Qed.
