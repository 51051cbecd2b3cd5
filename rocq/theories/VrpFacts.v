(** * Vehicle routing: decoding *)
From Verif Require Export TspFacts.
From Verif Require Import IntBinFacts.
Local Open Scope string_scope.
Local Open Scope list_scope.
Local Open Scope nat_scope.

(** ** Degrees *)
Definition outs (v : nat) (l : list (nat * nat)) : nat := length (filter (fun e => Nat.eqb (fst e) v) l).
Definition ins (v : nat) (l : list (nat * nat)) : nat := length (filter (fun e => Nat.eqb (snd e) v) l).
Definition delta (a b : nat) : nat := if Nat.eqb a b then 1 else 0.
Lemma outs_cons v e l : outs v (e :: l) = delta (fst e) v + outs v l.
Proof. unfold outs, delta. cbn. destruct (Nat.eqb (fst e) v); reflexivity. Qed.
Lemma ins_cons v e l : ins v (e :: l) = delta (snd e) v + ins v l.
Proof. unfold ins, delta. cbn. destruct (Nat.eqb (snd e) v); reflexivity. Qed.
Lemma outs_app v l m : outs v (l ++ m) = outs v l + outs v m.
Proof. unfold outs. rewrite filter_app, app_length. reflexivity. Qed.
Lemma ins_app v l m : ins v (l ++ m) = ins v l + ins v m.
Proof. unfold ins. rewrite filter_app, app_length. reflexivity. Qed.
Lemma outs_perm v l m : Permutation l m -> outs v l = outs v m.
Proof. induction 1; rewrite ?outs_cons; lia. Qed.
Lemma ins_perm v l m : Permutation l m -> ins v l = ins v m.
Proof. induction 1; rewrite ?ins_cons; lia. Qed.
Lemma delta_same a : delta a a = 1.
Proof. unfold delta. rewrite Nat.eqb_refl. reflexivity. Qed.
Lemma delta_diff a b : a <> b -> delta a b = 0.
Proof. unfold delta. intros H. destruct (Nat.eqb_spec a b); [contradiction|reflexivity]. Qed.
Lemma outs_in v l : 1 <= outs v l <-> exists j, In (v, j) l.
Proof.
  split.
  - unfold outs. intros H. destruct (filter (fun e => Nat.eqb (fst e) v) l) as [|[a b] m] eqn:E; [cbn in H; lia|].
    assert (In (a, b) (filter (fun e => Nat.eqb (fst e) v) l)) as I by (rewrite E; left; reflexivity). apply filter_In in I as (I & Ev). cbn in Ev. apply Nat.eqb_eq in Ev. subst a. eauto.
  - intros (j & I). apply in_split in I as (l1 & l2 & ->). rewrite outs_app, outs_cons. cbn [fst]. rewrite delta_same. lia.
Qed.
Lemma ins_in v l : 1 <= ins v l <-> exists i, In (i, v) l.
Proof.
  split.
  - unfold ins. intros H. destruct (filter (fun e => Nat.eqb (snd e) v) l) as [|[a b] m] eqn:E; [cbn in H; lia|].
    assert (In (a, b) (filter (fun e => Nat.eqb (snd e) v) l)) as I by (rewrite E; left; reflexivity). apply filter_In in I as (I & Ev). cbn in Ev. apply Nat.eqb_eq in Ev. subst b. eauto.
  - intros (j & I). apply in_split in I as (l1 & l2 & ->). rewrite ins_app, ins_cons. cbn [snd]. rewrite delta_same. lia.
Qed.

(** ** Routes *)
Lemma pop_from_spec s l : match pop_from s l with
  | Some (e, r) => fst e = s /\ Permutation (e :: r) l
  | None => outs s l = 0 end.
Proof.
  induction l as [|e l IH]; cbn [pop_from]; [reflexivity|]. destruct (Nat.eqb_spec (fst e) s) as [E|N]; [split; [exact E|reflexivity]|].
  destruct (pop_from s l) as [[f r]|].
  - destruct IH as (E & P). split; [exact E|]. rewrite perm_swap. constructor. exact P.
  - rewrite outs_cons, delta_diff by exact N. exact IH.
Qed.
Lemma one_route_spec d : forall fuel s l, length l <= fuel -> 1 <= outs s l ->
  (forall v, outs v l + delta d v = ins v l + delta s v) ->
  exists r rest, one_route fuel d s l = (r, rest) /\ walk_home d s r /\ Permutation (r ++ rest) l /\
    (forall v, outs v rest = ins v rest) /\ outs d rest + delta s d = outs d l.
Proof.
  induction fuel as [|fuel IH]; intros s l Hl Hs Hb; [destruct l; cbn in *; lia|]. cbn [one_route]. pose proof (pop_from_spec s l) as Hp.
  destruct (pop_from s l) as [[[a t] l']|]; [|lia]. destruct Hp as (Ea & P). cbn [fst] in Ea. subst a. cbn [snd].
  assert (forall v, outs v l = delta s v + outs v l') as Ho by (intros v; rewrite <- (outs_perm v _ _ P), outs_cons; reflexivity).
  assert (forall v, ins v l = delta t v + ins v l') as Hi by (intros v; rewrite <- (ins_perm v _ _ P), ins_cons; reflexivity).
  destruct (Nat.eqb_spec t d) as [->|Nt].
  - exists [(s, d)], l'. split; [reflexivity|]. split; [constructor|]. split; [exact P|]. split.
    + intros v. specialize (Hb v). rewrite Ho, Hi in Hb. lia.
    + rewrite (Ho d). lia.
  - assert (length l' <= fuel) as Hf. { apply Permutation_length in P. cbn in P. lia. }
    assert (forall v, outs v l' + delta d v = ins v l' + delta t v) as Hb'. { intros v. specialize (Hb v). rewrite Ho, Hi in Hb. lia. }
    destruct (IH t l' Hf) as (r & rest & E & W & P' & B & D).
    + specialize (Hb' t). rewrite delta_same, (delta_diff d t) in Hb' by congruence. lia.
    + exact Hb'.
    + rewrite E. exists ((s, t) :: r), rest. split; [reflexivity|]. split; [constructor; assumption|]. split; [cbn; rewrite P'; exact P|]. split; [exact B|].
      rewrite (Ho d). rewrite (delta_diff t d Nt) in D. lia.
Qed.
Lemma all_routes_spec d : forall k l, outs d l = k -> (forall v, outs v l = ins v l) ->
  exists routes left, all_routes k d l = (routes, left) /\ length routes = k /\ Forall (walk_home d d) routes /\ Permutation (concat routes ++ left) l /\
    (forall v, outs v left = ins v left) /\ outs d left = 0.
Proof.
  induction k as [|k IH]; intros l Hd Hb; cbn [all_routes].
  - exists [], l. split; [reflexivity|]. split; [reflexivity|]. split; [constructor|]. split; [reflexivity|]. auto.
  - destruct (one_route_spec d (length l) d l (le_n _)) as (r & rest & E & W & P & B & D).
    + lia.
    + intros v. rewrite Hb. reflexivity.
    + rewrite E. rewrite delta_same in D. destruct (IH rest) as (routes & left & E2 & L & F & P2 & B2 & D2); [lia|exact B|]. rewrite E2. exists (r :: routes), left.
      split; [reflexivity|]. split; [cbn; lia|]. split; [constructor; assumption|]. split; [|auto]. cbn. rewrite <- app_assoc, P2. exact P.
Qed.

(** Walks as lists of edges *)
Lemma walk_balance d a r : walk_home d a r -> forall v, outs v r + delta d v = ins v r + delta a v.
Proof.
  induction 1 as [a|a c r N W IH]; intros v; rewrite outs_cons, ins_cons; cbn [fst snd].
  - unfold outs, ins. cbn. lia.
  - specialize (IH v). lia.
Qed.
Lemma walk_depot d a r : walk_home d a r -> outs d r = delta a d.
Proof. induction 1 as [a|a c r N W IH]; rewrite outs_cons; cbn [fst]; [unfold outs; cbn; lia|]. rewrite IH, (delta_diff c d N). lia. Qed.
Lemma routes_balance d routes : Forall (walk_home d d) routes -> (forall v, outs v (concat routes) = ins v (concat routes)) /\ outs d (concat routes) = length routes.
Proof.
  induction 1 as [|r l W F (IH1 & IH2)]; cbn [concat length]; [split; reflexivity|]. split.
  - intros v. rewrite outs_app, ins_app, IH1. pose proof (walk_balance d d r W v). lia.
  - rewrite outs_app, IH2, (walk_depot d d r W), delta_same. reflexivity.
Qed.
(** A walk that starts inside of a set without the depot leaves the set. *)
Lemma walk_leaves d (C : nat -> bool) a r : walk_home d a r -> C d = false -> C a = true -> exists u v, In (u, v) r /\ C u = true /\ C v = false.
Proof.
  intros W Hd. induction W as [a|a c r N W IH]; intros Ha.
  - exists a, d. split; [left; reflexivity|]. auto.
  - destruct (C c) eqn:Ec; [|exists a, c; split; [left; reflexivity|]; auto]. destruct (IH eq_refl) as (u & v & I & Hu & Hv). exists u, v. split; [right; exact I|]. auto.
Qed.
Lemma walk_visits d a r i v : walk_home d a r -> v <> d -> In (i, v) r -> exists r2, walk_home d v r2 /\ incl r2 r.
Proof.
  intros W N. induction W as [a|a c r Nc W IH]; intros I.
  - destruct I as [E|[]]. injection E as -> ->. contradiction.
  - destruct I as [E|I].
    + injection E as -> ->. exists r. split; [exact W|]. intros e He. right. exact He.
    + destruct (IH I) as (r2 & W2 & H2). exists r2. split; [exact W2|]. intros e He. right. apply H2. exact He.
Qed.

(** ** Sets of nodes *)
Lemma combinations_filter (p : nat -> bool) l : In (filter p l) (combinations (length (filter p l)) l).
Proof.
  induction l as [|a l IH]; cbn [filter]; [left; reflexivity|]. destruct (p a).
  - cbn [length combinations]. apply in_app_iff. left. apply in_map. exact IH.
  - destruct (length (filter p l)) as [|k] eqn:E; [destruct (filter p l); [left; reflexivity|discriminate E]|]. cbn [combinations]. apply in_app_iff. right. exact IH.
Qed.
Lemma combinations_sub k l c : In c (combinations k l) -> incl c l /\ length c = k /\ (NoDup l -> NoDup c).
Proof.
  revert k c. induction l as [|a l IH]; intros [|k] c H; cbn in H.
  - destruct H as [<-|[]]. split; [intros e []|]. split; [reflexivity|]. intros _; constructor.
  - destruct H.
  - destruct H as [<-|[]]. split; [intros e []|]. split; [reflexivity|]. intros _; constructor.
  - apply in_app_iff in H as [H|H].
    + apply in_map_iff in H as (c' & <- & H). destruct (IH k c' H) as (A & B & C). split; [intros e [<-|He]; [left; reflexivity|right; apply A; exact He]|].
      split; [cbn; lia|]. intros N. inversion N as [|? ? N1 N2]; subst. constructor; [|apply C; exact N2]. intros Ha. apply N1, A, Ha.
    + destruct (IH (S k) c H) as (A & B & C). split; [intros e He; right; apply A; exact He|]. split; [exact B|]. intros N. inversion N; subst. apply C. assumption.
Qed.
Lemma others_in n i j : In j (others n i) <-> j < n /\ j <> i.
Proof.
  unfold others. rewrite filter_In, in_seq. destruct (Nat.eqb_spec i j); cbn; split; intros (A & B); split; try lia; try discriminate; reflexivity.
Qed.
Lemma others_nodup n i : NoDup (others n i).
Proof. apply NoDup_filter, seq_NoDup. Qed.
Lemma node_sets_filter n d p : 2 <= length (filter p (others n d)) -> In (filter p (others n d)) (node_sets n d).
Proof.
  intros H. unfold node_sets. apply in_flat_map. exists (length (filter p (others n d))). split; [|apply combinations_filter].
  apply in_seq. assert (length (filter p (others n d)) <= length (others n d)) by (clear; induction (others n d) as [|a l IH]; cbn; [lia|]; destruct (p a); cbn; lia). lia.
Qed.
Lemma node_sets_in n d c : In c (node_sets n d) -> 2 <= length c /\ NoDup c /\ forall i, In i c -> i < n /\ i <> d.
Proof.
  unfold node_sets. intros H. apply in_flat_map in H as (k & Ik & H). apply in_seq in Ik. apply combinations_sub in H as (A & B & C).
  split; [lia|]. split; [apply C, others_nodup|]. intros i Hi. apply others_in, A, Hi.
Qed.
