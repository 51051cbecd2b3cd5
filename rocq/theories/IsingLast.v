(** * from_ising when a Pauli string is repeated *)
From Verif Require Export IsingProps.
From Coq Require Import Permutation.
Local Open Scope list_scope.
Local Open Scope nat_scope.

Definition tset (d : list (pauli * Qc)) (t : pauli * Qc) := dset pauli_eqb (fst t) (snd t) d.
Definition coded (t : pauli * Qc) : (nat * nat) * Qc := (code (fst t), snd t).
Lemma tset_good n d t : ising_term n t -> good_terms n d -> good_terms n (tset d t).
Proof. intros T G. unfold tset. apply (dset_Forall _ pauli_eqb_sp); [now destruct t|exact G]. Qed.
Lemma tset_coded n d t : ising_term n t -> good_terms n d -> map coded (tset d t) = dset nat2_eqb (code (fst t)) (snd t) (map coded d).
Proof.
  intros T G. induction G as [|[k c] d H G IH]; [reflexivity|]. unfold tset in *. destruct t as [q v]. cbn [fst snd map dset coded] in *.
  unfold coded at 2. cbn [fst snd dset]. destruct (pauli_eqb_sp q k) as [E|E].
  - subst. destruct (nat2_eqb_sp (code k) (code k)); [reflexivity|congruence].
  - destruct (nat2_eqb_sp (code q) (code k)) as [C|C]; [exfalso; exact (E (code_inj n q v k c T H C))|]. cbn [map]. now rewrite IH.
Qed.
Lemma read_coded n l : good_terms n l -> forall d, good_terms n d -> foldM read_term l (map coded d) = Ok (map coded (fold_left tset l d)).
Proof.
  induction 1 as [|t l H G IH]; intros d D; [reflexivity|]. cbn [foldM fold_left]. rewrite (read_term_good n _ t H). cbn [bind].
  rewrite <- (tset_coded n d t H D). apply IH. now apply tset_good.
Qed.
Lemma tset_fold_good n l : good_terms n l -> forall d, good_terms n d -> good_terms n (fold_left tset l d).
Proof. induction 1 as [|t l H G IH]; intros d D; [exact D|]. cbn [fold_left]. apply IH. now apply tset_good. Qed.
Lemma tset_fold_nodup l : forall d, NoDup (map fst d) -> NoDup (map fst (fold_left tset l d)).
Proof. induction l as [|t l IH]; intros d D; [exact D|]. cbn [fold_left]. apply IH. now apply (dset_nodup _ pauli_eqb_sp). Qed.
Lemma tset_fold_fresh l : forall d, NoDup (map fst (d ++ l)) -> fold_left tset l d = d ++ l.
Proof.
  induction l as [|[k c] l IH]; intros d N; [cbn; now rewrite app_nil_r|]. cbn [fold_left]. unfold tset at 2. cbn [fst snd].
  rewrite (dset_fresh _ pauli_eqb_sp). { rewrite IH; rewrite <- app_assoc; [reflexivity|exact N]. }
  rewrite map_app in N. cbn [map fst] in N. apply NoDup_remove in N. intro K. apply (proj2 N), in_app_iff. now left.
Qed.
Lemma tset_in d q v k c : NoDup (map fst d) -> In (k, c) (tset d (q, v)) <-> (k = q /\ c = v) \/ (k <> q /\ In (k, c) d).
Proof.
  unfold tset. cbn [fst snd]. induction d as [|[a b] d IH]; intro N.
  - cbn. split; [intros [[= <- <-]|[]]; auto|intros [[-> ->]|[_ []]]; auto].
  - cbn [map fst] in N. inversion N as [|? ? N1 N2]; subst. cbn [dset]. destruct (pauli_eqb_sp q a) as [<-|E]; cbn [In].
    + split.
      * intros [[= <- <-]|H]; [auto|]. right. split; [|auto]. intros ->. apply N1. apply in_map_iff. exists (q, c). auto.
      * intros [[-> ->]|[E [[= <- <-]|H]]]; auto. congruence.
    + rewrite (IH N2). split.
      * intros [[= <- <-]|[H|[H1 H2]]]; auto.
      * intros [[-> ->]|[H1 [H2|H2]]]; auto.
Qed.
Lemma tset_fold_in l : forall d k c, NoDup (map fst d) ->
  In (k, c) (fold_left tset l d) <-> (exists before after, l = before ++ (k, c) :: after /\ ~ In k (map fst after)) \/ (In (k, c) d /\ ~ In k (map fst l)).
Proof.
  induction l as [|[q v] l IH]; intros d k c N; cbn [fold_left].
  - split; [auto|]. intros [([|? ?] & after & H & _)|[H _]]; [discriminate H|discriminate H|exact H].
  - rewrite IH by (unfold tset; now apply (dset_nodup _ pauli_eqb_sp)). rewrite tset_in by assumption. cbn [map fst In]. split.
    + intros [(b & a & -> & H)|[[[-> ->]|[H1 H2]] H3]].
      * left. exists ((q, v) :: b), a. auto.
      * left. exists [], l. auto.
      * right. split; [exact H2|]. intros [E|E]; congruence.
    + intros [([|b0 b] & a & E & H)|[H1 H2]].
      * injection E as E1 E2 E3. subst. right. auto.
      * injection E as E1 E2. subst. left. eauto.
      * right. split; [right; split; auto; intros ->; auto|auto].
Qed.
Lemma from_ising_last s n terms d off linear : good_terms n terms -> last_counts terms d ->
  exists q, from_ising (new_qp s) (mkOp n terms) off linear = (q, Ok tt) /\
    forall x, bits n x -> obj_at (p_obj q) x = (energy (mkOp n d) x + off)%Qc.
Proof.
  intros G [N M]. set (d' := fold_left tset terms []).
  assert (good_terms n d') as G' by (apply tset_fold_good; [exact G|constructor]). assert (NoDup (map fst d')) as N' by (apply tset_fold_nodup; constructor).
  assert (from_ising (new_qp s) (mkOp n terms) off linear = from_ising (new_qp s) (mkOp n d') off linear) as E.
  { unfold from_ising. cbn [op_n op_terms]. change (@nil ((nat * nat) * Qc)) with (map coded []).
    rewrite (read_coded n terms G []) by constructor. rewrite (read_coded n d' G' []) by constructor. fold d'.
    now rewrite (tset_fold_fresh d' []) by exact N'. }
  destruct (from_ising_ok s n d' off linear G' N') as (q & Q & _ & _ & _ & _ & _ & _ & V). exists q. rewrite E. split; [exact Q|].
  intros x X. rewrite (V x X). unfold energy. cbn [op_terms]. f_equal. apply sumof_perm. apply NoDup_Permutation; [now apply NoDup_map_inv in N'|now apply NoDup_map_inv in N|].
  intros [k c]. unfold d'. rewrite tset_fold_in by constructor. rewrite M. cbn [In]. tauto.
Qed.
