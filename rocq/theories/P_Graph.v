(** * C98: The nodes of a graph are the variables of its program *)
From Verif Require Import SpecGraph AppFacts2 RouteFacts GraphFacts ConvMore.
From Coq Require Import Lia.
Local Open Scope string_scope.
Local Open Scope list_scope.
Local Open Scope nat_scope.

(** Nodes are taken to be 0, ..., n-1.  Nodes with other labels are not refused if they have no edges: one node "a" gives programs whose answers name a node 0, which
    there is not.  So does a clique of the nodes 5 and 6, and a tour of one node. *)
Definition alone : lgraph := mkLG [LText "a"] [].
Definition two : lgraph := mkLG [LInt 5; LInt 6] [((LInt 5, LInt 6), Some 1%Qc)].
Theorem C98_labels_refuted : lg_ok alone /\ ~ In (number 0) (lg_nodes alone) /\ lg_ok two /\ ~ In (number 0) (lg_nodes two) /\
  (exists p, stable_labelled alone = Ok p /\ feasible p [1%Qc] /\ stable_interpret [1%Qc] = [0]) /\
  (exists p, cover_labelled alone = Ok p /\ feasible p [1%Qc] /\ cover_interpret [1%Qc] = [0]) /\
  (exists p, maxcut_labelled alone = Ok p /\ feasible p [1%Qc] /\ maxcut_interpret [1%Qc] = ([], [0])) /\
  (exists p, gpart_labelled alone = Ok p /\ feasible p [0%Qc] /\ gpart_interpret [0%Qc] = ([0], [])) /\
  (exists p, clique_labelled two None = Ok p /\ feasible p [1; 1]%Qc /\ clique_interpret [1; 1]%Qc = [0; 1]) /\
  (exists p, tsp_labelled alone = Ok p /\ feasible p [1%Qc] /\ tsp_interpret [1%Qc] = [One 0]).
Proof.
  assert (forall (r : result qp) x, (match r with Ok q => feas_b q x | Err _ => false end) = true -> exists p, r = Ok p /\ feasible p x) as K.
  { intros r x H. destruct r as [p|]; [|discriminate H]. exists p. split; [reflexivity|]. apply feas_b_spec. exact H. }
  split; [split; [repeat constructor; intros []|intros e []]|]. split; [intros [H|[]]; discriminate H|].
  split; [split; [repeat constructor; [intros [H|[]]; discriminate H|intros []]|intros e [<-|[]]; cbn; auto]|]. split; [intros [H|[H|[]]]; discriminate H|].
  split; [destruct (K (stable_labelled alone) [1%Qc] ltac:(vm_compute; reflexivity)) as (p & E & F); exists p; split; [exact E|]; split; [exact F|vm_compute; reflexivity]|].
  split; [destruct (K (cover_labelled alone) [1%Qc] ltac:(vm_compute; reflexivity)) as (p & E & F); exists p; split; [exact E|]; split; [exact F|vm_compute; reflexivity]|].
  split; [destruct (K (maxcut_labelled alone) [1%Qc] ltac:(vm_compute; reflexivity)) as (p & E & F); exists p; split; [exact E|]; split; [exact F|vm_compute; reflexivity]|].
  split; [destruct (K (gpart_labelled alone) [0%Qc] ltac:(vm_compute; reflexivity)) as (p & E & F); exists p; split; [exact E|]; split; [exact F|vm_compute; reflexivity]|].
  split; [destruct (K (clique_labelled two None) [1; 1]%Qc ltac:(vm_compute; reflexivity)) as (p & E & F); exists p; split; [exact E|]; split; [exact F|vm_compute; reflexivity]|].
  destruct (K (tsp_labelled alone) [1%Qc] ltac:(vm_compute; reflexivity)) as (p & E & F); exists p; split; [exact E|]; split; [exact F|vm_compute; reflexivity].
Qed.
Print Assumptions C98_labels_refuted.

(** When a program is made: exactly if the ends of the edges are numbers below the number of nodes; KeyError otherwise.  The program is the one of the graph of these numbers. *)
Theorem C98_made : forall g f, In f [maxcut_program; cover_program; stable_program; gpart_program] ->
  made_or_key (over_edges f g) (forall e, In e (lg_edges g) -> numbered (length (lg_nodes g)) (fst (fst e)) /\ numbered (length (lg_nodes g)) (snd (fst e))) /\
  forall p, over_edges f g = Ok p -> exists h, same_graph g h /\ f h = Ok p.
Proof.
  intros g f I. apply over_made. intros h W. destruct I as [<-|[<-|[<-|[<-|[]]]]].
  - destruct (maxcut_spec h W) as (p & E & _). eauto.
  - destruct (cover_spec h W) as (p & E & _). eauto.
  - destruct (stable_spec h W) as (p & E & _). eauto.
  - destruct (gpart_spec h W) as (p & E & _). eauto.
Qed.
(** ... cliques: exactly if the nodes that are not joined to all others are such numbers. *)
Theorem C98_clique : forall g size, lg_ok g ->
  let n := length (lg_nodes g) in
  made_or_key (clique_labelled g size) (forall a b, In a (lg_nodes g) -> In b (lg_nodes g) -> a <> b -> ~ adjacent g a b -> numbered n a) /\
  forall p, clique_labelled g size = Ok p -> binary_program p n (match size with None => MAXIMIZE | Some _ => MINIMIZE end) /\
    forall x, (feasible p x <-> bits n x /\ (forall i j, In i (clique_interpret x) -> In j (clique_interpret x) -> i <> j -> In (number i) (lg_nodes g) -> In (number j) (lg_nodes g) -> adjacent g (number i) (number j)) /\
                              forall k, size = Some k -> Z.of_nat (length (clique_interpret x)) = k) /\
      (bits n x -> obj_at (p_obj p) x = match size with None => qn (length (clique_interpret x)) | Some _ => 0%Qc end).
Proof. exact clique_made. Qed.
(** Nodes 2, 0, 1 in this order, with the path 0 - 1 - 2; a node 7 instead of 2. *)
Definition turned : lgraph := mkLG [number 2; number 0; number 1] [((number 0, number 1), None); ((number 1, number 2), None)].
Definition seven : lgraph := mkLG [number 7; number 0; number 1] [((number 0, number 1), None); ((number 1, number 7), None)].
Example C98_made_case : lg_ok turned /\ proper turned /\ stable_labelled seven = Err KeyError /\ clique_labelled seven None = Err KeyError /\ tsp_labelled seven = Err KeyError /\
  match clique_labelled turned None with Ok p => feas_b p [1; 1; 0]%Qc && negb (feas_b p [1; 0; 1]%Qc) | Err _ => false end = true /\
  match cover_labelled turned with Ok p => feas_b p [0; 1; 0]%Qc && negb (feas_b p [1; 0; 0]%Qc) | Err _ => false end = true.
Proof.
  split; [split; [repeat constructor; vm_compute; intuition discriminate|intros e [<-|[<-|[]]]; vm_compute; auto]|].
  split; [apply labels_proper; [repeat constructor; vm_compute; intuition discriminate|intros l [<-|[<-|[<-|[]]]]; eexists; (split; [|reflexivity]); vm_compute; lia]|]. repeat split; vm_compute; reflexivity.
Qed.
Print Assumptions C98_made.
Print Assumptions C98_clique.

(** What holds: if every node has an edge (one that is missing, for cliques), a program is only made if the labels are 0, ..., n-1. *)
Theorem C98_nodes_partial : forall g, lg_ok g ->
  (forall f p, In f [maxcut_program; cover_program; stable_program; gpart_program] -> (forall l, In l (lg_nodes g) -> touched g l) -> over_edges f g = Ok p -> proper g) /\
  (forall size p, (forall a, In a (lg_nodes g) -> exists b, In b (lg_nodes g) /\ a <> b /\ ~ adjacent g a b) -> clique_labelled g size = Ok p -> proper g) /\
  (2 <= length (lg_nodes g) -> (exists p, tsp_labelled g = Ok p) \/ (exists v d p, vrp_labelled g v d = Ok p) -> proper g).
Proof.
  intros g K. split; [|split].
  - intros f p I T E. destruct (proj2 (C98_made g f I) p E) as (h & (N & W & S) & _). apply labels_proper; [exact (proj1 K)|]. intros l Il. destruct (T l Il) as (e & Ie & H). rewrite S in Ie. apply in_map_iff in Ie. destruct Ie as (e' & <- & Ie). cbn [fst snd] in H.
    apply (proj1 (Forall_forall _ _) W) in Ie. cbn beta in Ie. rewrite N in Ie. destruct Ie as (A & B). destruct H as [<-|<-]; eexists; (split; [|reflexivity]); assumption.
  - intros size p T E. apply labels_proper; [exact (proj1 K)|]. intros a Ia. destruct (C98_clique g size K) as ((_ & M) & _). destruct (T a Ia) as (b & Ib & N & NA).
    destruct (slot_of (length (lg_nodes g)) a) as [i|x] eqn:S; [apply slot_of_ok in S; destruct S as (Hi & ->); exists i; auto|].
    exfalso. apply slot_of_err in S. destruct S as (_ & S). rewrite M in E; [discriminate E|]. intro H. exact (S (H a b Ia Ib N NA)).
  - intros L [(p & E)|(v & d & p & E)].
    + apply (tour_proper g (tsp_labelled g) K L); [|eauto]. intros i j Hi Hj N NJ. exact (tsp_missing (mkGraph (lg_n g) (found_edges g)) i j Hi Hj N NJ).
    + apply (tour_proper g (vrp_labelled g v d) K L); [|eauto]. intros i j Hi Hj N NJ. exact (vrp_missing (mkGraph (lg_n g) (found_edges g)) v d i j Hi Hj N NJ).
Qed.
Example C98_nodes_case : (forall l, In l (lg_nodes turned) -> touched turned l) /\ (exists p, gpart_labelled turned = Ok p) /\ touched two (LInt 6) /\ maxcut_labelled two = Err KeyError.
Proof.
  split; [intros l [<-|[<-|[<-|[]]]]; [exists ((number 1, number 2), None)|exists ((number 0, number 1), None)|exists ((number 0, number 1), None)]; vm_compute; auto|].
  split; [eexists; vm_compute; reflexivity|]. split; [exists ((LInt 5, LInt 6), Some 1%Qc); vm_compute; auto|vm_compute; reflexivity].
Qed.
Print Assumptions C98_nodes_partial.

(** A graph given as a square matrix: the value of a cut is the sum of the entries below the diagonal - above, where there is 0 below - of the pairs that are cut; for a
    symmetric matrix the sum of its entries.  The diagonal does not count. *)
Theorem C98_matrix : forall n a, exists p, maxcut_program (matrix_graph n a) = Ok p /\ binary_program p n MAXIMIZE /\ (forall x, feasible p x <-> bits n x) /\
  forall x, bits n x ->
    obj_at (p_obj p) x = pair_sum n (fun i j => if qeqb (at_ x i) (at_ x j) then 0%Qc else if qeqb (a j i) 0 then a i j else a j i) /\
    ((forall i j, i < n -> j < n -> a i j = a j i) -> obj_at (p_obj p) x = pair_sum n (fun i j => if qeqb (at_ x i) (at_ x j) then 0%Qc else a i j)).
Proof.
  intros n a. destruct (maxcut_spec (matrix_graph n a) (matrix_wf n a)) as (p & E & B & _ & F & O). exists p. split; [exact E|]. split; [exact B|]. split; [exact F|]. intros x Bx.
  assert (obj_at (p_obj p) x = pair_sum n (fun i j => if qeqb (at_ x i) (at_ x j) then 0%Qc else late_entry a i j)) as V.
  { specialize (O x Bx). unfold maxcut_interpret in O. rewrite (surjective_pairing (two_sides 0 x)) in O. rewrite O. exact (matrix_cut n a x Bx). }
  split; [exact V|]. intro S. rewrite V. unfold pair_sum. apply sumof_ext. intros j Ij. apply sumof_ext. intros i Ii. apply in_seq in Ij, Ii. unfold late_entry. rewrite (S j i) by lia. destruct (qeqb (a i j) 0); reflexivity.
Qed.
(** The matrix with 2 above and 3 below the diagonal, and 5 on it *)
Example C98_matrix_case : let a := fun i j => if Nat.eqb i j then qz 5 else if i <? j then qz 2 else qz 3 in
  match maxcut_program (matrix_graph 3 a) with Ok p => qeqb (obj_at (p_obj p) [0; 1; 1]%Qc) (qz 6) && feas_b p [0; 1; 1]%Qc | Err _ => false end = true.
Proof. vm_compute. reflexivity. Qed.
Print Assumptions C98_matrix.
