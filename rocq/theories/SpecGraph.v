(** * Graphs with labels: what should hold *)
From Verif Require Export Graphs SpecApp.
Local Open Scope nat_scope.

(** A graph: nodes are not repeated, and edges join nodes. *)
Definition lg_ok (g : lgraph) : Prop := NoDup (lg_nodes g) /\ forall e, In e (lg_edges g) -> In (fst (fst e)) (lg_nodes g) /\ In (snd (fst e)) (lg_nodes g).
(** The label is the number i. *)
Definition number (i : nat) : label := LInt (Z.of_nat i).
(** The label is one of 0, ..., n-1. *)
Definition numbered (n : nat) (l : label) : Prop := exists i, i < n /\ l = number i.
(** The labels are 0, ..., n-1, in any order. *)
Definition proper (g : lgraph) : Prop := Permutation (lg_nodes g) (map number (seq 0 (length (lg_nodes g)))).
(** The node has an edge. *)
Definition touched (g : lgraph) (l : label) : Prop := exists e, In e (lg_edges g) /\ (fst (fst e) = l \/ snd (fst e) = l).
(** Two nodes are neighbours. *)
Definition adjacent (g : lgraph) (a b : label) : Prop := exists e, In e (lg_edges g) /\ (fst e = (a, b) \/ fst e = (b, a)).
(** [h] is the graph with numbers instead of labels. *)
Definition same_graph (g : lgraph) (h : graph) : Prop :=
  g_n h = length (lg_nodes g) /\ graph_wf h /\ lg_edges g = map (fun e => ((number (fst (fst e)), number (snd (fst e))), snd e)) (g_edges h).
(** The result is a program if [P], and KeyError otherwise. *)
Definition made_or_key (r : result qp) (P : Prop) : Prop := (P -> exists p, r = Ok p) /\ (~ P -> r = Err KeyError).
(** The sum over the pairs i < j < n *)
Definition pair_sum (n : nat) (f : nat -> nat -> Qc) : Qc := sumof (fun j => sumof (fun i => f i j) (seq 0 j)) (seq 0 n).
