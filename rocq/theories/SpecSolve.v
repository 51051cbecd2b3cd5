(** * What the solutions of the applications are *)
From Verif Require Export SpecApp SpecTotal SpecMore.
Local Open Scope nat_scope.

(** The QUBO of [p] has best points, and every one of them decodes to a point with [good]. *)
Definition solved (p : qp) (good : list Qc -> Prop) : Prop :=
  exists r, to_qubo None p = Ok r /\ (exists y, optimal (r_qubo r) y) /\ forall y, optimal (r_qubo r) y -> exists x, qubo_interpret r y = Ok x /\ good x.

(** Two sets of nodes, each node in exactly one of them *)
Definition two_parts (g : graph) (a b : list nat) : Prop := forall i, i < g_n g -> (In i a <-> ~ In i b).
Definition cut_weight (g : graph) (a b : list nat) : Qc := sumof edge_weight (filter (crossing a b) (g_edges g)).
(** Sets of nodes *)
Definition node_set (g : graph) (l : list nat) : Prop := NoDup l /\ forall i, In i l -> i < g_n g.
Definition is_cover (g : graph) (l : list nat) : Prop := node_set g l /\ forall e, In e (g_edges g) -> In (fst (fst e)) l \/ In (snd (fst e)) l.
Definition is_stable (g : graph) (l : list nat) : Prop := node_set g l /\ forall e, In e (g_edges g) -> ~ (In (fst (fst e)) l /\ In (snd (fst e)) l).
Definition is_clique (g : graph) (l : list nat) : Prop := node_set g l /\ forall i j, In i l -> In j l -> i <> j -> joined g i j.
