(** * What a list of routes is, for points that need not be feasible *)
From Verif Require Export SpecApp.
Local Open Scope list_scope.
Local Open Scope nat_scope.

(** Edges that follow one another from a node on and end when they come to [d], if they do *)
Inductive trail (d : nat) : nat -> list (nat * nat) -> Prop :=
| trail_stop a : trail d a []
| trail_home a : trail d a [(a, d)]
| trail_go a b r : b <> d -> trail d b r -> trail d a ((a, b) :: r).
(** Where a route from [a] ends *)
Definition ends_at (a : nat) (r : list (nat * nat)) : nat := last (map snd r) a.
(** The number of the variable of the edge from [i] to [j]: the pairs of different nodes are counted row by row *)
Definition edge_number (n i j : nat) : nat := i * (n - 1) + (if j <? i then j else j - 1).
