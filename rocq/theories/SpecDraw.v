(** * What drawings should show, and what random instances should be *)
From Verif Require Export SpecApp Draw.
Local Open Scope list_scope.
Local Open Scope nat_scope.

(** networkx paints the k-th node of the graph with the k-th colour. *)
Definition painted (order : list nat) (colors : list string) (v : nat) (c : string) : Prop :=
  exists k, nth_error order k = Some v /\ nth_error colors k = Some c.
(** A closed tour: the steps from each node of the list to the next one, and from the last to the first *)
Definition closed (l : list nat) : list (nat * nat) := match l with [] => [] | a :: r => combine l (r ++ [a]) end.
(** A norm of the plane that grows with the size of the coordinates *)
Definition hypot_like (hyp : Qc -> Qc -> Qc) : Prop :=
  hyp 0%Qc 0%Qc = 0%Qc /\ forall a b c d, (qabs a <= qabs c)%Qc -> (qabs b <= qabs d)%Qc -> (hyp a b <= hyp c d)%Qc.
(** [w] is the whole number nearest to [q], the even one of two. *)
Definition rounds_even (q w : Qc) : Prop := (exists z, w = qz z) /\ (qabs (w - q) <= 1 / qz 2)%Qc /\ (qabs (w - q) = (1 / qz 2)%Qc -> exists z, w = qz (2 * z)).
