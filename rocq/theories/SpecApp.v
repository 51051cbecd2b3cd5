(** * What the applications should do *)
From Verif Require Export App SpecDoc SpecIsing.
Local Open Scope nat_scope.

(** The edges join nodes of the graph. *)
Definition graph_wf (g : graph) : Prop := Forall (fun e => fst (fst e) < g_n g /\ snd (fst e) < g_n g) (g_edges g).
Definition joined (g : graph) (i j : nat) : Prop := exists e, In e (g_edges g) /\ (fst e = (i, j) \/ fst e = (j, i)).
Definition member (i : nat) (l : list nat) : bool := existsb (Nat.eqb i) l.
(** The weight of an edge: 1 unless one is given *)
Definition edge_weight (e : (nat * nat) * option Qc) : Qc := match snd e with Some w => w | None => 1%Qc end.
(** An edge with one end in [a] and one in [b]. *)
Definition crossing (a b : list nat) (e : (nat * nat) * option Qc) : bool :=
  (member (fst (fst e)) a && member (snd (fst e)) b) || (member (fst (fst e)) b && member (snd (fst e)) a).
(** The nodes whose coordinate is not 0, in order ... *)
Definition listed (x : list Qc) (l : list nat) : Prop := StronglySorted lt l /\ forall i, In i l <-> at_ x i <> 0%Qc.
(** ... and those whose coordinate is 0. *)
Definition listed0 (x : list Qc) (l : list nat) : Prop := StronglySorted lt l /\ forall i, In i l <-> i < length x /\ at_ x i = 0%Qc.

Definition disjoint (s t : list Z) : Prop := forall e, In e s -> ~ In e t.
(** [e] is in exactly one of the sets. *)
Definition once (e : Z) (l : list (list Z)) : Prop := exists l1 s l2, l = l1 ++ s :: l2 /\ In e s /\ Forall (fun t => ~ In e t) (l1 ++ l2).
(** The items at the places where [x] is not 0, and at those where it is 0. *)
Definition chosen {A} (l : list A) (x : list Qc) : list A := map snd (filter (fun xs => negb (qeqb (fst xs) 0)) (combine x l)).
Definition left_out {A} (l : list A) (x : list Qc) : list A := map snd (filter (fun xs => qeqb (fst xs) 0) (combine x l)).
Definition total (l : list Qc) : Qc := sumof (fun a => a) l.
(** A program of [n] binary variables, without quadratic constraints. *)
Definition binary_program (p : qp) (n : nat) (s : objsense) : Prop :=
  num_vars p = n /\ all_binary p /\ p_qcs p = [] /\ o_sense (p_obj p) = s.

(** Every two nodes are joined, and every edge between i and j has the weight [w i j]; no loops. *)
Definition complete (g : graph) (w : nat -> nat -> Qc) : Prop :=
  graph_wf g /\ (forall i j, i < g_n g -> j < g_n g -> i <> j -> joined g i j) /\
  (forall e, In e (g_edges g) -> snd e = Some (w (fst (fst e)) (snd (fst e)))) /\ (forall i j, w i j = w j i) /\ forall i, w i i = 0%Qc.
(** The matrix of the order [l] of the nodes: the entry (i, k) is 1 if node i comes at place k. *)
Definition perm_matrix (n : nat) (l : list nat) : list Qc :=
  flat_map (fun i => map (fun k => if Nat.eqb (nth k l n) i then 1%Qc else 0%Qc) (seq 0 n)) (seq 0 n).

(** A walk from [a] along edges until the depot [d] is reached for the first time. *)
Inductive walk_home (d : nat) : nat -> list (nat * nat) -> Prop :=
| wh_end a : walk_home d a [(a, d)]
| wh_step a c r : c <> d -> walk_home d c r -> walk_home d a ((a, c) :: r).
(** One closed route per vehicle; together they visit every other node once. *)
Definition good_routes (n : nat) (vehicles : Z) (d : nat) (routes : list (list (nat * nat))) : Prop :=
  Z.of_nat (length routes) = vehicles /\ Forall (walk_home d d) routes /\
  (forall i j, In (i, j) (concat routes) -> i < n /\ j < n /\ i <> j) /\
  forall v, v < n -> v <> d -> length (filter (fun e => Nat.eqb (snd e) v) (concat routes)) = 1.
(** The variable "x_i_j" is 1 if the edge from i to j is used, and 0 if not. *)
Definition marks (p : qp) (x : list Qc) (used : list (nat * nat)) : Prop :=
  forall i j k, nth_error (var_names p) k = Some ("x_" ++ str_nat i ++ "_" ++ str_nat j)%string -> (at_ x k = 1%Qc <-> In (i, j) used).

(** The first place of the largest value. *)
Definition first_largest (l : list Qc) (k : nat) : Prop :=
  k < length l /\ (forall i, i < length l -> (nth i l 0 <= nth k l 0)%Qc) /\ forall i, i < k -> (nth i l 0 < nth k l 0)%Qc.
