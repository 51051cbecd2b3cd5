(** * Specification of substitutions and Ising operators *)
From Verif Require Export Spec Subst.
Local Open Scope nat_scope.

(** ** Substitutions *)
(** Key [k] denotes the [i]-th variable. *)
Definition denotes (p : qp) (k : key) (i : nat) : Prop := points_to (var_names p) (num_vars p) k i.
(** The keys of a substitution denote variables. *)
Definition keys_denote (p : qp) (cs : list (key * Qc)) (vs : list (key * (key * Qc))) : Prop :=
  (forall k v, In (k, v) cs -> exists i, denotes p k i) /\
  (forall k j v, In (k, (j, v)) vs -> (exists i, denotes p k i) /\ exists i, denotes p j i).
(** The [i]-th variable is replaced by a constant or by another variable. *)
Definition replaced (p : qp) (cs : list (key * Qc)) (vs : list (key * (key * Qc))) (i : nat) : Prop :=
  (exists k v, In (k, v) cs /\ denotes p k i) \/ (exists k j v, In (k, (j, v)) vs /\ denotes p k i).
(** The point [x] satisfies the equations of the substitution. *)
Definition agrees (p : qp) (cs : list (key * Qc)) (vs : list (key * (key * Qc))) (x : list Qc) : Prop :=
  length x = num_vars p /\
  (forall k v i, In (k, v) cs -> denotes p k i -> at_ x i = v) /\
  (forall k j v i i', In (k, (j, v)) vs -> denotes p k i -> denotes p j i' -> at_ x i = (v * at_ x i')%Qc).
(** [y] lists the values of [x] at the variables that are not replaced, in order. *)
Definition restricts (p : qp) (cs : list (key * Qc)) (vs : list (key * (key * Qc))) (x y : list Qc) : Prop :=
  exists l, StronglySorted lt l /\ (forall i, In i l <-> i < num_vars p /\ ~ replaced p cs vs i) /\ y = map (at_ x) l.

(** Bounds, 1e20 meaning no bound. *)
Definition fits (v : variable) (a : Qc) : Prop :=
  ((v_lb v <= - INFINITY)%Qc \/ (v_lb v <= a)%Qc) /\ ((INFINITY <= v_ub v)%Qc \/ (a <= v_ub v)%Qc).
(** A point satisfying bounds and constraints (types aside). *)
Definition satisfies (p : qp) (x : list Qc) : Prop := Forall2 fits (p_vars p) x /\ lcs_hold p x /\ qcs_hold p x.

(** Sizes of numbers for which 1e20 works as infinity: no lower bound is plus infinity, no upper bound minus infinity,
    constants are finite, and finite bounds stay finite when divided by a factor. *)
Definition finite (a : Qc) : Prop := (qabs a < INFINITY)%Qc.
Definition moderate (p : qp) (cs : list (key * Qc)) (vs : list (key * (key * Qc))) : Prop :=
  Forall (fun v => (v_lb v < INFINITY)%Qc /\ (- INFINITY < v_ub v)%Qc) (p_vars p) /\
  (forall k v, In (k, v) cs -> finite v) /\
  (forall k j v i w, In (k, (j, v)) vs -> denotes p k i -> nth_error (p_vars p) i = Some w ->
     (finite (v_lb w) -> finite (v_lb w / v)) /\ (finite (v_ub w) -> finite (v_ub w / v))).
(** The variables that are not replaced, with name and type, in order. *)
Definition keeps_rest (p : qp) (cs : list (key * Qc)) (vs : list (key * (key * Qc))) (q : qp) : Prop :=
  exists l, StronglySorted lt l /\ (forall i, In i l <-> i < num_vars p /\ ~ replaced p cs vs i) /\
  Forall2 (fun i w => exists v, nth_error (p_vars p) i = Some v /\ v_name w = v_name v /\ v_type w = v_type v) l (p_vars q).

(** Ill-formed substitutions: a variable given twice, scaled by zero, by itself, by a variable that is replaced. *)
Definition given_twice (p : qp) (cs : list (key * Qc)) (vs : list (key * (key * Qc))) : Prop :=
  exists a b k k' i, a < b /\ nth_error (map fst cs ++ map fst vs) a = Some k /\ nth_error (map fst cs ++ map fst vs) b = Some k' /\
    denotes p k i /\ denotes p k' i.
Definition by_zero (vs : list (key * (key * Qc))) : Prop := exists k j, In (k, (j, 0%Qc)) vs.
Definition by_itself (p : qp) (vs : list (key * (key * Qc))) : Prop :=
  exists k j v i, In (k, (j, v)) vs /\ denotes p k i /\ denotes p j i.
Definition by_replaced (p : qp) (cs : list (key * Qc)) (vs : list (key * (key * Qc))) : Prop :=
  exists k j v i, In (k, (j, v)) vs /\ denotes p j i /\ replaced p cs vs i.
(** ... by a constant, or by a replacement given earlier *)
Definition by_replaced_before (p : qp) (cs : list (key * Qc)) (vs : list (key * (key * Qc))) : Prop :=
  exists n k j v i, nth_error vs n = Some (k, (j, v)) /\ denotes p j i /\ replaced p cs (firstn n vs) i.
(** No expression refers to positions beyond the variables. *)
Definition exprs_small (p : qp) : Prop :=
  le_dim (o_lin (p_obj p)) <= num_vars p /\ qe_dim (o_quad (p_obj p)) <= num_vars p /\
  Forall (fun c => le_dim (lc_lin c) <= num_vars p) (p_lcs p) /\
  Forall (fun c => le_dim (qc_lin c) <= num_vars p /\ qe_dim (qc_quad c) <= num_vars p) (p_qcs p).
(** ... and which bounds a replacing variable has to respect: [v * a] lies within a finite bound [b] of the replaced one; a bound
    from 1e20 on is only turned over. *)
Definition turned (b v a : Qc) : Qc := if qltb (qabs b) INFINITY then (v * a)%Qc else if qltb 0 v then a else (- a)%Qc.
Definition obeys (w : variable) (v a : Qc) : Prop := (v_lb w <= turned (v_lb w) v a)%Qc /\ (turned (v_ub w) v a <= v_ub w)%Qc.
(** Every variable that stays has a value left. *)
Definition leaves_room (p : qp) (cs : list (key * Qc)) (vs : list (key * (key * Qc))) : Prop :=
  forall i w, nth_error (p_vars p) i = Some w -> ~ replaced p cs vs i -> exists a, in_range w a /\
    forall k j v n u, In (k, (j, v)) vs -> denotes p j i -> denotes p k n -> nth_error (p_vars p) n = Some u -> obeys u v a.
(** A variable with the name that marks constants is read as 1: [x] agrees with the substitution so understood, and [y] lists the
    values of [x] at the variables that are not replaced, whatever stands at that variable. *)
Definition named_one (p : qp) (i : nat) : Prop := nth_error (var_names p) i = Some "__CONSTANT__"%string.
Definition agrees_marked (p : qp) (cs : list (key * Qc)) (vs : list (key * (key * Qc))) (x : list Qc) : Prop :=
  length x = num_vars p /\
  (forall k v i, In (k, v) cs -> denotes p k i -> at_ x i = v) /\
  (forall k j v i i', In (k, (j, v)) vs -> denotes p k i -> denotes p j i' -> (named_one p i' -> at_ x i = v) /\ (~ named_one p i' -> at_ x i = (v * at_ x i')%Qc)) /\
  (forall i, named_one p i -> ~ replaced p cs vs i -> at_ x i = 1%Qc).
Definition restricts_marked (p : qp) (cs : list (key * Qc)) (vs : list (key * (key * Qc))) (x y : list Qc) : Prop :=
  exists l, StronglySorted lt l /\ (forall i, In i l <-> i < num_vars p /\ ~ replaced p cs vs i) /\ Forall2 (fun i a => ~ named_one p i -> a = at_ x i) l y.
(** Every variable with a linear coefficient in the objective takes values at most 1 apart, every variable in one of its products only
    values from 0 to 1; the other variables may have any bounds. *)
Definition close_values (v : variable) : Prop := v_type v = BINARY \/ (v_ub v - v_lb v <= 1)%Qc.
Definition unit_values (v : variable) : Prop := v_type v = BINARY \/ ((0 <= v_lb v)%Qc /\ (v_ub v <= 1)%Qc).
Definition light_objective (p : qp) : Prop :=
  (forall i c v, In (i, c) (le_co (o_lin (p_obj p))) -> nth_error (p_vars p) i = Some v -> close_values v) /\
  (forall i j c v, In ((i, j), c) (qe_co (o_quad (p_obj p))) -> nth_error (p_vars p) i = Some v \/ nth_error (p_vars p) j = Some v -> unit_values v).
