(** * When the Grover search should give up *)
From Verif Require Export SpecGrover.
Local Open Scope nat_scope.

(** Pass [i] did not improve on an earlier one. *)
Definition stale (log : list (list bool * Z)) (i : nat) : Prop :=
  exists j o v o' w, j < i /\ nth_error log j = Some (o, v) /\ nth_error log i = Some (o', w) /\ (v <= w)%Z.
(** The last passes, at least [k] of them (and at least one), were stale. *)
Definition patience_spent (k : nat) (log : list (list bool * Z)) : Prop :=
  exists pre suf, log = pre ++ suf /\ suf <> [] /\ k <= length suf /\ forall i, length pre <= i < length log -> stale log i.
(** Every assignment of [n] bits was measured in a stale pass. *)
Definition all_keys_stale (n : nat) (log : list (list bool * Z)) : Prop :=
  forall key, length key = n -> exists i o v, nth_error log i = Some (o, v) /\ firstn n o = key /\ stale log i.
(** [m'] is the next bound of rotations after [m]: min (8 m / 7) (2 ^ (n / 2)), rounded up. *)
Definition next_bound (n m m' : nat) : Prop := (8 * m <= 7 * m' \/ 2 ^ n <= m' * m') /\ forall k, k < m' -> 7 * k < 8 * m /\ k * k < 2 ^ n.
(** The bounds of rotations [ms] and the rotations [rs] of the passes: the bound starts at 1, grows after a stale pass and falls back to 1 after another. *)
Definition rotations_of (n : nat) (spin : nat -> nat -> nat) (log : list (list bool * Z)) (ms rs : list nat) : Prop :=
  length ms = length log /\ length rs = length log /\
  (forall i m r, nth_error ms i = Some m -> nth_error rs i = Some r -> r = spin i m) /\
  (forall m, nth_error ms 0 = Some m -> m = 1) /\
  (forall i m m', nth_error ms i = Some m -> nth_error ms (S i) = Some m' -> (stale log i -> next_bound n m m') /\ (~ stale log i -> m' = 1)).
(** No number of rotations is the bound or more (0 if the bound is 1): a number between 0 and m - 1, rounded up *)
Definition below_bound (spin : nat -> nat -> nat) : Prop := forall i m, 0 < m -> spin i m < m.
