(** * What the numerical solvers should be given and should return *)
From Verif Require Export SpecAlgo SpecMore Solvers.
Local Open Scope nat_scope.

(** [f] gives a non-negative value (zero) at [x]. *)
Definition nonneg_at (x : list Qc) (f : list Qc -> result Qc) : Prop := exists v, f x = Ok v /\ (0 <= v)%Qc.
Definition zero_at (x : list Qc) (f : list Qc -> result Qc) : Prop := f x = Ok 0%Qc.
Definition within (b : Qc * Qc) (a : Qc) : Prop := (fst b <= a)%Qc /\ (a <= snd b)%Qc.
(** The points found by the trials, in order. *)
Definition finds (clip : Qc) (draw : nat -> nat -> Qc) (minimize : nat -> list Qc -> result (list Qc)) (p : qp) (trials : nat) (found : list (list Qc)) : Prop :=
  Forall2 (fun t x => exists x0, first_guess clip draw p t = Ok x0 /\ minimize t x0 = Ok x /\ length x = num_vars p) (seq 0 trials) found.
(** The result reports the point [x]. *)
Definition reports (p : qp) (r : opt_result) (x : list Qc) : Prop :=
  r_x r = Some x /\ r_fval r = Some (obj_at (p_obj p) x) /\ r_vars r = p_vars p /\ status_at p x (r_status r).
Definition all_continuous (p : qp) : Prop := Forall (fun v => v_type v = CONTINUOUS) (p_vars p).
