(** * Specification: programs that the converters can carry through *)
From Verif Require Export SpecMore.
Local Open Scope string_scope.
Local Open Scope list_scope.
Local Open Scope nat_scope.

(** No expression has more columns than the program has variables. *)
Definition dims_fit (p : qp) : Prop :=
  le_dim (o_lin (p_obj p)) <= num_vars p /\ qe_dim (o_quad (p_obj p)) <= num_vars p /\
  Forall (fun c => le_dim (lc_lin c) <= num_vars p) (p_lcs p) /\
  Forall (fun c => le_dim (qc_lin c) <= num_vars p /\ qe_dim (qc_quad c) <= num_vars p) (p_qcs p).

(** Names of the inequalities, linear and quadratic. *)
Definition lin_ineqs (p : qp) : list string :=
  map lc_name (filter (fun c => match lc_sense c with EQ => false | _ => true end) (p_lcs p)).
Definition quad_ineqs (p : qp) : list string :=
  map qc_name (filter (fun c => match qc_sense c with EQ => false | _ => true end) (p_qcs p)).

(** No variable has the name of a slack variable, and no linear inequality has the name of a
    quadratic one (a linear and a quadratic constraint may share a name). *)
Definition slack_free (p : qp) : Prop :=
  (forall c, In c (lin_ineqs p ++ quad_ineqs p) ->
     ~ In (c ++ "@int_slack")%string (var_names p) /\ ~ In (c ++ "@continuous_slack")%string (var_names p)) /\
  (forall c, In c (lin_ineqs p) -> ~ In c (quad_ineqs p)).

(** The inequalities have integral coefficients. *)
Definition int_ineqs (p : qp) : Prop :=
  Forall (fun c => lc_sense c <> EQ -> Forall (fun kv => integral (snd kv)) (le_co (lc_lin c))) (p_lcs p) /\
  Forall (fun c => qc_sense c <> EQ -> Forall (fun kv => integral (snd kv)) (le_co (qc_lin c)) /\
                                       Forall (fun kv => integral (snd kv)) (qe_co (qc_quad c))) (p_qcs p).

(** Integer variables can take two values. *)
Definition proper_ranges (p : qp) : Prop := Forall (fun v => v_type v = INTEGER -> (v_lb v < v_ub v)%Qc) (p_vars p).
(** No other variable is called v@k where v is an integer variable. *)
Definition bits_free (p : qp) : Prop :=
  forall v w k, In v (p_vars p) -> In w (p_vars p) -> v_type v = INTEGER -> v_type w <> INTEGER ->
    v_name w <> (v_name v ++ "@" ++ str_nat k)%string.
(** No variable that is not integer is called c@int_slack@k where c is an inequality. *)
Definition slack_bits_free (p : qp) : Prop :=
  forall c w k, In c (lin_ineqs p) -> In w (p_vars p) -> v_type w <> INTEGER ->
    v_name w <> (c ++ "@int_slack" ++ "@" ++ str_nat k)%string.

(** No variable name contains the character @. *)
Definition no_at (p : qp) : Prop := Forall (fun v => all_chars (fun c => negb (Ascii.eqb c "@")) (v_name v) = true) (p_vars p).

Definition all_equations (p : qp) : Prop := Forall (fun c => lc_sense c = EQ) (p_lcs p).
