(** * What compatible problems and valid settings are *)
From Verif Require Export Compat Spec.
Local Open Scope list_scope.
Local Open Scope nat_scope.

(** A text occurs in a message. *)
Definition says (msg part : string) : Prop := exists a b, msg = (a ++ part ++ b)%string.
(** How many variables are binary *)
Definition num_binary (p : qp) : nat := length (filter (fun v => match v_type v with BINARY => true | _ => false end) (p_vars p)).
(** What cannot be written as a QUBO. *)
Definition has_continuous (p : qp) : Prop := exists v, In v (p_vars p) /\ v_type v = CONTINUOUS.
Definition has_quadratic (p : qp) : Prop := exists c, In c (p_qcs p).
Definition fractional_row (e : linexpr) : Prop := exists i, ~ integral (coef1 e i).
Definition fractional_form (e : quadexpr) : Prop := exists i j, ~ integral (coef2 e i j).
Definition has_fraction (p : qp) : Prop := (exists c, In c (p_lcs p) /\ fractional_row (lc_lin c)) \/ (exists c, In c (p_qcs p) /\ (fractional_row (qc_lin c) \/ fractional_form (qc_quad c))).
Definition qubo_able (p : qp) : Prop := ~ has_continuous p /\ ~ has_quadratic p /\ ~ has_fraction p.
Definition all_of (t : vartype) (p : qp) : Prop := forall v, In v (p_vars p) -> v_type v = t.

(** Settings *)
Definition all_converters (a : conv_arg) : Prop := match a with CNone | COne _ => True | CList l => Forall (fun o => o <> None) l | CElse => False end.
