(** * What the CPLEX optimizer should do *)
From Verif Require Export SpecDoc SpecAlgo Cplex.
Local Open Scope nat_scope.

(** A best solution of a docplex model *)
Definition dbest (m : dmodel) (x : list Qc) : Prop := dsolution m x /\ forall y, dsolution m y -> at_least (dm_sense m) (dval (dm_obj m) x) (dval (dm_obj m) y).
(** A solver that answers best solutions with their objective value, and nothing only if there is none; it may raise exceptions. *)
Definition cplex_exact (cplex : dmodel -> cplex_outcome) : Prop :=
  forall m, match cplex m with CSolved x f => dbest m x /\ f = dval (dm_obj m) x | CNothing => forall x, ~ dbest m x | CRaises => True end.
(** The conditions on points, without the bounds of binary variables *)
Definition loose (p : qp) (x : list Qc) : Prop :=
  typed p x /\ lcs_hold p x /\ qcs_hold p x /\ Forall2 (fun v a => v_type v = BINARY \/ in_range v a) (p_vars p) x.
(** A constraint without coefficients that does not hold *)
Definition void_false (c : csense) (rhs : Qc) : Prop := ~ holds c 0%Qc rhs.
Definition never (p : qp) : Prop :=
  (exists c, In c (p_lcs p) /\ le_co (lc_lin c) = [] /\ void_false (lc_sense c) (lc_rhs c)) \/
  (exists c, In c (p_qcs p) /\ le_co (qc_lin c) = [] /\ qe_co (qc_quad c) = [] /\ void_false (qc_sense c) (qc_rhs c)).
(** Whether there are no terms *)
Definition empty_b {A} (l : list A) : bool := match l with [] => true | _ => false end.
(** The constraints with linear terms; among the quadratic ones those without, and those with, products *)
Definition with_terms (p : qp) : list lincon := filter (fun c => negb (empty_b (le_co (lc_lin c)))) (p_lcs p).
Definition without_products (p : qp) : list quadcon := filter (fun c => negb (empty_b (le_co (qc_lin c))) && empty_b (qe_co (qc_quad c))) (p_qcs p).
Definition with_products (p : qp) : list quadcon := filter (fun c => negb (empty_b (qe_co (qc_quad c)))) (p_qcs p).
(** A model in which the bounds of binary variables are taken back to 0 and 1 *)
Definition dfreed (v : dvar) : dvar := match dv_type v with DBinary => mkDVar (dv_name v) DBinary 0 1 | _ => v end.
Definition dfreed_model (m : dmodel) : dmodel := mkDM (dm_name m) (map dfreed (dm_vars m)) (dm_sense m) (dm_obj m) (dm_cons m).
