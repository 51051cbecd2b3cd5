(** * What an assignment changes *)
From Verif Require Export Program Spec.
Local Open Scope list_scope.
Local Open Scope nat_scope.

(** Two lists differ at one place only. *)
Definition only_at {A} (l l' : list A) (i : nat) (a a' : A) : Prop :=
  length l' = length l /\ nth_error l i = Some a /\ nth_error l' i = Some a' /\ forall j, j <> i -> nth_error l' j = nth_error l j.

(** Parts of a program. *)
Definition same_head (p q : qp) : Prop := p_name q = p_name p /\ p_status q = p_status p.
Definition same_vars (p q : qp) : Prop := p_vars q = p_vars p /\ p_vidx q = p_vidx p.
Definition same_lcs (p q : qp) : Prop := p_lcs q = p_lcs p /\ p_lidx q = p_lidx p.
Definition same_qcs (p q : qp) : Prop := p_qcs q = p_qcs p /\ p_qidx q = p_qidx p.
Definition same_obj (p q : qp) : Prop := p_obj q = p_obj p.

(** One variable, constraint or the objective is changed as [R] says and nothing else. *)
Definition variable_edit (p q : qp) (k : key) (R : variable -> variable -> Prop) : Prop :=
  same_head p q /\ p_vidx q = p_vidx p /\ same_lcs p q /\ same_qcs p q /\ same_obj p q /\
  exists i v v', get_variable p k = Ok v /\ get_variable q k = Ok v' /\ only_at (p_vars p) (p_vars q) i v v' /\ R v v'.
Definition linear_edit (p q : qp) (k : key) (R : lincon -> lincon -> Prop) : Prop :=
  same_head p q /\ same_vars p q /\ p_lidx q = p_lidx p /\ same_qcs p q /\ same_obj p q /\
  exists i c c', get_linear_constraint p k = Ok c /\ get_linear_constraint q k = Ok c' /\ only_at (p_lcs p) (p_lcs q) i c c' /\ lc_name c' = lc_name c /\ R c c'.
Definition quadratic_edit (p q : qp) (k : key) (R : quadcon -> quadcon -> Prop) : Prop :=
  same_head p q /\ same_vars p q /\ same_lcs p q /\ p_qidx q = p_qidx p /\ same_obj p q /\
  exists i c c', get_quadratic_constraint p k = Ok c /\ get_quadratic_constraint q k = Ok c' /\ only_at (p_qcs p) (p_qcs q) i c c' /\ qc_name c' = qc_name c /\ R c c'.
Definition objective_edit (p q : qp) (R : objective -> objective -> Prop) : Prop :=
  same_head p q /\ same_vars p q /\ same_lcs p q /\ same_qcs p q /\ R (p_obj p) (p_obj q).

(** What each assignment is for. *)
Definition assigned (p : qp) (o : op) (q : qp) : Prop :=
  match o with
  | OSetName s => p_name q = s /\ p_status q = p_status p /\ same_vars p q /\ same_lcs p q /\ same_qcs p q /\ same_obj p q
  | OSetLb k b => variable_edit p q k (fun v v' => v_lb v' = b /\ v_name v' = v_name v /\ v_ub v' = v_ub v /\ v_type v' = v_type v /\ (b <= v_ub v)%Qc)
  | OSetUb k b => variable_edit p q k (fun v v' => v_ub v' = b /\ v_name v' = v_name v /\ v_lb v' = v_lb v /\ v_type v' = v_type v /\ (v_lb v <= b)%Qc)
  | OSetType k t => variable_edit p q k (fun v v' => v_type v' = t /\ v_name v' = v_name v /\ v_lb v' = v_lb v /\ v_ub v' = v_ub v)
  | OLinSense k s => linear_edit p q k (fun c c' => lc_sense c' = s /\ lc_lin c' = lc_lin c /\ lc_rhs c' = lc_rhs c)
  | OLinRhs k r => linear_edit p q k (fun c c' => lc_rhs c' = r /\ lc_lin c' = lc_lin c /\ lc_sense c' = lc_sense c)
  | OLinCoef k co => linear_edit p q k (fun c c' => lin_make (env_of p) co = Ok (lc_lin c') /\ lc_sense c' = lc_sense c /\ lc_rhs c' = lc_rhs c)
  | OLinItem k i a => linear_edit p q k (fun c c' => lin_set (env_of p) (lc_lin c) i a = Ok (lc_lin c') /\ lc_sense c' = lc_sense c /\ lc_rhs c' = lc_rhs c)
  | OQuadSense k s => quadratic_edit p q k (fun c c' => qc_sense c' = s /\ qc_lin c' = qc_lin c /\ qc_quad c' = qc_quad c /\ qc_rhs c' = qc_rhs c)
  | OQuadRhs k r => quadratic_edit p q k (fun c c' => qc_rhs c' = r /\ qc_lin c' = qc_lin c /\ qc_quad c' = qc_quad c /\ qc_sense c' = qc_sense c)
  | OQuadLin k co => quadratic_edit p q k (fun c c' => lin_make (env_of p) co = Ok (qc_lin c') /\ qc_quad c' = qc_quad c /\ qc_sense c' = qc_sense c /\ qc_rhs c' = qc_rhs c)
  | OQuadQuad k co => quadratic_edit p q k (fun c c' => quad_make (env_of p) co = Ok (qc_quad c') /\ qc_lin c' = qc_lin c /\ qc_sense c' = qc_sense c /\ qc_rhs c' = qc_rhs c)
  | OObjConst a => objective_edit p q (fun o o' => o_const o' = a /\ o_lin o' = o_lin o /\ o_quad o' = o_quad o /\ o_sense o' = o_sense o)
  | OObjSense s => objective_edit p q (fun o o' => o_sense o' = s /\ o_const o' = o_const o /\ o_lin o' = o_lin o /\ o_quad o' = o_quad o)
  | OObjLin co => objective_edit p q (fun o o' => lin_make (env_of p) co = Ok (o_lin o') /\ o_const o' = o_const o /\ o_quad o' = o_quad o /\ o_sense o' = o_sense o)
  | OObjQuad co => objective_edit p q (fun o o' => quad_make (env_of p) co = Ok (o_quad o') /\ o_const o' = o_const o /\ o_lin o' = o_lin o /\ o_sense o' = o_sense o)
  | OObjLinItem k a => objective_edit p q (fun o o' => lin_set (env_of p) (o_lin o) k a = Ok (o_lin o') /\ o_const o' = o_const o /\ o_quad o' = o_quad o /\ o_sense o' = o_sense o)
  | OObjQuadItem k a => objective_edit p q (fun o o' => quad_set (env_of p) (o_quad o) k a = Ok (o_quad o') /\ o_const o' = o_const o /\ o_lin o' = o_lin o /\ o_sense o' = o_sense o)
  | OObjective s c lin quad => objective_edit p q (fun _ o' => o_sense o' = s /\ o_const o' = c /\ lin_make (env_of p) (lcoef_or_empty lin) = Ok (o_lin o') /\ quad_make (env_of p) (qcoef_or_empty quad) = Ok (o_quad o'))
  | OLinCon lin s r _ => same_head p q /\ same_vars p q /\ same_qcs p q /\ same_obj p q /\ exists c, p_lcs q = p_lcs p ++ [c] /\ lc_rhs c = r /\ sense_convert s = Ok (lc_sense c) /\ lin_make (env_of p) (lcoef_or_empty lin) = Ok (lc_lin c)
  | OQuadCon lin quad s r _ => same_head p q /\ same_vars p q /\ same_lcs p q /\ same_obj p q /\ exists c, p_qcs q = p_qcs p ++ [c] /\ qc_rhs c = r /\ sense_convert s = Ok (qc_sense c) /\ lin_make (env_of p) (lcoef_or_empty lin) = Ok (qc_lin c) /\ quad_make (env_of p) (qcoef_or_empty quad) = Ok (qc_quad c)
  | ORemLin _ => same_head p q /\ same_vars p q /\ same_qcs p q /\ same_obj p q
  | ORemQuad _ => same_head p q /\ same_vars p q /\ same_lcs p q /\ same_obj p q
  | OAddVar _ _ _ _ | OAddVars _ _ _ _ _ _ => same_head p q /\ same_lcs p q /\ same_qcs p q /\ same_obj p q /\ exists l, p_vars q = p_vars p ++ l
  | OClear => p_name q = ""%string /\ p_status q = VALID /\ p_vars q = [] /\ p_lcs q = [] /\ p_qcs q = []
  end.
(** A program without anything in it. *)
Definition nothing_found (p : qp) : Prop :=
  (forall s, get_variable p (KS s) = Err KeyError /\ get_linear_constraint p (KS s) = Err KeyError /\ get_quadratic_constraint p (KS s) = Err KeyError) /\
  (forall z, get_variable p (KI z) = Err IndexError /\ get_linear_constraint p (KI z) = Err IndexError /\ get_quadratic_constraint p (KI z) = Err IndexError).
