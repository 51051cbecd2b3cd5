(** * What docplex models mean *)
From Verif Require Export Docplex SpecMore.
Local Open Scope nat_scope.

(** The value of an expression. *)
Definition dval (e : dexpr) (x : list Qc) : Qc :=
  (de_const e + sumof (fun kv => snd kv * at_ x (fst kv)) (de_lin e)
   + sumof (fun kv => snd kv * (at_ x (fst (fst kv)) * at_ x (snd (fst kv)))) (de_quad e))%Qc.
Definition dcon_holds (x : list Qc) (c : dcon) : Prop :=
  match c with
  | DLinear _ s l r | DQuadratic _ s l r => holds s (dval l x) (dval r x)
  | DOtherCon => False
  end.
Definition dvar_takes (v : dvar) (a : Qc) : Prop :=
  (dv_lb v <= a)%Qc /\ (a <= dv_ub v)%Qc /\
  match dv_type v with DContinuous => True | DBinary => a = 0%Qc \/ a = 1%Qc | DInteger => integral a | DOtherType => False end.
(** A solution of the model. *)
Definition dsolution (m : dmodel) (x : list Qc) : Prop :=
  Forall2 dvar_takes (dm_vars m) x /\ Forall (dcon_holds x) (dm_cons m).

(** Expressions over the first [n] variables, with every variable and every pair at most once; a linear constraint
    has no products; constraints and types are of the supported kind. *)
Definition de_wf (n : nat) (e : dexpr) : Prop :=
  NoDup (map fst (de_lin e)) /\ NoDup (map fst (de_quad e)) /\
  Forall (fun kv => fst kv < n) (de_lin e) /\ Forall (fun kv => fst (fst kv) < n /\ snd (fst kv) < n) (de_quad e).
Definition dcon_wf (n : nat) (c : dcon) : Prop :=
  match c with
  | DLinear _ _ l r => de_wf n l /\ de_wf n r /\ de_quad l = [] /\ de_quad r = []
  | DQuadratic _ _ l r => de_wf n l /\ de_wf n r
  | DOtherCon => False
  end.
Definition dmodel_wf (m : dmodel) : Prop :=
  de_wf (length (dm_vars m)) (dm_obj m) /\ Forall (dcon_wf (length (dm_vars m))) (dm_cons m) /\
  Forall (fun v => dv_type v <> DOtherType) (dm_vars m).
(** Binary variables have the bounds 0 and 1. *)
Definition dplain (v : dvar) : Prop := dv_type v = DBinary -> dv_lb v = 0%Qc /\ dv_ub v = 1%Qc.

Definition dtype_of (t : vartype) : dtype := match t with CONTINUOUS => DContinuous | BINARY => DBinary | INTEGER => DInteger end.
(** [v] has the name (if there is one), the type and the bounds of [d]. *)
Definition same_var (d : dvar) (v : variable) : Prop :=
  (forall s, dv_name d = Some s -> v_name v = s) /\ dv_type d = dtype_of (v_type v) /\ v_lb v = dv_lb d /\ v_ub v = dv_ub d.
Definition is_linear (c : dcon) : bool := match c with DLinear _ _ _ _ => true | _ => false end.
Definition is_quadratic (c : dcon) : bool := match c with DQuadratic _ _ _ _ => true | _ => false end.
Definition dcon_name (c : dcon) : option string := match c with DLinear nm _ _ _ | DQuadratic nm _ _ _ => nm | DOtherCon => None end.
Definition dcon_sense (c : dcon) : csense := match c with DLinear _ s _ _ | DQuadratic _ s _ _ => s | DOtherCon => EQ end.
(** A constraint of the name (if there is one), the sense and the solutions of [d], among points of [n] coordinates. *)
Definition same_lincon (n : nat) (d : dcon) (c : lincon) : Prop :=
  (forall s, dcon_name d = Some s -> s <> EmptyString -> lc_name c = s) /\ lc_sense c = dcon_sense d /\
  forall x, length x = n -> (holds (lc_sense c) (lc_at c x) (lc_rhs c) <-> dcon_holds x d).
Definition same_quadcon (n : nat) (d : dcon) (c : quadcon) : Prop :=
  (forall s, dcon_name d = Some s -> s <> EmptyString -> qc_name c = s) /\ qc_sense c = dcon_sense d /\
  forall x, length x = n -> (holds (qc_sense c) (qc_at c x) (qc_rhs c) <-> dcon_holds x d).

(** All names are left out, or all are given, different from each other and not empty. *)
Definition named_alike (l : list (option string)) : Prop :=
  Forall (fun o => o = None) l \/ exists ss, l = map Some ss /\ NoDup ss /\ ~ In EmptyString ss.

(** [c'] is [c] again. *)
Definition same_lc (n : nat) (c c' : lincon) : Prop :=
  lc_name c' = lc_name c /\ lc_sense c' = lc_sense c /\ lc_rhs c' = lc_rhs c /\ forall x, length x = n -> lc_at c' x = lc_at c x.
Definition same_qc (n : nat) (c c' : quadcon) : Prop :=
  qc_name c' = qc_name c /\ qc_sense c' = qc_sense c /\ qc_rhs c' = qc_rhs c /\ forall x, length x = n -> qc_at c' x = qc_at c x.
(** A constraint of the form 0 (sense) 0. *)
Definition void_lc (c : lincon) : bool := match le_co (lc_lin c) with [] => qeqb (lc_rhs c) 0 | _ => false end.
Definition void_qc (c : quadcon) : bool := match le_co (qc_lin c), qe_co (qc_quad c) with [], [] => qeqb (qc_rhs c) 0 | _, _ => false end.
