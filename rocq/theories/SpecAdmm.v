(** * What the ADMM optimizer should do *)
From Verif Require Export SpecAlgo Admm.
Local Open Scope nat_scope.

(** Variable [i] has type [t]. *)
Definition is_var (t : vartype) (p : qp) (i : nat) : Prop := exists v, nth_error (p_vars p) i = Some v /\ v_type v = t.
(** Only binary and continuous variables *)
Definition mixed_binary (p : qp) : Prop := Forall (fun v => v_type v <> INTEGER) (p_vars p).
(** The values of the variables of type [t], in order *)
Fixpoint part (t : vartype) (vars : list variable) (x : list Qc) : list Qc :=
  match vars, x with
  | v :: vars', a :: x' => if vartype_eqb (v_type v) t then a :: part t vars' x' else part t vars' x'
  | _, _ => []
  end.
(** [x] consists of the binary values [b] and the continuous values [c]. *)
Definition joins (p : qp) (b c x : list Qc) : Prop :=
  length x = num_vars p /\ part BINARY (p_vars p) x = b /\ part CONTINUOUS (p_vars p) x = c.

(** By how much the constraints are violated *)
Definition excess1 (s : csense) (lhs rhs : Qc) : Qc :=
  match s with
  | LE => if qltb rhs lhs then (lhs - rhs)%Qc else 0%Qc
  | GE => if qltb lhs rhs then (rhs - lhs)%Qc else 0%Qc
  | EQ => qabs (lhs - rhs)
  end.
Definition excess (p : qp) (x : list Qc) : Qc :=
  (sumof (fun c => excess1 (lc_sense c) (lc_at c x) (lc_rhs c)) (p_lcs p) + sumof (fun c => excess1 (qc_sense c) (qc_at c x) (qc_rhs c)) (p_qcs p))%Qc.
(** The objective, to be minimized, with violated constraints counting [mu] times *)
Definition merit (mu : Qc) (p : qp) (x : list Qc) : Qc :=
  ((match o_sense (p_obj p) with MINIMIZE => obj_at (p_obj p) x | MAXIMIZE => - obj_at (p_obj p) x end) + mu * excess p x)%Qc.

(** [d] is the data of its own program, with the binary and continuous variables apart. *)
Definition represents (d : admm_data) : Prop := represent (a_op d) (indices_of BINARY (a_op d)) (indices_of CONTINUOUS (a_op d)) = Ok d.

(** ** The two blocks *)
(** The variable occurs in the objective; it does so alone or as the first factor of a product. *)
Definition in_obj (p : qp) (i : nat) : Prop :=
  coef1 (o_lin (p_obj p)) i <> 0%Qc \/ exists j, coef2 (o_quad (p_obj p)) i j <> 0%Qc \/ coef2 (o_quad (p_obj p)) j i <> 0%Qc.
Definition leads (p : qp) (i : nat) : Prop := coef1 (o_lin (p_obj p)) i <> 0%Qc \/ exists j, coef2 (o_quad (p_obj p)) i j <> 0%Qc.
(** An equality constraint that stores coefficients of binary variables only *)
Definition binary_eq (p : qp) (c : lincon) : Prop := In c (p_lcs p) /\ lc_sense c = EQ /\ Forall (fun kv => is_var BINARY p (fst kv)) (le_co (lc_lin c)).
(** No product of a binary and a continuous variable *)
Definition separable (p : qp) : Prop := forall i j, is_var BINARY p i -> is_var CONTINUOUS p j -> coef2 (o_quad (p_obj p)) i j = 0%Qc /\ coef2 (o_quad (p_obj p)) j i = 0%Qc.
(** x.Q.x + c.x for arrays *)
Definition form (q : ndarray2) (c x : list Qc) : Qc :=
  (sumof (fun i => sumof (fun j => (nth j (nth i q []) 0 * at_ x i * at_ x j)%Qc) (seq 0 (length x))) (seq 0 (length x)) +
   sumof (fun i => (at_ c i * at_ x i)%Qc) (seq 0 (length x)))%Qc.
(** The coordinates of [x] with the given numbers *)
Definition coords (x : list Qc) (idx : list nat) : list Qc := map (at_ x) idx.

(** The variable occurs in an equality; it is not in step 1. *)
Definition in_equality (p : qp) (i : nat) : Prop := exists c, In c (p_lcs p) /\ lc_sense c = EQ /\ coef1 (lc_lin c) i <> 0%Qc.
Definition misses (p : qp) (i : nat) : Prop := exists d, represents d /\ a_op d = p /\ is_var BINARY p i /\ ~ In i (a_abs d).

(** ** Histories *)
Definition minus (a b : list Qc) : list Qc := map (fun i => (at_ a i - at_ b i)%Qc) (seq 0 (length a)).
Section History.
Variables (qubo cont : nat -> qp -> result (list Qc)) (norm : list Qc -> Qc) (pr : admm_params) (d : admm_data).
(** [states]: the start and the states after rounds 0, 1, ... *)
Definition history (states : list admm_iter) : Prop :=
  forall k s s', nth_error states k = Some s -> nth_error states (S k) = Some s' -> admm_round qubo cont norm pr d s k = Ok s'.
End History.
(** What round [k] compares the new [z] with, counted along z0, y0, z1, y1, ... where [z0] belongs to the state after round 0 *)
Definition prev_used (states : list admm_iter) (z0 : list Qc) (k : nat) : option (list Qc) :=
  match k with
  | 0 => Some z0
  | S m => option_map (fun s => if Nat.even m then i_z s else i_y s) (nth_error states (S (Nat.div2 m)))
  end.
