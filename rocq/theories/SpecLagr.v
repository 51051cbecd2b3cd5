(** * The augmented Lagrangian *)
From Verif Require Export SpecAdmm.
Local Open Scope nat_scope.

(** The residual x0 - z - y, by coordinates *)
Definition split_gap (x0 z y : list Qc) (i : nat) : Qc := (at_ x0 i - at_ z i - at_ y i)%Qc.
(** The objective and the squared violations of the equalities [rows] at [x] (made of [x0] and the continuous values), the squares of [y], and the
    multipliers and the penalty for x0 = z + y.  [n] is the number of binary variables. *)
Definition lagrangian (op : qp) (rows : list lincon) (rho c beta : Qc) (lam x0 z y x : list Qc) : Qc :=
  let n := length x0 in
  (obj_at (p_obj op) x + c / qz 2 * sumof (fun r => (lc_at r x - lc_rhs r) * (lc_at r x - lc_rhs r)) rows + beta / qz 2 * sumof (fun i => at_ y i * at_ y i) (seq 0 n) +
   sumof (fun i => at_ lam i * split_gap x0 z y i) (seq 0 n) + rho / qz 2 * sumof (fun i => split_gap x0 z y i * split_gap x0 z y i) (seq 0 n))%Qc.
(** The state has one number per binary variable. *)
Definition sized_blocks (d : admm_data) (s : admm_iter) : Prop :=
  length (i_x0 s) = length (a_bin d) /\ length (i_z s) = length (a_bin d) /\ length (i_y s) = length (a_bin d) /\ length (i_lam s) = length (a_bin d).
(** A program without constraints, whose variables are those of [op] with the numbers [idx], of the given type and bounds, and whose objective is minimised *)
Definition free_block (op : qp) (idx : list nat) (t : vartype) (lb ub : Qc) (q : qp) : Prop :=
  p_vars q = map (fun i => mkVar (nth i (var_names op) ""%string) lb ub t) idx /\ p_lcs q = [] /\ p_qcs q = [] /\ o_sense (p_obj q) = MINIMIZE.
(** No product of two different binary variables *)
Definition no_binary_products (p : qp) : Prop := forall i j, is_var BINARY p i -> is_var BINARY p j -> i <> j -> coef2 (o_quad (p_obj p)) i j = 0%Qc.
(** The coefficients of the objective are stored as floating point numbers. *)
Definition float_objective (p : qp) : Prop := le_int (o_lin (p_obj p)) = false /\ qe_int (o_quad (p_obj p)) = false.
(** What the points of the second block must satisfy: 0 <= z <= 1, the bounds of the continuous variables, and all constraints but the equalities of binary variables *)
Definition block2_range (v : variable) (a : Qc) : Prop := match v_type v with BINARY => (0 <= a)%Qc /\ (a <= 1)%Qc | _ => in_range v a end.
Definition block2 (p : qp) (x : list Qc) : Prop :=
  Forall2 block2_range (p_vars p) x /\ (forall c, In c (p_lcs p) -> ~ binary_eq p c -> holds (lc_sense c) (lc_at c x) (lc_rhs c)) /\ qcs_hold p x.
(** What the products of different binary variables amount to *)
Definition bit_at (p : qp) (i : nat) : bool := match nth_error (p_vars p) i with Some v => vartype_eqb (v_type v) BINARY | None => false end.
Definition bit_products (p : qp) (x : list Qc) : Qc :=
  sumof (fun i => sumof (fun j => if bit_at p i && bit_at p j && negb (Nat.eqb i j) then (coef2 (o_quad (p_obj p)) i j * at_ x i * at_ x j)%Qc else 0%Qc) (seq 0 (num_vars p))) (seq 0 (num_vars p)).

(** ** Rounds *)
(** An optimizer that answers optimal points only *)
Definition exact_solver (f : nat -> qp -> result (list Qc)) : Prop := forall k q x, f k q = Ok x -> optimal q x.
Definition zero_or_one (x : list Qc) : Prop := Forall (fun a => a = 0%Qc \/ a = 1%Qc) x.
(** The binary variables that step 1 leaves out are 0. *)
Definition rest_zero (d : admm_data) (x : list Qc) : Prop := forall i, is_var BINARY (a_op d) i -> ~ In i (a_abs d) -> at_ x i = 0%Qc.
(** The programs of this file: with binary and continuous variables, minimised, no product of both kinds *)
Definition two_blocks (p : qp) : Prop :=
  prog_wf p /\ shapes (num_vars p) p /\ quad_upper (o_quad (p_obj p)) /\ Forall plain (p_vars p) /\ mixed_binary p /\ separable p /\ o_sense (p_obj p) = MINIMIZE.
