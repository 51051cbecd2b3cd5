(** * What the Ising conversions should do *)
From Verif Require Export SpecMore Ising.
Local Open Scope list_scope.
Local Open Scope nat_scope.

(** An assignment of 0 or 1 to each of [n] variables, read as a computational basis state of n qubits *)
Definition bits (n : nat) (x : list Qc) : Prop := length x = n /\ Forall (fun a => a = 0%Qc \/ a = 1%Qc) x.
(** Eigenvalue of a product of Z factors on a basis state: each factor contributes 1 on 0 and -1 on 1 *)
Fixpoint zval (z : list bool) (x : list Qc) : Qc :=
  match z, x with
  | b :: z', a :: x' => ((if b then 1 - qz 2 * a else 1) * zval z' x')%Qc
  | _, _ => 1%Qc
  end.
(** Diagonal entry of a Pauli string; a string with an X or Y factor has none *)
Definition pauli_diag (p : pauli) (x : list Qc) : Qc :=
  if existsb (fun b => b) (snd p) then 0%Qc else zval (fst p) x.
(** Diagonal entry of an operator at a basis state *)
Definition energy (op : qop) (x : list Qc) : Qc := sumof (fun t => (snd t * pauli_diag (fst t) x)%Qc) (op_terms op).
(** A term with Z on one or two qubits and nothing on the others *)
Definition ising_term (n : nat) (t : pauli * Qc) : Prop :=
  length (fst (fst t)) = n /\ length (snd (fst t)) = n /\ existsb (fun b => b) (snd (fst t)) = false /\
  (length (filter (fun b => b) (fst (fst t))) = 1 \/ length (filter (fun b => b) (fst (fst t))) = 2).
(** The sign used for minimisation: the objective of a maximisation problem is negated *)
Definition sign (s : objsense) : Qc := match s with MINIMIZE => 1%Qc | MAXIMIZE => (- (1))%Qc end.
(** The objective has no coefficient vector or matrix larger than the number of variables *)
Definition obj_fits (p : qp) : Prop :=
  le_dim (o_lin (p_obj p)) <= num_vars p /\ qe_dim (o_quad (p_obj p)) <= num_vars p.
(** Some linear or quadratic coefficient of the objective is not zero *)
Definition obj_nonempty (p : qp) : Prop :=
  (exists i, coef1 (o_lin (p_obj p)) i <> 0%Qc) \/ (exists i j, coef2 (o_quad (p_obj p)) i j <> 0%Qc).
(** All linear and quadratic coefficients of the objective are whole multiples of [g], for instance of 1/100 *)
Definition on_grid (g : Qc) (p : qp) : Prop :=
  (forall i, exists z, coef1 (o_lin (p_obj p)) i = (qz z * g)%Qc) /\
  (forall i j, exists z, coef2 (o_quad (p_obj p)) i j = (qz z * g)%Qc).
(** Only binary variables and no constraints *)
Definition unconstrained_binary (p : qp) : Prop := all_binary p /\ p_lcs p = [] /\ p_qcs p = [].
(** [d] has each operator of [terms] once, with the coefficient of its last occurrence; in any order *)
Definition last_counts (terms d : list (pauli * Qc)) : Prop :=
  NoDup (map fst d) /\ forall k c, In (k, c) d <-> exists before after, terms = before ++ (k, c) :: after /\ ~ In k (map fst after).
