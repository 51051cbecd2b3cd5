(** * Specification

    What expressions, constraints and programs mean, written without any of
    the functions that model the code: coefficients are read one by one and
    multiplied out.  Everything that property theorems say about values,
    feasibility and optimality is said in these terms. *)
From Coq Require Export Sorted Permutation.
From Verif Require Export Feas NumFacts.
Local Open Scope nat_scope.

(** Coefficient of x_i, of x_i * x_j. *)
Definition coef1 (e : linexpr) (i : nat) : Qc := dgetq Nat.eqb i (le_co e).
Definition coef2 (e : quadexpr) (i j : nat) : Qc := mget (qe_co e) i j.

(** Coordinate of a point. *)
Definition at_ (x : list Qc) (i : nat) : Qc := nth i x 0%Qc.

(** c.x and x.Q.x *)
Definition lin_at (e : linexpr) (x : list Qc) : Qc :=
  sumof (fun i => (coef1 e i * at_ x i)%Qc) (seq 0 (length x)).
Definition quad_at (e : quadexpr) (x : list Qc) : Qc :=
  sumof (fun i => sumof (fun j => (coef2 e i j * at_ x i * at_ x j)%Qc) (seq 0 (length x))) (seq 0 (length x)).

Definition obj_at (o : objective) (x : list Qc) : Qc :=
  (o_const o + lin_at (o_lin o) x + quad_at (o_quad o) x)%Qc.
Definition lc_at (c : lincon) (x : list Qc) : Qc := lin_at (lc_lin c) x.
Definition qc_at (c : quadcon) (x : list Qc) : Qc := (lin_at (qc_lin c) x + quad_at (qc_quad c) x)%Qc.

(** Exact meaning of a constraint. *)
Definition holds (s : csense) (lhs rhs : Qc) : Prop :=
  match s with LE => (lhs <= rhs)%Qc | GE => (rhs <= lhs)%Qc | EQ => lhs = rhs end.

Definition in_range (v : variable) (a : Qc) : Prop := (v_lb v <= a)%Qc /\ (a <= v_ub v)%Qc.
Definition has_type (v : variable) (a : Qc) : Prop :=
  match v_type v with CONTINUOUS => True | BINARY => a = 0%Qc \/ a = 1%Qc | INTEGER => integral a end.

Definition in_bounds (p : qp) (x : list Qc) : Prop := Forall2 in_range (p_vars p) x.
Definition typed (p : qp) (x : list Qc) : Prop := Forall2 has_type (p_vars p) x.
Definition lcs_hold (p : qp) (x : list Qc) : Prop :=
  Forall (fun c => holds (lc_sense c) (lc_at c x) (lc_rhs c)) (p_lcs p).
Definition qcs_hold (p : qp) (x : list Qc) : Prop :=
  Forall (fun c => holds (qc_sense c) (qc_at c x) (qc_rhs c)) (p_qcs p).

(** A feasible solution of the program. *)
Definition feasible (p : qp) (x : list Qc) : Prop :=
  in_bounds p x /\ typed p x /\ lcs_hold p x /\ qcs_hold p x.

(** [a] is at least as good as [b]. *)
Definition at_least (s : objsense) (a b : Qc) : Prop :=
  match s with MINIMIZE => (a <= b)%Qc | MAXIMIZE => (b <= a)%Qc end.

Definition optimal (p : qp) (x : list Qc) : Prop :=
  feasible p x /\ forall y, feasible p y -> at_least (o_sense (p_obj p)) (obj_at (p_obj p) x) (obj_at (p_obj p) y).

(** ** Well-formedness of data *)
Definition lin_wf (e : linexpr) : Prop :=
  NoDup (map fst (le_co e)) /\ Forall (fun kv => fst kv < le_dim e) (le_co e).
Definition quad_wf (e : quadexpr) : Prop :=
  NoDup (map fst (qe_co e)) /\ Forall (fun kv => fst (fst kv) < qe_dim e /\ snd (fst kv) < qe_dim e) (qe_co e).
(** Upper triangular, as the class comment of QuadraticExpression says. *)
Definition quad_upper (e : quadexpr) : Prop := Forall (fun kv => fst (fst kv) <= snd (fst kv)) (qe_co e).

(** Expressions of exactly [n] variables. *)
Definition lin_sized (n : nat) (e : linexpr) : Prop := lin_wf e /\ le_dim e = n.
Definition quad_sized (n : nat) (e : quadexpr) : Prop := quad_wf e /\ quad_upper e /\ qe_dim e = n.
Definition obj_sized (n : nat) (o : objective) : Prop := lin_sized n (o_lin o) /\ quad_sized n (o_quad o).
Definition exprs_sized (p : qp) : Prop :=
  obj_sized (num_vars p) (p_obj p) /\
  Forall (fun c => lin_sized (num_vars p) (lc_lin c)) (p_lcs p) /\
  Forall (fun c => lin_sized (num_vars p) (qc_lin c) /\ quad_sized (num_vars p) (qc_quad c)) (p_qcs p).

(** Expressions of at most [n] variables (the program may have grown since). *)
Definition lin_fits (n : nat) (e : linexpr) : Prop := lin_wf e /\ le_dim e <= n.
Definition quad_fits (n : nat) (e : quadexpr) : Prop := quad_wf e /\ quad_upper e /\ qe_dim e <= n.
Definition exprs_fit (p : qp) : Prop :=
  lin_fits (num_vars p) (o_lin (p_obj p)) /\ quad_fits (num_vars p) (o_quad (p_obj p)) /\
  Forall (fun c => lin_fits (num_vars p) (lc_lin c)) (p_lcs p) /\
  Forall (fun c => lin_fits (num_vars p) (qc_lin c) /\ quad_fits (num_vars p) (qc_quad c)) (p_qcs p).

(** [idx] maps exactly the names of [names], each to its position. *)
Definition index_exact (names : list string) (idx : list (string * nat)) : Prop :=
  forall s i, dget String.eqb s idx = Some i <-> nth_error names i = Some s.
(** [idx] finds each name of [names] at its position, it may know more names. *)
Definition index_finds (names : list string) (idx : list (string * nat)) : Prop :=
  forall s i, nth_error names i = Some s -> dget String.eqb s idx = Some i.

Definition bounds_ok (p : qp) : Prop := Forall (fun v => (v_lb v <= v_ub v)%Qc) (p_vars p).

(** Input given to the API is well-formed: sparse matrices have no duplicate keys and
    no key outside their shape. *)
Definition lincoef_wf (c : lincoef) : Prop := match c with LSparse e => lin_wf e | _ => True end.
Definition quadcoef_wf (c : quadcoef) : Prop := match c with QSparse e => quad_wf e | _ => True end.

(** ** What a key denotes, and what a dictionary of coefficients says *)
(** Key [k] denotes variable [i] out of [n]: by name, by index, or by negative index. *)
Definition points_to (names : list string) (n : nat) (k : key) (i : nat) : Prop :=
  i < n /\
  match k with
  | KI z => z = Z.of_nat i \/ z = (Z.of_nat i - Z.of_nat n)%Z
  | KS s => nth_error names i = Some s
  end.
Definition points_to2 (names : list string) (n : nat) (k : key * key) (ij : nat * nat) : Prop :=
  points_to names n (fst k) (fst ij) /\ points_to names n (snd k) (snd ij).

(** The value a dictionary gives to [i]: of its last key denoting [i], 0 if there is none. *)
Definition last_given {K I} (pt : K -> I -> Prop) (d : list (K * Qc)) (i : I) (v : Qc) : Prop :=
  (exists d1 k d2, d = d1 ++ (k, v) :: d2 /\ pt k i /\ forall k' v', In (k', v') d2 -> ~ pt k' i)
  \/ ((forall k' v', In (k', v') d -> ~ pt k' i) /\ v = 0%Qc).
Definition keys_legal {K I} (pt : K -> I -> Prop) (d : list (K * Qc)) : Prop :=
  forall k v, In (k, v) d -> exists i, pt k i.

(** The point a dictionary describes. *)
Definition describes (names : list string) (n : nat) (d : list (key * Qc)) (l : list Qc) : Prop :=
  length l = n /\ keys_legal (points_to names n) d /\
  forall i, i < n -> last_given (points_to names n) d i (at_ l i).

(** Sum of f i j * x_i * x_j over i, j < n. *)
Definition form_at (n : nat) (f : nat -> nat -> Qc) (x : list Qc) : Qc :=
  sumof (fun i => sumof (fun j => (f i j * at_ x i * at_ x j)%Qc) (seq 0 n)) (seq 0 n).


(** Vector operations for gradients. *)
Definition vadd (x h : list Qc) : list Qc := map (fun i => (at_ x i + at_ h i)%Qc) (seq 0 (length x)).
Definition dot (a b : list Qc) : Qc := sumof (fun i => (at_ a i * at_ b i)%Qc) (seq 0 (length a)).

(** Keys other than negative integers. *)
Definition nonneg_key (k : key) : Prop := match k with KI z => (0 <= z)%Z | KS _ => True end.

(** ** Spellings of constraint senses *)
Definition same_letter (a b : ascii) : Prop :=
  a = b \/ exists k, k < 26 /\ a = ascii_of_nat (97 + k) /\ b = ascii_of_nat (65 + k).
Fixpoint same_word (s t : string) : Prop :=
  match s, t with
  | EmptyString, EmptyString => True
  | String a s', String b t' => same_letter a b /\ same_word s' t'
  | _, _ => False
  end.
Definition spellings (c : csense) : list string :=
  match c with
  | EQ => ["E"; "EQ"; "="; "=="]%string
  | LE => ["L"; "LE"; "<"; "<="]%string
  | GE => ["G"; "GE"; ">"; ">="]%string
  end.


(** ** Names *)
Definition no_brace (s : string) : bool := all_chars (fun c => negb (is_brace c)) s.

(** The name made from base name, format pre{}post and counter k. *)
Definition slot_name (name pre post : string) (k : nat) : string := (name ++ pre ++ str_nat k ++ post)%string.

(** [ms] are the first counters from [k] on whose names are not taken. *)
Definition first_free (taken : list string) (f : nat -> string) (k : nat) (ms : list nat) : Prop :=
  StronglySorted lt ms /\ Forall (fun m => k <= m /\ ~ In (f m) taken) ms /\
  forall m j, In m ms -> k <= j < m -> In j ms \/ In (f j) taken.

(** ** Contents and shapes *)
(** Same variables, constraints and objective. *)
Definition same_content (p q : qp) : Prop :=
  p_vars q = p_vars p /\ p_lcs q = p_lcs p /\ p_qcs q = p_qcs p /\ p_obj q = p_obj p.
(** Every expression has exactly [n] columns (and is a proper sparse matrix). *)
Definition lin_shape (n : nat) (e : linexpr) : Prop := lin_wf e /\ le_dim e = n.
Definition quad_shape (n : nat) (e : quadexpr) : Prop := quad_wf e /\ qe_dim e = n.
Definition shapes (n : nat) (p : qp) : Prop :=
  lin_shape n (o_lin (p_obj p)) /\ quad_shape n (o_quad (p_obj p)) /\
  Forall (fun c => lin_shape n (lc_lin c)) (p_lcs p) /\
  Forall (fun c => lin_shape n (qc_lin c) /\ quad_shape n (qc_quad c)) (p_qcs p).

(** The constraints have [n] columns, whatever the objective. *)
Definition cons_shapes (n : nat) (p : qp) : Prop :=
  Forall (fun c => lin_shape n (lc_lin c)) (p_lcs p) /\ Forall (fun c => lin_shape n (qc_lin c) /\ quad_shape n (qc_quad c)) (p_qcs p).

(** Coefficient arguments of the right size: dictionaries always, lists and
    matrices of length [n]. *)
Definition lincoef_sized (n : nat) (c : lincoef) : Prop :=
  match c with LList _ l => length l = n | LDict _ => True | LSparse e => lin_wf e /\ le_dim e = n end.
Definition quadcoef_sized (n : nat) (c : quadcoef) : Prop :=
  match c with QList _ rows => length rows = n | QDict _ => True | QSparse e => qe_dim e = n end.

(** Calls that do not add variables and whose coefficient arguments have the size of the program. *)
Definition op_sized (n : nat) (o : op) : Prop :=
  match o with
  | OAddVars _ _ _ _ _ _ | OAddVar _ _ _ _ | OClear => False
  | OLinCon lin _ _ _ => lincoef_sized n (lcoef_or_empty lin)
  | OQuadCon lin quad _ _ _ => lincoef_sized n (lcoef_or_empty lin) /\ quadcoef_sized n (qcoef_or_empty quad)
  | OObjective _ _ lin quad => lincoef_sized n (lcoef_or_empty lin) /\ quadcoef_sized n (qcoef_or_empty quad)
  | OLinCoef _ c | OQuadLin _ c | OObjLin c => lincoef_sized n c
  | OQuadQuad _ c | OObjQuad c => quadcoef_sized n c
  | _ => True
  end.

(** Calls that leave the coefficients of the objective alone or change single entries of them. *)
Definition keeps_objective (o : op) : Prop :=
  match o with OObjective _ _ _ _ | OObjLin _ | OObjQuad _ | OClear => False | _ => True end.

(** Calls that add variables. *)
Definition is_var_op (o : op) : Prop := match o with OAddVars _ _ _ _ _ _ | OAddVar _ _ _ _ => True | _ => False end.

(** ** Constraints with the tolerance of the feasibility check *)
Definition any_at (c : anycon) (x : list Qc) : Qc := match c with CLin c => lc_at c x | CQuad c => qc_at c x end.
(** Relative difference at most 1e-9. *)
Definition close (a b : Qc) : Prop :=
  (qabs (a - b) <= (1 / qz 1000000000) * qabs a)%Qc \/ (qabs (a - b) <= (1 / qz 1000000000) * qabs b)%Qc.
Definition holds_close (s : csense) (lhs rhs : Qc) : Prop :=
  match s with LE => (lhs <= rhs)%Qc | GE => (rhs <= lhs)%Qc | EQ => close lhs rhs end.
(** [l] is the sublist of the elements of [l0] that satisfy [P], in order. *)
Inductive picks {A} (P : A -> Prop) : list A -> list A -> Prop :=
| picks_nil : picks P [] []
| picks_take a l0 l : P a -> picks P l0 l -> picks P (a :: l0) (a :: l)
| picks_skip a l0 l : ~ P a -> picks P l0 l -> picks P (a :: l0) l.


(** An entry by indices and the entry by names that stands for it. *)
Definition same_entry (names : list string) (kv : (nat * nat) * Qc) (sv : (string * string) * Qc) : Prop :=
  (nth_error names (fst (fst kv)) = Some (fst (fst sv)) /\ nth_error names (snd (fst kv)) = Some (snd (fst sv))) /\ snd sv = snd kv.

(** ** Well-formed programs *)
(** Every expression is a proper sparse matrix (of any shape). *)
Definition exprs_wf (p : qp) : Prop :=
  lin_wf (o_lin (p_obj p)) /\ quad_wf (o_quad (p_obj p)) /\
  Forall (fun c => lin_wf (lc_lin c)) (p_lcs p) /\
  Forall (fun c => lin_wf (qc_lin c) /\ quad_wf (qc_quad c)) (p_qcs p).
Definition names_ok (p : qp) : Prop :=
  Forall (fun c => lc_name c <> EmptyString) (p_lcs p) /\ Forall (fun c => qc_name c <> EmptyString) (p_qcs p).
(** What holds of every program made by API calls. *)
Definition prog_wf (p : qp) : Prop :=
  index_finds (map v_name (p_vars p)) (p_vidx p) /\
  index_finds (map lc_name (p_lcs p)) (p_lidx p) /\ index_finds (map qc_name (p_qcs p)) (p_qidx p) /\
  bounds_ok p /\ exprs_wf p /\ names_ok p.
(** Sparse matrices given as arguments are proper sparse matrices. *)
Definition op_wf (o : op) : Prop :=
  match o with
  | OLinCon lin _ _ _ | OQuadCon lin _ _ _ _ | OObjective _ _ lin _ => lincoef_wf (lcoef_or_empty lin)
  | OLinCoef _ c | OQuadLin _ c | OObjLin c => lincoef_wf c
  | _ => True
  end.

(** No binary variable had its bounds narrowed. *)
Definition binary_open (p : qp) : Prop :=
  Forall (fun v => v_type v = BINARY -> (v_lb v <= 0)%Qc /\ (1 <= v_ub v)%Qc) (p_vars p).
(** A binary variable with the bounds 0 and 1; any other variable. *)
Definition plain (v : variable) : Prop := v_type v = BINARY -> v_lb v = 0%Qc /\ v_ub v = 1%Qc.
Definition discrete (p : qp) : Prop := Forall (fun v => v_type v <> CONTINUOUS) (p_vars p).

(** ** Integer variables *)
(** Integer variables have integral bounds. *)
Definition int_bounds (p : qp) : Prop :=
  Forall (fun v => v_type v = INTEGER -> integral (v_lb v) /\ integral (v_ub v)) (p_vars p).
(** The variable takes two or three values. *)
Definition narrow (v : variable) : Prop := (v_ub v - v_lb v = 1)%Qc \/ (v_ub v - v_lb v = qz 2)%Qc.
(** In every product of two integer variables, the one lower bound is 0 or the other variable is narrow. *)
Definition products_safe (p : qp) (e : quadexpr) : Prop :=
  forall i j w vi vj, In ((i, j), w) (qe_co e) -> nth_error (p_vars p) i = Some vi -> nth_error (p_vars p) j = Some vj ->
  v_type vi = INTEGER -> v_type vj = INTEGER -> (v_lb vj = 0%Qc \/ narrow vi) /\ (v_lb vi = 0%Qc \/ narrow vj).
(** [c'] at [y] says the same as [c] at [x]. *)
Definition same_row (x y : list Qc) (c c' : lincon) : Prop :=
  lc_name c' = lc_name c /\ lc_sense c' = lc_sense c /\ (lc_at c' y - lc_rhs c' = lc_at c x - lc_rhs c)%Qc.
Definition same_qrow (x y : list Qc) (c c' : quadcon) : Prop :=
  qc_name c' = qc_name c /\ qc_sense c' = qc_sense c /\ (qc_at c' y - qc_rhs c' = qc_at c x - qc_rhs c)%Qc.

(** ** Penalties *)
(** The sum of the squared differences of the two sides. *)
Definition violation (cs : list lincon) (x : list Qc) : Qc :=
  sumof (fun c => ((lc_rhs c - lc_at c x) * (lc_rhs c - lc_at c x))%Qc) cs.
(** The sum of the absolute values of all stored objective coefficients. *)
Definition weight (o : objective) : Qc :=
  (sumof (fun kv => qabs (snd kv)) (le_co (o_lin o)) + sumof (fun kv => qabs (snd kv)) (qe_co (o_quad o)))%Qc.
Definition all_binary (p : qp) : Prop := Forall (fun v => v_type v = BINARY) (p_vars p).
(** Integral coefficients and right-hand sides of the linear constraints. *)
Definition int_lin (e : linexpr) : Prop := Forall (fun kv => integral (snd kv)) (le_co e).
Definition int_rows (p : qp) : Prop := Forall (fun c => int_lin (lc_lin c) /\ integral (lc_rhs c)) (p_lcs p).

(** ** Names without an element *)
Inductive kind := KVars | KLins | KQuads.
Definition names_of (k : kind) (p : qp) : list string :=
  match k with KVars => map v_name (p_vars p) | KLins => map lc_name (p_lcs p) | KQuads => map qc_name (p_qcs p) end.
Definition index_of (k : kind) (p : qp) : list (string * nat) := match k with KVars => p_vidx p | KLins => p_lidx p | KQuads => p_qidx p end.
(** The index knows [s] though no element has that name. *)
Definition ghost (k : kind) (p : qp) (s : string) : Prop := In s (map fst (index_of k p)) /\ ~ In s (names_of k p).
(** Calls after which the index of that kind is new *)
Definition renews (k : kind) (o : op) : Prop :=
  match k, o with _, OClear => True | KLins, ORemLin _ => True | KQuads, ORemQuad _ => True | _, _ => False end.

(** ** Single coefficients *)
(** What a matrix keeps of an assigned number: all of it, or the part before the point if its entries are integers. *)
Definition kept_as (int : bool) (v w : Qc) : Prop :=
  if int then exists z, w = qz z /\ ((0 <= v /\ w <= v /\ v < w + 1)%Qc \/ (v < 0 /\ v <= w /\ w < v + 1)%Qc) else w = v.
Definition known_key (names : list string) (k : key) : Prop := match k with KS s => In s names | KI _ => True end.
Definition from_end (k : key) : bool := match k with KI z => (z <? 0)%Z | KS _ => false end.
(** The place of the pair of variables [i] and [j] if they are given as [ki] and [kj]: an index that counts from the end goes first. *)
Definition pair_place (ki kj : key) (i j : nat) : nat * nat :=
  match from_end ki, from_end kj with true, false => (i, j) | false, true => (j, i) | _, _ => (Nat.min i j, Nat.max i j) end.
(** Every coefficient is a whole number. *)
Definition whole_row (e : linexpr) : Prop := forall i, integral (coef1 e i).
Definition whole_square (e : quadexpr) : Prop := forall i j, integral (coef2 e i j).
(** A program without the bounds of its binary variables. *)
Definition freed (v : variable) : variable := match v_type v with BINARY => mkVar (v_name v) 0 1 BINARY | _ => v end.
Definition freed_program (p : qp) : qp := mkQP (p_name p) (p_status p) (map freed (p_vars p)) (p_vidx p) (p_lcs p) (p_lidx p) (p_qcs p) (p_qidx p) (p_obj p).
