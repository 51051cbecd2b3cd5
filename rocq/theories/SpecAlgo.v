(** * Specification of results, samples and measurement outcomes *)
From Verif Require Export SpecIsing Algo.
Local Open Scope nat_scope.

(** [y] is obtained from [x] by interpreting with the last converter first. *)
Fixpoint decodes (fs : list interp) (x y : list Qc) : Prop :=
  match fs with [] => y = x | f :: fs' => exists z, decodes fs' x z /\ f z = Ok y end.

(** The converters are applied one after the other from [p] to [q]; the point [x] of [q] stands for [z] of [p]. *)
Inductive stands_for : list converter -> qp -> list Qc -> qp -> list Qc -> Prop :=
| sf_none p x : stands_for [] p x p x
| sf_step c cs p p' f q x y z : c p = Ok (p', f) -> stands_for cs p' y q x -> f y = Ok z -> stands_for (c :: cs) p z q x.

(** The feasibility check of the program accepts [x] (equalities up to a relative 1e-9, types not looked at). *)
Definition accepts (p : qp) (x : list Qc) : Prop :=
  in_bounds p x /\ Forall (fun c => holds_close (lc_sense c) (lc_at c x) (lc_rhs c)) (p_lcs p) /\
  Forall (fun c => holds_close (qc_sense c) (qc_at c x) (qc_rhs c)) (p_qcs p).
Definition status_at (p : qp) (x : list Qc) (s : ostatus) : Prop :=
  (s = SUCCESS /\ accepts p x) \/ (s = INFEASIBLE_ /\ ~ accepts p x).

(** Feasible before infeasible, then better objective first. *)
Definition ranked (s : objsense) (a b : sample) : Prop :=
  (s_status a = SUCCESS /\ s_status b <> SUCCESS) \/ (s_status a = s_status b /\ at_least s (s_fval a) (s_fval b)).

Definition total_prob (l : list sample) : Qc := sumof s_prob l.

(** ** Outcomes of an eigenstate *)
Definition digit_q (b : bool) : Qc := if b then 1%Qc else 0%Qc.
(** The assignment of basis index [i]: variable [k] gets the [k]-th binary digit. *)
Definition basis_point (n i : nat) : list Qc := map (fun k => digit_q (Nat.testbit i k)) (seq 0 n).
Definition abs2 (a : Qc * Qc) : Qc := (fst a * fst a + snd a * snd a)%Qc.
(** Point [x] is an outcome of probability [pr]. *)
Inductive outcome (n : nat) : eigenstate -> list Qc -> Qc -> Prop :=
| out_dict d b c : In (b, c) d -> outcome n (EDict d) (map digit_q b) (c / sumof snd d)
| out_dictfn d b c : In (b, c) d -> outcome n (EDictFn d) (map digit_q b) (c * c / sumof (fun bc => (snd bc * snd bc)%Qc) d)
| out_vec v i a : nth_error v i = Some a -> outcome n (EVec v) (basis_point n i) (abs2 a).
(** An eigenstate of [n] qubits *)
Definition sized_state (n : nat) (e : eigenstate) : Prop :=
  match e with
  | EDict d => Forall (fun bc => length (fst bc) = n) d /\ sumof snd d <> 0%Qc
  | EDictFn d => Forall (fun bc => length (fst bc) = n) d /\ sumof (fun bc => (snd bc * snd bc)%Qc) d <> 0%Qc
  | EVec v => length v = 2 ^ n
  | EOther => False
  end.
(** [x] has the smallest energy among the basis states. *)
Definition ground (n : nat) (op : qop) (x : list Qc) : Prop :=
  bits n x /\ forall y, bits n y -> (energy op x <= energy op y)%Qc.
(** An outcome of probability at least 1e-6, and one with the best objective among those *)
Definition kept (q : qp) (e : eigenstate) (x : list Qc) (pr : Qc) : Prop := outcome (num_vars q) e x pr /\ (1 / qz 1000000 <= pr)%Qc.
Definition best_kept (q : qp) (e : eigenstate) (x : list Qc) : Prop :=
  exists pr, kept q e x pr /\ forall x' pr', kept q e x' pr' -> at_least (o_sense (p_obj q)) (obj_at (p_obj q) x) (obj_at (p_obj q) x').
(** The objective has one column per variable. *)
Definition obj_shaped (q : qp) : Prop := lin_shape (num_vars q) (o_lin (p_obj q)) /\ quad_shape (num_vars q) (o_quad (p_obj q)).
