(** * Specification: rounding, and how large the sums of an expression get *)
From Verif Require Export Spec.
Local Open Scope nat_scope.

(** The error of every rounding is at most [u] times the number. *)
Definition rel_error (u : Qc) (rnd : Qc -> Qc) : Prop := forall a, (qabs (rnd a - a) <= u * qabs a)%Qc.
(** Whole numbers up to [n] are not changed. *)
Definition keeps_whole (n : Qc) (rnd : Qc -> Qc) : Prop := forall z : Z, (qabs (qz z) <= n)%Qc -> rnd (qz z) = qz z.

(** The sum of the absolute values of the terms *)
Definition mag_lin (e : linexpr) (x : list Qc) : Qc := sumof (fun i => qabs (coef1 e i * at_ x i)%Qc) (seq 0 (length x)).
Definition mag_quad (e : quadexpr) (x : list Qc) : Qc :=
  sumof (fun i => sumof (fun j => qabs (coef2 e i j * at_ x i * at_ x j)%Qc) (seq 0 (length x))) (seq 0 (length x)).
Definition mag (c : anycon) (x : list Qc) : Qc :=
  match c with CLin c => mag_lin (lc_lin c) x | CQuad c => (mag_lin (qc_lin c) x + mag_quad (qc_quad c) x)%Qc end.

(** The sum of the absolute values of the coefficients, each times at least one; no intermediate sum is larger. *)
Definition raised (a : Qc) : Qc := qmax 1 (qabs a).
Definition top_lin (e : linexpr) (x : list Qc) : Qc := sumof (fun i => (qabs (coef1 e i) * raised (at_ x i))%Qc) (seq 0 (length x)).
Definition top_quad (e : quadexpr) (x : list Qc) : Qc :=
  sumof (fun i => sumof (fun j => (qabs (coef2 e i j) * raised (at_ x i) * raised (at_ x j))%Qc) (seq 0 (length x))) (seq 0 (length x)).
Definition top (c : anycon) (x : list Qc) : Qc :=
  match c with CLin c => top_lin (lc_lin c) x | CQuad c => (top_lin (qc_lin c) x + top_quad (qc_quad c) x)%Qc end.

(** Whole coefficients *)
Definition whole_lin (e : linexpr) : Prop := forall i, integral (coef1 e i).
Definition whole_quad (e : quadexpr) : Prop := forall i j, integral (coef2 e i j).
Definition whole_con (c : anycon) : Prop :=
  integral (any_rhs c) /\ match c with CLin c => whole_lin (lc_lin c) | CQuad c => whole_lin (qc_lin c) /\ whole_quad (qc_quad c) end.

(** How many roundings a coefficient passes at most *)
Definition steps_lin (e : linexpr) : nat := length (le_co e) + 1.
Definition steps_quad (e : quadexpr) : nat := length (qe_co e) + qe_dim e + 1.
Definition steps (c : anycon) : nat :=
  match c with CLin c => steps_lin (lc_lin c) | CQuad c => S (steps_lin (qc_lin c) + steps_quad (qc_quad c)) end.
Fixpoint power (w : Qc) (n : nat) : Qc := match n with O => 1%Qc | S n => (w * power w n)%Qc end.
(** What [n] roundings can do to a sum of terms of the given total size *)
Definition spread (u : Qc) (n : nat) (m : Qc) : Qc := ((power (1 + u) n - 1) * m)%Qc.
