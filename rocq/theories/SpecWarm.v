(** * What the warm start should do *)
From Verif Require Export SpecAlgo Warm.
Local Open Scope nat_scope.

(** Every coordinate is one of the numbers 0, ..., 9. *)
Definition decimal (x : list Qc) : Prop := Forall (fun v => exists k, k < 10 /\ v = qn k) x.
(** [y] is [x] without the fractions; single digits *)
Definition digits_of (x y : list Qc) : Prop :=
  Forall2 (fun v w => exists k, k < 10 /\ w = qn k /\ (((qn k <= v)%Qc /\ (v < qn k + 1)%Qc) \/ (k = 0 /\ (- (1) < v)%Qc /\ (v <= 0)%Qc))) x y.
(** The lists of samples of the results *)
Definition samples_are (results : list opt_result) (ls : list (list sample)) : Prop := Forall2 (fun r l => r_samples r = Some l) results ls.
(** The distance of two numbers *)
Definition gap (a b : Qc) : Qc := if qltb a b then (b - a)%Qc else (a - b)%Qc.
(** Points of [n] bits stand for themselves. *)
Definition keeps_bits (fs : list interp) (n : nat) : Prop := forall x, bits n x -> decodes fs x x.
(** Only equality constraints *)
Definition equalities (p : qp) : Prop := Forall (fun c => lc_sense c = EQ) (p_lcs p).
(** The number written with the decimal digits [ds], and the way to write a number: without leading zeros *)
Definition numeral (ds : list nat) : nat := fold_left (fun a d => 10 * a + d) ds 0.
Definition spells (n : nat) (ds : list nat) : Prop := Forall (fun d => d < 10) ds /\ numeral ds = n /\ (n = 0 -> ds = [0]) /\ (n <> 0 -> hd 0 ds <> 0).
(** [n] is [v] without its fraction. *)
Definition whole_part (v : Qc) (n : nat) : Prop := ((qn n <= v)%Qc /\ (v < qn n + 1)%Qc) \/ (n = 0 /\ (- (1) < v)%Qc /\ (v <= 0)%Qc).
(** The coordinates of [y] are the digits of those of [x], one after the other. *)
Definition run_together (x y : list Qc) : Prop :=
  exists dss, Forall2 (fun v ds => exists n, whole_part v n /\ spells n ds) x dss /\ y = map qn (concat dss).
