(** * What the semidefinite program should be *)
From Verif Require Export SpecGoemans Sdp.
Local Open Scope nat_scope.

Definition square (n : nat) (m : ndarray2) : Prop := length m = n /\ Forall (fun r => length r = n) m.
Definition mat_symmetric (n : nat) (m : ndarray2) : Prop := forall i j, i < n -> j < n -> cell2 m i j = cell2 m j i.
(** The quadratic form of a matrix, and the squared length of a vector *)
Definition form (n : nat) (m : ndarray2) (v : list Qc) : Qc := sumof (fun i => sumof (fun j => (at_ v i * cell2 m i j * at_ v j)%Qc) (seq 0 n)) (seq 0 n).
Definition norm2 (n : nat) (v : list Qc) : Qc := sumof (fun i => (at_ v i * at_ v i)%Qc) (seq 0 n).
Definition positive_semidefinite (n : nat) (m : ndarray2) : Prop := mat_symmetric n m /\ forall v, length v = n -> (0 <= form n m v)%Qc.
Definition positive_definite (n : nat) (m : ndarray2) : Prop := mat_symmetric n m /\ forall v, length v = n -> (0 < norm2 n v)%Qc -> (0 < form n m v)%Qc.
(** The points of the program, and its solutions *)
Definition sdp_point (adj x : ndarray2) : Prop := square (length adj) x /\ positive_semidefinite (length adj) x /\ sdp_diagonal adj x = true.
Definition sdp_best (adj x : ndarray2) : Prop := sdp_point adj x /\ forall y, sdp_point adj y -> (sdp_objective adj y <= sdp_objective adj x)%Qc.
(** The matrix of a cut: 1 for two nodes of the same side, -1 otherwise *)
Definition cut_matrix (x : list Qc) : ndarray2 := map (fun a => map (fun b => if qeqb a b then 1%Qc else (- (1))%Qc) x) x.
(** [e] bounds the quadratic form from below, as the smallest eigenvalue does. *)
Definition eigen_bound (n : nat) (m : ndarray2) (e : Qc) : Prop := forall v, length v = n -> (e * norm2 n v <= form n m v)%Qc.
(** The matrix of all products of two entries of [v] *)
Definition outer (v : list Qc) : ndarray2 := map (fun a => map (fun b => (a * b)%Qc) v) v.
