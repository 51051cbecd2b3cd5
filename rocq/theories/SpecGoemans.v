(** * What the Goemans-Williamson optimizer should do *)
From Verif Require Export SpecApp SpecAlgo Goemans.
Local Open Scope nat_scope.

(** The other side of a cut *)
Definition mirrored (x : list Qc) : list Qc := map (fun v => (1 - v)%Qc) x.
(** The objective is a weighted cut: nothing for the trivial cut, and nothing changes if the sides are swapped. *)
Definition cut_objective (p : qp) : Prop :=
  obj_at (p_obj p) (repeat 0%Qc (num_vars p)) = 0%Qc /\
  forall x, bits (num_vars p) x -> obj_at (p_obj p) (mirrored x) = obj_at (p_obj p) x.
(** The same cut, up to the names of the sides *)
Definition same_cut (x y : list Qc) : Prop := x = y \/ x = mirrored y.
(** The hyperplane orthogonal to [r] has the vector [v] strictly on its positive side. *)
Definition above (r v : list Qc) : Prop := (0 < sumof (fun k => (at_ r k * at_ v k)%Qc) (seq 0 (length v)))%Qc.
(** The cut of the given vectors by the hyperplane orthogonal to [r] *)
Definition cut_by (vectors : list (list Qc)) (r x : list Qc) : Prop :=
  Forall2 (fun v a => (above r v /\ a = 1%Qc) \/ (~ above r v /\ a = 0%Qc)) vectors x.
(** The solvers answer with matrices of the size of their arguments. *)
Definition sized_solvers (sdp : ndarray2 -> sdp_answer) (cholesky : ndarray2 -> result ndarray2) : Prop :=
  (forall a chi, sdp a = SdpSolved chi -> length chi = length a) /\ forall a f, cholesky a = Ok f -> length f = length a.
