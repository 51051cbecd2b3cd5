(** * What loading a model should do *)
From Verif Require Export Load SpecDoc.
Local Open Scope list_scope.
Local Open Scope nat_scope.

(** Some of the elements, in the same order *)
Inductive some_of {A} : list A -> list A -> Prop :=
| some_nil : some_of [] []
| some_keep a l l' : some_of l l' -> some_of (a :: l) (a :: l')
| some_skip a l l' : some_of l l' -> some_of l (a :: l').
(** A model with the first variables and some of the constraints of another *)
Definition part_of (m' m : dmodel) : Prop :=
  dm_name m' = dm_name m /\ (exists k, dm_vars m' = firstn k (dm_vars m)) /\ some_of (dm_cons m') (dm_cons m).
(** Two programs with the same variables and constraints under the same name *)
Definition same_but_objective (p q : qp) : Prop := p_name p = p_name q /\ p_vars p = p_vars q /\ p_lcs p = p_lcs q /\ p_qcs p = p_qcs q.
