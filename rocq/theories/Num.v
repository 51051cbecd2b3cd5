(** * Numbers: exact rationals with Leibniz equality

    Python ints and floats are modelled by [Qc].  This file holds comparison
    functions, constants, and the tactics [ring], [field] (with constants) and
    [qlra] (linear arithmetic) for [Qc]. *)
From Coq Require Export Ascii String.
From Coq Require Export QArith Qcanon Qround Lqa Lia ZArith Bool Arith List.
From Coq Require Export ZifyBool ZifyNat.
Export ListNotations.
Global Open Scope Z_scope.
Global Open Scope nat_scope.
Global Open Scope list_scope.
Global Open Scope bool_scope.
Local Open Scope Qc_scope.

(** ** Comparisons as booleans *)
Definition qeqb (a b : Qc) : bool := Qeq_bool (this a) (this b).
Definition qleb (a b : Qc) : bool := Qle_bool (this a) (this b).
Definition qltb (a b : Qc) : bool := negb (qleb b a).

(** ** Integers as numbers *)
Definition qz (z : Z) : Qc := Q2Qc (inject_Z z).
Definition qn (n : nat) : Qc := qz (Z.of_nat n).
Notation "2" := (qz 2) : Qc_scope.
Notation "4" := (qz 4) : Qc_scope.

(** [float.is_integer] *)
Definition is_integer (q : Qc) : bool := Pos.eqb (Qden (this q)) 1.
(** [math.floor], [math.ceil] *)
Definition qfloor (q : Qc) : Z := Qfloor (this q).
Definition qceil (q : Qc) : Z := Qceiling (this q).
(** [abs], [min], [max] *)
Definition qabs (q : Qc) : Qc := if qleb 0 q then q else - q.
Definition qmin (a b : Qc) : Qc := if qleb a b then a else b.
Definition qmax (a b : Qc) : Qc := if qleb a b then b else a.

Lemma qeqb_true a b : qeqb a b = true -> a = b.
Proof. unfold qeqb; intro H; apply Qeq_bool_eq in H; now apply Qc_is_canon. Qed.

Lemma qeqb_spec a b : reflect (a = b) (qeqb a b).
Proof.
  destruct (qeqb a b) eqn:E; constructor.
  - now apply qeqb_true.
  - intros ->. unfold qeqb in E. rewrite (Qeq_eq_bool (this b) (this b)) in E; [discriminate|reflexivity].
Qed.

Lemma qleb_spec a b : reflect (a <= b) (qleb a b).
Proof.
  unfold qleb. destruct (Qle_bool (this a) (this b)) eqn:E; constructor.
  - now apply Qle_bool_iff.
  - intro H. apply Qle_bool_iff in H. congruence.
Qed.

Lemma qltb_spec a b : reflect (a < b) (qltb a b).
Proof.
  unfold qltb. destruct (qleb_spec b a) as [H|H]; simpl; constructor.
  - now apply Qcle_not_lt.
  - now apply Qcnot_le_lt.
Qed.

Lemma qeqb_refl a : qeqb a a = true.
Proof. destruct (qeqb_spec a a); congruence. Qed.

Lemma qeqb_iff a b : qeqb a b = true <-> a = b.
Proof. destruct (qeqb_spec a b); split; (congruence || tauto). Qed.
Lemma qleb_iff a b : qleb a b = true <-> a <= b.
Proof. destruct (qleb_spec a b); split; (congruence || tauto). Qed.
Lemma qltb_iff a b : qltb a b = true <-> a < b.
Proof. destruct (qltb_spec a b); split; (congruence || tauto). Qed.
Lemma qleb_false a b : qleb a b = false <-> b < a.
Proof. destruct (qleb_spec a b); split; intro H; try (congruence || tauto).
  - exfalso. eapply Qclt_not_le; eauto.
  - now apply Qcnot_le_lt.
Qed.
Lemma qltb_false a b : qltb a b = false <-> b <= a.
Proof. destruct (qltb_spec a b); split; intro H; try (congruence || tauto).
  - exfalso. eapply Qclt_not_le; eauto.
  - now apply Qcnot_lt_le.
Qed.
Lemma qeqb_false a b : qeqb a b = false <-> a <> b.
Proof. destruct (qeqb_spec a b); split; (congruence || tauto). Qed.

(** ** ring and field with constants *)
Ltac qc_isP t := match t with xH => true | xO ?p => qc_isP p | xI ?p => qc_isP p | _ => false end.
Ltac qc_isZ t := match t with Z0 => true | Zpos ?p => qc_isP p | Zneg ?p => qc_isP p | _ => false end.
Ltac qc_cst t :=
  match t with
  | Q2Qc (Qmake ?z ?p) =>
      match qc_isZ z with true => match qc_isP p with true => t | _ => NotConstant end | _ => NotConstant end
  | qz ?z => match qc_isZ z with true => t | _ => NotConstant end
  | _ => NotConstant
  end.
Add Field Qcfield2 : Qcft (decidable qeqb_true, constants [qc_cst]).

(** ** Linear arithmetic *)
Lemma this_add a b : (this (a + b) == this a + this b)%Q.
Proof. exact (Qred_correct (this a + this b)). Qed.
Lemma this_mul a b : (this (a * b) == this a * this b)%Q.
Proof. exact (Qred_correct (this a * this b)). Qed.
Lemma this_opp a : (this (- a) == - this a)%Q.
Proof. exact (Qred_correct (- this a)). Qed.
Lemma this_sub a b : (this (a - b) == this a - this b)%Q.
Proof. unfold Qcminus. rewrite this_add, this_opp. unfold Qminus. reflexivity. Qed.
Lemma this_qz z : (this (qz z) == inject_Z z)%Q.
Proof. exact (Qred_correct (inject_Z z)). Qed.
Lemma this_cst q : (this (Q2Qc q) == q)%Q.
Proof. exact (Qred_correct q). Qed.
Lemma this_eq a b : a = b -> (this a == this b)%Q.
Proof. intros ->; reflexivity. Qed.
Lemma this_le a b : a <= b -> (this a <= this b)%Q.
Proof. exact (fun x => x). Qed.
Lemma this_lt a b : a < b -> (this a < this b)%Q.
Proof. exact (fun x => x). Qed.
Lemma this_nle a b : ~ a <= b -> (this b < this a)%Q.
Proof. intro H. now apply Qcnot_le_lt in H. Qed.
Lemma this_nlt a b : ~ a < b -> (this b <= this a)%Q.
Proof. intro H. now apply Qcnot_lt_le in H. Qed.

Ltac qc_hyps :=
  repeat match goal with
  | H : @eq Qc _ _ |- _ => apply this_eq in H
  | H : Qcle _ _ |- _ => apply this_le in H
  | H : Qclt _ _ |- _ => apply this_lt in H
  | H : ~ Qcle _ _ |- _ => apply this_nle in H
  | H : ~ Qclt _ _ |- _ => apply this_nlt in H
  | H : _ /\ _ |- _ => destruct H
  end.
Ltac qc_goal :=
  match goal with
  | |- @eq Qc _ _ => apply Qc_is_canon
  | |- Qcle ?a ?b => change (this a <= this b)%Q
  | |- Qclt ?a ?b => change (this a < this b)%Q
  | |- _ /\ _ => split; qc_goal
  | _ => idtac
  end.
Ltac qc_isconst t :=
  let c := qc_cst t in match c with NotConstant => fail 1 | _ => idtac end.
Ltac qc_push H :=
  repeat match type of H with
  | context [this (?a + ?b)] => rewrite (this_add a b) in H
  | context [this (?a - ?b)] => rewrite (this_sub a b) in H
  | context [this (?a * ?b)] => rewrite (this_mul a b) in H
  | context [this (- ?a)] => rewrite (this_opp a) in H
  end;
  repeat match type of H with
  | context [this ?c] => qc_isconst c; let q := eval vm_compute in (this c) in change (this c) with q in H
  end.
Ltac qc_push_goal :=
  repeat match goal with
  | |- context [this (?a + ?b)] => rewrite (this_add a b)
  | |- context [this (?a - ?b)] => rewrite (this_sub a b)
  | |- context [this (?a * ?b)] => rewrite (this_mul a b)
  | |- context [this (- ?a)] => rewrite (this_opp a)
  end;
  repeat match goal with
  | |- context [this ?c] => qc_isconst c; let q := eval vm_compute in (this c) in change (this c) with q
  end.
Ltac qc_all :=
  qc_hyps;
  repeat match goal with
  | H : Qeq _ _ |- _ => progress (qc_push H)
  | H : Qle _ _ |- _ => progress (qc_push H)
  | H : Qlt _ _ |- _ => progress (qc_push H)
  end.
Ltac qlra := unfold Qcdiv in *; qc_all; qc_goal; qc_push_goal; try lra.
Ltac qnra := unfold Qcdiv in *; qc_all; qc_goal; qc_push_goal; try nra.

Goal forall a b c : Qc, a <= b -> b < c -> 2 * a + 1 < 2 * c + 1.
Proof. intros. qlra. Qed.
Goal forall a b c : Qc, a = b -> b = c - 1 -> a + 1 = c.
Proof. intros. qlra. Qed.
Goal forall a b c : Qc, 0 <= a -> 0 <= b -> 0 <= a * b.
Proof. intros. qnra. Qed.
