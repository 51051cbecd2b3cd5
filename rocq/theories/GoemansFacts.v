(** * Cut values *)
From Verif Require Export SpecGoemans AppFacts2 AlgoFacts3.
From Verif Require Import DocWf.
Local Open Scope nat_scope.

Lemma np_sum_map {A} (f : A -> Qc) l : np_sum (map f l) = sumof f l.
Proof. induction l as [|a l IH]; cbn; [reflexivity|]. now rewrite <- IH. Qed.
Lemma combine_seq_sum {A} (g : nat -> A) (F : A * Qc -> Qc) x : forall s, sumof F (combine (map g (seq s (length x))) x) = sumof (fun k => F (g (s + k)%nat, at_ x k)) (seq 0 (length x)).
Proof.
  induction x as [|a x IH]; intro s; [reflexivity|]. cbn [length seq map combine sumof]. rewrite Nat.add_0_r. unfold at_ at 1. cbn [nth]. f_equal. rewrite IH, sumof_seq_shift. apply sumof_ext. intros k _. rewrite Nat.add_succ_r. reflexivity.
Qed.
Lemma adj_value p x : length x = qe_dim (o_quad (p_obj p)) ->
  max_cut_value x (adjacency p) = sumof (fun i => sumof (fun j => ((- coef2 (o_quad (p_obj p)) i j + - coef2 (o_quad (p_obj p)) j i) / qz 2 * (at_ x i * (1 - at_ x j)))%Qc) (seq 0 (length x))) (seq 0 (length x)).
Proof.
  intro L. unfold max_cut_value, adjacency. rewrite np_sum_map, <- L, combine_seq_sum. apply sumof_ext. intros i _. cbn [fst snd plus]. rewrite np_sum_map, combine_seq_sum. reflexivity.
Qed.
Lemma mirrored_length x : length (mirrored x) = length x.
Proof. apply map_length. Qed.
Lemma mirrored_at x i : i < length x -> at_ (mirrored x) i = (1 - at_ x i)%Qc.
Proof. intro H. unfold at_, mirrored. rewrite (nth_indep _ 0%Qc (1 - 0)%Qc) by (rewrite map_length; auto). apply (map_nth (fun v => (1 - v)%Qc)). Qed.
Lemma mirrored_twice x : mirrored (mirrored x) = x.
Proof. unfold mirrored. rewrite map_map. rewrite <- (map_id x) at 2. apply map_ext. intro a. ring. Qed.
Lemma mirrored_bits n x : bits n x -> bits n (mirrored x).
Proof. intros [L B]. split; [now rewrite mirrored_length|]. apply Forall_map. eapply Forall_impl; [|exact B]. intros a [->| ->]; [right|left]; ring. Qed.
Lemma zeros_bits n : bits n (repeat 0%Qc n).
Proof. split; [apply repeat_length|]. apply Forall_forall. intros a H. apply repeat_spec in H. now left. Qed.

Lemma adj_mirrored p x : length x = qe_dim (o_quad (p_obj p)) -> max_cut_value (mirrored x) (adjacency p) = max_cut_value x (adjacency p).
Proof.
  intro L. rewrite !adj_value by (rewrite ?mirrored_length; auto). rewrite mirrored_length. rewrite sumof_swap. apply sumof_seq_ext. intros i [_ Hi]. apply sumof_seq_ext. intros j [_ Hj]. rewrite !mirrored_at by auto. unfold Qcdiv. ring.
Qed.
Lemma two_half a b : (a + a = b + b)%Qc -> a = b.
Proof. intro H. qlra. Qed.
Lemma cut_is_objective p x : obj_shaped p -> cut_objective p -> bits (num_vars p) x -> max_cut_value x (adjacency p) = obj_at (p_obj p) x.
Proof.
  intros [_ [_ Dq]] [Z M] B. set (n := num_vars p) in *. pose proof (M x B) as Mx. pose proof (M _ (zeros_bits n)) as M0. rewrite Z in M0. destruct B as [L B]. rewrite adj_value by congruence. rewrite L.
  unfold obj_at, lin_at, quad_at in Mx, M0, Z |- *. rewrite !mirrored_length in Mx, M0. rewrite !repeat_length in M0, Z. rewrite L in Mx |- *. set (c := coef2 (o_quad (p_obj p))) in *. set (l := coef1 (o_lin (p_obj p))) in *.
  assert (forall i, at_ (repeat 0%Qc n) i = 0%Qc) as R. { intro i. unfold at_. apply nth_repeat. }
  assert (o_const (p_obj p) = 0%Qc) as C0.
  { rewrite <- Z. rewrite (sumof_zero (fun i => (l i * at_ (repeat 0%Qc n) i)%Qc)) by (intros; rewrite R; ring). rewrite sumof_zero; [ring|]. intros i _. apply sumof_zero. intros j _. rewrite !R. ring. }
  rewrite C0 in *.
  assert (sumof l (seq 0 n) + sumof (fun i => sumof (c i) (seq 0 n)) (seq 0 n) = 0)%Qc as F1.
  { rewrite <- M0. rewrite Qcplus_0_l. f_equal.
    - apply sumof_seq_ext. intros i [_ Hi]. rewrite mirrored_at, R by now rewrite repeat_length. ring.
    - apply sumof_seq_ext. intros i [_ Hi]. apply sumof_seq_ext. intros j [_ Hj]. rewrite !mirrored_at, !R by now rewrite repeat_length. ring. }
  rewrite !Qcplus_0_l in *. set (A := sumof (fun i => (l i * at_ x i)%Qc) (seq 0 n)) in *. set (Q := sumof (fun i => sumof (fun j => (c i j * at_ x i * at_ x j)%Qc) (seq 0 n)) (seq 0 n)) in *.
  assert (A + Q = (sumof l (seq 0 n) - A) + (sumof (fun i => sumof (fun j => (c i j * (1 - at_ x i) * (1 - at_ x j))%Qc) (seq 0 n)) (seq 0 n)))%Qc as F2.
  { rewrite <- Mx. f_equal.
    - unfold A. rewrite <- sumof_sub. apply sumof_seq_ext. intros i [_ Hi]. rewrite mirrored_at by lia. ring.
    - apply sumof_seq_ext. intros i [_ Hi]. apply sumof_seq_ext. intros j [_ Hj]. rewrite !mirrored_at by lia. reflexivity. }
  set (T := sumof (fun i => sumof (fun j => (c i j * (at_ x i * (1 - at_ x j)))%Qc) (seq 0 n)) (seq 0 n)). set (T' := sumof (fun i => sumof (fun j => (c i j * (at_ x j * (1 - at_ x i)))%Qc) (seq 0 n)) (seq 0 n)).
  assert (sumof (fun i => sumof (fun j => (c i j * (1 - at_ x i) * (1 - at_ x j))%Qc) (seq 0 n)) (seq 0 n) + Q + T + T' = sumof (fun i => sumof (c i) (seq 0 n)) (seq 0 n))%Qc as F3.
  { unfold Q, T, T'. rewrite <- !sumof_add. apply sumof_ext. intros i _. rewrite <- !sumof_add. apply sumof_ext. intros j _. ring. }
  assert (sumof (fun i => sumof (fun j => ((- c i j + - c j i) / qz 2 * (at_ x i * (1 - at_ x j)))%Qc) (seq 0 n)) (seq 0 n) = - ((T + T') / qz 2))%Qc as F4.
  { transitivity (sumof (fun i => sumof (fun j => (- (1 / qz 2) * (c i j * (at_ x i * (1 - at_ x j))))%Qc) (seq 0 n)) (seq 0 n) + sumof (fun i => sumof (fun j => (- (1 / qz 2) * (c j i * (at_ x i * (1 - at_ x j))))%Qc) (seq 0 n)) (seq 0 n))%Qc.
    - rewrite <- sumof_add. apply sumof_ext. intros i _. rewrite <- sumof_add. apply sumof_ext. intros j _. unfold Qcdiv. ring.
    - rewrite (sumof_swap (fun i j => (- (1 / qz 2) * (c j i * (at_ x i * (1 - at_ x j))))%Qc)). rewrite (sumof_ext _ (fun i => (- (1 / qz 2) * sumof (fun j => (c i j * (at_ x i * (1 - at_ x j))))%Qc (seq 0 n))%Qc)) by (intros; now rewrite sumof_scale).
      rewrite (sumof_ext (fun b => sumof _ _) (fun i => (- (1 / qz 2) * sumof (fun j => (c i j * (at_ x j * (1 - at_ x i))))%Qc (seq 0 n))%Qc)) by (intros; now rewrite sumof_scale).
      rewrite !sumof_scale. fold T T'. unfold Qcdiv. ring. }
  rewrite F4. apply two_half. assert (- ((T + T') / qz 2) + - ((T + T') / qz 2) = - (T + T'))%Qc as ->.
  { unfold Qcdiv. assert (/ qz 2 + / qz 2 = 1)%Qc as H2 by (apply Qc_is_canon; reflexivity). transitivity (- ((T + T') * (/ qz 2 + / qz 2)))%Qc; [ring|rewrite H2; ring]. }
  qlra.
Qed.
