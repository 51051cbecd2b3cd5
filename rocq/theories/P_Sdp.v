(** * C74: the semidefinite program of the Goemans-Williamson optimizer *)
From Verif Require Import SdpFacts NumFacts.
Local Open Scope string_scope.
Local Open Scope list_scope.
Local Open Scope nat_scope.

(** ** C74 *)
(** Every cut is a point of the program, with four times its value. *)
Theorem C74_relaxation p x : obj_shaped p -> bits (num_vars p) x ->
  sdp_point (adjacency p) (cut_matrix x) /\ sdp_objective (adjacency p) (cut_matrix x) = (qz 4 * max_cut_value x (adjacency p))%Qc.
Proof.
  intros [_ [_ D]] B. rewrite <- D in B. split; [apply cut_matrix_point; [apply B|assumption]|now apply cut_matrix_value].
Qed.
(** The points of the program have entries between -1 and 1, and those of rank one are the cuts. *)
Theorem C74_entries adj x i j : sdp_point adj x -> i < length adj -> j < length adj -> (- (1) <= cell2 x i j /\ cell2 x i j <= 1)%Qc.
Proof. exact (point_bounded adj x i j). Qed.
Theorem C74_rank_one adj v : length v = length adj -> sdp_point adj (outer v) -> exists x, bits (length adj) x /\ outer v = cut_matrix x.
Proof. exact (rank_one_cut adj v). Qed.
(** So a solution of the program bounds all cuts of a graph ... *)
Theorem C74_bound g p chi x : graph_wf g -> maxcut_program g = Ok p -> sdp_best (adjacency p) chi -> bits (g_n g) x ->
  (qz 4 * sumof edge_weight (filter (fun e => negb (qeqb (at_ x (fst (fst e))) (at_ x (snd (fst e))))) (g_edges g)) <= sdp_objective (adjacency p) chi)%Qc.
Proof.
  intros W M [_ Best] B. destruct (maxcut_cut g p W M) as [S C]. destruct (maxcut_at g p W M) as (N & _ & _ & _ & _ & _ & V). rewrite <- N in B.
  destruct (C74_relaxation p x S B) as [P E]. specialize (Best _ P). rewrite E, (cut_is_objective p x S C B) in Best. rewrite N in B. now rewrite (V x B) in Best.
Qed.
(** ... and if the solution is a cut, it is an optimum of the problem. *)
Theorem C74_tight g p x : graph_wf g -> maxcut_program g = Ok p -> bits (g_n g) x -> sdp_best (adjacency p) (cut_matrix x) -> optimal p x.
Proof.
  intros W M B [_ Best]. destruct (maxcut_cut g p W M) as [S C]. destruct (maxcut_at g p W M) as (N & _ & _ & _ & _ & Sn & _). destruct (maxcut_spec g W) as (p' & M' & _ & _ & Fe & _). rewrite M in M'. injection M' as <-.
  split; [now apply Fe|]. intros y Fy. apply Fe in Fy. rewrite <- N in B, Fy. destruct (C74_relaxation p x S B) as [_ Ex]. destruct (C74_relaxation p y S Fy) as [Py Ey].
  specialize (Best _ Py). rewrite Ex, Ey, !(cut_is_objective p _ S C) in Best by assumption. rewrite Sn. cbn. qlra.
Qed.
(** Before the factorisation the solution is made positive definite, if necessary, by raising the diagonal by less than one percent
    more than needed, or by 1e-5 ... *)
Theorem C74_definite n mineig chi : square n chi -> mat_symmetric n chi -> eigen_bound n chi (mineig chi) -> positive_definite n (regularised mineig chi).
Proof.
  intros Sq Sy E. unfold regularised. destruct (qltb_spec (mineig chi) 0) as [Ng|Ng]; [|destruct (qeqb_spec (mineig chi) 0) as [Z|Z]].
  - split; [intros i j Hi Hj; rewrite !(add_diag_cell n) by assumption; rewrite (Sy i j Hi Hj), Nat.eqb_sym; reflexivity|]. intros v L P. rewrite add_diag_form by assumption. specialize (E v L).
    assert (qabs (mineig chi) = (- mineig chi)%Qc) as A by (unfold qabs; rewrite (proj2 (qleb_false _ _) Ng); reflexivity). rewrite A.
    set (e := mineig chi) in *. set (q := norm2 n v) in *. clearbody e q. assert (0 < (- e) * q)%Qc as X by qnra. replace (qz 1001 / qz 1000 * - e * q)%Qc with ((1 + 1 / qz 1000) * (- e * q))%Qc; [|replace (qz 1001 / qz 1000)%Qc with (1 + 1 / qz 1000)%Qc by (apply Qc_is_canon; reflexivity); ring].
    replace ((1 + 1 / qz 1000) * (- e * q))%Qc with (- (e * q) + (1 / qz 1000) * (- e * q))%Qc by ring. assert (0 < (1 / qz 1000) * (- e * q))%Qc by (assert (0 < 1 / qz 1000)%Qc by reflexivity; set (k := (1 / qz 1000)%Qc) in *; clearbody k; set (z := (- e * q)%Qc) in *; clearbody z; qnra).
    set (a := ((1 / qz 1000) * (- e * q))%Qc) in *. set (b := (e * q)%Qc) in *. clearbody a b. qlra.
  - split; [intros i j Hi Hj; rewrite !(add_diag_cell n) by assumption; rewrite (Sy i j Hi Hj), Nat.eqb_sym; reflexivity|]. intros v L P. rewrite add_diag_form by assumption. specialize (E v L). rewrite Z in E.
    assert (0 < 1 / qz 100000)%Qc by reflexivity. set (k := (1 / qz 100000)%Qc) in *. clearbody k. set (q := norm2 n v) in *. clearbody q. assert (0 < k * q)%Qc by qnra. set (z := (k * q)%Qc) in *. clearbody z. replace (0 * q)%Qc with 0%Qc in E by ring. qlra.
  - split; [assumption|]. intros v L P. apply (form_norm_pos n chi (mineig chi)); try assumption. apply Qcnot_le_lt. intro Q. apply Z. apply Qcle_antisym; [assumption|now apply Qcnot_lt_le].
Qed.
(** ... and nothing else is changed. *)
Theorem C74_kept n mineig chi : square n chi -> exists c, (0 <= c)%Qc /\ ((0 < mineig chi)%Qc -> c = 0%Qc) /\ (c <= qz 1001 / qz 1000 * qabs (mineig chi) + 1 / qz 100000)%Qc /\
  forall i j, i < n -> j < n -> cell2 (regularised mineig chi) i j = (cell2 chi i j + (if Nat.eqb i j then c else 0))%Qc.
Proof.
  intro Sq. assert (A : (0 <= qz 1001 / qz 1000 * qabs (mineig chi))%Qc).
  { assert (0 <= qabs (mineig chi))%Qc by (apply qabs_nonneg). assert (0 < qz 1001 / qz 1000)%Qc by reflexivity. set (k := (qz 1001 / qz 1000)%Qc) in *. clearbody k. qnra. }
  assert (B : (0 < 1 / qz 100000)%Qc) by reflexivity. unfold regularised. destruct (qltb_spec (mineig chi) 0) as [Ng|Ng]; [|destruct (qeqb_spec (mineig chi) 0) as [Z|Z]].
  - exists (qz 1001 / qz 1000 * qabs (mineig chi))%Qc. split; [assumption|]. split; [intro; exfalso; qlra|]. split; [set (a := (qz 1001 / qz 1000 * qabs (mineig chi))%Qc) in *; set (b := (1 / qz 100000)%Qc) in *; clearbody a b; qlra|]. intros. now apply (add_diag_cell n).
  - exists (1 / qz 100000)%Qc. split; [now apply Qclt_le_weak|]. split; [intro; exfalso; qlra|]. split; [set (a := (qz 1001 / qz 1000 * qabs (mineig chi))%Qc) in *; set (b := (1 / qz 100000)%Qc) in *; clearbody a b; qlra|]. intros. now apply (add_diag_cell n).
  - exists 0%Qc. split; [apply Qcle_refl|]. split; [reflexivity|]. split; [set (a := (qz 1001 / qz 1000 * qabs (mineig chi))%Qc) in *; set (b := (1 / qz 100000)%Qc) in *; clearbody a b; qlra|]. intros i j _ _. destruct (i =? j); ring.
Qed.
(** The cut {1} as a product. *)
Example C74_rank_one_case : forallb (fun ij => qeqb (cell2 (outer [1%Qc; qz (-1); 1%Qc]) (fst ij) (snd ij)) (cell2 (cut_matrix [0; 1; 0]%Qc) (fst ij) (snd ij))) [(0, 0); (0, 1); (0, 2); (1, 2); (2, 2)] = true /\
  sdp_diagonal [[]; []; []] (outer [1%Qc; qz (-1); 1%Qc]) = true /\ sdp_diagonal [[]; []; []] (outer [1%Qc; qz 2; 1%Qc]) = false.
Proof. vm_compute. auto. Qed.
(** The path of three nodes with weights 2 and 3: the cut of the middle node has value 5, and 20 in the program.  The matrix with -2 off the
    diagonal (of two nodes) has the smallest eigenvalue -1; its diagonal becomes 2.001. *)
Example C74_case : let g := mkGraph 3 [((0, 1), Some (qz 2)); ((1, 2), Some (qz 3))] in graph_wf g /\
  match maxcut_program g with
  | Ok p => qeqb (sdp_objective (adjacency p) (cut_matrix [0; 1; 0]%Qc)) (qz 20) = true /\ sdp_diagonal (adjacency p) (cut_matrix [0; 1; 0]%Qc) = true
  | Err _ => False end /\
  square 2 [[1%Qc; qz (-2)]; [qz (-2); 1%Qc]] /\ qeqb (cell2 (regularised (fun _ => qz (-1)) [[1%Qc; qz (-2)]; [qz (-2); 1%Qc]]) 0 0) (qz 2001 / qz 1000) = true.
Proof.
  split; [repeat constructor; cbn; lia|]. split; [vm_compute; auto|]. split; [split; repeat constructor|vm_compute; reflexivity].
Qed.
Print Assumptions C74_relaxation.
Print Assumptions C74_entries.
Print Assumptions C74_rank_one.
Print Assumptions C74_bound.
Print Assumptions C74_tight.
Print Assumptions C74_definite.
Print Assumptions C74_kept.
