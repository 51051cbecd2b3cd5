(** * Maxcut programs, and the result of the Goemans-Williamson optimizer *)
From Verif Require Export GoemansFacts2 AppFacts2.
From Coq Require Import Sorted Permutation.
Local Open Scope string_scope.
Local Open Scope list_scope.
Local Open Scope nat_scope.

Lemma filter_none {A} (f : A -> bool) l : (forall a, In a l -> f a = false) -> filter f l = [].
Proof. induction l as [|a l IH]; intro H; cbn; auto. rewrite (H a (or_introl eq_refl)). apply IH. intros; apply H; now right. Qed.
Lemma filter_same {A} (f g : A -> bool) l : (forall a, In a l -> f a = g a) -> filter f l = filter g l.
Proof. induction l as [|a l IH]; intro H; cbn; auto. rewrite (H a (or_introl eq_refl)), IH; auto. intros; apply H; now right. Qed.
Lemma maxcut_at g p : graph_wf g -> maxcut_program g = Ok p -> num_vars p = g_n g /\ all_binary p /\ ready p /\ p_lcs p = [] /\ p_qcs p = [] /\ o_sense (p_obj p) = MAXIMIZE /\
  forall x, bits (g_n g) x -> obj_at (p_obj p) x = sumof edge_w (filter (fun e => negb (qeqb (at_ x (fst (fst e))) (at_ x (snd (fst e))))) (g_edges g)).
Proof.
  intros W E. destruct (maxcut_spec g W) as (p' & E' & (N & B & Q & S) & L & _ & V). rewrite E in E'. injection E' as <-. split; auto. split; auto. split; [exact (from_docplex_ready _ _ E)|].
  split; auto. split; auto. split; auto. intros x Bx. specialize (V x Bx). unfold maxcut_interpret in V. destruct (two_sides 0 x) as [a b] eqn:T. rewrite V. f_equal. apply filter_same. intros e He.
  assert (a = fst (two_sides 0 x)) as -> by now rewrite T. assert (b = snd (two_sides 0 x)) as -> by now rewrite T. unfold graph_wf in W. rewrite Forall_forall in W. destruct (W e He). now apply (crossing_differ (g_n g)).
Qed.
Lemma maxcut_cut g p : graph_wf g -> maxcut_program g = Ok p -> obj_shaped p /\ cut_objective p.
Proof.
  intros W E. destruct (maxcut_at g p W E) as (N & _ & (_ & (S1 & S2 & _)) & _ & _ & _ & V). split; [split; auto|]. unfold cut_objective. rewrite N. split.
  - rewrite V by apply zeros_bits. rewrite filter_none; [reflexivity|]. intros e _. replace (at_ (repeat 0%Qc (g_n g)) (fst (fst e))) with 0%Qc; [replace (at_ (repeat 0%Qc (g_n g)) (snd (fst e))) with 0%Qc; [reflexivity|]|]; symmetry; apply nth_repeat.
  - intros x B. rewrite !V by auto using mirrored_bits. f_equal. apply filter_same. intros e He. unfold graph_wf in W. rewrite Forall_forall in W. destruct (W e He). destruct B as [L _]. rewrite !mirrored_at by lia. f_equal.
    destruct (qeqb_spec (at_ x (fst (fst e))) (at_ x (snd (fst e)))) as [->|X].
    + now destruct (qeqb_spec (1 - at_ x (snd (fst e))) (1 - at_ x (snd (fst e)))).
    + destruct (qeqb_spec (1 - at_ x (fst (fst e))) (1 - at_ x (snd (fst e)))) as [Y|]; auto. exfalso. apply X. qlra.
Qed.

Lemma all_binary_count p : all_binary p -> count_type BINARY p = num_vars p.
Proof. unfold all_binary, count_type, num_vars. induction 1 as [|v l E F IH]; cbn; auto. rewrite E. cbn. now rewrite IH. Qed.

(** ** The result *)
Lemma as_samples_total l : l <> [] -> total_prob (as_samples l) = 1%Qc.
Proof.
  intro N. unfold total_prob, as_samples. rewrite sumof_map. cbn [s_prob]. rewrite sumof_const. assert (qn (length l) <> 0%Qc). { destruct l; [easy|]. intro H. apply (f_equal (fun a => qltb 0 a)) in H. cbn [length] in H. destruct (qltb_spec 0 (qn (S (length l)))) as [X|X]; [discriminate H|]. apply X. rewrite qn_S. pose proof (qn_nonneg (length l)). qlra. }
  unfold Qcdiv. now field.
Qed.
Section Result.
Variables (srt uniq : bool) (sdp : ndarray2 -> sdp_answer) (mineig : ndarray2 -> Qc) (cholesky : ndarray2 -> result ndarray2) (normal : list (list Qc)) (p : qp).
Hypothesis Sized : sized_solvers sdp cholesky.
Hypothesis Shaped : obj_shaped p.
Hypothesis Pos : 0 < num_vars p.
Lemma gw_result r m : gw_solve srt uniq sdp mineig cholesky normal p = Ok (r, m) -> exists chi f s l,
  sdp (adjacency p) = SdpSolved chi /\ cholesky (regularised mineig chi) = Ok f /\ m = Some chi /\ r_samples r = Some (s :: l) /\ r_status r = SUCCESS /\ r_x r = Some (s_x s) /\ r_fval r = Some (s_fval s) /\
  (forall t, In t (s :: l) -> bits (num_vars p) (s_x t) /\ s_fval t = max_cut_value (s_x t) (adjacency p) /\ s_status t = SUCCESS /\ exists h x, In h normal /\ cut_by f h x /\ same_cut (s_x t) x) /\
  (forall h, In h normal -> exists x t, cut_by f h x /\ In t (s :: l) /\ same_cut (s_x t) x) /\
  (uniq = true -> ForallOrdPairs (fun a b => ~ same_cut (s_x a) (s_x b)) (s :: l)) /\ (srt = true -> StronglySorted (fun a b => (s_fval b <= s_fval a)%Qc) (s :: l)) /\ total_prob (s :: l) = 1%Qc.
Proof using Sized Shaped Pos.
  intro E. destruct (gw_inv _ _ _ _ _ _ _ Sized Shaped Pos r m E) as (chi & f & c & l & E1 & E2 & Lf & E3 & E4 & E5). destruct (reported_spec _ _ _ _ Shaped Pos f _ Lf E4) as (R1 & R2 & R3 & R4 & R5).
  exists chi, f, (mkSample (fst c) (snd c) (1 / qn (length (c :: l)))%Qc SUCCESS), (map (fun d => mkSample (fst d) (snd d) (1 / qn (length (c :: l)))%Qc SUCCESS) l). split; auto. split; auto. split; auto.
  change (_ :: map _ l) with (as_samples (c :: l)). unfold make_result in E5. apply bind_ok in E5. destruct E5 as (d & _ & E5). cbn [as_samples map] in E5. injection E5 as <-. cbn [r_samples r_status r_x r_fval s_x s_fval].
  split; [reflexivity|]. split; auto. split; auto. split; auto. split. { intros t Ht. unfold as_samples in Ht. apply in_map_iff in Ht. destruct Ht as (c' & <- & Hc). cbn [s_x s_fval s_status]. destruct (R1 c' Hc) as (B & V & h & Hh & Sc). split; auto. split; auto. split; auto. exists h, (cut_of f h). split; auto. split; auto. apply cut_of_by. }
  split. { intros h Hh. destruct (R2 h Hh) as (c' & Hc & Sc & _). exists (cut_of f h), (mkSample (fst c') (snd c') (1 / qn (length (c :: l)))%Qc SUCCESS). split; [apply cut_of_by|]. split; auto. unfold as_samples. apply in_map_iff. eauto. }
  split. { intro U. specialize (R3 U). clear -R3. unfold as_samples. generalize (1 / qn (length (c :: l)))%Qc. intro q. induction R3 as [|a m F R3 IH]; cbn [map]; constructor; auto. apply Forall_map. exact F. }
  split; [|apply as_samples_total; discriminate]. intro U. specialize (R5 U). clear -R5. unfold as_samples. generalize (1 / qn (length (c :: l)))%Qc. intro q. induction R5 as [|a m R5 IH F]; cbn [map]; constructor; auto. apply Forall_map. exact F.
Qed.
Lemma gw_total chi f : all_binary p -> normal <> [] -> sdp (adjacency p) = SdpSolved chi -> cholesky (regularised mineig chi) = Ok f -> exists r, gw_solve srt uniq sdp mineig cholesky normal p = Ok (r, Some chi).
Proof using Sized Shaped Pos.
  intros B N E1 E2. pose proof (factor_length _ _ _ _ Sized Shaped chi f E1 E2) as Lf. destruct (reported_total srt uniq normal p Shaped Pos f Lf) as [l E]. destruct (reported_spec _ _ _ _ Shaped Pos f _ Lf E) as (R1 & R2 & _).
  unfold gw_solve. assert (gw_compatible p = true) as ->. { unfold gw_compatible. apply Nat.eqb_eq. now apply all_binary_count. } cbn [check bind]. cbv zeta. rewrite E1. unfold random_cuts. rewrite E2. cbn [bind]. unfold reported in E. cbv zeta in E.
  apply bind_ok in E. destruct E as (s & -> & E). cbn [bind]. injection E as E. rewrite E. destruct l as [|c l]; [exfalso; destruct normal as [|h t]; [easy|]; destruct (R2 h (or_introl eq_refl)) as (c & [] & _)|]. cbn [map].
  unfold make_result. destruct (R1 c (or_introl eq_refl)) as ([Lc _] & _). cbn [s_x]. fold (num_vars p). rewrite Lc, Nat.eqb_refl. cbn [bind]. eauto.
Qed.
End Result.
