(** * What the reported point of ADMM looks like *)
From Verif Require Export SpecLagr AdmmFacts7.
From Verif Require Export LagrFacts3.
Local Open Scope nat_scope.

(** ** Decoding *)
Lemma decode_typed l : Forall var_ok l -> NoDup (xp_names l) -> forall y, Forall2 has_type (flat_map block l) y ->
  Forall2 (fun v a => has_type v a /\ (v_type v = INTEGER -> in_range v a)) l (map (dec (xp_names l) y) l).
Proof.
  induction l as [|v l IH]; intros V N y T; [constructor|]. cbn [flat_map] in T. apply Forall2_app_inv_l in T. destruct T as (y1 & y2 & T1 & T2 & ->).
  assert (length y1 = length (xp v)) as L by (apply IneqFacts.Forall2_length in T1; now rewrite <- T1, block_length).
  rewrite dec_split by auto. inversion V as [|? ? V1 V2]; subst. destruct V1 as (V1 & V3 & V4). constructor; [|apply IH; auto; apply (NoDup_app_parts _ _ N)].
  unfold xp, lbc, block in *. destruct (is_int v) eqn:Ei.
  - assert (v_type v = INTEGER) as Ty by (unfold is_int in Ei; destruct (v_type v); congruence). destruct (V4 Ty).
    destruct (enc_ok_exact v V1 Ei V3) as (X & _); auto. destruct (X y1) as (Y1 & Y2 & Y3); auto; [eapply bits_typed; eauto|]. unfold has_type. rewrite Ty. split; auto. intros _. split; auto.
  - inversion T1 as [|? b ? ? U1 U2]; subst. inversion U2; subst. unfold enc_sum. simpl. replace (b * 1 + 0 + 0)%Qc with b by ring.
    assert (has_type v b) as U by (unfold has_type in *; now rewrite copyv_type in U1). split; [exact U|]. intro Ty. unfold is_int in Ei. rewrite Ty in Ei. discriminate Ei.
Qed.
Lemma decode_ranges l : NoDup (xp_names l) -> forall y, Forall2 (fun v a => v_type v = CONTINUOUS -> in_range v a) (flat_map block l) y ->
  Forall2 (fun v a => v_type v = CONTINUOUS -> in_range v a) l (map (dec (xp_names l) y) l).
Proof.
  induction l as [|v l IH]; intros N y T; [constructor|]. cbn [flat_map] in T. apply Forall2_app_inv_l in T. destruct T as (y1 & y2 & T1 & T2 & ->).
  assert (length y1 = length (xp v)) as L by (apply IneqFacts.Forall2_length in T1; now rewrite <- T1, block_length).
  rewrite dec_split by auto. constructor; [|apply IH; auto; apply (NoDup_app_parts _ _ N)].
  intro Ty. unfold xp, lbc, block in *. assert (is_int v = false) as Ei by (unfold is_int; now rewrite Ty). rewrite Ei in *.
  inversion T1 as [|? b ? ? U1 U2]; subst. inversion U2; subst. unfold enc_sum. simpl. replace (b * 1 + 0 + 0)%Qc with b by ring. rewrite copyv_type in U1. specialize (U1 Ty). unfold copyv in U1. rewrite Ty in U1. exact U1.
Qed.
Lemma Forall2_at {A} (R : A -> Qc -> Prop) l x : Forall2 R l x <-> length x = length l /\ forall i v, nth_error l i = Some v -> R v (at_ x i).
Proof.
  split.
  - induction 1 as [|v a l x H F [L IH]]; [split; [reflexivity|intros [|i] v E; discriminate E]|]. split; [cbn; lia|]. intros [|i] w E; cbn in E; [injection E as <-; exact H|]. exact (IH i w E).
  - revert x. induction l as [|v l IH]; intros [|a x] [L H]; try discriminate L; constructor; [exact (H 0 v eq_refl)|]. apply IH. split; [cbn in L; lia|]. intros i w E. exact (H (S i) w E).
Qed.
Lemma decode_point (p q : qp) tbl x y : prog_wf p -> int_to_bin p = Ok (q, tbl) -> length x = num_vars q -> i2b_interpret p (conv_of tbl) q x = Ok y ->
  (int_bounds p -> typed q x -> Forall2 (fun v a => has_type v a /\ (v_type v = INTEGER -> in_range v a)) (p_vars p) y) /\
  (Forall2 (fun v a => v_type v = CONTINUOUS -> in_range v a) (p_vars q) x -> Forall2 (fun v a => v_type v = CONTINUOUS -> in_range v a) (p_vars p) y).
Proof.
  intros W H L E. destruct (int_to_bin_inv p q tbl W H) as [(-> & -> & F)|I].
  - rewrite i2b_id_interpret in E by auto. injection E as <-. split; [|auto]. intros _ T. unfold typed in T. apply Forall2_at in T. apply Forall2_at. destruct T as [Lt T]. split; [exact Lt|]. intros i v Hv. split; [auto|]. intro Ty. rewrite Forall_forall in F. apply nth_error_In in Hv. apply F in Hv. unfold is_int in Hv. rewrite Ty in Hv. discriminate Hv.
  - rewrite (i2b_interpret_spec p (conv_of tbl) W) in E; [|apply I|apply I|apply I|rewrite L; now apply tracks_length, I]. injection E as <-. unfold decoded, typed. destruct (ib_tracks _ _ _ I) as [_ V]. rewrite V. split.
    + intros IB T. apply decode_typed; auto; [|apply I]. eapply i2b_vars_ok; eauto.
    + apply decode_ranges, I.
Qed.

(** ** Step 1 gives bits *)
Definition all_binary (q : qp) : Prop := Forall (fun v => v_type v = BINARY) (p_vars q).
Lemma step1_binary pr d s op1 : step1_problem pr d s = Ok op1 -> all_binary op1.
Proof.
  unfold step1_problem. intro H. apply bind_ok in H. destruct H as (q0 & H0 & H). apply bind_ok in H. destruct H as (q1 & H1 & H).
  apply bind_ok in H. destruct H as (yr & _ & H). apply bind_ok in H. destruct H as (zr & _ & H). apply bind_ok in H. destruct H as (lr & _ & H).
  assert (all_binary q0) as B0.
  { revert H0. generalize (a_abs d). assert (all_binary (new_qp "")) as B by constructor. revert B. generalize (new_qp ""). intros q B l. revert q B. induction l as [|i l IH]; intros q B H0; cbn [foldM] in H0; [now injection H0 as <-|].
    apply bind_ok in H0. destruct H0 as (q' & E & H0). destruct (nth_error (p_vars (a_op d)) i) as [v|]; [|discriminate]. apply IH in H0; auto.
    unfold binary_var in E. apply add_variable_inv in E. destruct E as [-> _]. unfold all_binary, add_var. cbn [p_vars]. apply Forall_app. split; [exact B|repeat constructor]. }
  cbn [step] in H1, H. unfold on_objective in H1, H.
  destruct (do e <- quad_make _ _; _) as [o|] in H1; [|discriminate H1]. injection H1 as <-. destruct (do e <- lin_make _ _; _) as [o'|] in H; [|discriminate H]. injection H as <-. exact B0.
Qed.
Lemma at_Forall (P : Qc -> Prop) x : Forall P x <-> forall j, j < length x -> P (at_ x j).
Proof. rewrite Forall_forall. split; [intros H j Hj; apply H, nth_In; exact Hj|]. intros H a Ha. destruct (In_nth _ _ 0%Qc Ha) as (j & Hj & <-). now apply H. Qed.
Definition bits_only (x : list Qc) : Prop := forall j, bit (at_ x j).
Lemma put_bits idx : forall x v, bits_only x -> Forall bit v -> bits_only (np_put x idx v).
Proof.
  unfold np_put. induction idx as [|i idx IH]; intros x [|a v] B F; cbn [combine fold_left]; auto. inversion F; subst. apply IH; auto. cbn [fst snd]. intro j. rewrite at_update. destruct (Nat.eqb i j && Nat.ltb i (length x)); auto.
Qed.
Lemma update_bits qubo pr d s k x0 : (forall k q x, qubo k q = Ok x -> typed q x) -> a_abs d <> [] \/ bits_only (i_x0 s) -> update_x0 qubo pr d s k = Ok x0 -> bits_only x0.
Proof.
  intros Hq H E. unfold update_x0 in E. destruct (a_abs d) as [|a l] eqn:Ea; [injection E as <-; destruct H; [congruence|assumption]|].
  apply bind_ok in E. destruct E as (op1 & E1 & E). apply bind_ok in E. destruct E as (x & Ex & E). injection E as <-. apply put_bits; [intro j; rewrite at_repeat; now left|].
  apply logged_ok in Ex. destruct Ex as [E2 _]. apply Hq in E2. apply step1_binary in E1. unfold typed, all_binary in *. clear - E1 E2.
  induction E2 as [|v a l m H F IH]; constructor; inversion E1 as [|? ? T E]; subst; auto. unfold has_type in H. rewrite T in H. exact H.
Qed.
Lemma rounds_bits qubo cont norm late pr p r d s : (forall k q x, qubo k q = Ok x -> typed q x) -> ap_warm pr = false \/ a_abs d <> [] -> admm_solve qubo cont norm late pr p = Ok (r, (d, s)) -> Forall bits_only (i_x0s s).
Proof.
  intros Hq Wm H. apply solve_inv in H. destruct H as (q & tbl & s0 & k & _ & I & T & St & R & Lp & _).
  destruct (loop_ind qubo cont norm late pr (fun k s => Forall bits_only (i_x0s s) /\ (a_abs d <> [] \/ bits_only (i_x0 s))) d) with (more := ap_maxiter pr) (k := 0) (res := qz 100) (s := s0) (s' := s) as (k' & K & G); auto; [| |apply G].
  - intros k1 s1 s2 [G1 G2] E. apply round_inv in E. destruct E as [A _ _ _ _ _ (B & _)]. pose proof (update_bits _ _ _ _ _ _ Hq G2 A) as U. split; [rewrite B, Forall_app; auto|auto].
  - unfold start in St. apply bind_ok in St. destruct St as (xuz & S1 & St). injection St as <-. cbn [i_x0s i_x0]. split; [constructor|].
    destruct (a_abs d) as [|a l] eqn:Ea; [right|left; discriminate]. destruct Wm as [Wm|Wm]; [|congruence]. rewrite Wm in S1. injection S1 as <-. cbn [fst]. intro j'. rewrite at_repeat. now left.
Qed.

(** ** Step 2 keeps the bounds of continuous variables *)
Definition same_at (i : nat) (q q' : qp) : Prop := nth_error (p_vars q') i = nth_error (p_vars q) i.
Lemma on_variable_other q i j f q' : i < num_vars q -> i <> j -> ok_state (on_variable q (KI (Z.of_nat i)) f) = Ok q' -> same_at j q q' /\ num_vars q' = num_vars q.
Proof.
  intros Hi N H. unfold on_variable, key_pos, del_pos in H. rewrite py_index_nat in H by exact Hi. destruct (nth_error (p_vars q) i) as [v|]; [|discriminate H]. destruct (f v) as [v'|]; [|discriminate H]. injection H as <-. unfold same_at, num_vars. cbn [set_vars p_vars].
  rewrite nth_error_update, update_length. destruct (Nat.eqb_spec i j); [contradiction|]. auto.
Qed.
Lemma on_objective_vars q f q' : ok_state (on_objective q f) = Ok q' -> p_vars q' = p_vars q.
Proof. unfold on_objective. destruct (f (p_obj q)); intro H; [injection H as <-; reflexivity|discriminate H]. Qed.
Lemma step2_variable_other s q k i j q' : i < num_vars q -> i <> j -> step2_variable s q (k, i) = Ok q' -> same_at j q q' /\ num_vars q' = num_vars q.
Proof.
  intros Hi N H. unfold step2_variable in H. cbv zeta in H. cbn [fst snd step] in H.
  apply bind_ok in H. destruct H as (q1 & H1 & H). apply bind_ok in H. destruct H as (q2 & H2 & H). apply bind_ok in H. destruct H as (q3 & H3 & H). apply bind_ok in H. destruct H as (q4 & H4 & H).
  apply on_variable_other with (j := j) in H1; auto. destruct H1 as [A1 L1]. apply on_variable_other with (j := j) in H2; auto; [|lia]. destruct H2 as [A2 L2]. apply on_variable_other with (j := j) in H3; auto; [|lia]. destruct H3 as [A3 L3].
  apply on_objective_vars in H4, H. unfold same_at, num_vars in *. rewrite H, H4. split; congruence.
Qed.
Lemma removed_vars l : forall q q', foldM (fun q c => ok_state (step q (ORemLin (KS (lc_name c))))) l q = Ok q' -> p_vars q' = p_vars q.
Proof.
  induction l as [|c l IH]; intros q q' H; cbn [foldM] in H; [now injection H as <-|]. apply bind_ok in H. destruct H as (q2 & H2 & H). apply IH in H. rewrite H.
  cbn [step] in H2. unfold remove_linear_constraint in H2. destruct (del_pos (p_lcs q) (p_lidx q) (KS (lc_name c))); [|discriminate H2]. now injection H2 as <-.
Qed.
Lemma step2_fold_other s ks j : forall l q q', foldM (step2_variable s) (combine ks l) q = Ok q' -> Forall (fun i => i < num_vars q) l -> ~ In j l -> nth_error (p_vars q') j = nth_error (p_vars q) j.
Proof.
  induction ks as [|k ks IH]; intros [|i l] q q' H F N; cbn [combine foldM] in H; try (now injection H as <-).
  apply bind_ok in H. destruct H as (q2 & H2 & H). inversion F as [|? ? F1 F2]; subst. apply step2_variable_other with (j := j) in H2; [|assumption|intros ->; apply N; now left]. destruct H2 as [A L]. rewrite <- A. apply IH in H; auto; [rewrite L; exact F2|intro; apply N; now right].
Qed.
Lemma step2_other d s op2 j : Forall (fun i => i < num_vars (a_op d)) (a_bin d) -> ~ In j (a_bin d) -> step2_problem d s = Ok op2 -> nth_error (p_vars op2) j = nth_error (p_vars (a_op d)) j.
Proof.
  intros F N H. unfold step2_problem in H. apply bind_ok in H. destruct H as (q1 & H1 & H). rewrite (removed_vars _ _ _ H). eapply step2_fold_other; eauto.
Qed.
Definition ranged (d : admm_data) (u : list Qc) : Prop := forall j i v, nth_error (a_cont d) j = Some i -> nth_error (p_vars (a_op d)) i = Some v -> in_range v (at_ u j).
Lemma rounds_ranged qubo cont norm late pr p r d s : (forall k q x, cont k q = Ok x -> in_bounds q x) -> admm_solve qubo cont norm late pr p = Ok (r, (d, s)) -> Forall (ranged d) (i_us s).
Proof.
  intros Hc H. apply solve_inv in H. destruct H as (q & tbl & s0 & k & _ & I & T & St & R & Lp & _). destruct (represents_split d R) as [Sb Sc].
  destruct (loop_ind qubo cont norm late pr (fun k s => Forall (ranged d) (i_us s)) d) with (more := ap_maxiter pr) (k := 0) (res := qz 100) (s := s0) (s' := s) as (k' & K & G); auto.
  - intros k1 s1 s2 G E. apply round_inv in E. destruct E as [_ (op2 & x1 & E2 & Ex & Lx & Eu & _) _ _ _ _ (_ & B & _)]. rewrite B, Forall_app. split; [exact G|]. constructor; [|constructor].
    intros j i v Hj Hv. apply np_take_ok in Eu. destruct Eu as [-> _]. assert (j < length (a_cont d)) as Lj by (apply nth_error_Some; congruence). rewrite coords_at by exact Lj.
    assert (nth j (a_cont d) 0 = i) as -> by (now apply nth_error_nth).
    assert (is_var CONTINUOUS (a_op d) i) as Vi by (apply indices_in; rewrite <- Sc; eapply nth_error_In; eauto).
    apply Hc in Ex. unfold in_bounds in Ex. apply Forall2_at in Ex. destruct Ex as [_ Ex]. apply Ex. rewrite (step2_other d (set_x0 (i_x0 s2) s1) op2 i); auto.
    + rewrite Sb. apply Forall_forall. intros m Hm. apply indices_in in Hm. now apply is_var_lt in Hm.
    + rewrite Sb. intro Hm. apply indices_in in Hm. eapply kinds_apart; eauto.
  - unfold start in St. apply bind_ok in St. destruct St as (xuz & _ & St). injection St as <-. constructor.
Qed.

(** ** The reported point *)
Lemma us_length qubo cont norm late pr p r d s : prog_wf p -> admm_solve qubo cont norm late pr p = Ok (r, (d, s)) -> length (i_us s) = length (i_merits s).
Proof.
  intros W H. apply solve_inv in H. destruct H as (q & tbl & s0 & k & _ & I & T & St & R & Lp & _).
  pose proof (int_to_bin_wf _ _ _ W I) as Wq. destruct (turn_inv _ _ Wq T) as (Wo & Ev & _). assert (mixed_binary (a_op d)) as M by exact (mixed_of_i2b p q tbl (a_op d) W I Ev).
  destruct (loop_ind qubo cont norm late pr (saved pr d) d) with (more := ap_maxiter pr) (k := 0) (res := qz 100) (s := s0) (s' := s) as (k' & K & G); auto; [intros; eapply saved_step; eauto|eapply start_saved; eauto|].
  destruct G as (_ & L1 & _ & L3 & _). congruence.
Qed.
Lemma joins_at_cont p b c x i j : joins p b c x -> nth_error (indices_of CONTINUOUS p) j = Some i -> at_ x i = at_ c j.
Proof.
  intros (L & _ & C) H. rewrite <- C, <- coords_indices by auto. rewrite coords_at by (apply nth_error_Some; congruence). f_equal. symmetry. now apply nth_error_nth.
Qed.
Lemma reported_typed qubo cont norm late pr p r d s : prog_wf p -> int_bounds p -> (forall k q x, qubo k q = Ok x -> typed q x) -> ap_warm pr = false \/ a_abs d <> [] -> admm_solve qubo cont norm late pr p = Ok (r, (d, s)) ->
  exists y, r_x r = Some y /\ Forall2 (fun v a => has_type v a /\ (v_type v = INTEGER -> in_range v a)) (p_vars p) y.
Proof.
  intros W IB Hq Wm H. pose proof (rounds_bits _ _ _ _ _ _ _ _ _ Hq Wm H) as F. assert (length (i_x0s s) = length (i_merits s)) as Ln by (eapply saved_lengths; eauto).
  destruct (reported _ _ _ _ _ _ _ _ _ W H) as (q & tbl & k & x & y & I & Hk & _ & J & D & Ly & Ry & _). exists y. split; [exact Ry|].
  assert (mixed_binary q) as M by exact (mixed_of_i2b p q tbl q W I eq_refl). pose proof J as (Lx & _). eapply (decode_point p q tbl x y); eauto. unfold typed. apply Forall2_at. split; [exact Lx|]. intros i v Hv. unfold has_type. destruct (v_type v) eqn:Ty; auto.
  - destruct (In_nth_error (indices_of BINARY q) i) as (j & Hj); [apply indices_in; exists v; auto|]. rewrite (joins_at _ _ _ _ _ _ J Hj). rewrite Forall_forall in F. apply F, nth_In. lia.
  - exfalso. unfold mixed_binary in M. rewrite Forall_forall in M. apply nth_error_In in Hv. now apply (M v).
Qed.
Lemma reported_ranged qubo cont norm late pr p r d s : prog_wf p -> (forall k q x, cont k q = Ok x -> in_bounds q x) -> admm_solve qubo cont norm late pr p = Ok (r, (d, s)) ->
  exists y, r_x r = Some y /\ Forall2 (fun v a => v_type v = CONTINUOUS -> in_range v a) (p_vars p) y.
Proof.
  intros W Hc H. pose proof (rounds_ranged _ _ _ _ _ _ _ _ _ Hc H) as F. pose proof (us_length _ _ _ _ _ _ _ _ _ W H) as Ln.
  destruct (reported _ _ _ _ _ _ _ _ _ W H) as (q & tbl & k & x & y & I & Hk & _ & J & D & Ly & Ry & _). exists y. split; [exact Ry|].
  pose proof J as (Lx & _). eapply (decode_point p q tbl x y); eauto. apply Forall2_at. split; [exact Lx|]. intros i v Hv Ty.
  apply solve_inv in H. destruct H as (q' & tbl' & s0 & k0 & _ & I' & T & _ & R & _). assert (q' = q) as -> by congruence. pose proof (int_to_bin_wf _ _ _ W I) as Wq. destruct (turn_inv _ _ Wq T) as (_ & Ev & _).
  destruct (In_nth_error (indices_of CONTINUOUS q) i) as (j & Hj); [apply indices_in; exists v; auto|]. rewrite (joins_at_cont _ _ _ _ _ _ J Hj). rewrite Forall_forall in F.
  destruct (represents_split d R) as [_ Sc]. apply (F (nth k (i_us s) [])) with (i := i); [apply nth_In| |now rewrite Ev]. 2: { rewrite Sc. unfold indices_of, num_vars. rewrite Ev. exact Hj. }
  lia.
Qed.

(** ** An exact optimizer for one variable with one lower bound as a constraint *)
Definition solve2 (k : nat) (q : qp) : result (list Qc) :=
  match p_vars q, p_lcs q, p_qcs q, o_sense (p_obj q) with
  | [v], [c], [], MINIMIZE =>
      let l := coef1 (o_lin (p_obj q)) 0 in let w := coef2 (o_quad (p_obj q)) 0 0 in let r := lc_rhs c in
      match v_type v, lc_sense c with
      | CONTINUOUS, GE =>
          if qeqb (coef1 (lc_lin c) 0) 1 && qleb (v_lb v) r && qleb r (v_ub v) then
            if qeqb l 0 && qeqb w 0 then Ok [r]
            else if qltb 0 w then (let a := (- l / (qz 2 * w))%Qc in Ok [if qltb a r then r else if qltb (v_ub v) a then v_ub v else a]) else Err ValueError
          else Err ValueError
      | _, _ => Err ValueError
      end
  | _, _, _, _ => solve1 k q
  end.
Lemma two_feasible q v c a : p_vars q = [v] -> p_lcs q = [c] -> p_qcs q = [] -> v_type v = CONTINUOUS -> lc_sense c = GE -> coef1 (lc_lin c) 0 = 1%Qc -> feasible q [a] <-> in_range v a /\ (lc_rhs c <= a)%Qc.
Proof.
  intros V L Q T S C. unfold feasible, in_bounds, typed, lcs_hold, qcs_hold. rewrite V, L, Q.
  assert (lc_at c [a] = a) as A by (unfold lc_at, lin_at, at_, sumof, np_sum; cbn; rewrite C; ring).
  split.
  - intros (F & _ & H & _). inversion F; inversion H as [|? ? K]; subst. rewrite S, A in K. cbn in K. auto.
  - intros [F H]. split; [constructor; [exact F|constructor]|]. split; [constructor; [unfold has_type; now rewrite T|constructor]|]. split; [|constructor]. constructor; [|constructor]. rewrite S, A. exact H.
Qed.
Lemma solve2_exact : exact_solver solve2.
Proof.
  intros k q x H. unfold solve2 in H. destruct (p_vars q) as [|v [|v2 vs]] eqn:V; [now apply (solve1_exact k)| |now apply (solve1_exact k)]. destruct (p_lcs q) as [|c [|c2 cs]] eqn:L; [now apply (solve1_exact k)| |now apply (solve1_exact k)].
  destruct (p_qcs q) eqn:Q; [|now apply (solve1_exact k)]. destruct (o_sense (p_obj q)) eqn:S; [|now apply (solve1_exact k)]. cbv zeta in H.
  assert (forall y, feasible q y -> exists a, y = [a]) as One. { intros y (F & _). unfold in_bounds in F. rewrite V in F. inversion F as [|? a ? l ? F']; subst. inversion F'; subst. eauto. }
  unfold optimal. rewrite S. cbn [at_least]. set (l := coef1 (o_lin (p_obj q)) 0) in *. set (w := coef2 (o_quad (p_obj q)) 0 0) in *.
  destruct (v_type v) eqn:T; try discriminate. destruct (lc_sense c) eqn:Sc; try discriminate.
  destruct (qeqb_spec (coef1 (lc_lin c) 0) 1) as [C1|]; [|discriminate]. destruct (qleb_spec (v_lb v) (lc_rhs c)) as [B1|]; [|discriminate]. destruct (qleb_spec (lc_rhs c) (v_ub v)) as [B2|]; [|discriminate]. cbn [andb] in H.
  pose proof (two_feasible q v c) as Fe. set (r := lc_rhs c) in *.
  assert ((if qltb 0 w then Ok [if qltb (- l / (qz 2 * w)) r then r else if qltb (v_ub v) (- l / (qz 2 * w)) then v_ub v else (- l / (qz 2 * w))%Qc] else Err ValueError) = Ok x ->
    feasible q x /\ (forall y, feasible q y -> (obj_at (p_obj q) x <= obj_at (p_obj q) y)%Qc)) as Main.
  { clear H. intro H. destruct (qltb_spec 0 w) as [Pw|]; [|discriminate]. injection H as <-.
    set (a0 := (- l / (qz 2 * w))%Qc). assert (l = (- (qz 2) * w * a0)%Qc) as Lc by (unfold a0; field; split; [intros E; rewrite E in Pw; now apply Qclt_not_eq in Pw|discriminate]). change (qz 2) with (1 + 1)%Qc in Lc.
    split.
    - apply Fe; auto. unfold in_range. destruct (qltb_spec a0 r); [split; [split; assumption|apply Qcle_refl]|]. destruct (qltb_spec (v_ub v) a0); [split; [split; [qlra|apply Qcle_refl]|assumption]|]. split; [split|]; qlra.
    - intros y Fy. destruct (One y Fy) as (a & ->). apply Fe in Fy; auto. destruct Fy as [[A1 A2] A3]. rewrite !one_obj. fold l w. rewrite Lc. clearbody a0. clear Lc One Fe.
      destruct (qltb_spec a0 r) as [K|K]; [|destruct (qltb_spec (v_ub v) a0) as [K'|K']].
      + assert (0 <= w * ((a - r) * ((a - a0) + (r - a0))))%Qc by (repeat apply times_nonneg; qlra). qlra.
      + assert (0 <= w * ((v_ub v - a) * ((a0 - a) + (a0 - v_ub v))))%Qc by (repeat apply times_nonneg; qlra). qlra.
      + assert (0 <= w * ((a - a0) * (a - a0)))%Qc by (apply times_nonneg; [qlra|]; apply square_nonneg). qlra. }
  destruct (qeqb_spec l 0) as [L0|L0]; [destruct (qeqb_spec w 0) as [W0|W0]|]; cbn [andb] in H; auto.
  injection H as <-. split; [apply Fe; auto; split; [split; auto|apply Qcle_refl]|]. intros y Fy. destruct (One y Fy) as (a & ->). rewrite !one_obj. fold l w. rewrite L0, W0. qlra.
Qed.

(** ** An optimizer that respects bounds *)
Definition low (k : nat) (q : qp) : result (list Qc) := if forallb (fun v => qleb (v_lb v) (v_ub v)) (p_vars q) then Ok (map v_lb (p_vars q)) else Err ValueError.
Lemma low_bounds : forall k q x, low k q = Ok x -> in_bounds q x.
Proof.
  intros k q x H. unfold low in H. destruct (forallb _ (p_vars q)) eqn:F; [|discriminate H]. injection H as <-. rewrite forallb_forall in F. apply Forall2_at. split; [apply map_length|]. intros i v Hv. unfold at_. rewrite (nth_error_nth _ _ 0%Qc (map_nth_error v_lb i (p_vars q) Hv)).
  split; [apply Qcle_refl|]. apply nth_error_In in Hv. now destruct (qleb_spec (v_lb v) (v_ub v)) as [K|K]; [|specialize (F v Hv); apply qleb_iff in F].
Qed.
