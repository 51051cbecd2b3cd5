(** * When ADMM stops, and where it starts *)
From Verif Require Export AdmmFacts8.
Local Open Scope nat_scope.

Section Run.
Variables (qubo cont : nat -> qp -> result (list Qc)) (norm : list Qc -> Qc) (late : nat -> bool) (pr : admm_params).
Lemma round_res d s k s' : admm_round qubo cont norm pr d s k = Ok s' -> i_res s' = i_res s ++ [norm (arr_sub (arr_sub (i_x0 s') (i_z s')) (i_y s'))].
Proof. intro H. apply round_inv in H. destruct H as [_ _ _ _ _ (cost & cr & prev & _ & _ & _ & A) _]. cbv zeta in A. apply A. Qed.
Lemma loop_stops d : forall more k res s s', admm_loop qubo cont norm late pr more k res d s = Ok s' -> exists l, i_res s' = i_res s ++ l /\ length l <= more /\
  (forall i, i < length l -> late (k + i) = false /\ (ap_tol pr < nth i (res :: l) 0)%Qc) /\ (length l = more \/ late (k + length l) = true \/ (nth (length l) (res :: l) 0 <= ap_tol pr)%Qc).
Proof.
  induction more as [|more IH]; intros k res s s' H; cbn [admm_loop] in H.
  - injection H as <-. exists []. split; [symmetry; apply app_nil_r|]. split; [auto|]. split; [intros i Hi; inversion Hi|]. now left.
  - destruct (qltb_spec (ap_tol pr) res) as [T|T]; [destruct (late k) eqn:Lk; cbn [andb negb] in H|cbn [andb] in H].
    + injection H as <-. exists []. split; [symmetry; apply app_nil_r|]. split; [cbn; lia|]. split; [intros i Hi; inversion Hi|]. right; left. now rewrite Nat.add_0_r.
    + apply bind_ok in H. destruct H as (s1 & H1 & H). pose proof (round_res _ _ _ _ H1) as E. apply IH in H. destruct H as (l & A & B & C & D). rewrite E, last_last in *. set (r := norm _) in *.
      exists (r :: l). split; [rewrite A, <- app_assoc; reflexivity|]. cbn [length]. split; [lia|]. split.
      * intros [|i] Hi; [rewrite Nat.add_0_r; auto|]. rewrite <- Nat.add_succ_comm. apply C. lia.
      * rewrite <- Nat.add_succ_comm. destruct D as [D|[D|D]]; [left; lia|right; left; exact D|right; right; exact D].
    + injection H as <-. exists []. split; [symmetry; apply app_nil_r|]. split; [cbn; lia|]. split; [intros i Hi; inversion Hi|]. right; right. cbn [length nth]. qlra.
Qed.
Definition measured (d : admm_data) (s0 : admm_iter) (k : nat) (s : admm_iter) : Prop := exists states,
  history qubo cont norm pr d states /\ nth_error states 0 = Some s0 /\ length states = S k /\ nth_error states k = Some s /\ length (i_res s) = k /\
  length (i_x0 s) = length (a_bin d) /\ length (i_y s) = length (a_bin d) /\
  forall j t, nth_error states (S j) = Some t -> nth j (i_res s) 0%Qc = norm (minus (minus (i_x0 t) (i_z t)) (i_y t)).
Lemma measured_step d s0 : forall k s s', measured d s0 k s -> admm_round qubo cont norm pr d s k = Ok s' -> measured d s0 (S k) s'.
Proof.
  clear late. intros k s s' (states & H & H0 & L & Hk & Lr & Lx & Ly & Rs) E. pose proof (round_res _ _ _ _ E) as Er. pose proof (round_inv _ _ _ _ _ _ _ _ E) as [A0 (op2 & x1 & _ & _ & _ & _ & A1) A2 _ _ _ _].
  apply take_length in A1. apply y_length in A2; [|exact Ly]. apply x0_length in A0; [|exact Lx].
  exists (states ++ [s']). split.
  { intros j t t' T T'. rewrite snoc_error in T, T'. destruct (Nat.ltb_spec (S j) (length states)); [destruct (Nat.ltb_spec j (length states)); [eapply H; eauto|lia]|].
    destruct (Nat.eqb_spec (S j) (length states)) as [Ej|]; [|discriminate]. assert (j = k) as -> by lia. destruct (Nat.ltb_spec k (length states)); [|lia]. congruence. }
  rewrite snoc_error, app_length, L. cbn [Nat.ltb Nat.leb length]. split; [exact H0|]. split; [lia|]. split; [rewrite snoc_error, L, Nat.ltb_irrefl, Nat.eqb_refl; reflexivity|].
  rewrite Er, app_length, Lr. cbn [length]. split; [lia|]. split; [exact A0|]. split; [exact A2|]. intros j t T. rewrite snoc_error in T. destruct (Nat.ltb_spec (S j) (length states)) as [Q|Q].
  - rewrite app_nth1 by lia. now apply Rs.
  - destruct (Nat.eqb_spec (S j) (length states)); [|discriminate]. injection T as <-. assert (j = k) as -> by lia. rewrite app_nth2, Lr, Nat.sub_diag by lia. cbn [nth]. rewrite (minus_sub (i_x0 s') (i_z s')) by congruence. rewrite minus_sub; [reflexivity|]. unfold minus. rewrite map_length, seq_length. congruence.
Qed.
Lemma start_res op bin cts s : start cont pr op bin cts = Ok s -> i_res s = [] /\ length (i_x0 s) = length bin /\ length (i_y s) = length bin.
Proof.
  clear late norm qubo. unfold start. intro H. apply bind_ok in H. destruct H as (xuz & H1 & H). injection H as <-. cbn [i_res i_x0 i_y]. split; [reflexivity|]. split; [|apply repeat_length]. destruct (ap_warm pr).
  - apply bind_ok in H1. destruct H1 as (x & _ & H1). apply bind_ok in H1. destruct H1 as (x0 & H2 & H1). apply bind_ok in H1. destruct H1 as (u & _ & H1). injection H1 as <-. cbn [fst]. now apply take_length in H2.
  - injection H1 as <-. apply repeat_length.
Qed.
Lemma solve_stops p r d s : admm_solve qubo cont norm late pr p = Ok (r, (d, s)) -> exists states, history qubo cont norm pr d states /\ length states = S (length (i_res s)) /\ nth_error states (length (i_res s)) = Some s /\
  1 <= length (i_res s) <= ap_maxiter pr /\ (forall k t, nth_error states (S k) = Some t -> nth k (i_res s) 0%Qc = norm (minus (minus (i_x0 t) (i_z t)) (i_y t))) /\
  (forall k, k < length (i_res s) -> late k = false /\ (0 < k -> (ap_tol pr < nth (k - 1) (i_res s) 0)%Qc)) /\
  (length (i_res s) = ap_maxiter pr \/ late (length (i_res s)) = true \/ (nth (length (i_res s) - 1) (i_res s) 0 <= ap_tol pr)%Qc) /\
  exists s0, nth_error states 0 = Some s0 /\ start cont pr (a_op d) (indices_of BINARY (a_op d)) (indices_of CONTINUOUS (a_op d)) = Ok s0.
Proof.
  intro H. apply solve_inv in H. destruct H as (q & tbl & s0 & k0 & _ & _ & _ & St & R & Lp & Am & _). pose proof (represent_inv _ _ _ _ R) as (_ & Ab & _). destruct (start_res _ _ _ _ St) as (E1 & E2 & E3).
  assert (measured d s0 0 s0) as M0. { exists [s0]. cbn [length nth_error]. split; [intros j t t' _ K; destruct j; discriminate|]. rewrite E1, Ab. repeat (split; [assumption||reflexivity|]). intros j t K; destruct j; discriminate. }
  destruct (loop_ind qubo cont norm late pr (fun k s => measured d s0 k s /\ length (i_merits s) = length (i_merits s0) + k) d) with (more := ap_maxiter pr) (k := 0) (res := qz 100) (s := s0) (s' := s) as (k & Hk & (states & A & B & C & D & E & _ & _ & F) & Lm); auto.
  { intros k s1 s2 [K1 K2] Er. split; [eapply measured_step; eauto|]. apply round_inv in Er. destruct Er as [_ _ _ _ _ (cost & cr & prev & _ & _ & _ & Q) _]. cbv zeta in Q. destruct Q as (_ & _ & _ & _ & _ & ->). rewrite app_length. cbn [length]. lia. }
  apply loop_stops in Lp. destruct Lp as (l & G1 & G2 & G3 & G4). rewrite E1 in G1. cbn [app] in G1. subst l. rewrite <- E in *. exists states. split; [exact A|]. split; [exact C|]. split; [exact D|].
  assert (1 <= length (i_res s)) as P.
  { assert (i_merits s0 = []) as Z. { unfold start in St. apply bind_ok in St. destruct St as (xuz & _ & St). injection St as <-. reflexivity. }
    rewrite Z in Lm. cbn [length Nat.add] in Lm. destruct (i_merits s) eqn:Em; [discriminate Am|]. cbn [length] in Lm. lia. }
  split; [lia|]. split; [exact F|]. split; [|split].
  - intros i Hi. destruct (G3 i Hi) as [L T]. split; [exact L|]. intro P0. destruct i as [|i]; [lia|]. cbn [nth] in T. replace (S i - 1) with i by lia. exact T.
  - destruct G4 as [G|[G|G]]; [now left|right; left; exact G|right; right]. destruct (length (i_res s)) as [|m]; [lia|]. cbn [nth] in G. replace (S m - 1) with m by lia. exact G.
  - exists s0. auto.
Qed.
End Run.
(** The relaxed program *)
Lemma relaxed_feasible op x : feasible op x -> feasible (relaxed op) x.
Proof.
  intros (B & T & L & Q). split; [|split; [|split]]; auto.
  - unfold in_bounds, relaxed, set_vars in *. cbn [p_vars] in *. clear -B. induction B; cbn [map]; constructor; auto.
  - unfold typed, relaxed, set_vars in *. cbn [p_vars] in *. clear -T. induction T; cbn [map]; constructor; auto; cbn; auto.
Qed.
Lemma start_warm cont pr op s : ap_warm pr = true -> start cont pr op (indices_of BINARY op) (indices_of CONTINUOUS op) = Ok s ->
  exists x, cont 0 (relaxed op) = Ok x /\ length x = num_vars op /\ i_x0 s = part BINARY (p_vars op) x /\ i_z s = part BINARY (p_vars op) x /\ i_u s = part CONTINUOUS (p_vars op) x.
Proof.
  intros W H. unfold start in H. rewrite W in H. apply bind_ok in H. destruct H as (xuz & H1 & H). injection H as <-. apply bind_ok in H1. destruct H1 as (x & Hx & H1). apply bind_ok in H1. destruct H1 as (x0 & H2 & H1). apply bind_ok in H1. destruct H1 as (u & H3 & H1). injection H1 as <-.
  apply sized_ok in Hx. destruct Hx as [Hx Lx]. unfold num_vars, relaxed, set_vars in Lx. cbn [p_vars] in Lx. rewrite map_length in Lx. apply np_take_ok in H2. destruct H2 as [-> _]. apply np_take_ok in H3. destruct H3 as [-> _]. rewrite !coords_indices by exact Lx. exists x. cbn. auto.
Qed.
(** The penalty and the merits with the default parameters *)
Lemma default_step qubo cont norm d s k s' : admm_round qubo cont norm default_params d s k = Ok s' -> k < 10 -> i_rho s = (qz 10000 * (qz 11 / qz 10) ^ k)%Qc ->
  i_rho s' = (qz 10000 * (qz 11 / qz 10) ^ S k)%Qc.
Proof.
  intros E K R. apply round_inv in E. destruct E as [_ _ _ _ _ (cost & cr & prev & _ & _ & _ & Q) _]. cbv zeta in Q. destruct Q as (-> & _). unfold update_rho. cbn [ap_vary default_params]. rewrite R.
  replace (qltb (qz 10000 * (qz 11 / qz 10) ^ k) (qz 10000000000)) with true; [cbn [Qcpower]; ring|]. do 10 (destruct k as [|k]; [vm_compute; reflexivity|]). lia.
Qed.
Lemma default_rho qubo cont norm d states s0 : history qubo cont norm default_params d states -> nth_error states 0 = Some s0 -> i_rho s0 = qz 10000 -> length states <= 11 ->
  forall k t, nth_error states k = Some t -> i_rho t = (qz 10000 * (qz 11 / qz 10) ^ k)%Qc.
Proof.
  intros H H0 R L. induction k as [|k IH]; intros t T; [rewrite H0 in T; injection T as <-; rewrite R; cbn [Qcpower]; ring|].
  assert (S k < length states) as B by (apply nth_error_Some; congruence). destruct (nth_error states k) as [u|] eqn:U; [|apply nth_error_None in U; lia].
  eapply default_step; [exact (H k u t U T)|lia|now apply IH].
Qed.
Lemma merits_sum qubo cont norm pr d states s0 : history qubo cont norm pr d states -> nth_error states 0 = Some s0 -> i_costs s0 = [] /\ i_cons s0 = [] /\ i_merits s0 = [] ->
  forall k t, nth_error states k = Some t -> length (i_costs t) = k /\ length (i_cons t) = k /\ length (i_merits t) = k /\ forall j, j < k -> nth j (i_merits t) 0%Qc = (nth j (i_costs t) 0 + ap_mu_merit pr * nth j (i_cons t) 0)%Qc.
Proof.
  intros H H0 (Z1 & Z2 & Z3). induction k as [|k IH]; intros t T.
  - rewrite H0 in T. injection T as <-. rewrite Z1, Z2, Z3. repeat (split; [reflexivity|]). intros j J. inversion J.
  - assert (S k < length states) as B by (apply nth_error_Some; congruence). destruct (nth_error states k) as [u|] eqn:U; [|apply nth_error_None in U; lia].
    destruct (IH u eq_refl) as (L1 & L2 & L3 & N). pose proof (H k u t U T) as E. apply round_inv in E. destruct E as [_ _ _ _ _ (cost & cr & prev & _ & _ & _ & Q) _]. cbv zeta in Q. destruct Q as (_ & -> & _ & _ & -> & ->).
    rewrite !app_length, L1, L2, L3. cbn [length]. repeat (split; [lia|]). intros j J. destruct (Nat.eq_dec j k) as [->|Nk].
    + rewrite !app_nth2, L1, L2, L3, Nat.sub_diag by lia. reflexivity.
    + rewrite !app_nth1 by lia. apply N. lia.
Qed.
Lemma start_fresh cont pr op bin cts s : start cont pr op bin cts = Ok s -> i_rho s = ap_rho pr /\ i_costs s = [] /\ i_cons s = [] /\ i_merits s = [].
Proof. unfold start. intro H. apply bind_ok in H. destruct H as (xuz & _ & H). injection H as <-. auto. Qed.
