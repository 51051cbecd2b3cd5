(** * Facts on the end of the Grover search *)
From Verif Require Export SpecStop GroverFacts3.
Local Open Scope list_scope.
Local Open Scope nat_scope.

Lemma grow_next n m : 0 < m -> next_bound n m (grow n m) /\ 0 < grow n m /\ grow n m <= Nat.sqrt_up (2 ^ n).
Proof.
  intro P. unfold grow, next_bound. set (a := (8 * m + 6) / 7). set (b := Nat.sqrt_up (2 ^ n)).
  assert (8 * m <= 7 * a /\ 7 * a <= 8 * m + 6) as [A1 A2].
  { pose proof (Nat.div_mod (8 * m + 6) 7 ltac:(lia)) as D. pose proof (Nat.mod_upper_bound (8 * m + 6) 7 ltac:(lia)). fold a in D. lia. }
  assert (0 < 2 ^ n) as Q by (apply Nat.neq_0_lt_0, Nat.pow_nonzero; lia). pose proof (Nat.sqrt_up_spec (2 ^ n) Q) as B. fold b in B.
  assert (0 < b) as Pb by (destruct B; nia). split; [|split; lia]. split; [destruct (Nat.min_spec a b) as [[_ ->]|[_ ->]]; [left; lia|right; lia]|].
  intros k K. assert (k < a /\ k < b) as [Ka Kb] by lia. split; [lia|]. destruct B as [B1 B2]. nia.
Qed.
Lemma stale_app log e i : i < length log -> (stale (log ++ [e]) i <-> stale log i).
Proof.
  intro L. split; intros (j & o & v & o' & w & J & A & B & C); exists j, o, v, o', w; (split; [exact J|]).
  - rewrite nth_error_app1 in A, B by lia. auto.
  - rewrite !nth_error_app1 by lia. auto.
Qed.
Lemma stale_lt log i : stale log i -> i < length log.
Proof. intros (j & o & v & o' & w & _ & _ & B & _). apply nth_error_Some. congruence. Qed.
Lemma nth_app_last {A} (l : list A) a : nth_error (l ++ [a]) (length l) = Some a.
Proof. rewrite nth_error_app2 by lia. now rewrite Nat.sub_diag. Qed.
Lemma stale_last log o w : (exists o' v, In (o', v) log /\ (v <= w)%Z) <-> stale (log ++ [(o, w)]) (length log).
Proof.
  split.
  - intros (o' & v & I & L). apply In_nth_error in I. destruct I as (j & J). exists j, o', v, o, w. assert (j < length log) by (apply nth_error_Some; congruence).
    split; [assumption|]. rewrite nth_error_app1 by assumption. rewrite nth_app_last. auto.
  - intros (j & o1 & v & o2 & w' & J & A & B & C). rewrite nth_app_last in B. injection B as <- <-. rewrite nth_error_app1 in A by assumption. apply nth_error_In in A. eauto.
Qed.

Section Stop.
Variables (n_value n_iter : nat) (root : Qc -> Qc) (spin : nat -> nat -> nat) (measure : nat -> qp -> nat -> list bool * circuit_results).
Variables (q0 q1 : qp) (caller : option qp) (fs : list interp).
Notation n := (le_dim (o_lin (p_obj q1))).
Notation step := (search_step n_value n_iter root spin measure q0 q1 caller fs).
Notation search := (search n_value n_iter root spin measure q0 q1 caller fs).
Hypothesis Pos : 0 < n.
Hypothesis Pv : 0 < n_value.
Hypothesis Sized : sized_outcomes n n_value measure.
Notation out_at := (out_at spin measure q1).
Notation val_at := (val_at n_value spin measure q1).
Notation best := (best_so_far q1).

(** One pass, with all counters *)
Lemma step_counters it s s' stop : step it s = Ok (s', stop) -> g_log s' = g_log s ++ [(out_at it s, val_at it s)] /\ g_rot s' = g_rot s + spin it (g_m s) /\
  ((better (val_at it s) (g_val s) /\ stop = false /\ g_m s' = 1 /\ g_loops s' = 0 /\ g_seen s' = g_seen s) \/
   (exists b, g_val s = Some b /\ (b <= val_at it s)%Z /\ g_m s' = grow n (g_m s) /\ g_loops s' = S (g_loops s) /\
    g_seen s' = (if existsb (Z.eqb (magnitude (firstn n (out_at it s)))) (g_seen s) then g_seen s else g_seen s ++ [magnitude (firstn n (out_at it s))]) /\
    (stop = true <-> n_iter <= S (g_loops s) \/ length (g_seen s') = 2 ^ n \/ 79 <= g_rot s'))).
Proof using Sized Pos Pv.
  unfold search_step. rewrite n_key_dim. fold (out_at it s). destruct (reads n_value spin measure q1 Pos Pv Sized it s) as [R1 R2]. rewrite R1, R2. cbn [bind]. fold (val_at it s). intro E.
  destruct (match g_val s with None => true | Some best => (val_at it s <? best)%Z end) eqn:B.
  - apply bind_ok in E. destruct E as (l & El & E). apply bind_ok in E. destruct E as (sm & Es & E). injection E as <- <-. cbn [g_log g_rot g_m g_loops g_seen]. split; auto. split; auto. left.
    split; [unfold better; destruct (g_val s); auto; now apply Z.ltb_lt|auto].
  - destruct (g_val s) as [b|] eqn:Ev; [|discriminate B]. remember (MAX_ROTATIONS <=? g_rot s + spin it (g_m s)) as c eqn:Ec in E. injection E as <- <-. cbn [g_log g_rot g_m g_loops g_seen]. split; auto. split; auto. right. exists b.
    split; auto. split; [now apply Z.ltb_ge|]. split; auto. split; auto. split; auto. rewrite !Bool.orb_true_iff, Ec, !Nat.leb_le, Nat.eqb_eq. unfold MAX_ROTATIONS. tauto.
Qed.

(** What holds after [it] passes *)
Record counted (it : nat) (s : gstate) : Prop := {
  ct_len : length (g_log s) = it;
  ct_m : 0 < g_m s <= Nat.sqrt_up (2 ^ n);
  ct_rot : exists ms rs, rotations_of n spin (g_log s) ms rs /\ list_sum rs = g_rot s /\
    match it with 0 => g_m s = 1 | S i => exists m, nth_error ms i = Some m /\ (stale (g_log s) i -> next_bound n m (g_m s)) /\ (~ stale (g_log s) i -> g_m s = 1) end;
  ct_loops : exists pre suf, g_log s = pre ++ suf /\ length suf = g_loops s /\ (forall i, length pre <= i < it -> stale (g_log s) i) /\
    (pre = [] -> suf = []) /\ (forall i, S i = length pre -> ~ stale (g_log s) i);
  ct_nodup : NoDup (g_seen s);
  ct_seen : forall k, In k (g_seen s) <-> exists i o v, nth_error (g_log s) i = Some (o, v) /\ n <= length o /\ magnitude (firstn n o) = k /\ stale (g_log s) i;
  ct_best : best s }.

Lemma stale_dec_best it s : best s -> (stale (g_log s ++ [(out_at it s, val_at it s)]) (length (g_log s)) <-> ~ better (val_at it s) (g_val s)).
Proof using Pos Pv.
  intro B. rewrite <- stale_last. unfold best_so_far in B. destruct (g_val s) as [b|]; cbn [better].
  - destruct B as (_ & (o & I & _) & B). split; [intros (o' & v & I' & L); destruct (B _ _ I') as [L' _]; lia|]. intro N. exists o, b. split; [assumption|lia].
  - destruct B as [-> _]. split; [intros (o' & v & [] & _)|tauto].
Qed.
Lemma counted_start : counted 0 g_start.
Proof using Pos Pv n_iter n_value.
  split; cbn; auto.
  - assert (0 < 2 ^ n) as Q by (apply Nat.neq_0_lt_0, Nat.pow_nonzero; lia). pose proof (Nat.sqrt_up_spec (2 ^ n) Q). split; [lia|]. destruct H. nia.
  - exists [], []. split; [|auto]. repeat split; cbn; auto; intros; try (destruct i; discriminate); discriminate.
  - exists [], []. repeat split; auto; intros; cbn in *; lia.
  - constructor.
  - intro k. split; [intros []|]. intros (i & o & v & E & _). destruct i; discriminate.
Qed.
Lemma counted_step it s s' stop : counted it s -> step it s = Ok (s', stop) -> counted (S it) s'.
Proof using Sized Pos Pv.
  intros C E. pose proof (step_best _ _ _ _ _ _ _ _ _ Pos Pv Sized it s s' stop (ct_best _ _ C) E) as [B' _]. apply step_counters in E. destruct E as (El & Er & E).
  pose proof (stale_dec_best it s (ct_best _ _ C)) as SD. destruct C as [L M (ms & rs & RO & RS & RM) (pre & suf & P1 & P2 & P3 & P4 & P5) ND SE BE].
  set (log := g_log s) in *. set (e := (out_at it s, val_at it s)) in *.
  assert (Ke : n <= length (out_at it s)). { pose proof (key_length n_value spin measure q1 Pos Pv Sized it s) as K. rewrite firstn_length in K. lia. }
  assert (ST : stale (g_log s') it <-> ~ better (val_at it s) (g_val s)) by (rewrite El, <- SD, L; tauto).
  assert (RO' : rotations_of n spin (g_log s') (ms ++ [g_m s]) (rs ++ [spin it (g_m s)])).
  { destruct RO as (R1 & R2 & R3 & R4 & R5). rewrite El. unfold rotations_of. rewrite !app_length, R1, R2, L. cbn [length]. split; [reflexivity|]. split; [reflexivity|]. split; [|split].
    - intros i m r Hm Hr. destruct (Nat.lt_ge_cases i it) as [Li|Li]; [rewrite nth_error_app1 in Hm, Hr by lia; auto|].
      assert (i = it) as -> by (assert (i < length (ms ++ [g_m s])) by (apply nth_error_Some; congruence); rewrite app_length in *; cbn in *; lia).
      replace it with (length ms) in Hm by lia. rewrite nth_app_last in Hm. injection Hm as <-. replace it with (length rs) in Hr by lia. rewrite nth_app_last in Hr. injection Hr as <-. f_equal. lia.
    - intros m Hm. destruct it as [|it]; [|rewrite nth_error_app1 in Hm by lia; auto]. destruct ms; [|cbn in R1; lia]. cbn in Hm. injection Hm as <-. exact RM.
    - intros i m m' Hm Hm'. destruct (Nat.lt_ge_cases (S i) it) as [Li|Li].
      + rewrite nth_error_app1 in Hm, Hm' by lia. rewrite stale_app by lia. eauto.
      + assert (S i = it) as <- by (assert (S i < length (ms ++ [g_m s])) by (apply nth_error_Some; congruence); rewrite app_length in *; cbn in *; lia).
        rewrite nth_error_app1 in Hm by lia. replace (S i) with (length ms) in Hm' by lia. rewrite nth_app_last in Hm'. injection Hm' as <-. rewrite stale_app by lia.
        destruct RM as (m1 & H1 & H2). rewrite H1 in Hm. injection Hm as <-. exact H2. }
  destruct (grow_next n (g_m s) (proj1 M)) as (G1 & G2 & G3).
  split.
  - rewrite El, app_length, L. cbn. lia.
  - destruct E as [(_ & _ & Em & _)|(b & _ & _ & Em & _)]; rewrite Em; lia.
  - exists (ms ++ [g_m s]), (rs ++ [spin it (g_m s)]). split; [exact RO'|]. split; [rewrite list_sum_app, RS, Er; cbn; lia|].
    exists (g_m s). split; [replace it with (length ms) by (destruct RO; lia); apply nth_app_last|]. rewrite ST.
    destruct E as [(Be & _ & Em & _)|(b & Eb & Le & Em & _)]; rewrite Em; split; intro Q; try tauto.
    exfalso. apply Q. rewrite Eb. cbn. lia.
  - destruct E as [(Be & _ & _ & Elo & _)|(b & Eb & Le & _ & Elo & _)].
    + exists (g_log s'), []. rewrite app_nil_r, Elo, El, app_length, L. cbn [length]. split; auto. split; auto. split; [intros; lia|]. split; auto. intros i Hi.
      assert (i = it) as -> by lia. rewrite <- El, ST. tauto.
    + exists pre, (suf ++ [e]). rewrite El, P1, app_assoc. split; auto. split; [rewrite app_length, P2, Elo; cbn; lia|].
      split; [|split].
      * intros i Hi. rewrite <- P1. destruct (Nat.eq_dec i it) as [->|]; [rewrite <- El; apply ST; rewrite Eb; cbn; lia|]. apply stale_app; [lia|]. apply P3. lia.
      * intros ->. exfalso. rewrite (P4 eq_refl) in P1. unfold best_so_far in BE. rewrite Eb in BE. destruct BE as (_ & (o & I & _) & _). fold log in I. rewrite P1 in I. destruct I.
      * intros i Hi. rewrite <- P1. rewrite stale_app; [auto|]. rewrite P1, app_length. lia.
  - destruct E as [(_ & _ & _ & _ & Es)|(b & _ & _ & _ & _ & Es & _)]; rewrite Es; [assumption|]. destruct (existsb _ _) eqn:Ex; [assumption|].
    apply Permutation_NoDup with (l := magnitude (firstn n (out_at it s)) :: g_seen s); [apply Permutation_cons_append|]. constructor; [|assumption].
    intro I. enough (existsb (Z.eqb (magnitude (firstn n (out_at it s)))) (g_seen s) = true) by congruence. apply existsb_exists. eexists. split; [exact I|apply Z.eqb_refl].
  - intro k. assert (OLD : (exists i o v, nth_error (g_log s') i = Some (o, v) /\ n <= length o /\ magnitude (firstn n o) = k /\ stale (g_log s') i) <->
      In k (g_seen s) \/ (~ better (val_at it s) (g_val s) /\ magnitude (firstn n (out_at it s)) = k)).
    { rewrite SE. split.
      - intros (i & o & v & N & Lo & Mk & Sk). pose proof (stale_lt _ _ Sk) as Li. rewrite El, app_length, L in Li. cbn in Li. destruct (Nat.eq_dec i it) as [->|].
        + right. split; [now apply ST|]. rewrite El, <- L, nth_app_last in N. injection N as <- <-. exact Mk.
        + left. rewrite El in N, Sk. rewrite nth_error_app1 in N by lia. rewrite stale_app in Sk by lia. eauto 8.
      - intros [(i & o & v & N & Lo & Mk & Sk)|(Nb & Mk)].
        + pose proof (stale_lt _ _ Sk) as Li. exists i, o, v. rewrite El, nth_error_app1, stale_app by lia. auto.
        + exists it, (out_at it s), (val_at it s). rewrite ST. split; [|auto]. rewrite El. pose proof (nth_app_last log e) as Q. rewrite L in Q. exact Q. }
    rewrite OLD. destruct E as [(Be & _ & _ & _ & Es)|(b & Eb & Le & _ & _ & Es & _)]; rewrite Es; [tauto|].
    assert (~ better (val_at it s) (g_val s)) as NB by (rewrite Eb; cbn; lia). destruct (existsb _ _) eqn:Ex.
    + apply existsb_exists in Ex. destruct Ex as (k' & I & Q). apply Z.eqb_eq in Q. subst k'. split; [tauto|]. intros [H|[_ <-]]; assumption.
    + rewrite in_app_iff. cbn [In]. tauto.
  - exact B'.
Qed.

(** The end of the search *)
Definition reason (s : gstate) : Prop := n_iter <= g_loops s /\ 0 < g_loops s \/ length (g_seen s) = 2 ^ n \/ 79 <= g_rot s.
Definition open_search (s : gstate) : Prop := (g_loops s = 0 \/ g_loops s < n_iter) /\ length (g_seen s) <> 2 ^ n.
(** Nothing was left unnoticed on the way. *)
Definition unspent (s : gstate) : Prop := forall pre suf, g_log s = pre ++ suf -> suf <> [] -> ~ patience_spent n_iter pre /\ ~ all_keys_stale n pre.
Lemma loops_patience it s : counted it s -> (patience_spent n_iter (g_log s) <-> n_iter <= g_loops s /\ 0 < g_loops s).
Proof using Pos Pv n_value n_iter.
  intro C. destruct C as [L _ _ (pre & suf & P1 & P2 & P3 & P4 & P5) _ _ _]. split.
  - intros (pre' & suf' & Q1 & Q2 & Q3 & Q4). assert (length suf' <= length suf).
    { destruct (Nat.le_gt_cases (length suf') (length suf)) as [?|G]; [assumption|]. exfalso. assert (length pre' < length pre) as Lp by (apply (f_equal (@length _)) in P1, Q1; rewrite app_length in *; lia).
      destruct (length pre) as [|k] eqn:Lk; [lia|]. apply (P5 k eq_refl). apply Q4. apply (f_equal (@length _)) in P1. rewrite app_length in P1. lia. }
    destruct suf'; [easy|]. cbn in *. lia.
  - intros [A B]. exists pre, suf. split; [assumption|]. split; [intros ->; cbn in P2; lia|]. split; [lia|]. rewrite L. exact P3.
Qed.
Lemma mag_keys_all : forall l, NoDup l -> (forall k, In k l -> exists key : list bool, length key = n /\ magnitude key = k) ->
  (length l = 2 ^ n <-> forall key : list bool, length key = n -> In (magnitude key) l).
Proof using.
  clear. generalize (le_dim (o_lin (p_obj q1))). intros k l ND A. set (all := map Z.of_nat (seq 0 (2 ^ k))).
  assert (La : length all = 2 ^ k) by (unfold all; now rewrite map_length, seq_length).
  assert (NA : NoDup all). { unfold all. apply FinFun.Injective_map_NoDup; [intros a b H; lia|apply seq_NoDup]. }
  assert (IA : forall z, In z all <-> exists key : list bool, length key = k /\ magnitude key = z).
  { intro z. unfold all. rewrite in_map_iff. split.
    - intros (m & <- & I). apply in_seq in I. apply magnitude_onto. split; [lia|]. rewrite <- (Nat2Z.inj_pow 2). apply Nat2Z.inj_lt. lia.
    - intros (key & <- & <-). exists (mag_nat key). split; [symmetry; apply mag_nat_Z|]. apply in_seq. pose proof (mag_nat_lt key). lia. }
  assert (SUB : incl l all) by (intros z I; apply IA; auto). split.
  - intros E key Lk. refine (NoDup_length_incl ND _ SUB _ _); [lia|]. apply IA. eauto.
  - intro H. apply Nat.le_antisymm; rewrite <- La; apply NoDup_incl_length; auto. intros z I. apply IA in I. destruct I as (key & Lk & <-). auto.
Qed.
Lemma seen_all it s : counted it s -> (all_keys_stale n (g_log s) <-> length (g_seen s) = 2 ^ n).
Proof using Pos Pv n_value n_iter.
  intros [L _ _ _ ND SE _]. rewrite mag_keys_all; [|assumption|].
  - split.
    + intros A key Lk. destruct (A key Lk) as (i & o & v & N & F & S). apply SE. exists i, o, v. split; auto. split; [|rewrite F; auto]. rewrite <- F in Lk. rewrite firstn_length in Lk. lia.
    + intros A key Lk. apply A in Lk as I. apply SE in I. destruct I as (i & o & v & N & Lo & M & S). exists i, o, v. split; auto. split; auto. apply magnitude_inj; [|assumption]. rewrite firstn_length. lia.
  - intros k I. apply SE in I. destruct I as (i & o & v & N & Lo & M & S). exists (firstn n o). split; auto. rewrite firstn_length. lia.
Qed.
Lemma step_stop it s s' stop : counted it s -> open_search s -> unspent s -> step it s = Ok (s', stop) ->
  unspent s' /\ (stop = true -> reason s') /\ (stop = false -> open_search s').
Proof using Sized Pos Pv.
  intros C [O1 O2] U E. pose proof (counted_step _ _ _ _ C E) as C'. pose proof (loops_patience _ _ C) as LP. pose proof (seen_all _ _ C) as SA. apply step_counters in E. destruct E as (El & Er & E). split; [|split].
  - intros pre suf Es Ns. destruct (exists_last Ns) as (suf0 & x & ->). rewrite El in Es. rewrite app_assoc in Es. apply app_inj_tail in Es. destruct Es as [Es <-]. destruct suf0 as [|y suf0].
    + rewrite app_nil_r in Es. rewrite <- Es, LP, SA. split; [lia|assumption].
    + apply (U pre (y :: suf0) Es). discriminate.
  - intros ->. destruct E as [(_ & F & _)|(b & _ & _ & _ & Lo & _ & S)]; [discriminate|]. destruct (proj1 S eq_refl) as [S1|[S1|S1]]; unfold reason; [left; lia|auto|auto].
  - intros ->. destruct E as [(_ & _ & _ & Lo & Se)|(b & _ & _ & _ & Lo & _ & S)]; unfold open_search.
    + rewrite Se. split; [auto|assumption].
    + split; [right|]; [|intro Q; discriminate (proj2 S (or_intror (or_introl Q)))]. rewrite Lo. destruct (Nat.le_gt_cases n_iter (1 + g_loops s)) as [G|G]; [discriminate (proj2 S (or_introl G))|assumption].
Qed.
Lemma search_stop fuel : forall it s s', counted it s -> open_search s -> unspent s -> search fuel it s = (s', Ok tt) ->
  exists it', counted it' s' /\ unspent s' /\ reason s'.
Proof using Sized Pos Pv.
  induction fuel as [|fuel IH]; intros it s s' C O U E; cbn [Grover.search] in E; [discriminate|]. destruct (step it s) as [[s1 stop]|e] eqn:E1; [|discriminate].
  destruct (step_stop _ _ _ _ C O U E1) as (U1 & T & F). pose proof (counted_step _ _ _ _ C E1) as C1. destruct stop; [injection E as <-; eauto|eauto].
Qed.
(** Rotations *)
Hypothesis Below : below_bound spin.
Definition slow (s : gstate) : Prop := g_rot s < 79 \/ (g_m s = 1 /\ g_rot s < 78 + Nat.sqrt_up (2 ^ n)).
Lemma step_slow it s s' stop : counted it s -> slow s -> step it s = Ok (s', stop) -> g_rot s' < 78 + Nat.sqrt_up (2 ^ n) /\ (stop = false -> slow s').
Proof using Sized Pos Pv Below.
  intros C S E. pose proof (ct_m _ _ C) as M. apply step_counters in E. destruct E as (_ & Er & E). pose proof (Below it (g_m s) (proj1 M)) as B.
  assert (g_rot s' < 78 + Nat.sqrt_up (2 ^ n)) as R by (rewrite Er; destruct S as [S|[S1 S2]]; [|rewrite S1 in *]; lia).
  split; [assumption|]. intros ->. unfold slow. destruct E as [(_ & _ & Em & _)|(b & _ & _ & _ & _ & _ & S1)]; [auto|]. left. destruct (Nat.le_gt_cases 79 (g_rot s')) as [G|G]; [discriminate (proj2 S1 (or_intror (or_intror G)))|assumption].
Qed.
Lemma search_slow fuel : forall it s s', counted it s -> slow s -> search fuel it s = (s', Ok tt) -> g_rot s' < 78 + Nat.sqrt_up (2 ^ n).
Proof using Sized Pos Pv Below.
  induction fuel as [|fuel IH]; intros it s s' C O E; cbn [Grover.search] in E; [discriminate|]. destruct (step it s) as [[s1 stop]|e] eqn:E1; [|discriminate].
  destruct (step_slow _ _ _ _ C O E1) as (T & F). pose proof (counted_step _ _ _ _ C E1) as C1. destruct stop; [injection E as <-; auto|eauto].
Qed.
End Stop.

(** ** solve *)
Section Solve.
Variables (n_value n_iter : nat) (root : Qc -> Qc) (spin : nat -> nat -> nat) (measure : nat -> qp -> nat -> list bool * circuit_results) (fuel : nat).
Notation solve := (grover_solve n_value n_iter root spin measure fuel).
Variables (cs : list converter) (p q0 : qp) (fs : list interp).
Hypothesis Conv : convert_all cs p = Ok (q0, fs).
Hypothesis Shaped : obj_shaped q0.
Hypothesis Pos : 0 < num_vars q0.
Hypothesis Pv : 0 < n_value.
Hypothesis Sized : sized_outcomes (num_vars q0) n_value measure.
Lemma solve_stop p' g : solve cs p = (p', Ok g) ->
  (patience_spent n_iter (gr_log g) \/ all_keys_stale (num_vars q0) (gr_log g) \/ exists ms rs, rotations_of (num_vars q0) spin (gr_log g) ms rs /\ 79 <= list_sum rs) /\
  (forall pre suf, gr_log g = pre ++ suf -> suf <> [] -> ~ patience_spent n_iter pre /\ ~ all_keys_stale (num_vars q0) pre) /\
  exists ms rs, rotations_of (num_vars q0) spin (gr_log g) ms rs /\ (below_bound spin -> list_sum rs < 78 + Nat.sqrt_up (2 ^ num_vars q0)).
Proof using Conv Shaped Pos Pv Sized.
  intro E. destruct (solve_inv _ _ _ _ _ _ _ _ _ _ Conv _ _ E) as (q1 & s & Et & Es & _ & _ & _ & _ & _ & Lg). destruct (turn_shape _ _ _ Shaped Et) as (o & -> & So & _). rewrite Lg.
  set (q1 := set_obj o q0) in *. assert (le_dim (o_lin (p_obj q1)) = num_vars q0) as D by apply So. rewrite <- D in Pos, Sized. rewrite <- D. clearbody q1. clear D E Et.
  pose proof (counted_start n_value n_iter spin q1 Pos Pv) as C0.
  destruct (search_stop n_value n_iter root spin measure q0 q1 (the_caller cs p) fs Pos Pv Sized fuel 0 g_start s C0) as (it & C & U & R).
  - split; [now left|]. cbn. intro Z. symmetry in Z. revert Z. now apply Nat.pow_nonzero.
  - intros pre suf Q N. destruct pre; [|discriminate]. destruct suf; [easy|discriminate].
  - exact Es.
  - destruct (ct_rot _ _ _ _ C) as (ms & rs & RO & RS & _). split; [|split].
    + destruct R as [R|[R|R]]; [left|right; left|right; right].
      * now apply (loops_patience n_value n_iter spin q1 Pos Pv it).
      * now apply (seen_all n_value n_iter spin q1 Pos Pv it).
      * exists ms, rs. split; [assumption|lia].
    + exact U.
    + exists ms, rs. split; [assumption|]. intro B. rewrite RS. apply (search_slow n_value n_iter root spin measure q0 q1 (the_caller cs p) fs Pos Pv Sized B fuel 0 g_start s C0); [|exact Es]. left. cbn. lia.
Qed.
End Solve.
Lemma key_of_bits n x : bits n x -> exists key, length key = n /\ map digit_q key = x.
Proof.
  intros [<- F]. induction F as [|a x Ha F IH]; [exists []; auto|]. destruct IH as (key & L & E). exists (qeqb a 1 :: key). cbn. rewrite L, E. split; auto. f_equal. destruct Ha as [->| ->]; reflexivity.
Qed.
Lemma exhausted_optimal n_value n_iter root spin measure fuel pen p r p' g : prog_wf p -> to_qubo pen p = Ok r -> 0 < num_vars (r_qubo r) -> 0 < n_value ->
  sized_outcomes (num_vars (r_qubo r)) n_value measure -> honest (num_vars (r_qubo r)) n_value measure -> integer_objective (r_qubo r) -> register_fits n_value (r_qubo r) ->
  grover_solve n_value n_iter root spin measure fuel (default_converters pen) p = (p', Ok g) -> all_keys_stale (num_vars (r_qubo r)) (gr_log g) ->
  exists out v, In (out, v) (gr_log g) /\ optimal (r_qubo r) (key_point (num_vars (r_qubo r)) out).
Proof.
  intros W H Pos Pv Sz Ho I F E A. set (q := r_qubo r) in *.
  destruct (solve_best _ _ _ _ _ _ _ _ _ _ (default_convert pen p r H) (qubo_obj_shaped pen p r W H) Pos Pv Sz (default_upper pen p r H) I Ho F _ _ W E) as (x & y & Bx & _ & Best & _).
  assert (K : forall z, bits (num_vars q) z -> exists out v, In (out, v) (gr_log g) /\ key_point (num_vars q) out = z).
  { intros z Bz. destruct (key_of_bits _ _ Bz) as (key & L & <-). destruct (A key L) as (i & o & v & N & Fk & _). exists o, v. split; [eapply nth_error_In; exact N|]. unfold key_point. now rewrite Fk. }
  destruct (K x Bx) as (out & v & Io & Eo). exists out, v. split; [assumption|]. rewrite Eo. split; [now apply (qubo_feasible_bits pen p r W H)|].
  intros z Fz. apply (qubo_feasible_bits pen p r W H) in Fz. destruct (K z Fz) as (o & w & Iw & <-). eapply Best; exact Iw.
Qed.
