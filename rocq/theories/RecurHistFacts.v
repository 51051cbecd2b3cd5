(** * The history of the recursive optimizer *)
From Verif Require Export RecurFacts6 RecurHist.
Local Open Scope nat_scope.

Section Loop.
Variables (kz : bool) (inner : nat -> qp -> result opt_result) (min : nat).
Lemma history_plain hist : forall fuel k s acc, exists acc', history_loop kz hist fuel inner min k s acc = (fst (reduce_loop kz fuel inner min k s), acc', snd (reduce_loop kz fuel inner min k s)).
Proof.
  induction fuel as [|f IH]; intros k s acc; cbn [history_loop reduce_loop]; destruct (min <? num_vars (rs_cur s)); try (eexists; reflexivity).
  cbv zeta. destruct (reduce_round kz s (inner k (rs_cur s))) as [s1 [u|e]]; [apply IH|eexists; reflexivity].
Qed.
Lemma history_none hist : hist <> ALL_ITERATIONS -> forall fuel k s acc, snd (fst (history_loop kz hist fuel inner min k s acc)) = acc.
Proof.
  intro N. assert (forall a r, keep_result hist a r = a) as K by (intros a r; unfold keep_result; destruct hist; auto; congruence).
  induction fuel as [|f IH]; intros k s acc; cbn [history_loop]; destruct (min <? num_vars (rs_cur s)); auto.
  cbv zeta. destruct (reduce_round kz s (inner k (rs_cur s))) as [s1 [u|e]]; [rewrite IH|cbn]; apply K.
Qed.
Lemma round_recorded s res s' : plain_qubo (rs_cur s) -> reduce_round kz s res = (s', Ok tt) ->
  exists r m i j xi xj, res = Ok r /\ get_correlations r = Ok m /\ strongest m = Ok (i, j) /\
    nth_error (var_names (rs_cur s)) i = Some xi /\ nth_error (var_names (rs_cur s)) j = Some xj /\
    one_round (rs_cur s) xi xj (qltb 0 (get2 m i j)) (rs_cur s') /\ rs_repl s' = dset String.eqb xi (xj, qltb 0 (get2 m i j)) (rs_repl s).
Proof using.
  intros G H. unfold reduce_round in H. cbv zeta in H.
  match type of H with match ?e with _ => _ end = _ => destruct e as [[[[m [i j]] xi] xj]|] eqn:E; [|discriminate H] end.
  apply bind_ok in E. destruct E as (r & E0 & E). apply bind_ok in E. destruct E as (m' & E1 & E). apply bind_ok in E. destruct E as ([i' j'] & E2 & E).
  apply bind_ok in E. destruct E as (vi & Ei & E). apply bind_ok in E. destruct E as (vj & Ej & E). injection E as -> -> -> Exi Exj. cbn [fst snd] in *.
  apply py_nth_some in Ei, Ej. assert (nth_error (var_names (rs_cur s)) i = Some xi /\ nth_error (var_names (rs_cur s)) j = Some xj) as [Ni Nj].
  { unfold var_names. rewrite !nth_error_map, Ei, Ej. cbn. now rewrite Exi, Exj. }
  exists r, m, i, j, xi, xj. split; auto. split; auto. split; auto. split; auto. split; auto.
  destruct (qltb 0 (get2 m i j)).
  - apply reduce_subst_spec in H. destruct H as (q & Hq & ->). destruct (round_same _ _ _ _ _ _ _ G Ni Nj Hq) as [O _]. auto.
  - destruct (shift_objective (rs_cur s) i) as [p' [[]|]] eqn:Es; [|discriminate H]. apply reduce_subst_spec in H. destruct H as (q & Hq & ->).
    assert (i < num_vars (rs_cur s)) as Hi by (rewrite <- names_length; apply nth_error_Some; congruence).
    destruct (shift_spec (rs_cur s) i) as (p'' & Ep & Sh); auto; try apply G. rewrite Es in Ep. injection Ep as <-.
    destruct (round_opposite _ _ _ _ _ _ _ _ G Ni Nj Sh Hq) as [O _]. auto.
Qed.
Lemma history_all : forall fuel k s acc s' acc', plain_qubo (rs_cur s) -> (forall a, In a (map fst (rs_repl s)) -> ~ In a (var_names (rs_cur s))) ->
  history_loop kz ALL_ITERATIONS fuel inner min k s acc = (s', acc', Ok tt) ->
  exists rep l, rs_repl s' = rs_repl s ++ rep /\ acc' = acc ++ l /\ recorded inner k (rs_cur s) rep l (rs_cur s').
Proof.
  induction fuel as [|f IH]; intros k s acc s' acc' G Fr H; cbn [history_loop] in H; destruct (Nat.ltb_spec min (num_vars (rs_cur s))) as [Lt|Ge].
  - discriminate H.
  - injection H as <- <-. exists [], []. rewrite !app_nil_r. split; auto. split; auto. constructor.
  - cbv zeta in H. destruct (reduce_round kz s (inner k (rs_cur s))) as [s1 [[]|]] eqn:E; [|discriminate H].
    destruct (round_recorded _ _ _ G E) as (r & m & i & j & xi & xj & Er & Em & Es & Ni & Nj & O & R). rewrite Er in H. cbn [keep_result] in H.
    destruct O as [Hi Hj Ne Nm Pl Se Gr Va]. assert (dset String.eqb xi (xj, qltb 0 (get2 m i j)) (rs_repl s) = rs_repl s ++ [(xi, (xj, qltb 0 (get2 m i j)))]) as Rd.
    { apply (dset_fresh _ str_eqb_sp). intro Hin. exact (Fr _ Hin Hi). }
    destruct (IH (S k) s1 (acc ++ [r]) s' acc') as (rep & l & R' & A' & Rc); auto.
    { rewrite R, Rd, Nm. intros a Ha Hin. apply without_in in Hin. rewrite map_app in Ha. apply in_app_or in Ha. destruct Ha as [Ha|[<-|[]]]; [|tauto]. destruct Hin as [Hin _]. exact (Fr _ Ha Hin). }
    exists ((xi, (xj, qltb 0 (get2 m i j))) :: rep), (r :: l). rewrite R', R, Rd, A', <- !app_assoc. split; auto. split; auto.
    apply (rec_step inner k (rs_cur s) r m i j xi xj _ (rs_cur s1)); auto. apply qltb_iff.
  - injection H as <- <-. exists [], []. rewrite !app_nil_r. split; auto. split; auto. constructor.
Qed.
Lemma recorded_lengths : forall k q rep l red, recorded inner k q rep l red -> length l = length rep.
Proof. induction 1; cbn; auto. Qed.
End Loop.

Section Solve.
Variables (kz : bool) (inner : nat -> qp -> result opt_result) (final : qp -> result opt_result) (min : nat) (cs : list converter) (p : qp).
Lemma history_answer hist : fst (recursive_history kz hist inner final min cs p) = fst (recursive_solve kz inner final min cs p) /\
  bind (snd (recursive_history kz hist inner final min cs p)) (fun r => Ok (rr_result r, rr_replacements r)) = snd (recursive_solve kz inner final min cs p).
Proof.
  unfold recursive_history, recursive_solve. destruct (qubo_compatible p); [|auto]. destruct (convert_all cs p) as [[q fs]|e]; [|auto].
  destruct (history_plain kz inner min hist (num_vars q) 0 (mkR p q (match cs with [] => true | _ => false end) []) []) as [acc ->].
  destruct (reduce_loop _ _ _ _ _ _) as [s [u|e]]; cbn [fst snd]; [|auto]. split; auto.
  destruct (final (rs_cur s)) as [r|e]; [|reflexivity]. cbn [bind]. destruct (base_values _ _) as [v|e]; [|reflexivity]. cbn [bind].
  destruct (unroll _ _ _) as [x|e]; [|reflexivity]. cbn [bind]. destruct (interpret _ _ _ _) as [res|e]; reflexivity.
Qed.
Lemma history_inv hist p' rr : recursive_history kz hist inner final min cs p = (p', Ok rr) ->
  exists q fs s acc r, convert_all cs p = Ok (q, fs) /\
    history_loop kz hist (num_vars q) inner min 0 (mkR p q (match cs with [] => true | _ => false end) []) [] = (s, acc, Ok tt) /\
    final (rs_cur s) = Ok r /\ rr_replacements rr = rs_repl s /\ rr_history rr = build_history hist acc r.
Proof.
  unfold recursive_history. intro H. destruct (qubo_compatible p); [|discriminate H]. destruct (convert_all cs p) as [[q fs]|e] eqn:Ec; [|discriminate H].
  destruct (history_loop _ _ _ _ _ _ _ _) as [[s acc] [[]|e]] eqn:E; [|discriminate H].
  match type of H with (_, ?e) = _ => assert (e = Ok rr) as H' by (injection H; auto) end. clear H.
  apply bind_ok in H'. destruct H' as (r & Hr & H'). apply bind_ok in H'. destruct H' as (vals & Hv & H'). apply bind_ok in H'. destruct H' as (x & Hx & H').
  apply bind_ok in H'. destruct H' as (res' & Hi & H'). injection H' as <-. exists q, fs, s, acc, r. auto.
Qed.
Lemma history_settings h p' rr : recursive_history kz ALL_ITERATIONS inner final min cs p = (p', Ok rr) -> h <> ALL_ITERATIONS ->
  recursive_history kz h inner final min cs p = (p', Ok (mkRec (rr_result rr) (rr_replacements rr) ([], match h with NO_ITERATIONS => None | _ => snd (rr_history rr) end))).
Proof.
  intros H N. destruct (history_answer ALL_ITERATIONS) as [A1 A2]. destruct (history_answer h) as [B1 B2]. destruct (history_inv _ _ _ H) as (q & fs & s & acc & r & Ec & El & Er & Rr & Hh).
  rewrite H in A1, A2. cbn [fst snd bind] in A1, A2. rewrite <- A1 in B1. rewrite <- A2 in B2.
  destruct (recursive_history kz h inner final min cs p) as [p2 [rr2|e]] eqn:E; [|discriminate B2]. cbn [fst snd bind] in B1, B2. injection B2 as B2 B3. subst p2. f_equal. f_equal.
  destruct (history_inv _ _ _ E) as (q2 & fs2 & s2 & acc2 & r2 & Ec2 & El2 & Er2 & Rr2 & Hh2). rewrite Ec in Ec2. injection Ec2 as <- <-.
  pose proof (history_none kz inner min h N (num_vars q) 0 (mkR p q (match cs with [] => true | _ => false end) []) []) as Hn. rewrite El2 in Hn. cbn in Hn. subst acc2.
  destruct (history_plain kz inner min h (num_vars q) 0 (mkR p q (match cs with [] => true | _ => false end) []) []) as [a1 P1]. rewrite El2 in P1.
  destruct (history_plain kz inner min ALL_ITERATIONS (num_vars q) 0 (mkR p q (match cs with [] => true | _ => false end) []) []) as [a2 P2]. rewrite El in P2.
  injection P1 as S1 _ _. injection P2 as S2 _ _. rewrite <- S2 in S1. subst s2. rewrite Er in Er2. injection Er2 as <-.
  destruct rr2 as [o rp hh]. cbn [rr_result rr_replacements rr_history] in *. subst o rp hh. f_equal. rewrite Hh. unfold build_history. destruct h; auto; congruence.
Qed.
Lemma history_complete q fs p' rr : convert_all cs p = Ok (q, fs) -> plain_qubo q -> recursive_history kz ALL_ITERATIONS inner final min cs p = (p', Ok rr) ->
  exists red r, recorded inner 0 q (rr_replacements rr) (fst (rr_history rr)) red /\ length (fst (rr_history rr)) = num_vars q - min /\
    num_vars red = Nat.min min (num_vars q) /\ final red = Ok r /\ snd (rr_history rr) = Some r.
Proof.
  intros Ec G H. destruct (history_inv _ _ _ H) as (q' & fs' & s & acc & r & Ec' & El & Er & Rr & Hh). rewrite Ec in Ec'. injection Ec' as <- <-.
  destruct (history_plain kz inner min ALL_ITERATIONS (num_vars q) 0 (mkR p q (match cs with [] => true | _ => false end) []) []) as [a2 P2]. rewrite El in P2. injection P2 as S2 _ S3.
  pose proof (fun P F => history_all kz inner min _ _ _ _ _ _ P F El) as Ha. destruct (Ha G) as (rep & l & R & A & Rc); [intros a []|]. clear Ha. cbn [rs_repl rs_cur app] in *. subst acc rep.
  destruct (reduce_loop kz (num_vars q) inner min 0 (mkR p q (match cs with [] => true | _ => false end) [])) as [s' e'] eqn:E. cbn [fst snd] in S2, S3. subst s' e'.
  apply loop_spec in E; [|exact G|intros a []]. destruct E as (rep & R & El2 & Pl & Se & Nv & Or & Va). cbn [rs_repl rs_cur rs_same rs_orig app] in *.
  destruct (el_nodup _ _ _ El2 (prog_wf_nodup _ (proj1 G))) as (_ & _ & _ & _ & _ & Ln). rewrite !names_length in Ln.
  exists (rs_cur s), r. rewrite Hh, Rr. cbn [build_history fst snd]. split; auto. split; [rewrite (recorded_lengths _ _ _ _ _ _ Rc), R; lia|]. auto.
Qed.
End Solve.
