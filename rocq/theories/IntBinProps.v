(** * IntegerToBinary keeps objective and constraints *)
From Verif Require Export IntBinFacts.
Local Open Scope nat_scope.

Lemma narrow_ones v : narrow v -> ones v.
Proof.
  intro H. unfold ones, xp, bits_of. destruct (is_int v); [|constructor; [reflexivity|constructor]].
  unfold convert_var. destruct H as [-> | ->]; repeat constructor; apply Qc_is_canon; reflexivity.
Qed.
Lemma merge_linear_dsum f l m : dsum f (merge_linear l m) = (dsum f l + dsum f m)%Qc.
Proof.
  unfold merge_linear. revert l. induction m as [|[k w] m IH]; intro l; simpl; [rewrite dsum_nil; ring|].
  rewrite IH, (dsum_dadd _ str_eqb_sp), dsum_cons. simpl. ring.
Qed.
Lemma merge_linear_nodup l m : NoDup (map fst l) -> NoDup (map fst (merge_linear l m)).
Proof. unfold merge_linear. revert l. induction m as [|[k w] m IH]; intros l N; simpl; auto. apply IH. now apply dadd_nodup. Qed.

Section Rows.
Variables (src : qp) (conv : nat -> option (list (string * Qc))).
Hypothesis W : prog_wf src.
Hypothesis Hconv : forall i v, nth_error (p_vars src) i = Some v -> conv i = if is_int v then Some (bits_of v) else None.
Hypothesis ND : NoDup (xp_names (p_vars src)).
Let names := var_names src.
Let names' := xp_names (p_vars src).
Let F := proj1 W : index_finds names (p_vidx src).
Definition decoded (y : list Qc) : list Qc := map (dec (xp_names (p_vars src)) y) (p_vars src).

Lemma decoded_valof y s : In s names -> valof names (decoded y) s = dec names' y (vof src s).
Proof using W Hconv.
  intro Hs. destruct (vof_spec src conv F Hconv s Hs) as (i & _ & _ & E1 & E2 & _).
  assert (nth_error names i = Some s) as E. { unfold names, var_names. rewrite nth_error_map, E2. simpl. now rewrite E1. }
  rewrite (valof_nth names _ i s) by (auto; now apply prog_wf_nodup). unfold at_, decoded.
  apply nth_error_nth. rewrite nth_error_map, E2. reflexivity.
Qed.
Lemma decoded_length y : length (decoded y) = num_vars src.
Proof using. unfold decoded. now rewrite map_length. Qed.

Lemma lin_value e d y : dict_of names (lin_at e) d ->
  (dsum (valof names' y) (lin_image src d) + lin_const src d)%Qc = lin_at e (decoded y).
Proof using W Hconv.
  intros (N & I & V). rewrite V by (rewrite decoded_length; symmetry; apply names_length).
  rewrite lin_image_value. unfold lin_const, dsum at 2. rewrite <- sumof_add. apply sumof_ext. intros [s w] Hin. cbn [fst snd].
  rewrite decoded_valof by (eapply I; eauto). unfold dec. ring.
Qed.
Lemma quad_value e d y : dict_of2 names (quad_at e) d ->
  (dsum (valof2 names' y) (quad_image src d) + quad_rest src (valof names' y) d)%Qc = quad_at e (decoded y).
Proof using W Hconv.
  intros (N & I & V). rewrite V by (rewrite decoded_length; symmetry; apply names_length).
  rewrite (dsum_ext _ (fun st => (valof names' y (fst st) * valof names' y (snd st))%Qc)) by reflexivity.
  rewrite quad_image_value. unfold quad_rest. cbv zeta. unfold dsum at 5. rewrite <- sumof_add. apply sumof_ext. intros [[s t] w] Hin. cbn [fst snd].
  destruct (I _ _ _ Hin). unfold valof2. cbn [fst snd]. rewrite !decoded_valof by assumption. unfold dec. ring.
Qed.
(** What the products of two integer variables lose, by position *)
Definition e_loss (e : quadexpr) (y : list Qc) : Qc :=
  sumof (fun kv => match nth_error (p_vars src) (fst (fst kv)), nth_error (p_vars src) (snd (fst kv)) with
    | Some vi, Some vj => (snd kv * (lbc vj * bit_gap (valof (xp_names (p_vars src)) y) vi + lbc vi * bit_gap (valof (xp_names (p_vars src)) y) vj))%Qc
    | _, _ => 0%Qc end) (qe_co e).
Lemma vof_at i s : nth_error names i = Some s -> nth_error (p_vars src) i = Some (vof src s).
Proof using W Hconv.
  intro H. destruct (vof_spec src conv F Hconv s (nth_error_In _ _ H)) as (i' & _ & _ & E1 & E2 & _).
  assert (nth_error names i' = Some s) as H'. { unfold names, var_names. rewrite nth_error_map, E2. simpl. now rewrite E1. }
  assert (i = i') as -> by (eapply (name_inj names); [now apply prog_wf_nodup|exact H|exact H']). exact E2.
Qed.
Lemma loss_dict e d y : quad_wf e -> quad_to_dict_names names false e = Ok d -> quad_loss src (valof names' y) d = e_loss e y.
Proof using W Hconv.
  intros Wq E. apply quad_names_inv in E; [|now apply prog_wf_nodup|assumption]. unfold quad_loss, e_loss. fold names'.
  induction E as [|[[i j] w] [[s t] w'] co d ((A & B) & C) _ IH]; [reflexivity|]. cbn [fst snd] in *. subst w'. cbn [sumof]. unfold sumof in *. cbn [map fold_right fst snd].
  rewrite IH, (vof_at i s A), (vof_at j t B). reflexivity.
Qed.
Lemma bit_gap_narrow f v : narrow v -> bit_gap f v = 0%Qc.
Proof using. intro H. apply narrow_ones in H. unfold bit_gap. rewrite (ones_sum f v H). ring. Qed.
Lemma e_loss_safe e y : products_safe src e -> e_loss e y = 0%Qc.
Proof using.
  intro P. unfold e_loss. rewrite (sumof_ext _ (fun _ => 0%Qc)); [apply sumof_zero; reflexivity|]. intros [[i j] w] Hin. cbn [fst snd].
  destruct (nth_error (p_vars src) i) as [vi|] eqn:Ei; [|reflexivity]. destruct (nth_error (p_vars src) j) as [vj|] eqn:Ej; [|reflexivity].
  unfold lbc. destruct (is_int vi) eqn:Ti, (is_int vj) eqn:Tj; rewrite ?(bit_gap_kept _ _ Ti), ?(bit_gap_kept _ _ Tj); try ring.
  destruct (P i j w vi vj Hin Ei Ej) as [P1 P2]; [unfold is_int in Ti; now destruct (v_type vi)|unfold is_int in Tj; now destruct (v_type vj)|].
  destruct P1 as [->|P1]; destruct P2 as [->|P2]; rewrite ?(bit_gap_narrow _ _ P1), ?(bit_gap_narrow _ _ P2); ring.
Qed.
Definition lost_row (x y : list Qc) (c c' : quadcon) : Prop :=
  qc_name c' = qc_name c /\ qc_sense c' = qc_sense c /\ (qc_at c' y - qc_rhs c' = qc_at c x - qc_rhs c - e_loss (qc_quad c) y)%Qc.
Lemma lost_safe x y cs cs' : Forall (fun c => products_safe src (qc_quad c)) cs -> Forall2 (lost_row x y) cs cs' -> Forall2 (same_qrow x y) cs cs'.
Proof using.
  intros P R. induction R as [|c c' cs cs' (A & B & C) _ IH]; constructor; inversion P; subst; auto. split; [exact A|]. split; [exact B|]. rewrite C, e_loss_safe by assumption. ring.
Qed.

Definition tracks (dst : qp) : Prop := idx_exact dst /\ p_vars dst = flat_map block (p_vars src).
Lemma tracks_names dst : tracks dst -> var_names dst = names'.
Proof using. intros [_ V]. unfold var_names. rewrite V. apply blocks_names. Qed.

Lemma i2b_lincon_spec dst c q : tracks dst -> lc_name c <> EmptyString -> lin_wf (lc_lin c) -> i2b_lincon src conv dst c = Ok q ->
  exists c', q = add_lc dst c' /\ tracks q /\ (forall y, length y = length names' -> same_row (decoded y) y c c') /\
  (int_lin (lc_lin c) -> integral (lc_rhs c) -> Forall (fun v => Forall (fun b => integral (snd b)) (xp v) /\ integral (lbc v)) (p_vars src) ->
     int_lin (lc_lin c') /\ integral (lc_rhs c')).
Proof using W Hconv ND.
  intros T Hn Wl H. unfold i2b_lincon in H. apply bind_ok in H. destruct H as (d & Hd & H).
  apply lin_names_dict in Hd; [|now apply prog_wf_nodup|assumption]. destruct Hd as [D Vals]. pose proof D as (N & I & V).
  rewrite (i2b_linear_spec src conv F Hconv ND d N I) in H. cbn [bind fst snd] in H.
  apply linear_constraint_inv in H; auto. destruct H as (c' & e & E1 & E2 & -> & Fr). injection E1 as <-.
  destruct (names_exact dst (proj1 T)) as [X2 X3].
  destruct (lin_make_named _ _ X2 X3 _ _ (lin_image_nodup src conv F Hconv ND d N I) E2) as (We & De & (_ & _ & Ve) & Tr).
  eexists. split; [reflexivity|]. split; [|split].
  - split; [apply add_lc_exact; auto; apply T|apply T].
  - intros y Ly. split; [reflexivity|]. split; [reflexivity|]. unfold lc_at. cbn [lc_lin lc_rhs]. rewrite (tracks_names dst T) in Ve. rewrite Ve by exact Ly.
    rewrite <- (lin_value _ _ y D). ring.
  - intros A B C. cbn [lc_lin lc_rhs]. assert (Forall (fun kv => integral (snd kv)) d) as Id by (eapply Forall_snd; [symmetry; exact Vals|exact A]). split.
    + apply (Tr integral). eapply (lin_image_integral src conv F Hconv); eauto. eapply Forall_impl; [|exact C]. simpl. tauto.
    + apply integral_sub; auto. apply sumof_integral. intros [s w] Hin. simpl. apply integral_mul.
      * rewrite Forall_forall in Id. apply (Id _ Hin).
      * rewrite Forall_forall in C. apply C. destruct (vof_spec src conv F Hconv s (I _ _ Hin)) as (i & _ & _ & _ & _ & K & _). exact K.
Qed.
Lemma i2b_quadcon_spec dst c q : tracks dst -> qc_name c <> EmptyString -> lin_wf (qc_lin c) -> quad_wf (qc_quad c) ->
  i2b_quadcon src conv dst c = Ok q ->
  exists c', q = add_qc dst c' /\ tracks q /\ (forall y, length y = length names' -> lost_row (decoded y) y c c').
Proof using W Hconv ND.
  intros T Hn Wl Wq H. unfold i2b_quadcon in H. apply bind_ok in H. destruct H as (d & Hd & H).
  apply lin_names_dict in Hd; [|now apply prog_wf_nodup|assumption]. destruct Hd as [D Vals]. pose proof D as (N & I & V).
  rewrite (i2b_linear_spec src conv F Hconv ND d N I) in H. cbn [bind fst snd] in H.
  apply bind_ok in H. destruct H as (d2 & Hd2 & H). pose proof (fun y => loss_dict _ _ y Wq Hd2) as Lo.
  apply quad_names_dict in Hd2; [|now apply prog_wf_nodup|assumption]. destruct Hd2 as [D2 _]. pose proof D2 as (N2 & I2 & V2).
  apply bind_ok in H. destruct H as (r & Hr & H). destruct (i2b_quadratic_spec src conv F Hconv ND d2 r N2 I2 Hr) as (l & k & -> & Nl & Kl & Vl).
  apply quadratic_constraint_inv in H; auto. destruct H as (c' & e & e2 & E1 & E2 & E3 & -> & Fr). injection E1 as <-.
  destruct (names_exact dst (proj1 T)) as [X2 X3].
  destruct (lin_make_named _ _ X2 X3 _ _ (merge_linear_nodup _ l (lin_image_nodup src conv F Hconv ND d N I)) E2) as (We & De & (_ & _ & Ve) & Tr).
  destruct (quad_make_named _ _ X2 X3 _ _ (quad_image_nodup src conv F Hconv ND d2 N2 I2) E3) as (We2 & De2 & (_ & _ & Ve2)).
  eexists. split; [reflexivity|]. split.
  - split; [apply add_qc_exact; auto; apply T|apply T].
  - intros y Ly. split; [reflexivity|]. split; [reflexivity|]. unfold qc_at. cbn [qc_lin qc_quad qc_rhs]. rewrite (tracks_names dst T) in Ve, Ve2.
    rewrite Ve, Ve2 by exact Ly. rewrite merge_linear_dsum. specialize (Vl (valof names' y)).
    rewrite <- (lin_value _ _ y D), <- (quad_value _ _ y D2), <- (Lo y).
    match type of Vl with (?a + ?b = _ - ?l)%Qc => assert (a + b + l = quad_rest src (valof names' y) d2)%Qc as <- by (rewrite Vl; ring) end. ring.
Qed.
Lemma i2b_substitute_spec dst0 q : tracks dst0 -> p_lcs dst0 = [] -> p_qcs dst0 = [] ->
  i2b_substitute src conv dst0 = Ok q ->
  tracks q /\ o_sense (p_obj q) = o_sense (p_obj src) /\
  (forall y, length y = length names' -> obj_at (p_obj q) y = obj_at (p_obj src) (decoded y) - e_loss (o_quad (p_obj src)) y)%Qc /\
  (forall y, length y = length names' -> Forall2 (same_row (decoded y) y) (p_lcs src) (p_lcs q)) /\
  (forall y, length y = length names' -> Forall2 (lost_row (decoded y) y) (p_qcs src) (p_qcs q)) /\
  (int_rows src -> Forall (fun v => Forall (fun b => integral (snd b)) (xp v) /\ integral (lbc v)) (p_vars src) -> int_rows q).
Proof using W Hconv ND.
  intros T Zl Zq H. pose proof W as (_ & _ & _ & _ & (Wo1 & Wo2 & Wl & Wqs) & (Nl & Nq)). unfold i2b_substitute in H.
  apply bind_ok in H. destruct H as (d & Hd & H).
  apply lin_names_dict in Hd; [|now apply prog_wf_nodup|assumption]. destruct Hd as [D Vals]. pose proof D as (N & I & V).
  rewrite (i2b_linear_spec src conv F Hconv ND d N I) in H. cbn [bind fst snd] in H.
  apply bind_ok in H. destruct H as (d2 & Hd2 & H). pose proof (fun y => loss_dict _ _ y Wo2 Hd2) as Lo.
  apply quad_names_dict in Hd2; [|now apply prog_wf_nodup|assumption]. destruct Hd2 as [D2 _]. pose proof D2 as (N2 & I2 & V2).
  apply bind_ok in H. destruct H as (r & Hr & H). destruct (i2b_quadratic_spec src conv F Hconv ND d2 r N2 I2 Hr) as (l & k & -> & Nl' & Kl & Vl).
  apply bind_ok in H. destruct H as (q1 & H1 & H). apply set_objective_inv in H1. destruct H1 as (e & e2 & E2 & E3 & ->).
  destruct (names_exact dst0 (proj1 T)) as [X2 X3].
  destruct (lin_make_named _ _ X2 X3 _ _ (merge_linear_nodup _ l (lin_image_nodup src conv F Hconv ND d N I)) E2) as (We & De & (_ & _ & Ve) & Tr).
  destruct (quad_make_named _ _ X2 X3 _ _ (quad_image_nodup src conv F Hconv ND d2 N2 I2) E3) as (We2 & De2 & (_ & _ & Ve2)).
  match type of H with context [set_obj ?oo _] => set (o := oo) in * end.
  assert (forall y, length y = length names' -> obj_at o y = obj_at (p_obj src) (decoded y) - e_loss (o_quad (p_obj src)) y)%Qc as Vo.
  { intros y Ly. unfold obj_at, o. cbn [o_const o_lin o_quad]. rewrite (tracks_names dst0 T) in Ve, Ve2.
    rewrite Ve, Ve2 by exact Ly. rewrite merge_linear_dsum. specialize (Vl (valof names' y)).
    rewrite <- (lin_value _ _ y D), <- (quad_value _ _ y D2), <- (Lo y).
    match type of Vl with (?a + ?b = _ - ?l)%Qc => assert (a + b + l = quad_rest src (valof names' y) d2)%Qc as <- by (rewrite Vl; ring) end. ring. }
  apply bind_ok in H. destruct H as (q2 & H1 & H2).
  set (bi := Forall (fun v => Forall (fun b => integral (snd b)) (xp v) /\ integral (lbc v)) (p_vars src)).
  assert (forall cs dst q, Forall (fun c => lc_name c <> EmptyString) cs -> Forall (fun c => lin_wf (lc_lin c)) cs -> tracks dst -> foldM (i2b_lincon src conv) cs dst = Ok q ->
    tracks q /\ p_obj q = p_obj dst /\ p_qcs q = p_qcs dst /\ exists cs', p_lcs q = p_lcs dst ++ cs' /\
     (forall y, length y = length names' -> Forall2 (same_row (decoded y) y) cs cs') /\
     (Forall (fun c => int_lin (lc_lin c) /\ integral (lc_rhs c)) cs -> bi -> Forall (fun c => int_lin (lc_lin c) /\ integral (lc_rhs c)) cs')) as L.
  { clear -W Hconv ND names names' F. induction cs as [|c cs IH]; intros dst q Nm Wf T H; cbn [foldM] in H.
    - injection H as <-. split; auto. split; auto. split; auto. exists []. rewrite app_nil_r. split; auto.
    - apply bind_ok in H. destruct H as (d1 & H1 & H2). inversion Nm; inversion Wf; subst.
      destruct (i2b_lincon_spec dst c d1 T H3 H7 H1) as (c' & -> & T1 & R1 & I1).
      destruct (IH _ _ H4 H8 T1 H2) as (T2 & O2 & Q2 & cs' & L2 & R2 & I2). split; auto. split; [exact O2|]. split; [exact Q2|].
      exists (c' :: cs'). rewrite L2. simpl. rewrite <- app_assoc. split; [reflexivity|]. split.
      + intros y Ly. constructor; auto.
      + intros A B. inversion A as [|? ? [A1 A2] A3]; subst. constructor; auto. }
  assert (forall cs dst q, Forall (fun c => qc_name c <> EmptyString) cs -> Forall (fun c => lin_wf (qc_lin c) /\ quad_wf (qc_quad c)) cs ->
    tracks dst -> foldM (i2b_quadcon src conv) cs dst = Ok q ->
    tracks q /\ p_obj q = p_obj dst /\ p_lcs q = p_lcs dst /\ exists cs', p_qcs q = p_qcs dst ++ cs' /\
     (forall y, length y = length names' -> Forall2 (lost_row (decoded y) y) cs cs')) as Q.
  { clear -W Hconv ND names names' F. induction cs as [|c cs IH]; intros dst q Nm Wf T H; cbn [foldM] in H.
    - injection H as <-. split; auto. split; auto. split; auto. exists []. rewrite app_nil_r. split; auto.
    - apply bind_ok in H. destruct H as (d1 & H1 & H2). inversion Nm; inversion Wf; subst. destruct H7 as [W1 W2].
      destruct (i2b_quadcon_spec dst c d1 T H3 W1 W2 H1) as (c' & -> & T1 & R1).
      destruct (IH _ _ H4 H8 T1 H2) as (T2 & O2 & Q2 & cs' & L2 & R2). split; auto. split; [exact O2|]. split; [exact Q2|].
      exists (c' :: cs'). rewrite L2. simpl. rewrite <- app_assoc. split; [reflexivity|].
      intros y Ly. constructor; auto. }
  assert (tracks (set_obj o dst0)) as T0 by (destruct T as [[A1 A2 A3] A4]; split; [constructor; auto|auto]).
  destruct (L _ _ _ Nl Wl T0 H1) as (T2 & O2 & Q2 & cs' & L2 & R2 & J2).
  destruct (Q _ _ _ Nq Wqs T2 H2) as (T3 & O3 & Q3 & qs' & L3 & R3).
  cbn [set_obj p_obj p_lcs p_qcs] in *. rewrite Zl in L2. rewrite Q2, Zq in L3. simpl in L2, L3.
  split; auto. rewrite O3, O2. split; [reflexivity|]. split; auto. rewrite Q3, L2, L3. split; auto. split; auto.
  intros A B. unfold int_rows. rewrite Q3, L2. now apply J2.
Qed.

Lemma i2b_interpret_spec dst y : tracks dst -> length y = length names' -> i2b_interpret src conv dst y = Ok (decoded y).
Proof using W Hconv ND.
  intros T Ly. unfold i2b_interpret. rewrite (tracks_names dst T), solution_dict_ok by assumption. cbn [bind].
  assert (forall l k, (forall j v, nth_error l j = Some v -> nth_error (p_vars src) (k + j) = Some v) ->
    mapM (i2b_value conv (combine names' y)) (combine (seq k (length l)) l) = Ok (map (dec names' y) l)) as G.
  { induction l as [|v l IH]; intros k Hk; cbn [length seq combine mapM map]; [reflexivity|].
    pose proof (Hk 0 v eq_refl) as H0. rewrite Nat.add_0_r in H0.
    assert (i2b_value conv (combine names' y) (k, v) = Ok (dec names' y v)) as E.
    { unfold i2b_value. cbn [fst snd]. rewrite (Hconv k v H0). apply nth_error_In in H0.
      assert (forall z, In z (map fst (xp v)) -> In z names') as Hin by (intros z Hz; apply in_flat_map; eauto).
      unfold dec, xp, lbc in *. destruct (is_int v).
      - assert (forall bs a0, (forall z, In z (map fst bs) -> In z names') ->
          foldM (fun s b => do a <- sol_get (combine names' y) (fst b); Ok (s + a * snd b)%Qc) bs a0 = Ok (a0 + dsum (valof names' y) bs)%Qc) as G.
        { clear -Ly. induction bs as [|b bs IH]; intros a0 Hb; cbn [foldM]; [rewrite dsum_nil; f_equal; ring|].
          rewrite sol_get_ok by (auto; apply Hb; simpl; auto). cbn [bind]. rewrite IH by (intros; apply Hb; simpl; auto). destruct b as [z c]. rewrite dsum_cons. f_equal. simpl. ring. }
        rewrite G by assumption. cbn [bind]. f_equal. ring.
      - rewrite sol_get_ok by (auto; apply Hin; simpl; auto). f_equal. rewrite dsum_cons, dsum_nil. ring. }
    rewrite E. cbn [bind]. rewrite (IH (S k)); [reflexivity|]. intros j w Hw. rewrite Nat.add_succ_comm. now apply Hk. }
  apply (G (p_vars src) 0). auto.
Qed.
End Rows.

(** ** The points before and after *)
Lemma dsum_own (d : list (string * Qc)) y : NoDup (map fst d) -> length y = length d -> dsum (valof (map fst d) y) d = enc_sum y (map snd d).
Proof.
  revert y. induction d as [|[z c] d IH]; intros [|a y] N L; simpl in L; try lia; [reflexivity|]. cbn [map fst snd] in *. inversion N; subst.
  rewrite dsum_cons. change (z :: map fst d) with ([z] ++ map fst d). change (a :: y) with ([a] ++ y).
  rewrite (valof_app_l [z] [a]) by (simpl; auto). rewrite valof_one.
  rewrite (dsum_ext _ (valof (map fst d) y)).
  - rewrite IH by (auto; lia). unfold enc_sum. simpl. ring.
  - intros k v Hin. apply valof_app_r; [reflexivity|]. intros [->|[]]. apply H1. change k with (fst (k, v)). now apply in_map.
Qed.
Lemma block_length v : length (block v) = length (xp v).
Proof. unfold block, xp. destruct (is_int v); [now rewrite map_length|reflexivity]. Qed.
Lemma NoDup_app_parts {A} (u v : list A) : NoDup (u ++ v) -> NoDup u /\ NoDup v /\ (forall z, In z u -> ~ In z v).
Proof.
  induction u as [|h u IH]; simpl; intro N; [split; [constructor|split; auto]|]. inversion N; subst. destruct (IH H2) as (A1 & A2 & A3).
  split; [constructor; auto; intro; apply H1, in_app_iff; auto|]. split; auto. intros z [->|Hz] Hv; [apply H1, in_app_iff; auto|]. now apply (A3 z).
Qed.
Lemma dec_split v l y1 y2 : NoDup (xp_names (v :: l)) -> length y1 = length (xp v) ->
  map (dec (xp_names (v :: l)) (y1 ++ y2)) (v :: l) = (enc_sum y1 (map snd (xp v)) + lbc v)%Qc :: map (dec (xp_names l) y2) l.
Proof.
  intros N L. unfold xp_names in *. cbn [flat_map map] in *. apply NoDup_app_parts in N. destruct N as (N1 & N2 & N3).
  f_equal.
  - unfold dec. f_equal. rewrite <- dsum_own by auto. apply dsum_ext. intros k w Hin. apply valof_app_l; [now rewrite map_length|]. change k with (fst (k, w)). now apply in_map.
  - apply map_ext_in. intros w Hw. unfold dec. f_equal. apply dsum_ext. intros k c Hin. apply valof_app_r; [now rewrite map_length|].
    intro Hk. apply (N3 k Hk). apply in_flat_map. exists w. split; auto. change k with (fst (k, c)). now apply in_map.
Qed.

Definition enc_ok (v : variable) : Prop := is_int v = true -> convert_var (v_name v) (v_lb v) (v_ub v) = Ok (bits_of v).
Lemma enc_ok_exact v : enc_ok v -> is_int v = true -> (v_lb v <= v_ub v)%Qc -> integral (v_lb v) -> integral (v_ub v) ->
  (forall bs, length bs = length (bits_of v) -> Forall bit bs ->
     let a := (enc_sum bs (map snd (bits_of v)) + v_lb v)%Qc in integral a /\ (v_lb v <= a)%Qc /\ (a <= v_ub v)%Qc) /\
  (forall a, integral a -> (v_lb v <= a)%Qc -> (a <= v_ub v)%Qc ->
     exists bs, length bs = length (bits_of v) /\ Forall bit bs /\ (enc_sum bs (map snd (bits_of v)) + v_lb v)%Qc = a) /\
  Forall integral (map snd (bits_of v)).
Proof.
  intros E I L [lb Hl] [ub Hu]. specialize (E I). rewrite Hl, Hu in *.
  assert (lb < ub)%Z as Lt.
  { apply (proj1 (qz_le _ _)) in L. destruct (Z.eq_dec lb ub) as [->|]; [|lia]. exfalso.
    unfold convert_var in E. replace (qz ub - qz ub)%Qc with 0%Qc in E by ring. unfold int_log2 in E.
    destruct (qltb_spec 0 0); discriminate. }
  destruct (convert_var_exact (v_name v) lb ub Lt) as (bits & A & B & C & D). rewrite E in A. injection A as A. rewrite <- A in *. auto.
Qed.

Lemma bits_typed bits bs : Forall2 has_type (map (fun b : string * Qc => mkVar (fst b) 0 1 BINARY) bits) bs -> Forall bit bs.
Proof. rewrite Forall2_map_l. induction 1; constructor; auto. Qed.
Lemma bits_fit bits bs : length bs = length bits -> Forall bit bs ->
  Forall2 has_type (map (fun b : string * Qc => mkVar (fst b) 0 1 BINARY) bits) bs /\ Forall2 in_range (map (fun b : string * Qc => mkVar (fst b) 0 1 BINARY) bits) bs.
Proof.
  rewrite !Forall2_map_l. revert bits. induction bs as [|b bs IH]; intros [|c bits] L B; simpl in L; try lia; [split; constructor|].
  inversion B; subst. destruct (IH bits) as [I1 I2]; auto. split; constructor; auto. unfold in_range. simpl. destruct H1 as [-> | ->]; split; qlra.
Qed.

Definition var_ok (v : variable) : Prop :=
  enc_ok v /\ (v_lb v <= v_ub v)%Qc /\ (v_type v = INTEGER -> integral (v_lb v) /\ integral (v_ub v)).
Lemma decode_fits l : Forall var_ok l -> Forall (fun v => v_type v = BINARY -> (v_lb v <= 0)%Qc /\ (1 <= v_ub v)%Qc) l -> NoDup (xp_names l) ->
  forall y, Forall2 in_range (flat_map block l) y -> Forall2 has_type (flat_map block l) y ->
  Forall2 in_range l (map (dec (xp_names l) y) l) /\ Forall2 has_type l (map (dec (xp_names l) y) l).
Proof.
  induction l as [|v l IH]; intros V O N y R T; [split; constructor|].
  cbn [flat_map] in R, T. apply Forall2_app_inv_l in R. destruct R as (y1 & y2 & R1 & R2 & ->). 
  apply Forall2_app_inv_l in T. destruct T as (z1 & z2 & T1 & T2 & E).
  apply app_inj_length in E; [|apply Forall2_length in R1, T1; congruence]. destruct E as [<- <-].
  assert (length y1 = length (xp v)) as L by (apply Forall2_length in R1; now rewrite <- R1, block_length).
  rewrite dec_split by auto. inversion V as [|? ? V1 V2]; inversion O as [|? ? O1 O2]; subst. destruct V1 as (V1 & V3 & V4).
  destruct (IH V2 O2) with (y := y2) as [I1 I2]; auto. { apply (NoDup_app_parts _ _ N). }
  enough (in_range v (enc_sum y1 (map snd (xp v)) + lbc v)%Qc /\ has_type v (enc_sum y1 (map snd (xp v)) + lbc v)%Qc) as [A B] by (split; constructor; auto).
  unfold xp, lbc, block in *. destruct (is_int v) eqn:Ei.
  - assert (v_type v = INTEGER) as Ty by (unfold is_int in Ei; destruct (v_type v); congruence). destruct (V4 Ty).
    destruct (enc_ok_exact v V1 Ei V3) as (X & _); auto. destruct (X y1) as (Y1 & Y2 & Y3); auto; [eapply bits_typed; eauto|].
    split; [split; auto|]. unfold has_type. now rewrite Ty.
  - inversion R1 as [|? b ? ? Q1 Q2]; subst. inversion Q2; subst. inversion T1 as [|? ? ? ? U1 U2]; subst.
    unfold enc_sum. simpl. replace (b * 1 + 0 + 0)%Qc with b by ring.
    assert (has_type v b) as U by (unfold has_type in *; now rewrite copyv_type in U1). split; [|exact U].
    unfold copyv, in_range in *. destruct (v_type v); auto. simpl in *. destruct O1; auto. split; qlra.
Qed.
Lemma encode_fits l : Forall var_ok l -> NoDup (xp_names l) ->
  forall x, Forall2 in_range l x -> Forall2 has_type l x ->
  exists y, Forall2 in_range (flat_map block l) y /\ Forall2 has_type (flat_map block l) y /\ map (dec (xp_names l) y) l = x.
Proof.
  induction l as [|v l IH]; intros V N x R T.
  - inversion R; subst. exists []. split; [constructor|split; constructor].
  - inversion R as [|? a ? x' R1 R2]; subst. inversion T as [|? ? ? ? T1 T2]; subst. inversion V as [|? ? V1 V2]; subst. destruct V1 as (V1 & V3 & V4).
    destruct (IH V2 (proj1 (proj2 (NoDup_app_parts _ _ N))) x' R2 T2) as (y2 & Y1 & Y2 & Y3).
    assert (exists y1, Forall2 in_range (block v) y1 /\ Forall2 has_type (block v) y1 /\ (enc_sum y1 (map snd (xp v)) + lbc v)%Qc = a) as (y1 & Z1 & Z2 & Z3).
    { unfold block, xp, lbc. destruct (is_int v) eqn:Ei.
      - assert (v_type v = INTEGER) as Ty by (unfold is_int in Ei; destruct (v_type v); congruence). destruct (V4 Ty).
        destruct (enc_ok_exact v V1 Ei V3) as (_ & X & _); auto. unfold has_type in T1. rewrite Ty in T1. destruct R1 as [R1 R3].
        destruct (X a) as (bs & B1 & B2 & B3); auto. exists bs. destruct (bits_fit _ _ B1 B2). auto.
      - exists [a]. split; [|split; [|unfold enc_sum; simpl; ring]]; (constructor; [|constructor]).
        + unfold copyv, in_range, has_type in *. destruct (v_type v); auto. simpl. destruct T1 as [-> | ->]; split; qlra.
        + unfold has_type in *. now rewrite copyv_type. }
    exists (y1 ++ y2). split; [|split].
    + cbn [flat_map]. now apply Forall2_app.
    + cbn [flat_map]. now apply Forall2_app.
    + rewrite dec_split; auto; [now rewrite Y3, Z3|]. apply Forall2_length in Z1. now rewrite <- Z1, block_length.
Qed.

(** ** The conversion as a whole *)
Lemma i2b_substitute_tracks p conv dst0 q : Forall (fun c => lc_name c <> EmptyString) (p_lcs p) -> Forall (fun c => qc_name c <> EmptyString) (p_qcs p) ->
  tracks p dst0 -> i2b_substitute p conv dst0 = Ok q -> tracks p q.
Proof.
  intros N1 N2 T H. unfold i2b_substitute in H.
  apply bind_ok in H. destruct H as (d & _ & H). apply bind_ok in H. destruct H as (l & _ & H). apply bind_ok in H. destruct H as (d2 & _ & H).
  apply bind_ok in H. destruct H as ([[qq ql] qc] & _ & H). apply bind_ok in H. destruct H as (q1 & H1 & H). apply bind_ok in H. destruct H as (q2 & H2 & H).
  apply set_objective_inv in H1. destruct H1 as (e & e2 & _ & _ & ->).
  assert (forall cs d d', Forall (fun c => lc_name c <> EmptyString) cs -> tracks p d -> foldM (i2b_lincon p conv) cs d = Ok d' -> tracks p d') as L.
  { clear. induction cs as [|c cs IH]; intros d d' N T H; cbn [foldM] in H; [now injection H as <-|]. inversion N as [|? ? N1 N2]; subst.
    apply bind_ok in H. destruct H as (d1 & H1 & H2). eapply IH; [eassumption| |exact H2]. unfold i2b_lincon in H1.
    apply bind_ok in H1. destruct H1 as (a & _ & H1). apply bind_ok in H1. destruct H1 as (b & _ & H1).
    apply linear_constraint_inv in H1; auto. destruct H1 as (c' & e & _ & _ & -> & Fr). split; [apply add_lc_exact; auto; apply T|apply T]. }
  assert (forall cs d d', Forall (fun c => qc_name c <> EmptyString) cs -> tracks p d -> foldM (i2b_quadcon p conv) cs d = Ok d' -> tracks p d') as Q.
  { clear. induction cs as [|c cs IH]; intros d d' N T H; cbn [foldM] in H; [now injection H as <-|]. inversion N as [|? ? N1 N2]; subst.
    apply bind_ok in H. destruct H as (d1 & H1 & H2). eapply IH; [eassumption| |exact H2]. unfold i2b_quadcon in H1.
    apply bind_ok in H1. destruct H1 as (a & _ & H1). apply bind_ok in H1. destruct H1 as (b & _ & H1). apply bind_ok in H1. destruct H1 as (a2 & _ & H1).
    apply bind_ok in H1. destruct H1 as ([[? ?] ?] & _ & H1).
    apply quadratic_constraint_inv in H1; auto. destruct H1 as (c' & e & e2 & _ & _ & _ & -> & Fr). split; [apply add_qc_exact; auto; apply T|apply T]. }
  eapply Q; [exact N2| |exact H]. eapply L; [exact N1| |exact H2]. destruct T as [[A1 A2 A3] A4]. split; [constructor; auto|auto].
Qed.
Definition conv_of (tbl : conv_table) (i : nat) : option (list (string * Qc)) := dget Nat.eqb i tbl.
Lemma no_integer p : count_type INTEGER p = 0 -> Forall (fun v => is_int v = false) (p_vars p).
Proof.
  unfold count_type. intro H. apply Forall_forall. intros v Hin. destruct (is_int v) eqn:E; auto. exfalso.
  assert (In v (filter (fun v => vartype_eqb (v_type v) INTEGER) (p_vars p))) as K.
  { apply filter_In. split; [assumption|]. unfold is_int in E. destruct (v_type v); try discriminate; reflexivity. }
  destruct (filter (fun v => vartype_eqb (v_type v) INTEGER) (p_vars p)); [contradiction|discriminate].
Qed.
Record i2b_inv (p q : qp) (tbl : conv_table) : Prop := {
  ib_conv : forall i v, nth_error (p_vars p) i = Some v -> conv_of tbl i = if is_int v then Some (bits_of v) else None;
  ib_nodup : NoDup (xp_names (p_vars p));
  ib_tracks : tracks p q;
  ib_enc : Forall enc_ok (p_vars p);
  ib_exact : o_sense (p_obj q) = o_sense (p_obj p) /\
    (forall y, length y = num_vars q -> obj_at (p_obj q) y = obj_at (p_obj p) (decoded p y) - e_loss p (o_quad (p_obj p)) y)%Qc /\
    (forall y, length y = num_vars q -> Forall2 (same_row (decoded p y) y) (p_lcs p) (p_lcs q)) /\
    (forall y, length y = num_vars q -> Forall2 (lost_row p (decoded p y) y) (p_qcs p) (p_qcs q)) /\
    (int_rows p -> int_bounds p -> int_rows q) }.
Lemma ib_safe p q tbl (I : i2b_inv p q tbl) : products_safe p (o_quad (p_obj p)) -> Forall (fun c => products_safe p (qc_quad c)) (p_qcs p) ->
    o_sense (p_obj q) = o_sense (p_obj p) /\
    (forall y, length y = num_vars q -> obj_at (p_obj q) y = obj_at (p_obj p) (decoded p y)) /\
    (forall y, length y = num_vars q -> Forall2 (same_row (decoded p y) y) (p_lcs p) (p_lcs q)) /\
    (forall y, length y = num_vars q -> Forall2 (same_qrow (decoded p y) y) (p_qcs p) (p_qcs q)) /\
    (int_rows p -> int_bounds p -> int_rows q).
Proof.
  intros P Pq. destruct (ib_exact _ _ _ I) as (A & B & C & D & E). split; [exact A|]. split; [|split; [exact C|split; [|exact E]]].
  - intros y L. rewrite (B y L), e_loss_safe by exact P. ring.
  - intros y L. exact (lost_safe p _ _ _ _ Pq (D y L)).
Qed.
Lemma tracks_length p q : tracks p q -> num_vars q = length (xp_names (p_vars p)).
Proof. intro T. rewrite <- (tracks_names p q T). symmetry. apply names_length. Qed.
Lemma int_to_bin_inv p q tbl : prog_wf p -> int_to_bin p = Ok (q, tbl) -> 
  (q = p /\ tbl = [] /\ Forall (fun v => is_int v = false) (p_vars p)) \/ i2b_inv p q tbl.
Proof.
  intros W H. unfold int_to_bin in H. destruct (Nat.ltb_spec 0 (count_type INTEGER p)) as [C|C].
  - right. apply bind_ok in H. destruct H as ([dst0 t0] & H1 & H). apply bind_ok in H. destruct H as (q' & H2 & H). cbn [fst snd] in *. injection H as -> ->.
    unfold num_vars in H1. apply declare_inv in H1; [|apply idx_exact_new|reflexivity].
    destruct H1 as (A1 & A2 & A3 & A4 & A5 & A6 & _ & A8 & _). cbn [fst snd new_qp p_vars p_lcs p_qcs] in *. simpl in A2.
    assert (tracks p dst0) as T by (split; assumption).
    assert (NoDup (xp_names (p_vars p))) as ND.
    { rewrite <- (tracks_names p dst0 T). eapply index_finds_nodup, index_exact_finds, A1. }
    assert (forall i v, nth_error (p_vars p) i = Some v -> conv_of tbl i = if is_int v then Some (bits_of v) else None) as Hc by (intros i v Hv; exact (A6 i v Hv)).
    assert (tracks p q) as Tq by (destruct W as (_ & _ & _ & _ & _ & N1 & N2); eapply i2b_substitute_tracks; eauto).
    constructor; auto.
    rewrite (tracks_length p q Tq).
    destruct (i2b_substitute_spec p (conv_of tbl) W Hc ND dst0 q T A3 A4 H2) as (B1 & B2 & B3 & B4 & B5 & B6).
    split; auto. split; auto. split; auto. split; auto. intros IR IB. apply B6; auto.
    unfold int_bounds in IB. rewrite Forall_forall in *. intros v Hv. destruct W as (_ & _ & _ & Bd & _). unfold bounds_ok in Bd. rewrite Forall_forall in Bd.
    unfold xp, lbc. destruct (is_int v) eqn:Ei.
    + assert (v_type v = INTEGER) as Ty by (unfold is_int in Ei; destruct (v_type v); congruence). destruct (IB v Hv Ty).
      destruct (enc_ok_exact v (A8 v Hv) Ei (Bd v Hv)) as (_ & _ & K); auto. split; auto. rewrite Forall_map in K. exact K.
    + split; [constructor; [apply integral_1|constructor]|apply integral_0].
  - left. injection H as -> ->. split; auto. split; auto. apply no_integer. lia.
Qed.

Definition safe (p : qp) : Prop := products_safe p (o_quad (p_obj p)) /\ Forall (fun c => products_safe p (qc_quad c)) (p_qcs p).
Lemma same_row_refl x l : Forall2 (same_row x x) l l.
Proof. induction l; constructor; auto. split; auto. Qed.
Lemma same_qrow_refl x l : Forall2 (same_qrow x x) l l.
Proof. induction l; constructor; auto. split; auto. Qed.

Section Convert.
Variables (p q : qp) (tbl : conv_table).
Hypothesis W : prog_wf p.
Hypothesis H : int_to_bin p = Ok (q, tbl).
Lemma i2b_id_interpret y : Forall (fun v => is_int v = false) (p_vars p) -> length y = num_vars p ->
  i2b_interpret p (conv_of []) p y = Ok y.
Proof using W.
  intros F L. unfold i2b_interpret. rewrite solution_dict_ok; [|now apply prog_wf_nodup|now rewrite names_length]. cbn [bind].
  assert (forall l k, (forall v, In v l -> In (v_name v) (var_names p)) ->
     mapM (i2b_value (conv_of []) (combine (var_names p) y)) (combine (seq k (length l)) l) = Ok (map (fun v => valof (var_names p) y (v_name v)) l)) as G.
  { induction l as [|v l IH]; intros k Hl; cbn [length seq combine mapM map]; [reflexivity|].
    unfold i2b_value at 1. cbn [conv_of dget fst snd]. rewrite sol_get_ok by (try (rewrite names_length); auto; apply Hl; now left). cbn [bind].
    rewrite IH by (intros; apply Hl; now right). reflexivity. }
  unfold num_vars. rewrite G by (intros v Hv; now apply in_map). f_equal.
  rewrite <- (map_map v_name (valof (var_names p) y)). apply map_valof; [now apply prog_wf_nodup|rewrite map_length; exact L].
Qed.
Lemma i2b_interpret_ok y : length y = num_vars q -> exists x, i2b_interpret p (conv_of tbl) q y = Ok x /\ length x = num_vars p.
Proof using W H.
  intro L. destruct (int_to_bin_inv p q tbl W H) as [(-> & -> & F)|I].
  - exists y. split; auto. now apply i2b_id_interpret.
  - exists (decoded p y). split; [|apply decoded_length]. apply i2b_interpret_spec; try apply I; auto. rewrite L. now apply tracks_length, I.
Qed.
Lemma i2b_decode y x : safe p -> length y = num_vars q -> i2b_interpret p (conv_of tbl) q y = Ok x ->
  o_sense (p_obj q) = o_sense (p_obj p) /\ obj_at (p_obj q) y = obj_at (p_obj p) x /\
  Forall2 (same_row x y) (p_lcs p) (p_lcs q) /\ Forall2 (same_qrow x y) (p_qcs p) (p_qcs q).
Proof using W H.
  intros [P Pq] L E. destruct (int_to_bin_inv p q tbl W H) as [(-> & -> & F)|I].
  - rewrite i2b_id_interpret in E by auto. injection E as <-. split; auto. split; auto. split; [apply same_row_refl|apply same_qrow_refl].
  - rewrite (i2b_interpret_spec p (conv_of tbl) W) in E; [|apply I|apply I|apply I|rewrite L; now apply tracks_length, I]. injection E as <-.
    destruct (ib_safe _ _ _ I P Pq) as (A & B & C & D & _). auto.
Qed.
Lemma i2b_vars_ok : int_bounds p -> (exists i : i2b_inv p q tbl, True) -> Forall var_ok (p_vars p).
Proof using W.
  intros IB [I _]. destruct W as (_ & _ & _ & Bd & _). unfold bounds_ok in Bd. pose proof (ib_enc _ _ _ I) as E. unfold int_bounds in IB.
  rewrite Forall_forall in *. intros v Hv. split; [auto|split; auto].
Qed.
Lemma i2b_decode_fits y x : int_bounds p -> binary_open p -> in_bounds q y -> typed q y -> i2b_interpret p (conv_of tbl) q y = Ok x ->
  in_bounds p x /\ typed p x.
Proof using W H.
  intros IB O B T E. pose proof (Forall2_length _ _ _ B) as L. change (num_vars q = length y) in L.
  destruct (int_to_bin_inv p q tbl W H) as [(-> & -> & F)|I].
  - rewrite i2b_id_interpret in E by auto. injection E as <-. auto.
  - rewrite (i2b_interpret_spec p (conv_of tbl) W) in E; [|apply I|apply I|apply I|rewrite <- L; now apply tracks_length, I]. injection E as <-.
    unfold in_bounds, typed in *. destruct (ib_tracks _ _ _ I) as [_ V]. rewrite V in B, T. apply decode_fits; auto; [|apply I].
    apply i2b_vars_ok; eauto.
Qed.
Lemma i2b_encode x : int_bounds p -> in_bounds p x -> typed p x ->
  exists y, in_bounds q y /\ typed q y /\ i2b_interpret p (conv_of tbl) q y = Ok x.
Proof using W H.
  intros IB B T. destruct (int_to_bin_inv p q tbl W H) as [(-> & -> & F)|I].
  - exists x. split; auto. split; auto. apply i2b_id_interpret; auto. symmetry. exact (Forall2_length _ _ _ B).
  - assert (Forall var_ok (p_vars p)) as V by (apply i2b_vars_ok; eauto).
    destruct (encode_fits (p_vars p) V (ib_nodup _ _ _ I) x B T) as (y & Y1 & Y2 & Y3). destruct (ib_tracks _ _ _ I) as [_ Vq].
    exists y. unfold in_bounds, typed. rewrite Vq. split; auto. split; auto. 
    rewrite (i2b_interpret_spec p (conv_of tbl) W); [|apply I|apply I|apply I|].
    + f_equal. exact Y3.
    + rewrite <- (tracks_length p q (ib_tracks _ _ _ I)). unfold num_vars. rewrite Vq. symmetry. exact (Forall2_length _ _ _ Y1).
Qed.
Lemma i2b_no_integer : Forall (fun v => v_type v <> INTEGER) (p_vars q) /\ (discrete p -> Forall (fun v => v_type v = BINARY) (p_vars q)).
Proof using W H.
  destruct (int_to_bin_inv p q tbl W H) as [(-> & -> & F)|I].
  - split; [|intro D; unfold discrete in D]; rewrite Forall_forall in *; intros v Hv; specialize (F v Hv); unfold is_int in F; [|specialize (D v Hv)]; destruct (v_type v); congruence.
  - destruct (ib_tracks _ _ _ I) as [_ V]. rewrite V. split; [|intro D; unfold discrete in D; rewrite Forall_forall in D]; apply Forall_flat_map, Forall_forall; intros v Hv.
    + unfold block. destruct (is_int v) eqn:Ei; [apply Forall_map, Forall_forall; intros b _; discriminate|].
      constructor; [|constructor]. rewrite copyv_type. unfold is_int in Ei. destruct (v_type v); congruence.
    + unfold block. destruct (is_int v) eqn:Ei; [apply Forall_map, Forall_forall; reflexivity|].
      constructor; [|constructor]. rewrite copyv_type. specialize (D v Hv). unfold is_int in Ei. destruct (v_type v); congruence.
Qed.
Lemma i2b_int_rows : safe p -> int_rows p -> int_bounds p -> int_rows q.
Proof using W H.
  intros [P Pq] IR IB. destruct (int_to_bin_inv p q tbl W H) as [(-> & -> & F)|I]; auto. apply (ib_safe _ _ _ I P Pq); auto.
Qed.

(** Feasible points correspond. *)
Lemma same_row_holds x y cs cs' : Forall2 (same_row x y) cs cs' ->
  (Forall (fun c => holds (lc_sense c) (lc_at c x) (lc_rhs c)) cs <-> Forall (fun c => holds (lc_sense c) (lc_at c y) (lc_rhs c)) cs').
Proof using.
  induction 1 as [|c c' cs cs' (R1 & R2 & R3) F IH]; [split; constructor|]. rewrite !Forall_cons_iff, IH, R2.
  enough (holds (lc_sense c) (lc_at c x) (lc_rhs c) <-> holds (lc_sense c) (lc_at c' y) (lc_rhs c')) by tauto.
  unfold holds. destruct (lc_sense c); split; intro; qlra.
Qed.
Lemma same_qrow_holds x y cs cs' : Forall2 (same_qrow x y) cs cs' ->
  (Forall (fun c => holds (qc_sense c) (qc_at c x) (qc_rhs c)) cs <-> Forall (fun c => holds (qc_sense c) (qc_at c y) (qc_rhs c)) cs').
Proof using.
  induction 1 as [|c c' cs cs' (R1 & R2 & R3) F IH]; [split; constructor|]. rewrite !Forall_cons_iff, IH, R2.
  enough (holds (qc_sense c) (qc_at c x) (qc_rhs c) <-> holds (qc_sense c) (qc_at c' y) (qc_rhs c')) by tauto.
  unfold holds. destruct (qc_sense c); split; intro; qlra.
Qed.
Lemma i2b_sound y : safe p -> int_bounds p -> binary_open p -> feasible q y ->
  exists x, i2b_interpret p (conv_of tbl) q y = Ok x /\ feasible p x /\ obj_at (p_obj q) y = obj_at (p_obj p) x.
Proof using W H.
  intros S IB O (B & T & C1 & C2). destruct (i2b_interpret_ok y) as (x & E & L); [symmetry; exact (Forall2_length _ _ _ B)|].
  exists x. split; auto. destruct (i2b_decode y x S) as (_ & D2 & D3 & D4); auto; [symmetry; exact (Forall2_length _ _ _ B)|].
  destruct (i2b_decode_fits y x IB O B T E). split; auto. split; [assumption|split; [assumption|split]].
  - apply (same_row_holds _ _ _ _ D3). exact C1.
  - apply (same_qrow_holds _ _ _ _ D4). exact C2.
Qed.
Lemma i2b_complete x : safe p -> int_bounds p -> feasible p x ->
  exists y, feasible q y /\ i2b_interpret p (conv_of tbl) q y = Ok x /\ obj_at (p_obj q) y = obj_at (p_obj p) x.
Proof using W H.
  intros S IB (B & T & C1 & C2). destruct (i2b_encode x IB B T) as (y & Y1 & Y2 & Y3).
  exists y. destruct (i2b_decode y x S) as (_ & D2 & D3 & D4); auto; [symmetry; exact (Forall2_length _ _ _ Y1)|].
  split; auto. split; [assumption|split; [assumption|split]].
  - apply (same_row_holds _ _ _ _ D3). exact C1.
  - apply (same_qrow_holds _ _ _ _ D4). exact C2.
Qed.
End Convert.
