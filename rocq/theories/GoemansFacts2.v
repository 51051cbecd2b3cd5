(** * The cuts that are reported *)
From Verif Require Export GoemansFacts DocWf.
From Coq Require Import Sorted Permutation.
Local Open Scope string_scope.
Local Open Scope list_scope.
Local Open Scope nat_scope.

(** ** Hyperplanes *)
Lemma inner_above r v : inner r v = sumof (fun k => (at_ r k * at_ v k)%Qc) (seq 0 (length v)).
Proof.
  unfold inner. rewrite np_sum_map. revert v. induction r as [|a r IH]; intros [|b v]; auto.
  - symmetry. apply sumof_zero. intros k _. unfold at_. destruct k; cbn; ring.
  - cbn [combine sumof length seq]. rewrite IH, sumof_seq_shift. reflexivity.
Qed.
Lemma cut_of_by f r : cut_by f r (cut_of f r).
Proof.
  unfold cut_by, cut_of. induction f as [|v f IH]; cbn [map]; constructor; auto. unfold above. rewrite <- inner_above. destruct (qltb_spec 0 (inner r v)); auto.
Qed.
Lemma cut_by_fun f r x : cut_by f r x -> x = cut_of f r.
Proof.
  unfold cut_by, cut_of. induction 1 as [|v a f x H F IH]; auto. cbn [map]. f_equal; auto. unfold above in H. rewrite <- inner_above in H. destruct (qltb_spec 0 (inner r v)); tauto.
Qed.
Lemma cut_of_bits f r : bits (length f) (cut_of f r).
Proof. unfold cut_of. split; [apply map_length|]. apply Forall_map, Forall_forall. intros v _. destruct (qltb 0 (inner r v)); auto. Qed.
Lemma add_diag_length c m : length (add_diag c m) = length m.
Proof. unfold add_diag. rewrite map_length, combine_length, seq_length. lia. Qed.
Lemma regularised_length me chi : length (regularised me chi) = length chi.
Proof. unfold regularised. destruct (qltb _ _); [apply add_diag_length|]. destruct (qeqb _ _); [apply add_diag_length|auto]. Qed.
Lemma adjacency_length p : length (adjacency p) = qe_dim (o_quad (p_obj p)).
Proof. unfold adjacency. now rewrite map_length, seq_length. Qed.

(** ** Strings of digits *)
Lemma append_nil_r s : (s ++ "")%string = s.
Proof. induction s; cbn; congruence. Qed.
Lemma cut_str_cons a x : cut_str (a :: x) = String (if qeqb a 1 then "1" else "0")%char (cut_str x).
Proof. unfold cut_str. destruct x as [|b x]; cbn [map String.concat]; destruct (qeqb a 1); reflexivity. Qed.
Lemma cut_str_inj n x : forall y, bits n x -> bits n y -> cut_str x = cut_str y -> x = y.
Proof.
  revert n. induction x as [|a x IH]; intros n [|b y] [L B] [L' B'] E; auto; try (cbn in L, L'; lia). rewrite !cut_str_cons in E. injection E as E1 E2. inversion B; inversion B'; subst.
  f_equal; [|apply (IH (length x)); auto; split; auto; cbn in L, L'; lia].
  destruct (qeqb_spec a 1), (qeqb_spec b 1); try discriminate E1; [congruence|]. destruct H1, H5; congruence.
Qed.
Lemma flip_mirrored n x : bits n x -> flip_cut x = mirrored x.
Proof. intros [_ B]. unfold flip_cut, mirrored. apply map_ext_Forall. eapply Forall_impl; [|exact B]. intros a [->| ->]; reflexivity || (apply Qc_is_canon; reflexivity). Qed.

(** ** Dropping what was seen *)
Section Drop.
Let f := (fun (st : list string * list (list Qc * Qc)) c => let s := cut_str (fst c) in
                    if existsb (String.eqb s) (fst st) then st else (fst st ++ [s], snd st ++ [c])).
Let key (c : list Qc * Qc) := cut_str (fst c).
Variable R : list Qc * Qc -> list Qc * Qc -> Prop.
Lemma drop_fold l : forall out, let r := fold_left f l (map key out, out) in exists d, r = (map key (out ++ d), out ++ d) /\
  (forall c, In c d -> In c l) /\ (forall c, In c l -> exists c', In c' (out ++ d) /\ key c' = key c) /\ (NoDup (map key out) -> NoDup (map key (out ++ d))) /\
  (StronglySorted R (out ++ l) -> StronglySorted R (out ++ d)) /\ length d <= length l.
Proof using.
  induction l as [|c l IH]; intro out; cbv zeta.
  - exists []. rewrite app_nil_r. cbn. repeat split; auto; try easy.
  - cbn [fold_left]. destruct (existsb (String.eqb (cut_str (fst c))) (map key out)) eqn:X.
    + assert (f (map key out, out) c = (map key out, out)) as -> by (unfold f; cbn [fst]; rewrite X; reflexivity).
      destruct (IH out) as (d & E & D1 & D2 & D3 & D4 & D5). exists d. split; auto. split; [intros; right; auto|]. split.
      { intros c' [<-|Hc]; [|auto]. apply existsb_exists in X. destruct X as (s & Hs & Es). apply String.eqb_eq in Es. apply in_map_iff in Hs. destruct Hs as (c' & Ek & Hc'). exists c'. split; [apply in_or_app; now left|]. unfold key. unfold key in Ek. congruence. }
      split; auto. split; [|cbn; lia]. intro Ss. apply D4. clear -Ss. induction out as [|o out IH]; cbn [app] in *; [now inversion Ss|]. inversion Ss as [|? ? S1 F1]; subst. constructor; auto. rewrite Forall_app in *. destruct F1 as [F1 F2]. inversion F2; auto.
    + assert (f (map key out, out) c = (map key (out ++ [c]), out ++ [c])) as -> by (unfold f; cbn [fst snd]; rewrite X, map_app; reflexivity).
      destruct (IH (out ++ [c])) as (d & E & D1 & D2 & D3 & D4 & D5). exists (c :: d). rewrite <- !app_assoc in *. cbn [app] in *. split; auto.
      split. { intros c' [<-|Hc]; [now left|right; auto]. }
      split. { intros c' [<-|Hc]; [|auto]. exists c. split; auto. apply in_or_app. right. now left. }
      split. { intro N. apply D3. rewrite map_app. cbn [map]. apply NoDup_app_intro; auto.
        - constructor; [easy|constructor].
        - intros s Hs [<-|[]]. assert (existsb (String.eqb (cut_str (fst c))) (map key out) = true) as Y; [|congruence]. apply existsb_exists. exists (key c). split; auto. apply String.eqb_refl. }
      split; [|cbn; lia]. auto.
Qed.
Lemma drop_spec l : let d := drop_seen l in (forall c, In c d -> In c l) /\ (forall c, In c l -> exists c', In c' d /\ key c' = key c) /\ NoDup (map key d) /\
  (StronglySorted R l -> StronglySorted R d) /\ length d <= length l.
Proof using.
  cbv zeta. unfold drop_seen. destruct (drop_fold l []) as (d & E & D1 & D2 & D3 & D4 & D5). fold f. cbn [map app] in E. rewrite E. cbn [snd app]. cbn [app] in *. split; auto. split; auto. split; [apply D3; constructor|]. auto.
Qed.
End Drop.

(** ** solve *)
Lemma start_spec n c c' : 0 < n -> bits n (fst c) -> start_at_0 c = Ok c' -> snd c' = snd c /\ bits n (fst c') /\ at_ (fst c') 0 = 0%Qc /\ same_cut (fst c') (fst c).
Proof.
  intros P B E. unfold start_at_0 in E. destruct c as [[|v x] a]; cbn [fst snd] in *; [discriminate E|]. cbn [bind] in E. destruct (qeqb_spec v 1) as [->|N].
  - assert (c' = (flip_cut (1%Qc :: x), a)) as -> by congruence. cbn [fst snd]. assert (flip_cut (1%Qc :: x) = mirrored (1%Qc :: x)) as -> by exact (flip_mirrored n _ B). split; auto. split; [now apply mirrored_bits|]. split; [apply Qc_is_canon; reflexivity|]. now right.
  - injection E as <-. split; auto. split; auto. split; [|now left]. destruct B as [_ B]. inversion B as [|? ? [H|H] _]; subst; [reflexivity|easy].
Qed.
Lemma start_total n c : 0 < n -> bits n (fst c) -> exists c', start_at_0 c = Ok c'.
Proof. intros P [L _]. unfold start_at_0. destruct (fst c) as [|v x]; cbn in L; [lia|]. cbn [bind]. eauto. Qed.
Lemma same_sym x y : same_cut x y -> same_cut y x.
Proof. intros [->| ->]; [now left|right; now rewrite mirrored_twice]. Qed.
Lemma same_trans x y z : same_cut x y -> same_cut y z -> same_cut x z.
Proof. intros [->| ->] [->| ->]; [now left|now right|now right|left; now rewrite mirrored_twice]. Qed.

Definition by_value (a b : list Qc * Qc) : Prop := (snd b <= snd a)%Qc.
Lemma sorted_by_value l : StronglySorted by_value (sort_by (fun a b => qltb (- snd a)%Qc (- snd b)%Qc) l).
Proof.
  apply sort_sorted; unfold by_value.
  - intros a b c. intros. eapply Qcle_trans; eauto.
  - intros a b E. destruct (qltb_spec (- snd a) (- snd b)); [qlra|discriminate].
  - intros a b E. destruct (qltb_spec (- snd b) (- snd a)); [discriminate|]. qlra.
Qed.
Lemma sorted_map {A B} (R : A -> A -> Prop) (S : B -> B -> Prop) l m (P : A -> B -> Prop) : (forall a b a' b', P a a' -> P b b' -> R a b -> S a' b') -> Forall2 P l m -> StronglySorted R l -> StronglySorted S m.
Proof.
  intros H. induction 1 as [|a a' l m Pa F IH]; intro Ss; [constructor|]. inversion Ss as [|? ? S1 F1]; subst. constructor; auto. clear -H Pa F F1. revert F1. induction F as [|b b' l m Pb F IH]; intro F1; constructor; inversion F1; subst; eauto.
Qed.

Section Solve.
Variables (srt uniq : bool) (sdp : ndarray2 -> sdp_answer) (mineig : ndarray2 -> Qc) (cholesky : ndarray2 -> result ndarray2) (normal : list (list Qc)) (p : qp).
Hypothesis Sized : sized_solvers sdp cholesky.
Hypothesis Shaped : obj_shaped p.
Hypothesis Pos : 0 < num_vars p.
Let n := num_vars p.
Lemma dim_quad : qe_dim (o_quad (p_obj p)) = n.
Proof using Shaped. apply Shaped. Qed.

Lemma factor_length chi f : sdp (adjacency p) = SdpSolved chi -> cholesky (regularised mineig chi) = Ok f -> length f = n.
Proof using Sized Shaped. intros E1 E2. destruct Sized as [S1 S2]. rewrite (S2 _ _ E2), regularised_length, (S1 _ _ E1), adjacency_length. apply dim_quad. Qed.

(** The list before it becomes samples, for the factor [f] *)
Definition reported (f : ndarray2) : result (list (list Qc * Qc)) :=
  let sols := map (fun c => (c, max_cut_value c (adjacency p))) (map (cut_of f) normal) in
  let sols := if srt then sort_by (fun a b => qltb (- snd a)%Qc (- snd b)%Qc) sols else sols in
  do sols <- (if uniq then unique_cuts sols else Ok sols); Ok (firstn (length normal) sols).
Lemma reported_spec f l : length f = n -> reported f = Ok l ->
  (forall c, In c l -> bits n (fst c) /\ snd c = max_cut_value (fst c) (adjacency p) /\ exists r, In r normal /\ same_cut (fst c) (cut_of f r)) /\
  (forall r, In r normal -> exists c, In c l /\ same_cut (fst c) (cut_of f r) /\ snd c = max_cut_value (cut_of f r) (adjacency p)) /\
  (uniq = true -> ForallOrdPairs (fun a b => ~ same_cut (fst a) (fst b)) l) /\ (uniq = false -> Permutation (map fst l) (map (cut_of f) normal)) /\ (srt = true -> StronglySorted by_value l).
Proof using Shaped Pos.
  clear Sized mineig sdp cholesky. intros Lf E. unfold reported in E. cbv zeta in E. set (adj := adjacency p) in *. set (s0 := map (fun c => (c, max_cut_value c adj)) (map (cut_of f) normal)) in *.
  set (s1 := if srt then sort_by (fun a b => qltb (- snd a)%Qc (- snd b)%Qc) s0 else s0) in *.
  assert (Permutation s1 s0) as P1. { unfold s1. destruct srt; [apply sort_perm|auto]. }
  assert (length s1 = length normal) as L1. { rewrite (Permutation_length P1). unfold s0. now rewrite !map_length. }
  assert (forall c, In c s1 -> bits n (fst c) /\ snd c = max_cut_value (fst c) adj /\ exists r, In r normal /\ fst c = cut_of f r) as I1.
  { intros c Hc. apply (Permutation_in _ P1) in Hc. unfold s0 in Hc. rewrite map_map in Hc. apply in_map_iff in Hc. destruct Hc as (r & <- & Hr). cbn [fst snd]. split; [rewrite <- Lf; apply cut_of_bits|]. split; eauto. }
  assert (forall r, In r normal -> In (cut_of f r, max_cut_value (cut_of f r) adj) s1) as J1.
  { intros r Hr. apply (Permutation_in _ (Permutation_sym P1)). unfold s0. rewrite map_map. apply in_map_iff. eauto. }
  assert (srt = true -> StronglySorted by_value s1) as S1. { unfold s1. intros ->. apply sorted_by_value. }
  assert (forall x y, same_cut x y -> length y = n -> max_cut_value x adj = max_cut_value y adj) as V. { intros x y [->| ->] Ly; auto. apply adj_mirrored. now rewrite dim_quad. }
  destruct uniq.
  - unfold unique_cuts in E. apply bind_ok in E. destruct E as (sd & E & El). apply bind_ok in E. destruct E as (s2 & Em & Ed). injection Ed as <-. injection El as <-. apply mapM_ok in Em.
    destruct (drop_spec by_value s2) as (D1 & D2 & D3 & D4 & D5). assert (length s2 = length s1) as L2. { symmetry. exact (Forall2_length _ _ _ Em). }
    rewrite firstn_all2 by lia.
    assert (forall c', In c' s2 -> bits n (fst c') /\ snd c' = max_cut_value (fst c') adj /\ at_ (fst c') 0 = 0%Qc /\ exists r, In r normal /\ same_cut (fst c') (cut_of f r)) as I2.
    { intros c' Hc. destruct (Forall2_in_r _ _ _ _ Em Hc) as (c & Hc1 & Es). destruct (I1 c Hc1) as (Bc & Vc & r & Hr & Er). destruct (start_spec n c c' Pos Bc Es) as (E1 & E2 & E3 & E4). split; auto. split; [rewrite E1, Vc; symmetry; apply V; auto; apply Bc|]. split; auto. exists r. rewrite <- Er. auto. }
    split. { intros c Hc. destruct (I2 c (D1 c Hc)) as (A & B & _ & C). auto. }
    split. { intros r Hr. destruct (Forall2_in_l _ _ _ _ Em (J1 r Hr)) as (c1 & Hc1 & Es). assert (bits n (cut_of f r)) as Bc by (rewrite <- Lf; apply cut_of_bits). destruct (start_spec n (cut_of f r, max_cut_value (cut_of f r) adj) c1 Pos Bc Es) as (E1 & E2 & E3 & E4). cbn [fst snd] in *.
      destruct (D2 c1 Hc1) as (c2 & Hc2 & Ek). destruct (I2 c2 (D1 _ Hc2)) as (B2 & V2 & _). apply (cut_str_inj n) in Ek; auto. exists c2. split; auto. rewrite Ek. split; auto. rewrite V2, Ek. apply V; auto. apply Bc. }
    split. { intros _. assert (forall c, In c (drop_seen s2) -> bits n (fst c) /\ at_ (fst c) 0 = 0%Qc) as K by (intros c Hc; destruct (I2 c (D1 c Hc)) as (A & _ & B & _); auto). clear -K D3 Pos. induction (drop_seen s2) as [|c l IH]; constructor.
      - apply Forall_forall. intros c' Hc' [Ex|Ex].
        + inversion D3 as [|? ? N _]; subst. apply N. rewrite Ex. apply in_map_iff. exists c'. auto.
        + destruct (K c (or_introl eq_refl)) as [Bc Zc]. destruct (K c' (or_intror Hc')) as [Bc' Zc']. rewrite Ex, mirrored_at, Zc' in Zc by (destruct Bc' as [-> _]; exact Pos). apply (f_equal (fun a => qeqb a 0)) in Zc. vm_compute in Zc. discriminate Zc.
      - apply IH; [now inversion D3|intros; apply K; now right]. }
    split; [easy|]. intro Hs. apply D4. eapply sorted_map; [|exact Em|now apply S1]. intros a b a' b' Ea Eb. unfold by_value, start_at_0 in *. destruct (fst a) as [|v x], (fst b) as [|w y]; try discriminate. cbn [bind] in Ea, Eb. injection Ea as <-. injection Eb as <-.
    destruct (qeqb v 1), (qeqb w 1); cbn [snd]; auto.
  - cbn [bind] in E. injection E as <-. rewrite firstn_all2 by lia. split. { intros c Hc. destruct (I1 c Hc) as (A & B & r & Hr & C). split; auto. split; auto. exists r. split; auto. now left. }
    split. { intros r Hr. exists (cut_of f r, max_cut_value (cut_of f r) adj). split; auto. split; [now left|auto]. }
    split; [easy|]. split; auto. intros _. rewrite P1. unfold s0. rewrite !map_map. cbn [fst]. reflexivity.
Qed.
Lemma reported_total f : length f = n -> exists l, reported f = Ok l.
Proof using Shaped Pos.
  intro Lf. unfold reported. cbv zeta. set (s1 := if srt then _ else _). destruct uniq; [|eexists; reflexivity]. unfold unique_cuts.
  assert (Forall (fun c => exists c', start_at_0 c = Ok c') s1) as F.
  { apply Forall_forall. intros c Hc. apply (start_total n); [exact Pos|]. assert (In c (map (fun c => (c, max_cut_value c (adjacency p))) (map (cut_of f) normal))) as H. { unfold s1 in Hc. destruct srt; auto. eapply Permutation_in; [apply sort_perm|exact Hc]. }
    rewrite map_map in H. apply in_map_iff in H. destruct H as (r & <- & _). cbn [fst]. rewrite <- Lf. apply cut_of_bits. }
  assert (exists s2, mapM start_at_0 s1 = Ok s2) as [s2 ->]. { clear -F. induction F as [|c l (c' & E) F (m & IH)]; cbn; eauto. rewrite E. cbn [bind]. rewrite IH. cbn [bind]. eauto. }
  cbn [bind]. eauto.
Qed.
Definition as_samples (l : list (list Qc * Qc)) : list sample := map (fun c => mkSample (fst c) (snd c) (1 / qn (length l))%Qc SUCCESS) l.
Lemma gw_inv r m : gw_solve srt uniq sdp mineig cholesky normal p = Ok (r, m) -> exists chi f c l,
  sdp (adjacency p) = SdpSolved chi /\ cholesky (regularised mineig chi) = Ok f /\ length f = n /\ m = Some chi /\ reported f = Ok (c :: l) /\
  make_result (Some (fst c)) (Some (snd c)) (p_vars p) SUCCESS (as_samples (c :: l)) = Ok r.
Proof using Sized Shaped Pos.
  intro E. unfold gw_solve in E. apply bind_ok in E. destruct E as (u & _ & E). cbv zeta in E. destruct (sdp (adjacency p)) as [|chi|e] eqn:Es; [|  |discriminate E].
  - exfalso. apply bind_ok in E. destruct E as (r' & E & _). unfold make_result in E. fold (num_vars p) in E. destruct (Nat.eqb_spec (@length Qc []) (num_vars p)) as [X|X]; [cbn in X; lia|discriminate E].
  - unfold random_cuts in E. apply bind_ok in E. destruct E as (cuts & Ec & E). apply bind_ok in Ec. destruct Ec as (f & Ef & Ec). injection Ec as <-. exists chi, f. apply bind_ok in E. destruct E as (sols & Eq & E).
    assert (reported f = Ok (firstn (length normal) sols)) as Er. { unfold reported. cbv zeta. rewrite Eq. reflexivity. } destruct (firstn (length normal) sols) as [|c l] eqn:El; [discriminate E|]. cbn [map] in E. apply bind_ok in E. destruct E as (r' & E & Ek). injection Ek as -> <-.
    exists c, l. split; auto. split; auto. split; [exact (factor_length chi f Es Ef)|]. split; auto.
Qed.
End Solve.
