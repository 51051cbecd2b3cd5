(** * Facts about the stored forms of a quadratic expression *)
From Verif Require Export ExprClose.
From Coq Require Import Lia Field.
Local Open Scope list_scope.
Local Open Scope nat_scope.

Lemma quad_names_fold names : NoDup names -> forall co (d : list ((string * string) * Qc)), NoDup (map fst co) -> Forall (fun kv => fst (fst kv) < length names /\ snd (fst kv) < length names) co ->
  (forall s t i j, In (i, j) (map fst co) -> nth_error names i = Some s -> nth_error names j = Some t -> ~ In (s, t) (map fst d)) ->
  exists d', foldM (fun d kv => do s <- name_at names (fst (fst kv)); do t <- name_at names (snd (fst kv)); Ok (dset str2_eqb (s, t) (snd kv) d)) co d = Ok (d ++ d') /\ Forall2 (same_entry names) co d'.
Proof.
  intro Hn. assert (forall i j s, nth_error names i = Some s -> nth_error names j = Some s -> i = j) as Inj.
  { intros i j s A B. eapply (proj1 (NoDup_nth_error names)); eauto; [apply nth_error_Some; congruence|congruence]. }
  induction co as [|[[i j] v] co IH]; intros d N R F; cbn [foldM].
  - exists []. rewrite app_nil_r. split; [reflexivity|constructor].
  - inversion N as [|x y N1 N2]; inversion R as [|x' y' [R1 R1'] R2]; subst. cbn [fst snd] in *.
    destruct (name_at_ok names i R1) as (s & E1 & E2). destruct (name_at_ok names j R1') as (t & E3 & E4). rewrite E1. cbn [bind]. rewrite E3. cbn [bind].
    rewrite (dset_fresh _ str2_eqb_sp) by (eapply F; [left; reflexivity|exact E2|exact E4]).
    destruct (IH (d ++ [((s, t), v)])) as (d' & E & G); auto.
    + intros s' t' i' j' Hin Hs Ht Hc. rewrite map_app, in_app_iff in Hc. destruct Hc as [Hc|[Hc|[]]]; [eapply F; [right; exact Hin|exact Hs|exact Ht|exact Hc]|].
      cbn [fst] in Hc. injection Hc as <- <-. rewrite (Inj i' i s Hs E2), (Inj j' j t Ht E4) in Hin. contradiction.
    + exists (((s, t), v) :: d'). rewrite E, <- app_assoc. split; [reflexivity|]. constructor; [repeat split; assumption|exact G].
Qed.

Lemma quad_entries_keys sym e : quad_wf e -> NoDup (map fst (quad_entries sym e)) /\ Forall (fun kv => fst (fst kv) < qe_dim e /\ snd (fst kv) < qe_dim e) (quad_entries sym e).
Proof. intros [W R]. unfold quad_entries. destruct sym; [split; [apply dense_nodup|apply dense_range]|auto]. Qed.

Lemma quad_views names n e sym : length names = n -> NoDup names -> quad_sized n e ->
  (length (quad_to_array sym e) = n /\ forall i, i < n -> length (nth i (quad_to_array sym e) []) = n) /\
  NoDup (map fst (quad_to_dict sym e)) /\
  (forall i j, i < n -> j < n -> nth j (nth i (quad_to_array sym e) []) 0%Qc = mget (quad_to_dict sym e) i j) /\
  (forall i j, i < n -> j < n -> mget (quad_to_dict sym e) i j = if sym then ((coef2 e i j + coef2 e j i) / 2)%Qc else coef2 e i j) /\
  exists d, quad_to_dict_names names sym e = Ok d /\ Forall2 (same_entry names) (quad_to_dict sym e) d.
Proof.
  intros L N (W & U & D). destruct (quad_entries_keys sym e W) as (K & R). split; [|split; [exact K|split; [|split]]].
  - unfold quad_to_array. rewrite map_length, seq_length. split; [exact D|]. intros i I. rewrite <- D in I.
    rewrite (nth_indep _ [] (map (fun j => mget (quad_entries sym e) 0 j) (seq 0 (qe_dim e)))) by (now rewrite map_length, seq_length).
    rewrite (map_nth (fun i => map (fun j => mget (quad_entries sym e) i j) (seq 0 (qe_dim e)))). now rewrite map_length, seq_length.
  - intros i j I J. rewrite <- D in I, J. unfold quad_to_array, quad_to_dict.
    rewrite (nth_indep _ [] (map (fun j => mget (quad_entries sym e) 0 j) (seq 0 (qe_dim e)))) by (now rewrite map_length, seq_length).
    rewrite (map_nth (fun i => map (fun j => mget (quad_entries sym e) i j) (seq 0 (qe_dim e)))). rewrite seq_nth by assumption.
    rewrite (nth_indep _ 0%Qc (mget (quad_entries sym e) (0 + i) 0)) by (now rewrite map_length, seq_length).
    rewrite (map_nth (fun j => mget (quad_entries sym e) (0 + i) j)). now rewrite seq_nth by assumption.
  - intros i j I J. rewrite <- D in I, J. unfold quad_to_dict, quad_entries. destruct sym; [|reflexivity]. rewrite symmetric_get by assumption. unfold coef2.
    assert (forall a b, b < a -> mget (qe_co e) a b = 0%Qc) as Z.
    { intros a b B. unfold mget. apply (dgetq_notin _ nat2_eqb_sp). intro Hin. apply in_map_iff in Hin. destruct Hin as ([[a' b'] v] & E & Hin). cbn in E. injection E as -> ->. red in U. rewrite Forall_forall in U. apply U in Hin. cbn in Hin. lia. }
    assert ((2 : Qc) <> 0)%Qc as T by (intro X; apply (f_equal this) in X; discriminate X).
    destruct (Nat.ltb_spec j i) as [B|B]; destruct (Nat.ltb_spec i j) as [C|C]; [lia|rewrite (Z i j B)|rewrite (Z j i C)|assert (i = j) as -> by lia]; field; exact T.
  - destruct (quad_names_fold names N (quad_entries sym e) []) as (d & E & F); auto.
    + eapply Forall_impl; [|exact R]. cbv beta. intros kv. rewrite L, D. auto.
    + exists d. split; [exact E|exact F].
Qed.
