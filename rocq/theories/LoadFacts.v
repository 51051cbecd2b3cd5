(** * Facts about loading *)
From Verif Require Export SpecLoad DocFacts3 WfFacts DocWf ReuseFacts EditFacts IsingProps.
From Coq Require Import Lia.
Local Open Scope string_scope.
Local Open Scope list_scope.
Local Open Scope nat_scope.

(** ** What raising calls leave *)
Lemma some_of_refl {A} (l : list A) : some_of l l.
Proof. induction l; constructor; assumption. Qed.
Lemma some_of_nil {A} (l : list A) : some_of [] l.
Proof. induction l; constructor; assumption. Qed.
Lemma some_of_filter {A} (f : A -> bool) l : some_of (filter f l) l.
Proof. induction l as [|a l IH]; simpl; [constructor|]. destruct (f a); constructor; assumption. Qed.
Lemma some_of_app {A} (l1 l1' l2 l2' : list A) : some_of l1 l1' -> some_of l2 l2' -> some_of (l1 ++ l2) (l1' ++ l2').
Proof. induction 1; intro H2; simpl; [assumption|constructor; auto|constructor; auto]. Qed.
Definition intact (p q : qp) : Prop := same_but_objective p q /\ p_obj p = p_obj q.
Lemma intact_refl p : intact p p. Proof. repeat split. Qed.
Lemma intact_trans p q r : intact p q -> intact q r -> intact p r.
Proof. intros ((A1 & A2 & A3 & A4) & A5) ((B1 & B2 & B3 & B4) & B5). repeat split; congruence. Qed.
Lemma add_one_fails p lb ub ty name q e : add_variable p lb ub ty name = (q, Err e) -> intact q p.
Proof.
  assert (forall k nm fmt q e, add_count p 1 k lb ub ty nm fmt = (q, Err e) -> intact q p) as G.
  { intros k nm fmt q' e'. cbn [add_count]. destruct (find_name _ _ _ _ _ _) as [[s k']|]; [|intros [= <- _]; apply intact_refl].
    destruct (add_named_cases p s lb ub ty) as [(x & -> & _)|[(x & -> & _)|(-> & _)]]; intros [=]; subst; repeat split. }
  unfold add_variable, add_variables. intro H.
  destruct name; cbn [Z.ltb Z.compare Pos.compare Pos.compare_cont] in H;
    repeat match type of H with context [if ?b then _ else _] => destruct b end; try (injection H as <- _; apply intact_refl); eapply G; exact H.
Qed.
Lemma load_var_import p v names : match load_var p v with
  | (q, Ok s) => import_var (p, names) v = Ok (q, names ++ [s])
  | (q, Err e) => import_var (p, names) v = Err e /\ intact q p
  end.
Proof.
  unfold load_var, import_var. cbn [fst snd]. pose proof (fun lb ub ty => add_one_fails p lb ub ty (dv_name v)) as F. unfold continuous_var, binary_var, integer_var.
  assert (forall lb ub ty q, add_variable p lb ub ty (dv_name v) = (q, Ok []) -> False) as Z.
  { intros lb ub ty q. unfold add_variable, add_variables. destruct (dv_name v); cbn [Z.ltb Z.compare Pos.compare Pos.compare_cont];
      repeat match goal with |- context [if ?b then _ else _] => destruct b end; try discriminate; change (Z.to_nat 1) with 1; cbn [add_count];
      destruct (find_name _ _ _ _ _ _) as [[s' k']|]; try discriminate;
      destruct (add_named p s' lb ub ty) as [q' [[]|]]; discriminate. }
  destruct (dv_type v).
  - destruct (add_variable p (dv_lb v) (dv_ub v) CONTINUOUS (dv_name v)) as [q [[|s l]|e]] eqn:E; auto; [destruct (Z _ _ _ _ E)|]. split; auto. exact (F _ _ _ _ _ E).
  - destruct (add_variable p 0 1 BINARY (dv_name v)) as [q [[|s l]|e]] eqn:E; auto; [destruct (Z _ _ _ _ E)|]. split; auto. exact (F _ _ _ _ _ E).
  - destruct (add_variable p (dv_lb v) (dv_ub v) INTEGER (dv_name v)) as [q [[|s l]|e]] eqn:E; auto; [destruct (Z _ _ _ _ E)|]. split; auto. exact (F _ _ _ _ _ E).
  - split; [reflexivity|apply intact_refl].
Qed.
Lemma load_vars_import l : forall p names, match load_vars l p names with
  | (q, Ok ns) => foldM import_var l (p, names) = Ok (q, ns)
  | (q, Err e) => foldM import_var l (p, names) = Err e /\ exists k r ns, foldM import_var (firstn k l) (p, names) = Ok (r, ns) /\ intact q r
  end.
Proof.
  induction l as [|v l IH]; intros p names; cbn [load_vars foldM]; [reflexivity|].
  pose proof (load_var_import p v names) as V. destruct (load_var p v) as [q [s|e]].
  - rewrite V. cbn [bind]. specialize (IH q (names ++ [s])). destruct (load_vars l q (names ++ [s])) as [q' [ns|e]]; [exact IH|].
    destruct IH as (E & k & r & ns & F & I). split; [exact E|]. exists (S k), r, ns. cbn [firstn foldM]. rewrite V. auto.
  - destruct V as [-> I]. split; [reflexivity|]. exists 0, p, names. split; [reflexivity|exact I].
Qed.
Lemma load_lincon_import names p c : match load_lincon names p c with
  | (q, Ok _) => import_lincon names p c = Ok q
  | (q, Err e) => import_lincon names p c = Err e /\ intact q p
  end.
Proof.
  destruct c as [nm s l r|nm s l r|]; cbn [load_lincon import_lincon]; [|reflexivity|split; [reflexivity|apply intact_refl]].
  destruct (put_lin names (de_lin l) []) as [d|e]; cbn [bind with_value]; [|split; [reflexivity|apply intact_refl]].
  destruct (take_lin names (de_lin r) d) as [d'|e]; cbn [bind with_value]; [|split; [reflexivity|apply intact_refl]].
  destruct (linear_constraint_cases p (by_name d') (SStr (sense_text s)) (de_const r - de_const l)%Qc nm) as [[e ->]|(nm' & _ & _ & [[e ->]|(c & le & _ & _ & ->)])]; cbn [ok_state]; repeat split.
Qed.
Lemma load_quadcon_import names p c : match load_quadcon names p c with
  | (q, Ok _) => import_quadcon names p c = Ok q
  | (q, Err e) => import_quadcon names p c = Err e /\ intact q p
  end.
Proof.
  destruct c as [nm s l r|nm s l r|]; cbn [load_quadcon import_quadcon]; [reflexivity| |reflexivity].
  destruct (put_lin names (de_lin l) []) as [d|e]; cbn [bind with_value]; [|split; [reflexivity|apply intact_refl]].
  destruct (put_quad names (de_quad l) []) as [d1|e]; cbn [bind with_value]; [|split; [reflexivity|apply intact_refl]].
  destruct (take_lin names (de_lin r) d) as [d'|e]; cbn [bind with_value]; [|split; [reflexivity|apply intact_refl]].
  destruct (take_quad names (de_quad r) d1) as [d1'|e]; cbn [bind with_value fst snd]; [|split; [reflexivity|apply intact_refl]].
  destruct (quadratic_constraint_cases p (by_name d') (by_name2 d1') (SStr (sense_text s)) (de_const r - de_const l)%Qc nm) as [[e ->]|(nm' & _ & _ & [[e ->]|(c & le & qe & _ & _ & _ & ->)])]; cbn [ok_state]; repeat split.
Qed.
Lemma build_all_split {A} (f : qp -> A -> qp * result unit) (g : qp -> A -> result qp) :
  (forall p a, match f p a with (q, Ok _) => g p a = Ok q | (q, Err e) => g p a = Err e /\ intact q p end) ->
  forall l p, match build_all f l p with
  | (q, Ok _) => foldM g l p = Ok q
  | (q, Err e) => foldM g l p = Err e /\ exists k r, foldM g (firstn k l) p = Ok r /\ intact q r
  end.
Proof.
  intro H. induction l as [|a l IH]; intro p; cbn [build_all foldM]; [reflexivity|].
  specialize (H p a). destruct (f p a) as [q [u|e]]; cbn [then_build].
  - rewrite H. cbn [bind]. specialize (IH q). destruct (build_all f l q) as [q' [u'|e]]; [exact IH|]. destruct IH as (E & k & r & F & I). split; [exact E|].
    exists (S k), r. cbn [firstn foldM]. rewrite H. auto.
  - destruct H as [-> I]. split; [reflexivity|]. exists 0, p. split; [reflexivity|exact I].
Qed.
Lemma foldM_lin_app names l1 l2 p : foldM (import_lincon names) (l1 ++ l2) p = (do q <- foldM (import_lincon names) l1 p; foldM (import_lincon names) l2 q).
Proof. revert p. induction l1 as [|a l IH]; intro p; [reflexivity|]. cbn [app foldM]. destruct (import_lincon names p a); cbn [bind]; auto. Qed.
Lemma foldM_quad_app names l1 l2 p : foldM (import_quadcon names) (l1 ++ l2) p = (do q <- foldM (import_quadcon names) l1 p; foldM (import_quadcon names) l2 q).
Proof. revert p. induction l1 as [|a l IH]; intro p; [reflexivity|]. cbn [app foldM]. destruct (import_quadcon names p a); cbn [bind]; auto. Qed.
Lemma linears_only names l : forall p q, foldM (import_lincon names) l p = Ok q -> foldM (import_lincon names) (filter is_linear l) p = Ok q.
Proof.
  induction l as [|c l IH]; intros p q H; [exact H|]. cbn [foldM] in H. apply bind_ok in H. destruct H as (r & H1 & H2). destruct c; cbn [filter is_linear].
  - cbn [foldM]. rewrite H1. cbn [bind]. auto.
  - cbn in H1. injection H1 as <-. auto.
  - discriminate H1.
Qed.
Lemma linears_no_quad names l : forall p, foldM (import_quadcon names) (filter is_linear l) p = Ok p.
Proof. induction l as [|c l IH]; intro p; [reflexivity|]. destruct c; cbn [filter is_linear]; auto. cbn [foldM import_quadcon bind]. auto. Qed.

(** ** The whole call *)
Lemma load_anywhere p p' m : load_docplex p m = load_docplex p' m.
Proof. unfold load_docplex. now rewrite !clear_new. Qed.
Lemma load_result p m : match load_docplex p m with
  | (q, Ok _) => from_docplex m = Ok q
  | (q, Err e) => from_docplex m = Err e /\ exists m' r, part_of m' m /\ from_docplex m' = Ok r /\ same_but_objective q r /\
      ((p_obj q = p_obj r /\ dm_obj m' = dm_obj m /\ dm_sense m' = dm_sense m) \/ (p_obj q = empty_obj /\ dm_cons m' = []))
  end.
Proof.
  unfold load_docplex. rewrite clear_new. change (set_name (dm_name m) (new_qp "")) with (new_qp (dm_name m)).
  pose proof (load_vars_import (dm_vars m) (new_qp (dm_name m)) []) as V.
  assert (forall k q r ns e, foldM import_var (firstn k (dm_vars m)) (new_qp (dm_name m), []) = Ok (r, ns) -> intact q r -> from_docplex m = Err e ->
    from_docplex m = Err e /\ exists m' r, part_of m' m /\ from_docplex m' = Ok r /\ same_but_objective q r /\
      ((p_obj q = p_obj r /\ dm_obj m' = dm_obj m /\ dm_sense m' = dm_sense m) \/ (p_obj q = empty_obj /\ dm_cons m' = []))) as Early.
  { intros k q r ns e F (S & O) E. split; [exact E|]. exists (mkDM (dm_name m) (firstn k (dm_vars m)) MINIMIZE (mkDE 0 [] []) []).
    assert (p_obj r = empty_obj) as Or.
    { refine (foldM_keeps import_var (fun s => p_obj (fst s) = empty_obj) _ _ _ (r, ns) _ F); [|reflexivity]. intros st a st' P Ea. destruct (import_var_inv _ _ _ Ea) as (s & -> & _). exact P. }
    eexists. split; [split; [reflexivity|]; split; [exists k; reflexivity|apply some_of_nil]|].
    split; [unfold from_docplex; cbn [dm_vars dm_name dm_obj dm_cons dm_sense de_lin de_quad de_const]; rewrite F; reflexivity|].
    cbn [fst]. split; [exact S|]. right. split; [congruence|reflexivity]. }
  destruct (load_vars (dm_vars m) (new_qp (dm_name m)) []) as [q [names|e]].
  2: { destruct V as (E & k & r & ns & F & I). apply (Early k q r ns e F I). unfold from_docplex. now rewrite E. }
  assert (forall e, from_docplex m = Err e -> from_docplex m = Err e /\ exists m' r, part_of m' m /\ from_docplex m' = Ok r /\ same_but_objective q r /\
      ((p_obj q = p_obj r /\ dm_obj m' = dm_obj m /\ dm_sense m' = dm_sense m) \/ (p_obj q = empty_obj /\ dm_cons m' = []))) as Early'.
  { intros e E. apply (Early (length (dm_vars m)) q q names e); auto using intact_refl. now rewrite firstn_all. }
  clear Early. unfold from_docplex in *. rewrite V in *. cbn [bind fst snd] in *.
  destruct (put_lin names (de_lin (dm_obj m)) []) as [lin|e] eqn:El; cbn [bind with_value] in *; [|now apply Early'].
  destruct (put_quad names (de_quad (dm_obj m)) []) as [quad|e] eqn:Eq; cbn [bind with_value fst snd] in *; [|now apply Early'].
  destruct (set_objective q (dm_sense m) (de_const (dm_obj m)) (by_name lin) (by_name2 quad)) as [q1 [[]|e]] eqn:Eo; cbn [then_build ok_state bind] in *.
  2: { destruct (set_objective_cases q (dm_sense m) (de_const (dm_obj m)) (by_name lin) (by_name2 quad)) as [[e' X]|(o & _ & X)]; rewrite X in Eo; [|discriminate Eo]. injection Eo as <- <-. now apply Early'. }
  clear Early'. pose proof (build_all_split (load_lincon names) (import_lincon names) (load_lincon_import names) (dm_cons m) q1) as L.
  destruct (build_all (load_lincon names) (dm_cons m) q1) as [q2 [u|e]]; cbn [then_build].
  - rewrite L. cbn [bind]. pose proof (build_all_split (load_quadcon names) (import_quadcon names) (load_quadcon_import names) (dm_cons m) q2) as Q.
    destruct (build_all (load_quadcon names) (dm_cons m) q2) as [q3 [u'|e]]; [exact Q|]. destruct Q as (E & k & r & F & I). split; [exact E|].
    exists (mkDM (dm_name m) (dm_vars m) (dm_sense m) (dm_obj m) (firstn k (dm_cons m) ++ filter is_linear (skipn k (dm_cons m)))), r.
    split; [split; [reflexivity|]; split; [exists (length (dm_vars m)); symmetry; apply firstn_all|]|].
    { cbn [dm_cons]. rewrite <- (firstn_skipn k (dm_cons m)) at 3. apply some_of_app; [apply some_of_refl|apply some_of_filter]. }
    cbn [dm_vars dm_name dm_obj dm_cons dm_sense]. rewrite V. cbn [bind fst snd]. rewrite El. cbn [bind]. rewrite Eq. cbn [bind]. rewrite Eo. cbn [ok_state bind].
    rewrite <- (firstn_skipn k (dm_cons m)) in L. rewrite foldM_lin_app in L. apply bind_ok in L. destruct L as (q1' & L1 & L2).
    split; [|split; [exact (proj1 I)|left; split; [exact (proj2 I)|split; reflexivity]]].
    rewrite foldM_lin_app, L1. cbn [bind]. rewrite (linears_only _ _ _ _ L2). cbn [bind]. rewrite foldM_quad_app, F. cbn [bind]. apply linears_no_quad.
  - destruct L as (E & k & r & F & I). rewrite E. split; [reflexivity|].
    exists (mkDM (dm_name m) (dm_vars m) (dm_sense m) (dm_obj m) (filter is_linear (firstn k (dm_cons m)))), r.
    split; [split; [reflexivity|]; split; [exists (length (dm_vars m)); symmetry; apply firstn_all|]|].
    { cbn [dm_cons]. rewrite <- (app_nil_r (filter _ _)). rewrite <- (firstn_skipn k (dm_cons m)) at 2. apply some_of_app; [apply some_of_filter|apply some_of_nil]. }
    cbn [dm_vars dm_name dm_obj dm_cons dm_sense]. rewrite V. cbn [bind fst snd]. rewrite El. cbn [bind]. rewrite Eq. cbn [bind]. rewrite Eo. cbn [ok_state bind].
    split; [|split; [exact (proj1 I)|left; split; [exact (proj2 I)|split; reflexivity]]].
    rewrite (linears_only _ _ _ _ F). cbn [bind]. apply linears_no_quad.
Qed.
Lemma load_vars_wf l : forall p names, prog_wf p -> prog_wf (fst (load_vars l p names)).
Proof.
  induction l as [|v l IH]; intros p names W; cbn [load_vars]; [exact W|].
  assert (prog_wf (fst (load_var p v))) as G.
  { assert (forall lb ub ty, prog_wf (fst (add_variable p lb ub ty (dv_name v)))) as K.
    { intros lb ub ty. pose proof (step_prog_wf p (OAddVar lb ub ty (dv_name v)) I W) as X. cbn [step] in X. now rewrite drop_out_fst in X. }
    unfold load_var, continuous_var, binary_var, integer_var. destruct (dv_type v); [specialize (K (dv_lb v) (dv_ub v) CONTINUOUS)|specialize (K 0%Qc 1%Qc BINARY)|specialize (K (dv_lb v) (dv_ub v) INTEGER)|exact W];
      destruct (add_variable _ _ _ _ _) as [q [[|s t]|e]]; exact K. }
  destruct (load_var p v) as [q [s|e]]; [apply IH|]; exact G.
Qed.
Lemma build_all_keeps {A} (P : qp -> Prop) (f : qp -> A -> qp * result unit) : (forall p a, P p -> P (fst (f p a))) -> forall l p, P p -> P (fst (build_all f l p)).
Proof. intro H. induction l as [|a l IH]; intros p Pp; cbn [build_all]; [exact Pp|]. specialize (H p a Pp). destruct (f p a) as [q [u|e]]; cbn [then_build]; auto. Qed.
Lemma load_wf p m : prog_wf (fst (load_docplex p m)).
Proof.
  unfold load_docplex. rewrite clear_new. change (set_name (dm_name m) (new_qp "")) with (new_qp (dm_name m)).
  pose proof (load_vars_wf (dm_vars m) (new_qp (dm_name m)) [] (prog_wf_new _)) as W. destruct (load_vars _ _ _) as [q [names|e]]; [|exact W]. cbn [fst] in W.
  set (r := bind _ _). destruct r as [[lin quad]|e]; cbn [with_value]; [|exact W].
  pose proof (step_prog_wf q (OObjective (dm_sense m) (de_const (dm_obj m)) (by_name lin) (by_name2 quad)) I W) as W1. cbn [step fst snd] in *.
  destruct (set_objective _ _ _ _ _) as [q1 [u|e]]; cbn [then_build]; [|exact W1]. cbn [fst] in W1.
  assert (prog_wf (fst (build_all (load_lincon names) (dm_cons m) q1))) as W2.
  { apply build_all_keeps; [|exact W1]. intros p' c Wp. destruct c as [nm s l r|nm s l r|]; cbn [load_lincon]; [|exact Wp|exact Wp]. destruct (bind _ _) as [d|e]; cbn [with_value]; [|exact Wp].
    exact (step_prog_wf p' (OLinCon (by_name d) (SStr (sense_text s)) (de_const r - de_const l)%Qc nm) I Wp). }
  destruct (build_all (load_lincon names) (dm_cons m) q1) as [q2 [u'|e]]; cbn [then_build]; [|exact W2].
  apply build_all_keeps; [|exact W2]. intros p' c Wp. destruct c as [nm s l r|nm s l r|]; cbn [load_quadcon]; [exact Wp| |exact Wp]. destruct (bind _ _) as [[d qd]|e]; cbn [with_value]; [|exact Wp].
  exact (step_prog_wf p' (OQuadCon (by_name d) (by_name2 qd) (SStr (sense_text s)) (de_const r - de_const l)%Qc nm) I Wp).
Qed.

(** ** from_ising on a program with variables *)
Lemma binary_taken p s : In s (map fst (p_vidx p)) -> binary_var p (Some s) = (p, Err QiskitOptimizationError).
Proof.
  intro H. apply (dhas_in _ str_eqb_sp) in H. unfold binary_var, add_variable, add_variables. change (1 <? 1)%Z with false. change (contains "{{}}" "") with false.
  change (1 <? count_slots "") with false. cbv iota. change (Z.to_nat 1) with 1. cbn [add_count]. rewrite find_name_noslot by reflexivity. rewrite string_app_nil_r. now rewrite H.
Qed.
Lemma add_bit_stays l : forall q e, fold_left add_bit l (q, Err e) = (q, Err e).
Proof. induction l as [|a l IH]; intros q e; [reflexivity|apply IH]. Qed.
(** Either all names are free, or the first one that is taken stops the loop. *)
Lemma add_bits_cases n : forall k p,
  ((forall i, k <= i < k + n -> ~ In (bit_name i) (map fst (p_vidx p))) /\
   exists q, fold_left add_bit (seq k n) (p, Ok tt) = (q, Ok tt) /\ p_vars q = p_vars p ++ map bit_var (seq k n) /\
     p_lcs q = p_lcs p /\ p_qcs q = p_qcs p /\ p_obj q = p_obj p /\ p_name q = p_name p) \/
  (exists j q, j < n /\ In (bit_name (k + j)) (map fst (p_vidx p)) /\ (forall i, k <= i < k + j -> ~ In (bit_name i) (map fst (p_vidx p))) /\
     fold_left add_bit (seq k n) (p, Ok tt) = (q, Err QiskitOptimizationError) /\ p_vars q = p_vars p ++ map bit_var (seq k j) /\
     p_lcs q = p_lcs p /\ p_qcs q = p_qcs p /\ p_obj q = p_obj p /\ p_name q = p_name p).
Proof.
  induction n as [|n IH]; intros k p.
  - left. split; [intros i Hi; lia|]. exists p. cbn [seq fold_left map]. rewrite app_nil_r. repeat split.
  - cbn [seq fold_left]. assert (add_bit (p, Ok tt) k = (let '(q, r) := binary_var p (Some (bit_name k)) in (q, do _ <- r; Ok tt))) as Eb by reflexivity.
    destruct (in_dec string_dec (bit_name k) (map fst (p_vidx p))) as [Hin|Hin].
    + right. exists 0, p. rewrite Eb, (binary_taken _ _ Hin). cbn [bind]. rewrite add_bit_stays, Nat.add_0_r. cbn [seq map]. rewrite app_nil_r. repeat (split; [first [lia|exact Hin|reflexivity|intros i Hi; lia]|]). reflexivity.
    + destruct (binary_named p (bit_name k) Hin) as [l Ebk]. rewrite Eb, Ebk. cbn [bind]. fold (bit_var k).
      assert (forall i, k < i -> In (bit_name i) (map fst (p_vidx (add_var p (bit_var k)))) <-> In (bit_name i) (map fst (p_vidx p))) as K.
      { intros i Hi. cbn. split; intro H; [apply (dset_keys _ str_eqb_sp) in H; destruct H as [H|H]; [apply bit_name_inj in H; lia|exact H]|apply (dset_keys _ str_eqb_sp); right; exact H]. }
      destruct (IH (S k) (add_var p (bit_var k))) as [(F & q & E & V & A & B & C & D)|(j & q & J & T & F & E & V & A & B & C & D)].
      * left. split.
        -- intros i Hi. destruct (Nat.eq_dec i k) as [->|N]; [exact Hin|]. rewrite <- K by lia. apply F. lia.
        -- exists q. split; [exact E|]. split; [rewrite V; cbn; now rewrite <- app_assoc|]. repeat split; assumption.
      * right. exists (S j), q. split; [lia|]. rewrite Nat.add_succ_r. split; [apply K; [lia|exact T]|]. split.
        { intros i Hi. destruct (Nat.eq_dec i k) as [->|N]; [exact Hin|]. rewrite <- K by lia. apply F. lia. }
        split; [exact E|]. split; [rewrite V; cbn; now rewrite <- app_assoc|]. repeat split; assumption.
Qed.
(** What a call leaves when it raises: some of the new variables. *)
Lemma from_ising_fails p op off linear q e : from_ising p op off linear = (q, Err e) -> 
  exists k, k <= op_n op /\ p_vars q = p_vars p ++ map bit_var (seq 0 k) /\ p_lcs q = p_lcs p /\ p_qcs q = p_qcs p /\ p_obj q = p_obj p /\ p_name q = p_name p /\
    ((k < op_n op /\ In (bit_name k) (map fst (p_vidx p)) /\ e = QiskitOptimizationError) \/ k = op_n op).
Proof.
  unfold from_ising. destruct (add_bits_cases (op_n op) 0 p) as [(F & r & E & V & A & B & C & D)|(j & r & J & T & F & E & V & A & B & C & D)]; rewrite E.
  - intro H. assert (q = r) as ->.
    { destruct (foldM read_term (op_terms op) []) as [m|x]; [|injection H as <- _; reflexivity]. cbv zeta in H.
      match type of H with set_objective ?a ?b ?c ?d ?f = _ => destruct (set_objective_cases a b c d f) as [[x X]|(o & _ & X)]; rewrite X in H end; [injection H as <- _; reflexivity|discriminate H]. }
    exists (op_n op). split; [lia|]. split; [exact V|]. repeat (split; [assumption|]). now right.
  - intro H. injection H as <- <-. exists j. split; [lia|]. split; [exact V|]. repeat (split; [assumption|]). left. auto.
Qed.
Lemma at_firstn x n i : i < n -> at_ (firstn n x) i = at_ x i.
Proof.
  unfold at_. revert n i. induction x as [|a x IH]; intros n i H; [now rewrite firstn_nil|]. destruct n as [|n]; [lia|]. destruct i as [|i]; [reflexivity|]. cbn. apply IH. lia.
Qed.
Lemma from_ising_anywhere p n terms off linear : good_terms n terms -> NoDup (map fst terms) -> (forall i, i < n -> ~ In (bit_name i) (map fst (p_vidx p))) ->
  exists q, from_ising p (mkOp n terms) off linear = (q, Ok tt) /\ p_vars q = p_vars p ++ map bit_var (seq 0 n) /\
    p_lcs q = p_lcs p /\ p_qcs q = p_qcs p /\ p_name q = p_name p /\ o_sense (p_obj q) = MINIMIZE /\
    forall x, length x = num_vars q -> bits n (firstn n x) -> obj_at (p_obj q) x = (energy (mkOp n terms) (firstn n x) + off)%Qc.
Proof.
  intros G N Fr. unfold from_ising. cbn [op_n op_terms].
  destruct (add_bits_cases n 0 p) as [(_ & q & E & V & A & B & C & D)|(j & q & J & T & _)]; [|exfalso; exact (Fr j J T)]. rewrite E.
  destruct (read_fold n terms G N []) as (m & Em & Nm & Rm & Um & Vm); [intros t _ []|constructor|constructor|intros i j _; reflexivity|].
  rewrite Em. unfold set_objective, obj_make. set (st := from_terms n linear m off).
  assert (n <= ve_n (env_of q)) as Ln. { change (ve_n (env_of q)) with (length (p_vars q)). rewrite V, app_length, map_length, seq_length. lia. }
  assert (bits n (repeat 0%Qc n)) as Z. { split; [apply repeat_length|]. apply Forall_forall. intros a Ha. apply repeat_spec in Ha. auto. }
  pose proof (from_terms_spec n linear m off _ Z Nm Rm Um) as S0. cbv zeta in S0. fold st in S0. destruct S0 as (N1 & N2 & R1 & R2 & _).
  destruct (indexed_lin_ok (env_of q) (fr_lin st)) as [le El]; [eapply Forall_impl; [|exact R1]; cbv beta; intros a Ha; lia|].
  destruct (indexed_quad_ok (env_of q) (fr_quad st)) as [qe Eqe]; [eapply Forall_impl; [|exact R2]; intros [[i j] v] [Hi Hj]; cbn [fst snd] in *; lia|].
  pose proof El as El'. pose proof Eqe as Eqe'. unfold by_index, by_index2, lcoef_or_empty, qcoef_or_empty in El', Eqe'. unfold by_index, by_index2.
  rewrite El'. cbn [bind]. rewrite Eqe'. cbn [bind]. eexists. split; [reflexivity|]. cbn [p_vars p_lcs p_qcs p_obj p_name set_obj o_sense o_quad].
  repeat (split; [first [assumption|reflexivity]|]).
  destruct (lin_make_indexed _ _ _ N1 El) as (Wl & Dl & Vl). destruct (quad_make_indexed _ _ _ N2 Eqe) as (Wq & Dq & Vq).
  intros x Lx X. change (num_vars _) with (length (p_vars q)) in Lx. unfold obj_at. cbn [o_const o_lin o_quad].
  rewrite Vl, Vq by exact Lx. pose proof (from_terms_spec n linear m off (firstn n x) X Nm Rm Um) as S1. cbv zeta in S1. fold st in S1. destruct S1 as (_ & _ & _ & _ & S1).
  assert (dsum (at_ x) (fr_lin st) = dsum (at_ (firstn n x)) (fr_lin st)) as ->.
  { apply dsum_ext. intros i v Hin. symmetry. apply at_firstn. rewrite Forall_forall in R1. exact (R1 _ Hin). }
  assert (dsum (fun ij : nat * nat => (at_ x (fst ij) * at_ x (snd ij))%Qc) (fr_quad st) = dsum (xx (firstn n x)) (fr_quad st)) as ->.
  { apply dsum_ext. intros [i j] v Hin. unfold in_n in R2. rewrite Forall_forall in R2. destruct (R2 _ Hin) as [Hi Hj]. cbn [fst snd] in *. unfold xx. cbn [fst snd]. now rewrite !at_firstn. }
  rewrite S1, Vm by exact (proj1 X). rewrite dsum_nil. rewrite energy_ev. cbn [op_terms]. ring.
Qed.
