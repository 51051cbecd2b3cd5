From Verif Require Export SpecCircuit.
From Verif Require Import NumFacts.
From Coq Require Import Lra Lia.
Local Open Scope list_scope.
Local Open Scope R_scope.

(** ** Complex numbers *)
Lemma C_eq (a b : C) : fst a = fst b -> snd a = snd b -> a = b.
Proof. destruct a, b; cbn; congruence. Qed.
Lemma C_ring : ring_theory C0 C1 Cplus Cmul Cminus Copp eq.
Proof. split; intros; apply C_eq; unfold C0, C1, Cplus, Cmul, Cminus, Copp; cbn; ring. Qed.
Add Ring C_ring : C_ring.
Lemma cis_0 : cis 0 = C1.
Proof. unfold cis, C1. now rewrite cos_0, sin_0. Qed.
Lemma cis_plus a b : cis (a + b) = Cmul (cis a) (cis b).
Proof. unfold cis, Cmul. cbn. rewrite cos_plus, sin_plus. f_equal; ring. Qed.
Lemma norm2_mul a b : Cnorm2 (Cmul a b) = Cnorm2 a * Cnorm2 b.
Proof. unfold Cnorm2, Cmul. cbn. ring. Qed.
Lemma norm2_cis a : Cnorm2 (cis a) = 1.
Proof. unfold Cnorm2, cis. cbn. pose proof (sin2_cos2 a) as H. unfold Rsqr in H. lra. Qed.
Lemma RC_mul a b : RC (a * b) = Cmul (RC a) (RC b).
Proof. apply C_eq; cbn; ring. Qed.
Lemma norm2_RC a : Cnorm2 (RC a) = a * a.
Proof. unfold Cnorm2. cbn. ring. Qed.

(** ** Bits *)
Lemma set_bit_length q v b : length (set_bit q v b) = length b.
Proof. revert q. induction b; intros [|q]; cbn; auto. Qed.
Lemma set_bit_get q v b : (q < length b)%nat -> nth q (set_bit q v b) false = v.
Proof. revert q. induction b as [|x b IH]; intros [|q] H; cbn in *; try lia; auto. apply IH. lia. Qed.
Lemma set_bit_twice q v w b : set_bit q v (set_bit q w b) = set_bit q v b.
Proof. revert q. induction b as [|x b IH]; intros [|q]; cbn; auto. now rewrite IH. Qed.
Lemma set_bit_same q b : set_bit q (nth q b false) b = b.
Proof. revert q. induction b as [|x b IH]; intros [|q]; cbn; auto. now rewrite IH. Qed.
Lemma set_bit_long q v b : (length b <= q)%nat -> set_bit q v b = b.
Proof. revert q. induction b as [|x b IH]; intros [|q] H; cbn in *; auto; [lia|]. rewrite IH; auto. lia. Qed.

(** ** Gates *)
Lemma apply_ext n g s t : same_state n s t -> same_state n (apply_gate g s) (apply_gate g t).
Proof. intros H b Hb. unfold apply_gate. rewrite !H by (rewrite set_bit_length; exact Hb). reflexivity. Qed.
Lemma run_ext n gs : forall s t, same_state n s t -> same_state n (run_circuit gs s) (run_circuit gs t).
Proof. induction gs as [|g gs IH]; intros s t H; [exact H|]. cbn. apply IH. now apply apply_ext. Qed.
Lemma run_app gs hs s : run_circuit (gs ++ hs) s = run_circuit hs (run_circuit gs s).
Proof. apply fold_left_app. Qed.
Lemma same_refl n s : same_state n s s.
Proof. now intros b _. Qed.
Lemma same_trans n s t u : same_state n s t -> same_state n t u -> same_state n s u.
Proof. intros H K b Hb. now rewrite H, K. Qed.
Lemma same_sym n s t : same_state n s t -> same_state n t s.
Proof. intros H b Hb. symmetry. now apply H. Qed.
Definition mmul (u v : mat2) : mat2 :=
  mkM (Cplus (Cmul (m00 u) (m00 v)) (Cmul (m01 u) (m10 v))) (Cplus (Cmul (m00 u) (m01 v)) (Cmul (m01 u) (m11 v)))
      (Cplus (Cmul (m10 u) (m00 v)) (Cmul (m11 u) (m10 v))) (Cplus (Cmul (m10 u) (m01 v)) (Cmul (m11 u) (m11 v))).
Definition m_id : mat2 := mkM C1 C0 C0 C1.
Lemma apply_mul n u v q s : (q < n)%nat -> same_state n (apply_gate (u, q) (apply_gate (v, q) s)) (apply_gate (mmul u v, q) s).
Proof. intros Q b Hb. unfold apply_gate. cbn [fst snd]. rewrite !set_bit_get, !set_bit_twice by lia. destruct (nth q b false); cbn; ring. Qed.
Lemma apply_id q s b : apply_gate (m_id, q) s b = s b.
Proof. unfold apply_gate. cbn. pose proof (set_bit_same q b) as E. destruct (nth q b false); rewrite E; ring. Qed.
(** All gates of one qubit in one *)
Definition mprod (us : list mat2) : mat2 := fold_left (fun m u => mmul u m) us m_id.
Lemma mmul_assoc u v w : mmul u (mmul v w) = mmul (mmul u v) w.
Proof. unfold mmul. cbn. f_equal; ring. Qed.
Lemma mmul_id_r u : mmul u m_id = u.
Proof. destruct u. unfold mmul, m_id. cbn. f_equal; ring. Qed.
Lemma mmul_id_l u : mmul m_id u = u.
Proof. destruct u. unfold mmul, m_id. cbn. f_equal; ring. Qed.
Lemma run_qubit n us q : (q < n)%nat -> forall s, same_state n (run_circuit (map (fun u => (u, q)) us) s) (apply_gate (mprod us, q) s).
Proof.
  intro Q. assert (forall us m s, same_state n (run_circuit (map (fun u => (u, q)) us) (apply_gate (m, q) s)) (apply_gate (fold_left (fun m u => mmul u m) us m, q) s)) as G.
  { clear us. induction us as [|u us IH]; intros m s; cbn; [apply same_refl|]. eapply same_trans; [|apply IH]. apply run_ext. now apply apply_mul. }
  intro s. eapply same_trans; [|apply G]. apply run_ext. intros b _. now rewrite apply_id.
Qed.
(** [per_variable] with one gate each *)
Definition single (us : Qc -> list mat2) (c : Qc) : list mat2 := [mprod (us c)].
Lemma per_from k n (us : Qc -> list mat2) : forall cs s, (k + length cs <= n)%nat ->
  same_state n (run_circuit (concat (map (fun ic => map (fun u => (u, fst ic)) (us (snd ic))) (combine (seq k (length cs)) cs))) s)
               (run_circuit (map (fun ic => (mprod (us (snd ic)), fst ic)) (combine (seq k (length cs)) cs)) s).
Proof.
  intro cs. revert k. induction cs as [|c cs IH]; intros k s H; cbn [length seq combine map concat]; [apply same_refl|]. cbn [length] in H. rewrite run_app. cbn [fst snd].
  eapply same_trans; [apply IH; lia|]. change (run_circuit ((mprod (us c), k) :: ?l) s) with (run_circuit l (apply_gate (mprod (us c), k) s)). cbn [run_circuit fold_left]. apply run_ext. apply run_qubit. lia.
Qed.
Lemma per_single us cs s : same_state (length cs) (run_circuit (per_variable us cs) s) (run_circuit (map (fun ic => (mprod (us (snd ic)), fst ic)) (combine (seq 0 (length cs)) cs)) s).
Proof. apply per_from. lia. Qed.

(** ** Product states *)
Fixpoint tensor (fs : list (C * C)) : state := fun b =>
  match fs, b with f :: fs', x :: b' => Cmul (if x then snd f else fst f) (tensor fs' b') | _, _ => C1 end.
Fixpoint upd {A} (q : nat) (f : A -> A) (l : list A) : list A := match l with [] => [] | x :: r => match q with O => f x :: r | S q' => x :: upd q' f r end end.
Definition mvec (u : mat2) (f : C * C) : C * C := (Cplus (Cmul (m00 u) (fst f)) (Cmul (m01 u) (snd f)), Cplus (Cmul (m10 u) (fst f)) (Cmul (m11 u) (snd f))).
Lemma apply_tensor u q fs : (q < length fs)%nat -> same_state (length fs) (apply_gate (u, q) (tensor fs)) (tensor (upd q (mvec u) fs)).
Proof.
  revert q. induction fs as [|f fs IH]; intros q H b Hb; [cbn in H; lia|]. destruct b as [|x b]; [discriminate Hb|]. cbn in Hb, H.
  destruct q as [|q].
  - unfold apply_gate. cbn. destruct x; cbn; ring.
  - assert (q < length fs)%nat as Q by lia. assert (length b = length fs) as Lb by lia. specialize (IH q Q b Lb). unfold apply_gate in *. cbn [upd tensor fst snd nth set_bit] in *. rewrite <- IH. destruct (nth q b false); ring.
Qed.
Lemma upd_length {A} q (f : A -> A) l : length (upd q f l) = length l.
Proof. revert q. induction l; intros [|q]; cbn; auto. Qed.
Lemma upd_app {A} (a b : list A) f x : upd (length a) f (a ++ x :: b) = a ++ f x :: b.
Proof. induction a; cbn; congruence. Qed.
Lemma tensor_from (us : Qc -> mat2) : forall cs fs ds n, length fs = length cs -> n = (length ds + length cs)%nat ->
  same_state n (run_circuit (map (fun ic => (us (snd ic), fst ic)) (combine (seq (length ds) (length cs)) cs)) (tensor (ds ++ fs)))
               (tensor (ds ++ map (fun cf => mvec (us (fst cf)) (snd cf)) (combine cs fs))).
Proof.
  induction cs as [|c cs IH]; intros fs ds n L N; destruct fs as [|f fs]; cbn in L; try lia; [apply same_refl|]. cbn [length seq combine map run_circuit fold_left fst snd].
  eapply same_trans; [apply run_ext with (t := tensor ((ds ++ [mvec (us c) f]) ++ fs))|].
  - cbn [length] in N. assert (n = length (ds ++ f :: fs)) as -> by (rewrite app_length; cbn; lia). eapply same_trans; [apply apply_tensor; rewrite app_length; cbn; lia|]. rewrite upd_app, <- app_assoc. apply same_refl.
  - replace (S (length ds)) with (length (ds ++ [mvec (us c) f])) by (rewrite app_length; cbn; lia). eapply same_trans; [apply IH; [lia|rewrite app_length; cbn in *; lia]|]. rewrite <- app_assoc. apply same_refl.
Qed.
Lemma per_tensor us cs fs : length fs = length cs -> same_state (length cs) (run_circuit (per_variable us cs) (tensor fs)) (tensor (map (fun cf => mvec (mprod (us (fst cf))) (snd cf)) (combine cs fs))).
Proof. intro L. eapply same_trans; [apply per_single|]. exact (tensor_from (fun c => mprod (us c)) cs fs [] (length cs) L eq_refl). Qed.
Lemma zero_tensor n : same_state n zero_state (tensor (repeat (C1, C0) n)).
Proof.
  induction n as [|n IH]; intros b Hb; destruct b as [|x b]; cbn in Hb; try lia; [reflexivity|]. cbn [repeat tensor fst snd]. rewrite <- IH by lia. unfold zero_state. cbn. destruct x; cbn [negb andb]; [ring|destruct (forallb negb b); ring].
Qed.

(** ** The initial state *)
Definition qubit (c : Qc) : C * C := (RC (cos (warm_angle c / 2)), RC (sin (warm_angle c / 2))).
Lemma Qc2R_le a b : (a <= b)%Qc -> Qc2R a <= Qc2R b.
Proof. intro H. unfold Qc2R. now apply Qle_Rle. Qed.
Lemma Qc2R_0 : Qc2R 0 = 0.
Proof. unfold Qc2R, Q2R. cbn. lra. Qed.
Lemma Qc2R_1 : Qc2R 1 = 1.
Proof. unfold Qc2R, Q2R. cbn. lra. Qed.
Lemma Qc2R_half : Qc2R (1 / qz 2)%Qc = / 2.
Proof. unfold Qc2R. replace (this (1 / qz 2)%Qc) with (1 # 2)%Q by (vm_compute; reflexivity). unfold Q2R. cbn. lra. Qed.
Lemma unit_range c : (0 <= c)%Qc -> (c <= 1)%Qc -> 0 <= Qc2R c <= 1.
Proof. intros H K. apply Qc2R_le in H, K. rewrite Qc2R_0 in H. rewrite Qc2R_1 in K. lra. Qed.
Lemma half_angle c : 0 <= Qc2R c <= 1 -> sin (warm_angle c / 2) = sqrt (Qc2R c) /\ cos (warm_angle c / 2) = sqrt (1 - Qc2R c).
Proof.
  intros [H K]. unfold warm_angle. replace (2 * asin (sqrt (Qc2R c)) / 2) with (asin (sqrt (Qc2R c))) by field. assert (-1 <= sqrt (Qc2R c) <= 1) as B.
  { pose proof (sqrt_pos (Qc2R c)). split; [lra|]. rewrite <- sqrt_1. now apply sqrt_le_1_alt. }
  split; [now apply sin_asin|]. rewrite cos_asin by exact B. unfold Rsqr. now rewrite sqrt_sqrt.
Qed.
Lemma initial_tensor cs : same_state (length cs) (run_circuit (create_initial_state cs) zero_state) (tensor (map qubit cs)).
Proof.
  unfold create_initial_state. eapply same_trans; [apply run_ext, zero_tensor|]. eapply same_trans; [apply per_tensor; now rewrite repeat_length|].
  intros b _. f_equal. clear b. induction cs as [|c cs IH]; [reflexivity|]. cbn [length repeat combine map fst snd]. f_equal; [|exact IH].
  unfold mprod, mvec, qubit. cbn [fold_left mmul m_id m_ry m00 m01 m10 m11 fst snd]. f_equal; ring.
Qed.
Lemma tensor_independent cs b : Forall (fun c => 0 <= Qc2R c <= 1) cs -> length b = length cs -> Cnorm2 (tensor (map qubit cs) b) = independent (map Qc2R cs) b.
Proof.
  intro H. revert b. induction H as [|c cs Hc H IH]; intros b Lb; destruct b as [|x b]; cbn in Lb; try lia; [unfold Cnorm2, C1; cbn; ring|].
  cbn [map tensor independent]. rewrite norm2_mul, IH by lia. f_equal. destruct (half_angle c Hc) as [S Cc]. unfold qubit. cbn [fst snd]. destruct x; rewrite norm2_RC, ?S, ?Cc, sqrt_sqrt; lra.
Qed.

(** ** The mixer *)
Lemma mixer_qubit c beta : mvec (mprod [m_ry (- warm_angle c); m_rz (-2 * beta); m_ry (warm_angle c)]) (qubit c) = (Cmul (cis beta) (fst (qubit c)), Cmul (cis beta) (snd (qubit c))).
Proof.
  unfold mprod, mvec, qubit. cbn [fold_left mmul m_id m_ry m_rz m00 m01 m10 m11 fst snd]. replace (- warm_angle c / 2) with (- (warm_angle c / 2)) by field. rewrite cos_neg, sin_neg.
  set (co := cos (warm_angle c / 2)). set (si := sin (warm_angle c / 2)). assert (co * co + si * si = 1) as E by (unfold co, si; pose proof (sin2_cos2 (warm_angle c / 2)) as H; unfold Rsqr in H; lra).
  replace (- (-2 * beta / 2)) with beta by field. replace (-2 * beta / 2) with (- beta) by field.
  f_equal; apply C_eq; unfold cis, C0, C1, Cplus, Cmul, RC; cbn; rewrite cos_neg, sin_neg; set (cb := cos beta); set (sb := sin beta).
  - replace (cb * co) with (cb * co * (co * co + si * si)) by (rewrite E; ring). ring.
  - replace (sb * co) with (sb * co * (co * co + si * si)) by (rewrite E; ring). ring.
  - replace (cb * si) with (cb * si * (co * co + si * si)) by (rewrite E; ring). ring.
  - replace (sb * si) with (sb * si * (co * co + si * si)) by (rewrite E; ring). ring.
Qed.
Lemma mixer_initial cs beta : same_state (length cs) (run_circuit (create_mixer cs beta) (run_circuit (create_initial_state cs) zero_state))
  (fun b => Cmul (cis (INR (length cs) * beta)) (run_circuit (create_initial_state cs) zero_state b)).
Proof.
  eapply same_trans; [apply run_ext, initial_tensor|]. eapply same_trans; [unfold create_mixer; apply per_tensor; now rewrite map_length|].
  intros b Hb. rewrite (initial_tensor cs b Hb). revert b Hb. induction cs as [|c cs IH]; intros b Hb; destruct b as [|x b]; cbn in Hb; try lia.
  - cbn. rewrite Rmult_0_l, cis_0. ring.
  - cbn [map combine tensor fst snd]. rewrite IH by lia. rewrite mixer_qubit. cbn [length fst snd]. rewrite S_INR. replace ((INR (length cs) + 1) * beta) with (beta + INR (length cs) * beta) by ring. rewrite cis_plus. destruct x; ring.
Qed.
(** The matrix of the mixer on one qubit *)
Definition m_mix (c : Qc) (beta : R) : mat2 := mprod [m_ry (- warm_angle c); m_rz (-2 * beta); m_ry (warm_angle c)].
Lemma mix_matrix c beta : let co := cos (warm_angle c) in let si := sin (warm_angle c) in
  m_mix c beta = mkM (cos beta, co * sin beta) (0, si * sin beta) (0, si * sin beta) (cos beta, - (co * sin beta)).
Proof.
  cbv zeta. unfold m_mix, mprod. cbn [fold_left]. unfold mmul, m_id, m_ry, m_rz. cbn [m00 m01 m10 m11]. replace (- warm_angle c / 2) with (- (warm_angle c / 2)) by field. rewrite cos_neg, sin_neg.
  replace (cos (warm_angle c)) with (cos (2 * (warm_angle c / 2))) by (f_equal; field). replace (sin (warm_angle c)) with (sin (2 * (warm_angle c / 2))) by (f_equal; field). rewrite cos_2a, sin_2a.
  set (co := cos (warm_angle c / 2)). set (si := sin (warm_angle c / 2)). assert (co * co + si * si = 1) as E by (unfold co, si; pose proof (sin2_cos2 (warm_angle c / 2)) as H; unfold Rsqr in H; lra).
  replace (- (-2 * beta / 2)) with beta by field. replace (-2 * beta / 2) with (- beta) by field.
  f_equal; apply C_eq; unfold cis, C0, C1, Cplus, Cmul, RC; cbn; rewrite ?cos_neg, ?sin_neg; set (cb := cos beta); set (sb := sin beta); try ring.
  - transitivity (cb * (co * co + si * si)); [ring|rewrite E; ring].
  - transitivity (cb * (co * co + si * si)); [ring|rewrite E; ring].
Qed.
Lemma mix_plus c a b : mmul (m_mix c a) (m_mix c b) = m_mix c (a + b).
Proof.
  rewrite !mix_matrix. unfold mmul. cbn [m00 m01 m10 m11]. rewrite cos_plus, sin_plus. set (co := cos (warm_angle c)). set (si := sin (warm_angle c)).
  assert (si * si = 1 - co * co) as E by (unfold co, si; pose proof (sin2_cos2 (warm_angle c)) as H; unfold Rsqr in H; lra).
  f_equal; apply C_eq; unfold Cplus, Cmul; cbn; try ring.
  - transitivity (cos a * cos b - (co * co) * (sin a * sin b) - (si * si) * (sin a * sin b)); [ring|]. rewrite E. ring.
  - transitivity (cos a * cos b - (co * co) * (sin a * sin b) - (si * si) * (sin a * sin b)); [ring|]. rewrite E. ring.
Qed.
Lemma mix_0 c : m_mix c 0 = m_id.
Proof. rewrite mix_matrix, cos_0, sin_0. unfold m_id, C1, C0. f_equal; f_equal; ring. Qed.
Lemma warm_half : warm_angle (1 / qz 2)%Qc = PI / 2.
Proof.
  unfold warm_angle. rewrite Qc2R_half. assert (sqrt (/ 2) = sin (PI / 4)) as ->.
  { rewrite sin_PI4. replace (/ 2) with (1 / 2) by field. rewrite sqrt_div_alt by lra. now rewrite sqrt_1. }
  rewrite asin_sin; [field|]. pose proof PI_RGT_0. lra.
Qed.
Lemma mix_half beta : m_mix (1 / qz 2)%Qc beta = m_rx (2 * - beta).
Proof.
  rewrite mix_matrix, warm_half, cos_PI2, sin_PI2. unfold m_rx. replace (2 * - beta / 2) with (- beta) by field. rewrite cos_neg, sin_neg. unfold RC. f_equal; f_equal; ring.
Qed.
(** Gates on different qubits commute. *)
Lemma set_bit_comm p q v w b : p <> q -> set_bit p v (set_bit q w b) = set_bit q w (set_bit p v b).
Proof. revert p q. induction b as [|x b IH]; intros [|p] [|q] H; cbn; auto; try lia. f_equal. apply IH. lia. Qed.
Lemma set_bit_other p q v b : p <> q -> nth p (set_bit q v b) false = nth p b false.
Proof. revert p q. induction b as [|x b IH]; intros [|p] [|q] H; cbn; auto; try lia. Qed.
Lemma apply_comm u v p q s b : p <> q -> apply_gate (u, p) (apply_gate (v, q) s) b = apply_gate (v, q) (apply_gate (u, p) s) b.
Proof.
  intro H. unfold apply_gate. cbn [fst snd]. rewrite !(set_bit_other q p) by lia. rewrite !(set_bit_other p q) by lia. rewrite !(set_bit_comm p q) by lia. destruct (nth p b false), (nth q b false); ring.
Qed.
Lemma run_comm n u q gs : Forall (fun g => snd g <> q) gs -> forall s, same_state n (run_circuit gs (apply_gate (u, q) s)) (apply_gate (u, q) (run_circuit gs s)).
Proof.
  induction 1 as [|[v p] gs H F IH]; intros s; [apply same_refl|]. cbn [run_circuit fold_left]. eapply same_trans; [|apply IH]. apply run_ext. intros b _. apply apply_comm. exact H.
Qed.
(** Two rows of gates on the same qubits *)
Lemma rows_mul n (us vs : Qc -> mat2) : forall cs k s, (k + length cs <= n)%nat ->
  same_state n (run_circuit (map (fun ic => (us (snd ic), fst ic)) (combine (seq k (length cs)) cs)) (run_circuit (map (fun ic => (vs (snd ic), fst ic)) (combine (seq k (length cs)) cs)) s))
    (run_circuit (map (fun ic => (mmul (us (snd ic)) (vs (snd ic)), fst ic)) (combine (seq k (length cs)) cs)) s).
Proof.
  induction cs as [|c cs IH]; intros k s H; cbn [length] in H; [apply same_refl|]. cbn [length seq combine map run_circuit fold_left fst snd].
  eapply same_trans; [|apply IH; lia]. fold (run_circuit (map (fun ic => (us (snd ic), fst ic)) (combine (seq (S k) (length cs)) cs))). apply run_ext.
  eapply same_trans; [|apply run_ext, apply_mul; lia]. apply same_sym. apply run_comm.
  apply Forall_forall. intros g Hg. apply in_map_iff in Hg as ([i c'] & <- & Hi). cbn. apply in_combine_l in Hi. apply in_seq in Hi. lia.
Qed.
Lemma mixer_row cs beta s : same_state (length cs) (run_circuit (create_mixer cs beta) s) (run_circuit (map (fun ic => (m_mix (snd ic) beta, fst ic)) (combine (seq 0 (length cs)) cs)) s).
Proof. apply per_single. Qed.
Lemma mixer_plus cs a b s : same_state (length cs) (run_circuit (create_mixer cs a) (run_circuit (create_mixer cs b) s)) (run_circuit (create_mixer cs (a + b)) s).
Proof.
  eapply same_trans; [apply mixer_row|]. eapply same_trans; [apply run_ext, mixer_row|]. eapply same_trans; [apply (rows_mul (length cs) (fun c => m_mix c a) (fun c => m_mix c b)); lia|].
  eapply same_trans; [|apply same_sym, mixer_row]. intros x _. f_equal. apply map_ext. intros [i c]. cbn [fst snd]. now rewrite mix_plus.
Qed.
Lemma mixer_0 cs s : same_state (length cs) (run_circuit (create_mixer cs 0) s) s.
Proof.
  eapply same_trans; [apply mixer_row|]. generalize (seq 0 (length cs)). generalize (length cs) at 1. intros n l. revert l s. induction cs as [|c cs IH]; intros l s; destruct l as [|k l]; try apply same_refl. cbn [combine map run_circuit fold_left fst snd].
  eapply same_trans; [apply IH|]. intros b _. rewrite mix_0. apply apply_id.
Qed.
Lemma mixer_standard n beta s : same_state n (run_circuit (create_mixer (repeat (1 / qz 2)%Qc n) beta) s) (run_circuit (standard_mixer n (- beta)) s).
Proof.
  pose proof (mixer_row (repeat (1 / qz 2)%Qc n) beta s) as H. rewrite repeat_length in H. eapply same_trans; [exact H|]. unfold standard_mixer. intros b _. f_equal. clear. generalize 0%nat. induction n as [|n IH]; intro k; [reflexivity|]. cbn [seq repeat combine map fst snd]. rewrite IH. f_equal. now rewrite mix_half.
Qed.
Lemma standard_row n s : run_circuit (standard_initial n) s = run_circuit (map (fun ic => (m_h, fst ic)) (combine (seq 0 (length (repeat (0%Qc) n))) (repeat (0%Qc) n))) s.
Proof.
  f_equal. unfold standard_initial. rewrite repeat_length. generalize 0%nat. induction n as [|n IH]; intro k; [reflexivity|]. cbn [seq repeat combine map fst snd]. now rewrite IH.
Qed.
Lemma initial_standard n : same_state n (run_circuit (create_initial_state (repeat (1 / qz 2)%Qc n)) zero_state) (run_circuit (standard_initial n) zero_state).
Proof.
  pose proof (initial_tensor (repeat (1 / qz 2)%Qc n)) as H. rewrite repeat_length in H. eapply same_trans; [exact H|]. apply same_sym. rewrite standard_row. eapply same_trans; [apply run_ext, zero_tensor|].
  pose proof (tensor_from (fun _ => m_h) (repeat 0%Qc n) (repeat (C1, C0) n) [] n) as K. cbn [length app Nat.add] in K. eapply same_trans; [apply K; now rewrite !repeat_length|]. intros b _. f_equal. clear.
  induction n as [|n IH]; [reflexivity|]. cbn [repeat combine map fst snd]. f_equal; [|exact IH]. unfold mvec, qubit, m_h. cbn [m00 m01 m10 m11 fst snd]. rewrite warm_half. replace (PI / 2 / 2) with (PI / 4) by field. rewrite cos_PI4, sin_PI4. replace (1 / sqrt 2) with (/ sqrt 2) by (field; apply Rgt_not_eq, sqrt_lt_R0; lra). f_equal; ring.
Qed.
Lemma uniform_amplitude n b : length b = n -> run_circuit (standard_initial n) zero_state b = RC (/ sqrt 2 ^ n).
Proof.
  intro Hb. rewrite standard_row. assert (same_state n (run_circuit (map (fun ic => (m_h, fst ic)) (combine (seq 0 (length (repeat 0%Qc n))) (repeat 0%Qc n))) zero_state) (tensor (repeat (RC (/ sqrt 2), RC (/ sqrt 2)) n))) as H.
  { eapply same_trans; [apply run_ext, zero_tensor|]. pose proof (tensor_from (fun _ => m_h) (repeat 0%Qc n) (repeat (C1, C0) n) [] n) as K. cbn [length app Nat.add] in K. eapply same_trans; [apply K; now rewrite !repeat_length|]. intros c _. f_equal. clear.
    induction n as [|n IH]; [reflexivity|]. cbn [repeat combine map fst snd]. f_equal; [|exact IH]. unfold mvec, m_h. cbn [m00 m01 m10 m11 fst snd]. f_equal; ring. }
  rewrite (H b Hb). clear H. revert b Hb. induction n as [|n IH]; intros b Hb; destruct b as [|x b]; cbn in Hb; try lia; [unfold RC, C1; cbn [tensor repeat pow]; now rewrite Rinv_1|].
  cbn [repeat tensor fst snd]. rewrite IH by lia. assert (sqrt 2 <> 0) as Z by (apply Rgt_not_eq, sqrt_lt_R0; lra). replace (if x then RC (/ sqrt 2) else RC (/ sqrt 2)) with (RC (/ sqrt 2)) by now destruct x. rewrite <- RC_mul. f_equal. cbn [pow]. field. split; [apply pow_nonzero|]; exact Z.
Qed.

(** ** Sums over all bits *)
Lemma Rsum_app l k : Rsum (l ++ k) = Rsum l + Rsum k.
Proof. induction l; cbn; [ring|]. rewrite IHl. ring. Qed.
Lemma Rsum_map_plus {A} (f g : A -> R) l : Rsum (map (fun x => f x + g x) l) = Rsum (map f l) + Rsum (map g l).
Proof. induction l; cbn; [ring|]. rewrite IHl. ring. Qed.
Lemma Rsum_map_mult {A} k (f : A -> R) l : Rsum (map (fun x => k * f x) l) = k * Rsum (map f l).
Proof. induction l; cbn; [ring|]. rewrite IHl. ring. Qed.
Lemma all_bools_length n b : In b (all_bools n) <-> length b = n.
Proof.
  revert b. induction n as [|n IH]; intro b; cbn; [split; [intros [<-|[]]; reflexivity|destruct b; [now left|discriminate]]|]. rewrite in_app_iff, !in_map_iff. split.
  - intros [(c & <- & H)|(c & <- & H)]; apply IH in H; cbn; congruence.
  - destruct b as [|x b]; [discriminate|]. intro H. injection H as H. apply IH in H. destruct x; [right|left]; eauto.
Qed.
Lemma bools_sum n (f : list bool -> R) : Rsum (map f (all_bools (S n))) = Rsum (map (fun b => f (false :: b)) (all_bools n)) + Rsum (map (fun b => f (true :: b)) (all_bools n)).
Proof. cbn [all_bools]. now rewrite map_app, Rsum_app, !map_map. Qed.
Lemma Rsum_ext {A} (f g : A -> R) l : (forall x, In x l -> f x = g x) -> Rsum (map f l) = Rsum (map g l).
Proof. intro H. f_equal. now apply map_ext_in. Qed.
Lemma prob_of_all n s : prob_of n s (fun _ => true) = Rsum (map (prob s) (all_bools n)).
Proof. unfold prob_of. f_equal. f_equal. induction (all_bools n); cbn; congruence. Qed.
Lemma prob_of_if n s f : prob_of n s f = Rsum (map (fun b => if f b then prob s b else 0) (all_bools n)).
Proof. unfold prob_of. induction (all_bools n) as [|b l IH]; [reflexivity|]. cbn. rewrite <- IH. destruct (f b); cbn; ring. Qed.
Lemma prob_of_same n s t f : same_state n s t -> prob_of n s f = prob_of n t f.
Proof. intro H. rewrite !prob_of_if. apply Rsum_ext. intros b Hb. apply all_bools_length in Hb. unfold prob. now rewrite (H b Hb). Qed.
Lemma independent_sum cs : Rsum (map (independent cs) (all_bools (length cs))) = 1.
Proof.
  induction cs as [|c cs IH]; [cbn; ring|]. cbn [length]. rewrite bools_sum. cbn [independent]. rewrite !Rsum_map_mult, IH. ring.
Qed.
Lemma independent_marginal cs i : (i < length cs)%nat -> Rsum (map (fun b => if nth i b false then independent cs b else 0) (all_bools (length cs))) = nth i cs 0.
Proof.
  revert i. induction cs as [|c cs IH]; intros i H; cbn [length] in H; [lia|]. cbn [length]. rewrite bools_sum. destruct i as [|i]; cbn [nth independent].
  - rewrite (Rsum_ext (fun _ => 0) (fun b => 0 * independent cs b)) by (intros; ring). rewrite !Rsum_map_mult, independent_sum. ring.
  - rewrite (Rsum_ext _ (fun b => (1 - c) * (if nth i b false then independent cs b else 0))) by (intros b _; destruct (nth i b false); ring).
    rewrite (Rsum_ext (fun b => if nth i b false then c * independent cs b else 0) (fun b => c * (if nth i b false then independent cs b else 0))) by (intros b _; destruct (nth i b false); ring).
    rewrite !Rsum_map_mult, IH by lia. ring.
Qed.

(** ** Gates keep the norm *)
Definition unitary (u : mat2) : Prop := forall a b, Cnorm2 (Cplus (Cmul (m00 u) a) (Cmul (m01 u) b)) + Cnorm2 (Cplus (Cmul (m10 u) a) (Cmul (m11 u) b)) = Cnorm2 a + Cnorm2 b.
Lemma square_one t : cos t * cos t + sin t * sin t = 1.
Proof. pose proof (sin2_cos2 t) as H. unfold Rsqr in H. lra. Qed.
Lemma unitary_ry t : unitary (m_ry t).
Proof.
  intros [a a'] [b b']. unfold m_ry, Cnorm2, Cplus, Cmul, RC. cbn. pose proof (square_one (t / 2)) as E. set (c := cos (t / 2)) in *. set (s := sin (t / 2)) in *.
  transitivity ((c * c + s * s) * (a * a + a' * a' + (b * b + b' * b'))); [ring|]. rewrite E. ring.
Qed.
Lemma unitary_rz t : unitary (m_rz t).
Proof.
  intros [a a'] [b b']. unfold m_rz, Cnorm2, Cplus, Cmul, C0, cis. cbn. rewrite cos_neg, sin_neg. pose proof (square_one (t / 2)) as E. set (c := cos (t / 2)) in *. set (s := sin (t / 2)) in *.
  transitivity ((c * c + s * s) * (a * a + a' * a' + (b * b + b' * b'))); [ring|]. rewrite E. ring.
Qed.
Lemma apply_norm u : unitary u -> forall q n s, (q < n)%nat -> Rsum (map (prob (apply_gate (u, q) s)) (all_bools n)) = Rsum (map (prob s) (all_bools n)).
Proof.
  intro U. induction q as [|q IH]; intros n s H; destruct n as [|n]; try lia; rewrite !bools_sum.
  - rewrite <- !Rsum_map_plus. apply Rsum_ext. intros b _. unfold prob, apply_gate. cbn. apply U.
  - assert (forall x, Rsum (map (fun b => prob (apply_gate (u, S q) s) (x :: b)) (all_bools n)) = Rsum (map (fun b => prob s (x :: b)) (all_bools n))) as G by (intro x; apply (IH n (fun b => s (x :: b))); lia). now rewrite !G.
Qed.
Lemma run_norm n gs : Forall (fun g => unitary (fst g) /\ (snd g < n)%nat) gs -> forall s, prob_of n (run_circuit gs s) (fun _ => true) = prob_of n s (fun _ => true).
Proof.
  induction 1 as [|[u q] gs [U Q] F IH]; intro s; [reflexivity|]. cbn [run_circuit fold_left]. unfold run_circuit in IH. rewrite IH. rewrite !prob_of_all. now apply apply_norm.
Qed.
Lemma per_gates us cs : (forall c, Forall unitary (us c)) -> Forall (fun g => unitary (fst g) /\ (snd g < length cs)%nat) (per_variable us cs).
Proof.
  intro U. apply Forall_forall. intros g Hg. apply in_concat in Hg as (l & Hl & Hg). apply in_map_iff in Hl as ([i c] & <- & Hi). apply in_map_iff in Hg as (u & <- & Hu). cbn [fst snd] in *. split; [exact (proj1 (Forall_forall _ _) (U c) u Hu)|]. apply in_combine_l, in_seq in Hi. lia.
Qed.
Lemma mixer_norm cs beta s : prob_of (length cs) (run_circuit (create_mixer cs beta) s) (fun _ => true) = prob_of (length cs) s (fun _ => true).
Proof. apply run_norm, per_gates. intro c. repeat constructor; auto using unitary_ry, unitary_rz. Qed.

(** ** Clipping *)
Lemma initial_unit eps x : (0 <= eps)%Qc -> (eps <= 1 / qz 2)%Qc -> Forall (fun c => 0 <= Qc2R c <= 1) (initial_variables eps x).
Proof.
  intros H K. assert (eps <= 1)%Qc as L by (eapply Qcle_trans; [exact K|]; unfold Qcle; cbn; discriminate). unfold initial_variables. apply Forall_forall. intros c Hc. apply in_map_iff in Hc as (v & <- & _). apply unit_range.
  - destruct (qltb_spec v eps) as [A|A]; [exact H|]. destruct (qltb_spec (1 - eps)%Qc v) as [B|B]; qlra.
  - destruct (qltb_spec v eps) as [A|A]; [exact L|]. destruct (qltb_spec (1 - eps)%Qc v) as [B|B]; qlra.
Qed.
Lemma initial_half x : initial_variables (1 / qz 2)%Qc x = repeat (1 / qz 2)%Qc (length x).
Proof.
  unfold initial_variables. induction x as [|v x IH]; [reflexivity|]. cbn [map length repeat]. rewrite IH. f_equal. assert (1 - 1 / qz 2 = 1 / qz 2)%Qc as E by (apply qeqb_iff; vm_compute; reflexivity). rewrite E.
  destruct (qltb_spec v (1 / qz 2)) as [A|A]; [reflexivity|]. destruct (qltb_spec (1 / qz 2) v) as [B|B]; [reflexivity|]. apply Qcle_antisym; qlra.
Qed.
Lemma initial_bits x : Forall (fun a => a = 0%Qc \/ a = 1%Qc) x -> initial_variables 0 x = x.
Proof. induction 1 as [|a x H F IH]; [reflexivity|]. unfold initial_variables in *. cbn [map]. rewrite IH. f_equal. destruct H as [-> | ->]; reflexivity. Qed.

(** ** Rounding parameter 0 *)
Definition only (n : nat) (x : list bool) (s : state) : Prop := Cnorm2 (s x) = 1 /\ forall b, length b = n -> b <> x -> s b = C0.
Lemma only_same n x s t : length x = n -> same_state n s t -> only n x s -> only n x t.
Proof. intros L H [A B]. split; [now rewrite <- (H x L)|]. intros b Hb N. rewrite <- (H b Hb). auto. Qed.
Lemma only_scale n x s (f : list bool -> C) : (forall b, Cnorm2 (f b) = 1) -> only n x s -> only n x (fun b => Cmul (f b) (s b)).
Proof. intros F [A B]. split; [rewrite norm2_mul, F, A; ring|]. intros b Hb N. rewrite B by auto. ring. Qed.
Lemma apply_diag u q s b : m01 u = C0 -> m10 u = C0 -> apply_gate (u, q) s b = Cmul (if nth q b false then m11 u else m00 u) (s b).
Proof. intros A B. unfold apply_gate. cbn [fst snd]. pose proof (set_bit_same q b) as E. rewrite A, B. destruct (nth q b false); rewrite E; ring. Qed.
Lemma bit_angle c : c = 0%Qc \/ c = 1%Qc -> sin (warm_angle c) = 0 /\ cos (warm_angle c) * cos (warm_angle c) = 1.
Proof.
  intro H. assert (0 <= Qc2R c <= 1) as U by (destruct H as [-> | ->]; rewrite ?Qc2R_0, ?Qc2R_1; lra). destruct (half_angle c U) as [S Co]. replace (warm_angle c) with (2 * (warm_angle c / 2)) by field. rewrite sin_2a, cos_2a, S, Co.
  destruct H as [-> | ->]; rewrite ?Qc2R_0, ?Qc2R_1; [replace (1 - 0) with 1 by ring|replace (1 - 1) with 0 by ring]; rewrite ?sqrt_0, ?sqrt_1; split; ring.
Qed.
Lemma mix_only n x cs beta : Forall (fun c => c = 0%Qc \/ c = 1%Qc) cs -> forall k s, only n x s ->
  only n x (run_circuit (map (fun ic => (m_mix (snd ic) beta, fst ic)) (combine k cs)) s).
Proof.
  induction 1 as [|c cs H F IH]; intros k s O; destruct k as [|q k]; try exact O. cbn [combine map run_circuit fold_left fst snd]. apply IH. clear IH F.
  destruct (bit_angle c H) as [S Co]. rewrite mix_matrix, S. set (co := cos (warm_angle c)) in *.
  assert (only n x (fun b => Cmul (if nth q b false then (cos beta, - (co * sin beta)) else (cos beta, co * sin beta)) (s b))) as G.
  { apply only_scale; [|exact O]. intro b. pose proof (square_one beta) as E. destruct (nth q b false); unfold Cnorm2; cbn; (transitivity (cos beta * cos beta + (co * co) * (sin beta * sin beta)); [ring|rewrite Co; lra]). }
  destruct G as [G1 G2]. assert ((0, 0 * sin beta) = C0) as Z by (unfold C0; f_equal; ring). split; [rewrite apply_diag by exact Z; exact G1|]. intros b Hb N. rewrite apply_diag by exact Z. now apply G2.
Qed.
Lemma tensor_only cs : Forall (fun c => c = 0%Qc \/ c = 1%Qc) cs -> only (length cs) (bools cs) (tensor (map qubit cs)).
Proof.
  induction 1 as [|c cs H F [A B]]; [split; [unfold Cnorm2; cbn; ring|intros [|x b] Hb N; [now contradiction N|discriminate Hb]]|].
  assert (0 <= Qc2R c <= 1) as U by (destruct H as [-> | ->]; rewrite ?Qc2R_0, ?Qc2R_1; lra). destruct (half_angle c U) as [S Co].
  assert (qubit c = if qeqb c 1 then (C0, C1) else (C1, C0)) as Q.
  { unfold qubit. rewrite S, Co. destruct H as [-> | ->]; rewrite ?Qc2R_0, ?Qc2R_1; [replace (1 - 0) with 1 by ring|replace (1 - 1) with 0 by ring]; rewrite sqrt_0, sqrt_1; reflexivity. }
  split; cbn [map tensor bools].
  - rewrite norm2_mul. change (map (fun a => qeqb a 1) cs) with (bools cs). rewrite A, Q. destruct (qeqb c 1); unfold Cnorm2; cbn; ring.
  - intros [|x b] Hb N; [discriminate Hb|]. cbn [tensor]. destruct (list_eq_dec Bool.bool_dec b (bools cs)) as [E|E].
    + assert (x <> qeqb c 1) as X by (intros ->; apply N; rewrite E; reflexivity). rewrite Q. destruct x, (qeqb c 1); cbn [fst snd]; try congruence; ring.
    + rewrite B; [ring| |exact E]. cbn in Hb. lia.
Qed.
Lemma stuck cs ls : Forall (fun c => c = 0%Qc \/ c = 1%Qc) cs -> only (length cs) (bools cs) (qaoa_state cs ls).
Proof.
  intro F. assert (length (bools cs) = length cs) as L by (unfold bools; now rewrite map_length).
  assert (forall ls s, only (length cs) (bools cs) s -> only (length cs) (bools cs) (fold_left (layer cs) ls s)) as G.
  { clear ls. induction ls as [|[cost beta] ls IH]; intros s O; [exact O|]. cbn [fold_left]. apply IH. unfold layer. cbn [fst snd]. eapply only_same; [exact L|apply same_sym, mixer_row|]. apply mix_only; [exact F|]. apply only_scale; [|exact O]. intro b. apply norm2_cis. }
  apply G. eapply only_same; [exact L|apply same_sym, initial_tensor|]. now apply tensor_only.
Qed.
