(** * C80: the circuits of the warm start *)
From Verif Require Import CircuitFacts.
From Coq Require Import Lra.
Local Open Scope list_scope.
Local Open Scope R_scope.

(** Measuring the initial state gives every bit 1 with the probability of its initial variable, independently of the others. *)
Theorem C80_initial : forall eps x, (0 <= eps)%Qc -> (eps <= 1 / qz 2)%Qc -> let cs := initial_variables eps x in let s := run_circuit (create_initial_state cs) zero_state in
  (forall b, length b = length cs -> prob s b = independent (map Qc2R cs) b) /\
  (forall i, (i < length cs)%nat -> prob_of (length cs) s (fun b => nth i b false) = Qc2R (nth i cs 0%Qc)) /\ normed (length cs) s.
Proof.
  intros eps x H K cs s. pose proof (initial_unit eps x H K) as U. fold cs in U.
  assert (forall b, length b = length cs -> prob s b = independent (map Qc2R cs) b) as P by (intros b Hb; unfold prob, s; rewrite (initial_tensor cs b Hb); now apply tensor_independent). split; [exact P|]. split.
  - intros i Hi. rewrite prob_of_if. rewrite (Rsum_ext _ (fun b => if nth i b false then independent (map Qc2R cs) b else 0)) by (intros b Hb; apply all_bools_length in Hb; now rewrite P).
    pose proof (independent_marginal (map Qc2R cs) i) as M. rewrite map_length in M. rewrite M by exact Hi. rewrite <- Qc2R_0. apply map_nth.
  - unfold normed. rewrite prob_of_all. rewrite (Rsum_ext _ (independent (map Qc2R cs))) by (intros b Hb; apply all_bools_length in Hb; now rewrite P). pose proof (independent_sum (map Qc2R cs)) as M. now rewrite map_length in M.
Qed.
Definition ex80 : list Qc := initial_variables (1 / qz 4)%Qc [1; 0; 1 / qz 3]%Qc.
Example ex80_values : map Qc2R ex80 = [3 / 4; 1 / 4; 1 / 3].
Proof. unfold ex80, initial_variables. cbn [map]. unfold Qc2R. repeat (f_equal; [vm_compute this; unfold Q2R; cbn; lra|]). reflexivity. Qed.
Example C80_initial_case : prob (run_circuit (create_initial_state ex80) zero_state) [true; false; true] = 3 / 16 /\ prob_of 3 (run_circuit (create_initial_state ex80) zero_state) (fun b => nth 2 b false) = 1 / 3.
Proof.
  assert (0 <= 1 / qz 4)%Qc as H by (unfold Qcle; cbn; discriminate). assert (1 / qz 4 <= 1 / qz 2)%Qc as K by (unfold Qcle; cbn; discriminate). destruct (C80_initial (1 / qz 4)%Qc [1; 0; 1 / qz 3]%Qc H K) as (A & B & _). fold ex80 in A, B. split.
  - rewrite A by reflexivity. rewrite ex80_values. cbn. lra.
  - change 3%nat with (length ex80). rewrite B by (cbn; auto). rewrite <- (map_nth Qc2R), ex80_values. reflexivity.
Qed.

(** The mixer leaves the initial state as it is, up to the phase n * beta, for every beta; mixers keep norms, angles add up, and 0 is the identity, on all states. *)
Theorem C80_mixer : forall cs beta, let s := run_circuit (create_initial_state cs) zero_state in
  (forall b, length b = length cs -> run_circuit (create_mixer cs beta) s b = Cmul (cis (INR (length cs) * beta)) (s b)) /\ same_ray (length cs) s (run_circuit (create_mixer cs beta) s) /\
  (forall t, normed (length cs) t -> normed (length cs) (run_circuit (create_mixer cs beta) t)) /\
  (forall gamma t, same_state (length cs) (run_circuit (create_mixer cs gamma) (run_circuit (create_mixer cs beta) t)) (run_circuit (create_mixer cs (gamma + beta)) t)) /\
  (forall t, same_state (length cs) (run_circuit (create_mixer cs 0) t) t).
Proof.
  intros cs beta s. pose proof (mixer_initial cs beta) as M. fold s in M. split; [exact M|]. split; [exists (INR (length cs) * beta); exact M|].
  split; [intros t N; unfold normed in *; now rewrite mixer_norm|]. split; [intros; apply mixer_plus|intro; apply mixer_0].
Qed.
Example C80_mixer_case : run_circuit (create_mixer [1 / qz 4; 1 / qz 2]%Qc (PI / 2)) (run_circuit (create_initial_state [1 / qz 4; 1 / qz 2]%Qc) zero_state) [true; false] = Copp (run_circuit (create_initial_state [1 / qz 4; 1 / qz 2]%Qc) zero_state [true; false]) /\
  run_circuit (create_mixer [1 / qz 2]%Qc (PI / 2)) zero_state [true] = (0, 1).
Proof.
  split.
  - destruct (C80_mixer [1 / qz 4; 1 / qz 2]%Qc (PI / 2)) as (A & _). rewrite A by reflexivity. cbn [length INR]. replace ((1 + 1) * (PI / 2)) with PI by field. unfold cis. rewrite cos_PI, sin_PI. apply C_eq; unfold Cmul, Copp; cbn [fst snd]; ring.
  - rewrite (mixer_row [1 / qz 2]%Qc (PI / 2) zero_state [true]) by reflexivity. cbn [combine seq length map run_circuit fold_left fst snd]. rewrite mix_half. unfold apply_gate, zero_state, m_rx, C0, C1. cbn. replace (2 * - (PI / 2) / 2) with (- (PI / 2)) by field. rewrite cos_neg, sin_neg, cos_PI2, sin_PI2. apply C_eq; unfold Cplus, Cmul; cbn; ring.
Qed.

(** With 0.5 the circuits are those of the standard QAOA, with the sign of beta changed; the initial state is uniform. *)
Theorem C80_standard : forall x, let cs := initial_variables (1 / qz 2)%Qc x in let n := length x in
  same_state n (run_circuit (create_initial_state cs) zero_state) (run_circuit (standard_initial n) zero_state) /\
  (forall b, length b = n -> run_circuit (create_initial_state cs) zero_state b = RC (/ sqrt 2 ^ n)) /\
  forall beta s, same_state n (run_circuit (create_mixer cs beta) s) (run_circuit (standard_mixer n (- beta)) s).
Proof.
  intros x cs n. unfold cs, n. rewrite initial_half. split; [apply initial_standard|]. split; [|intros; apply mixer_standard]. intros b Hb. rewrite (initial_standard (length x) b Hb). now apply uniform_amplitude.
Qed.
Example C80_standard_case : run_circuit (create_initial_state (initial_variables (1 / qz 2)%Qc [1; qz 7]%Qc)) zero_state [false; true] = (1 / 2, 0).
Proof. destruct (C80_standard [1; qz 7]%Qc) as (_ & A & _). rewrite A by reflexivity. unfold RC. cbn [length pow]. f_equal. rewrite Rmult_1_r, sqrt_sqrt by lra. lra. Qed.

(** With 0 and a solution made of bits the QAOA cannot leave it: whatever the cost, the angles and the number of layers, measuring gives the bits of the solution. *)
Theorem C80_stuck : forall x ls, Forall (fun a => a = 0%Qc \/ a = 1%Qc) x -> let s := qaoa_state (initial_variables 0 x) ls in
  prob s (bools x) = 1 /\ forall b, length b = length x -> b <> bools x -> prob s b = 0.
Proof.
  intros x ls F s. unfold s. rewrite initial_bits by exact F. destruct (stuck x ls F) as [A B]. split; [exact A|]. intros b Hb N. unfold prob. rewrite (B b Hb N). unfold Cnorm2, C0. cbn. ring.
Qed.
Example C80_stuck_case : prob (qaoa_state (initial_variables 0 [1; 0]%Qc) [((fun b => if nth 0 b false then 5 else 0), PI / 3); ((fun _ => 1), 1)]) [true; false] = 1.
Proof. apply (C80_stuck [1; 0]%Qc). constructor; [now right|]. constructor; [now left|constructor]. Qed.

Print Assumptions C80_initial.
Print Assumptions C80_mixer.
Print Assumptions C80_standard.
Print Assumptions C80_stuck.
