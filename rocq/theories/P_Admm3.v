(** * C82: where ADMM starts and when it stops *)
From Verif Require Import AdmmFacts9 ConvMore P_Admm P_Admm2.
Local Open Scope string_scope.
Local Open Scope list_scope.
Local Open Scope nat_scope.

(** The residuals kept are those of the rounds made, each the distance of x0 from z + y; there is at least one round and at most maxiter; a round is made only while the time is not
    over and the residual before it is above the tolerance, and the last round is followed by none because one of the three limits is reached. *)
Theorem C82_stop : forall qubo cont norm late pr p r d s, admm_solve qubo cont norm late pr p = Ok (r, (d, s)) ->
  exists states, history qubo cont norm pr d states /\ length states = S (length (i_res s)) /\ nth_error states (length (i_res s)) = Some s /\
    1 <= length (i_res s) <= ap_maxiter pr /\ (forall k t, nth_error states (S k) = Some t -> nth k (i_res s) 0%Qc = norm (minus (minus (i_x0 t) (i_z t)) (i_y t))) /\
    (forall k, k < length (i_res s) -> late k = false /\ (0 < k -> (ap_tol pr < nth (k - 1) (i_res s) 0)%Qc)) /\
    (length (i_res s) = ap_maxiter pr \/ late (length (i_res s)) = true \/ (nth (length (i_res s) - 1) (i_res s) 0 <= ap_tol pr)%Qc).
Proof.
  intros qubo cont norm late pr p r d s H. destruct (solve_stops _ _ _ _ _ _ _ _ _ H) as (states & A & B & C & D & E & F & G & _). exists states. auto 10.
Qed.
(** Ten rounds at most with the default parameters; if fewer are made, in time, x0 is within 1/10000 of z + y; rho begins at 10000 and all else at 0. *)
Theorem C82_default : forall qubo cont norm late p r d s, admm_solve qubo cont norm late default_params p = Ok (r, (d, s)) -> (forall k, late k = false) ->
  1 <= length (i_res s) <= 10 /\ (length (i_res s) < 10 -> (norm (minus (minus (i_x0 s) (i_z s)) (i_y s)) <= 1 / qz 10000)%Qc) /\
  exists states s0, history qubo cont norm default_params d states /\ nth_error states 0 = Some s0 /\ nth_error states (length (i_res s)) = Some s /\ i_rho s0 = qz 10000 /\
    i_z s0 = repeat 0%Qc (length (indices_of BINARY (a_op d))) /\ i_x0 s0 = i_z s0 /\ i_y s0 = i_z s0 /\ i_lam s0 = i_z s0 /\ i_u s0 = repeat 0%Qc (length (indices_of CONTINUOUS (a_op d))).
Proof.
  intros qubo cont norm late p r d s H T. destruct (C82_stop _ _ _ _ _ _ _ _ _ H) as (states & A & B & C & D & E & F & G). split; [exact D|]. split.
  2:{ destruct (solve_stops _ _ _ _ _ _ _ _ _ H) as (states' & A' & _ & C' & _ & _ & _ & _ & s0 & S0 & St). injection St as <-. exists states'. eexists. split; [exact A'|]. split; [exact S0|]. split; [exact C'|]. cbn. auto 10. }
  intro L. destruct G as [G|[G|G]].
  - rewrite G in L. cbn in L. lia.
  - rewrite T in G. discriminate G.
  - destruct (length (i_res s)) as [|m]; [lia|]. replace (S m - 1) with m in G by lia. rewrite (E m s C) in G. exact G.
Qed.
Example C82_stop_case : let run warm := admm_solve ones third norm1 (fun k => Nat.leb 4 k) (pars78 warm) ex50 in
  match run false, run true, admm_solve ones third norm1 (fun _ => false) default_params ex50 with
  | Ok (_, (_, s)), Ok (_, (_, t)), Ok (_, (_, u)) => (length (i_res s), length (i_res t), length (i_res u))
  | _, _, _ => (0, 0, 0)
  end = (4, 4, 10).
Proof. vm_compute. reflexivity. Qed.
Definition near (k : nat) (q : qp) : result (list Qc) := Ok (repeat 0%Qc (num_vars q)).
(** With them the penalty starts at 10000 and grows by a tenth in every round, and a merit is the cost and 1000 times the violation of the constraints. *)
Theorem C82_growth : forall qubo cont norm late p r d s, admm_solve qubo cont norm late default_params p = Ok (r, (d, s)) ->
  i_rho s = (qz 10000 * (qz 11 / qz 10) ^ length (i_res s))%Qc /\
  (forall k, k < length (i_res s) -> nth k (i_merits s) 0%Qc = (nth k (i_costs s) 0 + qz 1000 * nth k (i_cons s) 0)%Qc) /\
  exists states, history qubo cont norm default_params d states /\ length states = S (length (i_res s)) /\ nth_error states (length (i_res s)) = Some s /\
    forall k t, nth_error states k = Some t -> i_rho t = (qz 10000 * (qz 11 / qz 10) ^ k)%Qc.
Proof.
  intros qubo cont norm late p r d s H. destruct (solve_stops _ _ _ _ _ _ _ _ _ H) as (states & A & B & C & D & _ & _ & _ & s0 & S0 & St). destruct (start_fresh _ _ _ _ _ _ St) as (R0 & Z).
  cbn [ap_maxiter default_params] in D. assert (forall k t, nth_error states k = Some t -> i_rho t = (qz 10000 * (qz 11 / qz 10) ^ k)%Qc) as R by (apply (default_rho qubo cont norm d states s0 A S0 R0); lia).
  destruct (merits_sum _ _ _ _ _ _ _ A S0 Z _ _ C) as (_ & _ & _ & M). split; [exact (R _ _ C)|]. split; [exact M|]. exists states. auto.
Qed.
Example C82_growth_case : match admm_solve ones third norm1 (fun _ => false) default_params ex50 with
  | Ok (_, (_, s)) => qeqb (i_rho s) (qz (11 ^ 10) / qz (10 ^ 6))%Qc && qeqb (nth 0 (i_merits s) 0%Qc) (nth 0 (i_costs s) 0 + qz 1000 * nth 0 (i_cons s) 0)%Qc && negb (qeqb (nth 0 (i_cons s) 0%Qc) 0) | _ => false end = true.
Proof. vm_compute. reflexivity. Qed.
Example C82_default_case : match admm_solve near near norm1 (fun _ => false) default_params ex50 with Ok (_, (_, s)) => length (i_res s) | _ => 0 end = 1.
Proof. vm_compute. reflexivity. Qed.

(** With a warm start x0, z and u are the parts of the answer of the second optimizer for the program of the rounds with every variable continuous: same names, bounds, objective
    and constraints.  Each point of the program of the rounds is one of that program, so an optimal answer bounds the values of all of them. *)
Theorem C82_warm : forall qubo cont norm late pr p r d s, ap_warm pr = true -> admm_solve qubo cont norm late pr p = Ok (r, (d, s)) ->
  exists states s0 op0 x, history qubo cont norm pr d states /\ nth_error states 0 = Some s0 /\ nth_error states (length (i_res s)) = Some s /\ cont 0 op0 = Ok x /\
    p_obj op0 = p_obj (a_op d) /\ p_lcs op0 = p_lcs (a_op d) /\ p_qcs op0 = p_qcs (a_op d) /\
    Forall2 (fun v w => v_name w = v_name v /\ v_lb w = v_lb v /\ v_ub w = v_ub v /\ v_type w = CONTINUOUS) (p_vars (a_op d)) (p_vars op0) /\
    i_x0 s0 = part BINARY (p_vars (a_op d)) x /\ i_z s0 = part BINARY (p_vars (a_op d)) x /\ i_u s0 = part CONTINUOUS (p_vars (a_op d)) x /\
    (forall y, feasible (a_op d) y -> feasible op0 y) /\ (optimal op0 x -> forall y, feasible (a_op d) y -> at_least (o_sense (p_obj (a_op d))) (obj_at (p_obj (a_op d)) x) (obj_at (p_obj (a_op d)) y)).
Proof.
  intros qubo cont norm late pr p r d s W H. destruct (solve_stops _ _ _ _ _ _ _ _ _ H) as (states & A & _ & C & _ & _ & _ & _ & s0 & S0 & St). destruct (start_warm _ _ _ _ W St) as (x & Hx & L & X0 & Z & U).
  exists states, s0, (relaxed (a_op d)), x. repeat (split; [now auto|]). split.
  { unfold relaxed, set_vars. cbn [p_vars]. clear. induction (p_vars (a_op d)); cbn [map]; constructor; auto. }
  repeat (split; [now auto|]). split; [apply relaxed_feasible|]. intros [F O] y Fy. apply (O y). now apply relaxed_feasible.
Qed.
(** Without one they are 0, and the second optimizer is not called before the rounds. *)
Theorem C82_cold : forall qubo cont norm late pr p r d s, ap_warm pr = false -> admm_solve qubo cont norm late pr p = Ok (r, (d, s)) ->
  exists states s0, history qubo cont norm pr d states /\ nth_error states 0 = Some s0 /\ nth_error states (length (i_res s)) = Some s /\
    i_x0 s0 = repeat 0%Qc (length (indices_of BINARY (a_op d))) /\ i_z s0 = i_x0 s0 /\ i_y s0 = i_x0 s0 /\ i_lam s0 = i_x0 s0 /\ i_u s0 = repeat 0%Qc (length (indices_of CONTINUOUS (a_op d))) /\ i_rho s0 = ap_rho pr.
Proof.
  intros qubo cont norm late pr p r d s W H. destruct (solve_stops _ _ _ _ _ _ _ _ _ H) as (states & A & _ & C & _ & _ & _ & _ & s0 & S0 & St). unfold start in St. rewrite W in St. injection St as <-. exists states. eexists. split; [exact A|]. split; [exact S0|]. split; [exact C|]. cbn. auto 10.
Qed.
Example C82_warm_case : let first warm := match start third (pars78 warm) min50 (indices_of BINARY min50) (indices_of CONTINUOUS min50) with Ok s => [i_x0 s; i_u s; i_z s; i_y s] | _ => [] end in
  forallb (fun ab => qs_eqb (fst ab) (snd ab)) (combine (first true) [repeat (1 / qz 3)%Qc 2; repeat (1 / qz 3)%Qc 2; repeat (1 / qz 3)%Qc 2; [0; 0]%Qc]) = true /\ length (first true) = 4 /\ first false = repeat [0; 0]%Qc 4.
Proof. vm_compute. auto. Qed.

Print Assumptions C82_stop.
Print Assumptions C82_default.
Print Assumptions C82_growth.
Print Assumptions C82_warm.
Print Assumptions C82_cold.
