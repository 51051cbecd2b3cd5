(** * C73: when the Grover search gives up *)
From Verif Require Import StopFacts.
Local Open Scope string_scope.
Local Open Scope list_scope.
Local Open Scope nat_scope.

(** ** C73 *)
(** A search that ends has a reason to: the last passes did not improve anything, or all assignments were seen in such passes,
    or 79 rotations were made. *)
Theorem C73_reason n_value n_iter root spin measure fuel cs p q0 fs p' g : convert_all cs p = Ok (q0, fs) -> obj_shaped q0 -> 0 < num_vars q0 -> 0 < n_value ->
  sized_outcomes (num_vars q0) n_value measure -> grover_solve n_value n_iter root spin measure fuel cs p = (p', Ok g) ->
  patience_spent n_iter (gr_log g) \/ all_keys_stale (num_vars q0) (gr_log g) \/
  exists ms rs, rotations_of (num_vars q0) spin (gr_log g) ms rs /\ 79 <= list_sum rs.
Proof. intros C S P V Z E. apply (solve_stop _ _ _ _ _ _ _ _ _ _ C S P V Z _ _ E). Qed.
(** It ends in the first pass in which one of the first two reasons arises ... *)
Theorem C73_at_once n_value n_iter root spin measure fuel cs p q0 fs p' g : convert_all cs p = Ok (q0, fs) -> obj_shaped q0 -> 0 < num_vars q0 -> 0 < n_value ->
  sized_outcomes (num_vars q0) n_value measure -> grover_solve n_value n_iter root spin measure fuel cs p = (p', Ok g) ->
  forall pre suf, gr_log g = pre ++ suf -> suf <> [] -> ~ patience_spent n_iter pre /\ ~ all_keys_stale (num_vars q0) pre.
Proof. intros C S P V Z E. apply (solve_stop _ _ _ _ _ _ _ _ _ _ C S P V Z _ _ E). Qed.
(** ... and makes fewer than 78 + 2^(n/2) rotations altogether, drawn below bounds that follow the method of Durr and Hoyer. *)
Theorem C73_rotations n_value n_iter root spin measure fuel cs p q0 fs p' g : convert_all cs p = Ok (q0, fs) -> obj_shaped q0 -> 0 < num_vars q0 -> 0 < n_value ->
  sized_outcomes (num_vars q0) n_value measure -> below_bound spin -> grover_solve n_value n_iter root spin measure fuel cs p = (p', Ok g) ->
  exists ms rs, rotations_of (num_vars q0) spin (gr_log g) ms rs /\ list_sum rs < 78 + Nat.sqrt_up (2 ^ num_vars q0).
Proof.
  intros C S P V Z B E. destruct (solve_stop _ _ _ _ _ _ _ _ _ _ C S P V Z _ _ E) as (_ & _ & ms & rs & R & L). exists ms, rs. auto.
Qed.
(** If all assignments were seen, the answer is an optimum of the problem given (for circuits that compute the objective). *)
Theorem C73_exhausted n_value n_iter root spin measure fuel pen p r p' g : prog_wf p -> shapes (num_vars p) p -> to_qubo pen p = Ok r -> 0 < num_vars (r_qubo r) ->
  0 < n_value -> sized_outcomes (num_vars (r_qubo r)) n_value measure -> honest (num_vars (r_qubo r)) n_value measure ->
  integer_objective (r_qubo r) -> register_fits n_value (r_qubo r) ->
  Forall plain (p_vars p) -> int_bounds p -> products_safe p (o_quad (p_obj p)) -> (exists x, feasible p x) ->
  match pen with Some c => (weight (p_obj (r_bin r)) < c)%Qc | None => True end ->
  grover_solve n_value n_iter root spin measure fuel (default_converters pen) p = (p', Ok g) -> all_keys_stale (num_vars (r_qubo r)) (gr_log g) ->
  exists y, r_x (gr_res g) = Some y /\ optimal p y /\ r_fval (gr_res g) = Some (obj_at (p_obj p) y) /\ r_status (gr_res g) = SUCCESS.
Proof.
  intros W Sh H Pos Pv Sz Ho I F P IB SF Fe Pen E A. apply (grover_optimal _ _ _ _ _ _ _ _ _ W H Pos Pv Sz Ho I F _ _ Sh P IB SF Fe Pen E).
  now apply (exhausted_optimal n_value n_iter root spin measure fuel pen p r p' g).
Qed.
(** Minimise a - b + ab, the assignments 00, 01, 10, 11 being measured in turn (b is the first digit from the right): 00 and 01 improve; after
    10, 11, 00 and 01 again all assignments are stale.  With patience 3 the search stops one pass earlier. *)
Definition ex73 : qp := run (new_qp "") [OAddVar 0 1 BINARY (Some "a"); OAddVar 0 1 BINARY (Some "b");
  OObjective MINIMIZE 0 (Some (LDict [(KS "a", 1%Qc); (KS "b", - (1))%Qc])) (Some (QDict [((KS "a", KS "b"), 1%Qc)]))].
Definition keys73 (it : nat) : list bool := nth (it mod 4) [[false; false]; [false; true]; [true; false]; [true; true]] [].
Definition log73 (n_iter : nat) : list Z := match grover_solve 3 n_iter (fun a => a) (fun _ m => m - 1) (replay 2 3 keys73) 50 (default_converters None) ex73 with (_, Ok g) => map snd (gr_log g) | _ => [] end.
Example C73_case : log73 100 = [0; -1; 1; 1; 0; -1]%Z /\ log73 3 = [0; -1; 1; 1; 0]%Z /\ log73 0 = [0; -1; 1]%Z /\ sized_outcomes 2 3 (replay 2 3 keys73) /\ below_bound (fun _ m => m - 1) /\
  match convert_all (default_converters None) ex73 with Ok (q, _) => num_vars q = 2 | Err _ => False end.
Proof. split; [vm_compute; reflexivity|]. split; [vm_compute; reflexivity|]. split; [vm_compute; reflexivity|]. split; [apply replay_sized|]. split; [intros i m; lia|vm_compute; reflexivity]. Qed.
(** The bounds are 1, 2, 2 for two digits and 1, 2, 3, 4, 5, 6, 7, 8, 10, 12, 14, 16, 16 for eight. *)
Example C73_bounds : map (fun k => Nat.iter k (grow 2) 1) [0; 1; 2] = [1; 2; 2] /\ map (fun k => Nat.iter k (grow 8) 1) (seq 0 13) = [1; 2; 3; 4; 5; 6; 7; 8; 10; 12; 14; 16; 16].
Proof. split; vm_compute; reflexivity. Qed.
Print Assumptions C73_reason.
Print Assumptions C73_at_once.
Print Assumptions C73_rotations.
Print Assumptions C73_exhausted.
