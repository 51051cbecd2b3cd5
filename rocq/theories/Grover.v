(** * GroverOptimizer
    grover_optimizer.py.

    Simplifications: the quantum instance is set; circuits, their execution and the random choices are given as functions;
    the operation counts are left out, in their place the logged outcomes and values (lines 247-248) are kept; numbers read from
    registers are integers, and the threshold with them. *)
From Verif Require Export Algo.
Local Open Scope string_scope.
Local Open Scope list_scope.
Local Open Scope nat_scope.

(** ** Reading registers *)
(** [int(s, 2)], most significant digit first; the empty string raises *)
Definition int2 (s : list bool) : result Z :=
  match s with [] => Err ValueError | _ => Ok (fold_left (fun a b => 2 * a + Z.b2z b)%Z s 0%Z) end.
(** _bin_to_int, grover_optimizer.py:353-361 *)
Definition bin_to_int (v : list bool) (bits : nat) : result Z :=
  do i <- int2 v; Ok (if match v with b :: _ => b | [] => false end then (i - 2 ^ Z.of_nat bits)%Z else i).
(** The digits of ["{0:%sb}" % n_key] with [optimum_key], grover_optimizer.py:301: padded on the left with blanks, which count as 0 *)
Definition key_digits (n_key : nat) (k : Z) : list bool := rev (bitstr n_key (Z.to_nat k)).

(** ** Stored samples *)
(** What is left in [_circuit_results]: for a state vector the square roots of the diagonal after the partial trace
    (grover_optimizer.py:259-262), computed outside; otherwise the number of shots and the counts given by the backend. *)
Inductive circuit_results := RVec (v : list (Qc * Qc)) | RCounts (shots : Qc) (counts : list (list bool * Qc)).
(** Equality of bit strings as keys, grover_optimizer.py:264-266 *)
Fixpoint bits_eqb (a b : list bool) : bool :=
  match a, b with [], [] => true | x :: a', y :: b' => Bool.eqb x y && bits_eqb a' b' | _, _ => false end.
(** grover_optimizer.py:350 and 264-266; [root] is np.sqrt *)
Definition circuit_state (root : Qc -> Qc) (n_key : nat) (r : circuit_results) : eigenstate :=
  match r with
  | RVec v => EVec v
  | RCounts shots counts =>
      EDict (fold_left (fun d bc => dset bits_eqb (firstn n_key (rev (fst bc))) (root (snd bc / shots)%Qc) d) counts [])
  end.

(** ** The objective *)
(** Turning to minimisation, grover_optimizer.py:180-186, written in place *)
Definition turn_to_min (p : qp) : qp * result unit :=
  on_objective p (fun o =>
    match o_sense o with
    | MINIMIZE => Ok o
    | MAXIMIZE =>
        do l <- foldM (fun e kv => lin_set (env_of p) e (KI (Z.of_nat (fst kv))) (- snd kv)%Qc) (lin_to_dict (o_lin o)) (o_lin o);
        do q <- foldM (fun e kv => quad_set (env_of p) e (KI (Z.of_nat (fst (fst kv))), KI (Z.of_nat (snd (fst kv)))) (- snd kv)%Qc)
                  (quad_to_dict false (o_quad o)) (o_quad o);
        Ok (mkObj (- o_const o)%Qc l q MINIMIZE)
    end).
(** [problem_.objective.constant = ...], grover_optimizer.py:182, 220 *)
Definition set_constant (c : Qc) (p : qp) : qp := set_obj (mkObj c (o_lin (p_obj p)) (o_quad (p_obj p)) (o_sense (p_obj p))) p.

(** ** The search *)
(** optimum_key (meaningless before a value is there), optimum_value (None: infinity), threshold, m, loops_with_no_improvement,
    rotations, keys_measured, raw_samples, samples, and the log; grover_optimizer.py:190-206, 216-224 *)
Record gstate := mkG { g_key : Z; g_val : option Z; g_thr : Z; g_m : nat; g_loops : nat; g_rot : nat; g_seen : list Z;
  g_raw : list sample; g_samples : list sample; g_log : list (list bool * Z) }.
(** The state before the loop, grover_optimizer.py:190-206 *)
Definition g_start : gstate := mkG 0 None 0 1 0 0 [] [] [] [].
(** [int(np.ceil(100 * np.pi / 4))], grover_optimizer.py:207 *)
Definition MAX_ROTATIONS : nat := 79.
(** [int(np.ceil(min(m * 8 / 7, 2 ** (n_key / 2))))], grover_optimizer.py:275 *)
Definition grow (n_key m : nat) : nat := Nat.min ((8 * m + 6) / 7) (Nat.sqrt_up (2 ^ n_key)).

Section Search.
Variables (n_value n_iter : nat) (root : Qc -> Qc).
(** [ceil(uniform(0, m - 1))] in iteration [it] *)
Variable spin : nat -> nat -> nat.
(** The outcome of iteration [it], for a program and a number of rotations, with the circuit results, grover_optimizer.py:243 and 323-351 *)
Variable measure : nat -> qp -> nat -> list bool * circuit_results.
(** problem_init; problem_ before the constant is changed; the caller's program, None if it is problem_; the converters *)
Variables (q0 q1 : qp) (caller : option qp) (fs : list interp).

(** [n_key], grover_optimizer.py:187, 194 *)
Definition n_key : nat := length (lin_to_array (o_lin (p_obj q1))).
(** problem_ in the present round of the outer loop, grover_optimizer.py:220 *)
Definition shifted_to (t : Z) : qp := set_constant (o_const (p_obj q1) - qz t)%Qc q1.
(** The caller's program, grover_optimizer.py:176, 220 *)
Definition caller_at (t : Z) : qp := match caller with Some p => p | None => shifted_to t end.

(** One pass of the inner loop, grover_optimizer.py:225-295; the flag tells whether the search is over.  A new round of the outer
    loop (215-224) resets m and the counter. *)
Definition search_step (it : nat) (s : gstate) : result (gstate * bool) :=
  let cur := shifted_to (g_thr s) in
  let r := spin it (g_m s) in
  let out := fst (measure it cur r) in
  do k <- int2 (firstn n_key out);
  do v <- bin_to_int (firstn n_value (skipn n_key out)) n_value;
  let int_v := (v + g_thr s)%Z in
  let log := g_log s ++ [(out, int_v)] in
  if match g_val s with None => true | Some best => (int_v <? best)%Z end
  then do l <- eigenvector_to_solutions (circuit_state root n_key (snd (measure it cur r))) q0 MIN_PROB;
       let raw := sort_by (raw_lt (o_sense (p_obj cur))) l in
       do samples <- interpret_samples (caller_at (g_thr s)) fs raw;
       Ok (mkG k (Some int_v) int_v 1 0 (g_rot s + r) (g_seen s) raw samples log, false)
  else let seen := if existsb (Z.eqb k) (g_seen s) then g_seen s else g_seen s ++ [k] in
       let stop := (n_iter <=? S (g_loops s)) || (length seen =? 2 ^ n_key) || (MAX_ROTATIONS <=? g_rot s + r) in
       Ok (mkG (g_key s) (g_val s) (g_thr s) (grow n_key (g_m s)) (S (g_loops s)) (g_rot s + r) seen (g_raw s) (g_samples s) log, stop).
(** The loops, grover_optimizer.py:215-295: the state at the end, also if something raises *)
Fixpoint search (fuel it : nat) (s : gstate) : gstate * result unit :=
  match fuel with
  | O => (s, Err OutOfFuel)
  | S fuel' => match search_step it s with
               | Err e => (s, Err e)
               | Ok (s', true) => (s', Ok tt)
               | Ok (s', false) => search fuel' (S it) s'
               end
  end.
(** grover_optimizer.py:297-301 *)
Definition final_key (s : gstate) : Z :=
  if match g_val s with None => true | Some v => (0 <=? v)%Z end && qeqb (o_const (p_obj q1)) 0 then 0%Z else g_key s.
(** [opt_x], grover_optimizer.py:301 *)
Definition final_point (s : gstate) : list Qc := map bit_q (key_digits n_key (final_key s)).
End Search.

(** ** solve, grover_optimizer.py:154-321 *)
Record grover_result := mkGrover { gr_res : opt_result; gr_raw : list sample; gr_fval : Qc; gr_thr : Z; gr_log : list (list bool * Z) }.
(** The caller's program afterwards, and the result; grover_optimizer.py:154-321 *)
Definition grover_solve (n_value n_iter : nat) (root : Qc -> Qc) (spin : nat -> nat -> nat) (measure : nat -> qp -> nat -> list bool * circuit_results)
    (fuel : nat) (cs : list converter) (p : qp) : qp * result grover_result :=
  if qubo_compatible p
  then match convert_all cs p with
       | Err e => (p, Err e)
       | Ok (q0, fs) =>
           match turn_to_min q0 with
           | (_, Err e) => (p, Err e)
           | (q1, Ok _) =>
               let caller := match cs with [] => None | _ => Some p end in
               let '(s, res) := search n_value n_iter root spin measure q0 q1 caller fs fuel 0 g_start in
               let after := caller_at q1 caller (g_thr s) in
               (after, do _ <- res;
                       let x := final_point q1 s in
                       do f <- obj_eval (env_of q0) (p_obj q0) (XList x);
                       do r <- interpret after fs (g_samples s) x;
                       Ok (mkGrover r (g_raw s) f (g_thr s) (g_log s)))
           end
       end
  else (p, Err QiskitOptimizationError).
