(** * ADMMOptimizer
    admm_optimizer.py.

    Simplifications: of the debug messages only the exports of problems are kept, which may raise; time is a function telling whether the limit is reached before a round; the two optimizers
    are functions of the iteration and the subproblem and give the point of their result, and a point of the wrong length raises ValueError;
    [np.linalg.norm] is a function; [np.inf] as a bound is INFINITY. *)
From Verif Require Export Goemans Docplex.
Local Open Scope string_scope.
Local Open Scope list_scope.
Local Open Scope nat_scope.

(** ** Arrays *)
(** admm_optimizer.py:806, 879, 882 *)
Definition arr_sub (a b : list Qc) : list Qc := map (fun ab => (fst ab - snd ab)%Qc) (combine a b).
(** [a + b] of arrays, admm_optimizer.py:670-677, 805 *)
Definition arr_add (a b : list Qc) : list Qc := map (fun ab => (fst ab + snd ab)%Qc) (combine a b).
(** [c * a] of an array, admm_optimizer.py:671-672, 805 *)
Definition arr_scale (c : Qc) (a : list Qc) : list Qc := map (fun v => (c * v)%Qc) a.
(** [-a] of an array, admm_optimizer.py:674, 731 *)
Definition arr_neg (a : list Qc) : list Qc := arr_scale (- (1))%Qc a.
(** [x.take(idx)], [x[idx]]; admm_optimizer.py:521, 632, 763-764 *)
Definition np_take (x : list Qc) (idx : list nat) : result (list Qc) := mapM (fun i => match nth_error x i with Some v => Ok v | None => Err IndexError end) idx.
(** [x.put(idx, v)] and [x[idx] = v] for as many values as indices; admm_optimizer.py:485-486, 747 *)
Definition np_put (x : list Qc) (idx : list nat) (v : list Qc) : list Qc := fold_left (fun x iv => update (fst iv) (snd iv) x) (combine idx v) x.
(** [i in list], admm_optimizer.py:550, 563 *)
Definition mem (l : list nat) (i : nat) : bool := existsb (Nat.eqb i) l.

(** ** Parameters, admm_optimizer.py:43-112 *)
Record admm_params := mkAP {
  ap_rho : Qc; ap_c : Qc; ap_beta : Qc; ap_maxiter : nat; ap_tol : Qc; ap_three : bool; ap_vary : nat; ap_incr : Qc; ap_decr : Qc; ap_mu_res : Qc; ap_mu_merit : Qc; ap_warm : bool }.
(** The defaults, admm_optimizer.py:45-59 *)
Definition default_params : admm_params :=
  mkAP (qz 10000) (qz 100000) (qz 1000) 10 (1 / qz 10000)%Qc true 0 (qz 2) (qz 2) (qz 10) (qz 1000) false.

(** ** The problem data of ADMMState, admm_optimizer.py:127-182; linear and quadratic constraints apart *)
Record admm_data := mkAD {
  a_op : qp; a_bin : list nat; a_cont : list nat;
  a_beq : list lincon; a_eq : list lincon; a_eqq : list quadcon; a_ineq : list lincon; a_ineqq : list quadcon;
  a_abs : list nat; a_rel : list nat;
  a_q0 : ndarray2; a_c0 : list Qc; a_q1 : ndarray2; a_c1 : list Qc; a_a0 : ndarray2; a_b0 : list Qc }.
(** ... and what the iterations change.  [y_saved] is never used; admm_optimizer.py:155-175, 376-389 *)
Record admm_iter := mkAI {
  i_x0 : list Qc; i_u : list Qc; i_z : list Qc; i_y : list Qc; i_lam : list Qc; i_rho : Qc; i_zinit : list Qc;
  i_costs : list Qc; i_res : list Qc; i_dres : list Qc; i_cons : list Qc; i_merits : list Qc;
  i_x0s : list (list Qc); i_us : list (list Qc); i_zs : list (list Qc) }.

(** Assignments to [x0], to [u] and [z], to [y] and [lambda_mult] *)
Definition set_x0 (x0 : list Qc) (s : admm_iter) : admm_iter :=
  mkAI x0 (i_u s) (i_z s) (i_y s) (i_lam s) (i_rho s) (i_zinit s) (i_costs s) (i_res s) (i_dres s) (i_cons s) (i_merits s) (i_x0s s) (i_us s) (i_zs s).
(** u and z of a round, admm_optimizer.py:345 *)
Definition set_uz (u z : list Qc) (s : admm_iter) : admm_iter :=
  mkAI (i_x0 s) u z (i_y s) (i_lam s) (i_rho s) (i_zinit s) (i_costs s) (i_res s) (i_dres s) (i_cons s) (i_merits s) (i_x0s s) (i_us s) (i_zs s).
(** y of a round, admm_optimizer.py:354, 360 *)
Definition set_y (y lam : list Qc) (s : admm_iter) : admm_iter :=
  mkAI (i_x0 s) (i_u s) (i_z s) y lam (i_rho s) (i_zinit s) (i_costs s) (i_res s) (i_dres s) (i_cons s) (i_merits s) (i_x0s s) (i_us s) (i_zs s).
(** Lines 376-389: what is saved, and the new [rho] *)
Definition save (cost cr merit : Qc) (rs : Qc * Qc) (rho : Qc) (s : admm_iter) : admm_iter :=
  mkAI (i_x0 s) (i_u s) (i_z s) (i_y s) (i_lam s) rho (i_zinit s)
    (i_costs s ++ [cost]) (i_res s ++ [fst rs]) (i_dres s ++ [snd rs]) (i_cons s ++ [cr]) (i_merits s ++ [merit])
    (i_x0s s ++ [i_x0 s]) (i_us s ++ [i_u s]) (i_zs s ++ [i_z s; i_y s]).

(** _get_variable_indices, admm_optimizer.py:444-460 *)
Definition indices_of (t : vartype) (p : qp) : list nat :=
  map fst (filter (fun iv => vartype_eqb (v_type (snd iv)) t) (combine (seq 0 (num_vars p)) (p_vars p))).

(** get_compatibility_msg, admm_optimizer.py:253-281: no message *)
Definition admm_compatible (p : qp) : result bool :=
  do l <- mapM (fun i => mapM (fun j => quad_get (env_of p) (o_quad (p_obj p)) (KI (Z.of_nat i), KI (Z.of_nat j))) (indices_of CONTINUOUS p)) (indices_of BINARY p);
  Ok (forallb (forallb (fun v => qeqb v 0)) l).

(** _turn_to_minimization, admm_optimizer.py:420-442 *)
Definition neg_lin (e : linexpr) : linexpr := mkLin (le_dim e) (le_int e) (map (fun kv => (fst kv, (- (1) * snd kv)%Qc)) (le_co e)).
(** The coefficients with their sign changed, admm_optimizer.py:437-441 *)
Definition neg_quad (e : quadexpr) : quadexpr := mkQuad (qe_dim e) (qe_int e) (map (fun kv => (fst kv, (- (1) * snd kv)%Qc)) (qe_co e)).
(** _turn_to_minimization, admm_optimizer.py:420-442 *)
Definition turn_to_minimization (p : qp) : result qp :=
  match o_sense (p_obj p) with
  | MINIMIZE => Ok p
  | MAXIMIZE =>
      let o := p_obj p in
      do p <- ok_state (step p (OObjSense MINIMIZE));
      do p <- ok_state (step p (OObjConst (- (1) * o_const o)%Qc));
      do p <- ok_state (step p (OObjLin (LSparse (neg_lin (o_lin o)))));
      ok_state (step p (OObjQuad (QSparse (neg_quad (o_quad o)))))
  end.

(** _revert_solution_indexes, admm_optimizer.py:471-487 *)
Definition revert (d : admm_data) (b c : list Qc) : list Qc :=
  np_put (np_put (repeat 0%Qc (length (a_bin d) + length (a_cont d))) (a_bin d) b) (a_cont d) c.

(** ** _get_step1_indices, admm_optimizer.py:528-593 *)
(** The test of lines 544-551: a linear coefficient, or an cell in the row of the variable *)
Definition in_objective (op : qp) (i : nat) : result bool :=
  do a <- lin_get (env_of op) (o_lin (p_obj op)) (KI (Z.of_nat i));
  if negb (qeqb a 0) then Ok true
  else do r <- dok_index (qe_dim (o_quad (p_obj op))) (Z.of_nat i);
       Ok (negb (qeqb (np_sum (map (fun j => qabs (mget (qe_co (o_quad (p_obj op))) r j)) (seq 0 (qe_dim (o_quad (p_obj op)))))) 0)).
(** The binary variables of the objective, admm_optimizer.py:541-551 *)
Definition step1_objective (op : qp) (bin : list nat) : result (list nat) :=
  foldM (fun l i => do b <- in_objective op i; Ok (if b && negb (mem l i) then l ++ [i] else l)) bin [].
(** Lines 557-570; the order in which the set [rest_binary] is visited does not matter, as the list is sorted afterwards *)
Definition step1_constraint (op : qp) (rest : list nat) (l : list nat) (c : lincon) : result (list nat) :=
  foldM (fun l i => do v <- lin_get (env_of op) (lc_lin c) (KI (Z.of_nat i)); Ok (if qltb 0 v && negb (mem l i) then l ++ [i] else l)) rest l.
(** Lines 580-591 *)
Fixpoint index_from (l : list nat) (a k : nat) : option nat :=
  match l with [] => None | b :: l' => if Nat.eqb b a then Some k else index_from l' a (S k) end.
(** One absolute index, admm_optimizer.py:579-591 *)
Definition relative_step (bin : list nat) (st : list nat * nat) (a : nat) : result (list nat * nat) :=
  match index_from (skipn (snd st) bin) a (snd st) with Some j => Ok (fst st ++ [j], j) | None => Err ValueError end.
(** _get_step1_indices, admm_optimizer.py:528-593 *)
Definition step1_indices (op : qp) (bin : list nat) (beq : list lincon) : result (list nat * list nat) :=
  do l0 <- step1_objective op bin;
  let rest := filter (fun i => negb (mem l0 i)) bin in
  do l1 <- foldM (step1_constraint op rest) beq l0;
  let l := sort_by Nat.ltb l1 in
  do r <- foldM (relative_step bin) l ([], 0);
  Ok (l, fst r).

(** _get_q, admm_optimizer.py:595-616 *)
Definition get_q (op : qp) (idx : list nat) : result ndarray2 :=
  mapM (fun i => mapM (fun j => if i <=? j then quad_get (env_of op) (o_quad (p_obj op)) (KI (Z.of_nat (nth i idx 0)), KI (Z.of_nat (nth j idx 0))) else Ok 0%Qc) (seq 0 (length idx))) (seq 0 (length idx)).

(** _get_a0_b0, admm_optimizer.py:618-644 *)
Definition get_a0_b0 (beq : list lincon) (abs : list nat) : result (ndarray2 * list Qc) :=
  match beq with
  | [] => Ok ([repeat 0%Qc (length abs)], [0%Qc])
  | _ => do m <- mapM (fun c => np_take (lin_to_array (lc_lin c)) abs) beq; Ok (m, map lc_rhs beq)
  end.

(** _convert_problem_representation, admm_optimizer.py:489-526 *)
Definition only_binary (bin : list nat) (c : lincon) : bool := forallb (fun kv => mem bin (fst kv)) (lin_to_dict (lc_lin c)).
(** _convert_problem_representation, admm_optimizer.py:489-526 *)
Definition represent (op : qp) (bin cont : list nat) : result admm_data :=
  let eq := filter (fun c => csense_eqb (lc_sense c) EQ) (p_lcs op) in
  let beq := filter (only_binary bin) eq in
  do ar <- step1_indices op bin beq;
  do q0 <- get_q op (fst ar);
  do c0 <- np_take (lin_to_array (o_lin (p_obj op))) (fst ar);
  do q1 <- get_q op cont;
  do c1 <- np_take (lin_to_array (o_lin (p_obj op))) cont;
  do ab <- get_a0_b0 beq (fst ar);
  Ok (mkAD op bin cont beq eq (filter (fun c => csense_eqb (qc_sense c) EQ) (p_qcs op))
        (filter (fun c => negb (csense_eqb (lc_sense c) EQ)) (p_lcs op)) (filter (fun c => negb (csense_eqb (qc_sense c) EQ)) (p_qcs op))
        (fst ar) (snd ar) q0 c0 q1 c1 (fst ab) (snd ab)).

(** ** The subproblems *)
(** [np.dot(m.transpose(), m)] and [np.dot(v, m)] for a matrix with k columns; admm_optimizer.py:663 *)
Definition gram (m : ndarray2) (k : nat) : ndarray2 := map (fun i => map (fun j => np_sum (map (fun r => (nth i r 0 * nth j r 0)%Qc) m)) (seq 0 k)) (seq 0 k).
(** [b0 @ a0], admm_optimizer.py:671 *)
Definition vec_mat (v : list Qc) (m : ndarray2) (k : nat) : list Qc := map (fun j => np_sum (map (fun vr => (fst vr * nth j (snd vr) 0)%Qc) (combine v m))) (seq 0 k).
(** [np.eye(k)]; admm_optimizer.py:664, 725 *)
Definition eye (i j : nat) : Qc := if Nat.eqb i j then 1%Qc else 0%Qc.
(** A matrix from its entries, admm_optimizer.py:661-665, 725-727 *)
Definition tabulate (k : nat) (f : nat -> nat -> Qc) : ndarray2 := map (fun i => map (f i) (seq 0 k)) (seq 0 k).
(** An entry of a matrix, admm_optimizer.py:661-665 *)
Definition cell (m : ndarray2) (i j : nat) : Qc := nth j (nth i m []) 0%Qc.

(** _create_step1_problem, admm_optimizer.py:646-681 *)
Definition step1_problem (pr : admm_params) (d : admm_data) (s : admm_iter) : result qp :=
  let k := length (a_abs d) in
  do op1 <- foldM (fun q i => match nth_error (p_vars (a_op d)) i with Some v => ok_state (binary_var q (Some (v_name v))) | None => Err IndexError end) (a_abs d) (new_qp "");
  do op1 <- ok_state (step op1 (OObjQuad (QList false (tabulate k (fun i j => (cell (a_q0 d) i j + ap_c pr / qz 2 * cell (gram (a_a0 d) k) i j + i_rho s / qz 2 * eye i j)%Qc)))));
  do yr <- np_take (i_y s) (a_rel d);
  do zr <- np_take (i_z s) (a_rel d);
  do lr <- np_take (i_lam s) (a_rel d);
  ok_state (step op1 (OObjLin (LList false
    (arr_add (arr_add (arr_sub (a_c0 d) (arr_scale (ap_c pr) (vec_mat (a_b0 d) (a_a0 d) k))) (arr_scale (i_rho s) (arr_sub (arr_neg yr) zr))) lr)))).

(** _create_step2_problem, admm_optimizer.py:683-709 *)
Definition step2_variable (s : admm_iter) (op2 : qp) (ki : nat * nat) : result qp :=
  let k := fst ki in let i := KI (Z.of_nat (snd ki)) in
  do op2 <- ok_state (step op2 (OSetType i CONTINUOUS));
  do op2 <- ok_state (step op2 (OSetUb i 1%Qc));
  do op2 <- ok_state (step op2 (OSetLb i 0%Qc));
  do op2 <- ok_state (step op2 (OObjQuadItem (i, i) (i_rho s / qz 2)%Qc));
  ok_state (step op2 (OObjLinItem i (- (1) * nth k (i_lam s) 0 - i_rho s * (nth k (i_x0 s) 0 - nth k (i_y s) 0))%Qc)).
(** _create_step2_problem, admm_optimizer.py:683-709 *)
Definition step2_problem (d : admm_data) (s : admm_iter) : result qp :=
  do op2 <- foldM (step2_variable s) (combine (seq 0 (length (a_bin d))) (a_bin d)) (a_op d);
  foldM (fun q c => ok_state (step q (ORemLin (KS (lc_name c))))) (a_beq d) op2.

(** _create_step3_problem, admm_optimizer.py:711-734 *)
Definition step3_problem (pr : admm_params) (d : admm_data) (s : admm_iter) : result qp :=
  let k := length (a_bin d) in
  do op3 <- foldM (fun q i => match nth_error (p_vars (a_op d)) i with Some v => ok_state (continuous_var q (- INFINITY)%Qc INFINITY (Some (v_name v))) | None => Err IndexError end) (a_bin d) (new_qp "");
  do op3 <- ok_state (step op3 (OObjQuad (QList false (tabulate k (fun i j => (ap_beta pr / qz 2 * eye i j + i_rho s / qz 2 * eye i j)%Qc)))));
  ok_state (step op3 (OObjLin (LList false (arr_sub (arr_neg (i_lam s)) (arr_scale (i_rho s) (arr_sub (i_x0 s) (i_z s))))))).

(** ** Measures *)
(** _get_constraint_residual, admm_optimizer.py:827-848 *)
Definition constraint_residual (d : admm_data) (x : list Qc) : result Qc :=
  do e1 <- mapM (fun c => do v <- eval_lincon (a_op d) c x; Ok (qabs (v - lc_rhs c))) (a_eq d);
  do e2 <- mapM (fun c => do v <- eval_quadcon (a_op d) c x; Ok (qabs (v - qc_rhs c))) (a_eqq d);
  let sg (s : csense) := match s with GE => (- (1))%Qc | _ => 1%Qc end in
  do i1 <- mapM (fun c => do v <- eval_lincon (a_op d) c x; Ok (qmax (sg (lc_sense c) * (v - lc_rhs c)) 0)) (a_ineq d);
  do i2 <- mapM (fun c => do v <- eval_quadcon (a_op d) c x; Ok (qmax (sg (qc_sense c) * (v - qc_rhs c)) 0)) (a_ineqq d);
  Ok (np_sum e1 + np_sum e2 + (np_sum i1 + np_sum i2))%Qc.
(** _update_rho, admm_optimizer.py:809-825 *)
Definition update_rho (pr : admm_params) (rho primal dual : Qc) : Qc :=
  match ap_vary pr with
  | 0 => if qltb rho (qz 10000000000) then (rho * (qz 11 / qz 10))%Qc else rho
  | 1 => if qltb (ap_mu_res pr * dual) primal then (ap_incr pr * rho)%Qc
         else if qltb (ap_mu_res pr * primal) dual then (ap_decr pr * rho)%Qc else rho
  | _ => rho
  end.
(** _get_best_merit_solution, admm_optimizer.py:779-795: the place of the first smallest merit *)
Fixpoint argmin (l : list Qc) : option nat :=
  match l with
  | [] => None
  | a :: l' => match argmin l' with None => Some 0 | Some k => if qleb a (nth k l' 0%Qc) then Some 0 else Some (S k) end
  end.

Section Admm.
Variables (qubo cont : nat -> qp -> result (list Qc)) (norm : list Qc -> Qc) (late : nat -> bool) (pr : admm_params).
(** [self._optimizer.solve(op).x], admm_optimizer.py:746, 762, 777, 902; a point of another size cannot be made a result
    (OptimizationResult, optimization_algorithm.py:130-136) *)
Definition sized_solve (solver : nat -> qp -> result (list Qc)) (k : nat) (op : qp) : result (list Qc) :=
  do x <- solver k op; do _ <- check (Nat.eqb (length x) (num_vars op)) QiskitOptimizationError; Ok x.
(** ... and the debug message with the subproblem, admm_optimizer.py:337-339, 345-347, 354-356: [op.export_as_lp_string()] is evaluated
    whether or not messages are printed, and makes a docplex model (quadratic_program.py:1113-1119) *)
Definition logged_solve (solver : nat -> qp -> result (list Qc)) (k : nat) (op : qp) : result (list Qc) :=
  do x <- sized_solve solver k op; do _ <- to_docplex op; Ok x.

(** _get_solution_residuals, admm_optimizer.py:870-887 *)
Definition residuals (s : admm_iter) (k : nat) : result (Qc * Qc) :=
  do prev <- match k with 0 => Ok (i_zinit s) | S k' => match nth_error (i_zs s) k' with Some z => Ok z | None => Err IndexError end end;
  Ok (norm (arr_sub (arr_sub (i_x0 s) (i_z s)) (i_y s)), (i_rho s * norm (arr_sub (i_z s) prev))%Qc).

(** One round of the loop, admm_optimizer.py:335-391, with _update_x0 (736-748), _update_x1 (750-765), _update_y (767-777) and _update_lambda_mult (797-807) *)
Definition update_x0 (d : admm_data) (s : admm_iter) (k : nat) : result (list Qc) :=
  match a_abs d with
  | [] => Ok (i_x0 s)
  | _ => do op1 <- step1_problem pr d s;
         do x <- logged_solve qubo k op1;
         Ok (np_put (repeat 0%Qc (length (a_bin d))) (a_rel d) x)
  end.
(** _update_y, admm_optimizer.py:767-777, and the subproblem before, 351-354 *)
Definition update_y (d : admm_data) (s : admm_iter) (k : nat) : result (list Qc) :=
  match ap_three pr, a_bin d with
  | true, _ :: _ => do op3 <- step3_problem pr d s; logged_solve cont k op3
  | _, _ => Ok (i_y s)
  end.
(** One round of the loop, admm_optimizer.py:335-391 *)
Definition admm_round (d : admm_data) (s : admm_iter) (k : nat) : result admm_iter :=
  do x0 <- update_x0 d s k;
  let s := set_x0 x0 s in
  do op2 <- step2_problem d s;
  do x1 <- logged_solve cont k op2;
  do u <- np_take x1 (a_cont d);
  do z <- np_take x1 (a_bin d);
  let s := set_uz u z s in
  do y <- update_y d s k;
  let s := set_y y (arr_add (i_lam s) (arr_scale (i_rho s) (arr_sub (arr_sub x0 z) y))) s in
  do cost <- eval_obj (a_op d) (revert d x0 u);
  do cr <- constraint_residual d (revert d x0 u);
  do rs <- residuals s k;
  Ok (save cost cr (cost + ap_mu_merit pr * cr)%Qc rs (update_rho pr (i_rho s) (fst rs) (snd rs)) s).

(** The loop, admm_optimizer.py:326-392, from round [k] on, [more] rounds before [maxiter], with the last primal residual;
    [late k]: the time is over before round [k] *)
Fixpoint admm_loop (more k : nat) (res : Qc) (d : admm_data) (s : admm_iter) : result admm_iter :=
  match more with
  | 0 => Ok s
  | S more => if qltb (ap_tol pr) res && negb (late k)
              then do s <- admm_round d s k; admm_loop more (S k) (last (i_res s) 0%Qc) d s
              else Ok s
  end.

(** _warm_start, admm_optimizer.py:889-907 *)
Definition relaxed (op : qp) : qp := set_vars (map (fun v => mkVar (v_name v) (v_lb v) (v_ub v) CONTINUOUS) (p_vars op)) op.
(** The state before the loop, admm_optimizer.py:127-182, 318-320 *)
Definition start (op : qp) (bin cts : list nat) : result admm_iter :=
  let zero := repeat 0%Qc (length bin) in
  do xuz <- (if ap_warm pr
             then do x <- sized_solve cont 0 (relaxed op); do x0 <- np_take x bin; do u <- np_take x cts; Ok (x0, u, x0)
             else Ok (zero, repeat 0%Qc (length cts), zero));
  Ok (mkAI (fst (fst xuz)) (snd (fst xuz)) (snd xuz) zero zero (ap_rho pr) zero [] [] [] [] [] [] [] []).

(** solve, admm_optimizer.py:283-418; line 298 exports the problem for a debug message; before the first round the residual is 100.
    The objective value of lines 394-398 is only logged. *)
Definition admm_solve (p : qp) : result (opt_result * (admm_data * admm_iter)) :=
  do b <- admm_compatible p;
  do _ <- check b QiskitOptimizationError;
  do _ <- to_docplex p;
  do qt <- int_to_bin p;
  do op <- turn_to_minimization (fst qt);
  let bin := indices_of BINARY op in let cts := indices_of CONTINUOUS op in
  do s <- start op bin cts;
  do d <- represent op bin cts;
  do s <- admm_loop (ap_maxiter pr) 0 (qz 100) d s;
  match argmin (i_merits s) with
  | None => Err ValueError
  | Some k =>
      let x := revert d (nth k (i_x0s s) []) (nth k (i_us s) []) in
      do r <- interpret p [i2b_interpret p (fun i => dget Nat.eqb i (snd qt)) (fst qt)] [] x;
      Ok (r, (d, s))
  end.
End Admm.
