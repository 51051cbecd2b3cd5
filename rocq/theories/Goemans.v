(** * GoemansWilliamsonOptimizer
    goemans_williamson_optimizer.py.

    Simplifications: cvxpy is installed; the semidefinite program, the smallest eigenvalue, the Cholesky factor and the normal random
    numbers are given as functions. *)
From Verif Require Export Algo.
Local Open Scope string_scope.
Local Open Scope list_scope.
Local Open Scope nat_scope.

(** Matrices, goemans_williamson_optimizer.py:229, 271, 273 *)
Definition ndarray2 := list (list Qc).
(** np.sum; goemans_williamson_optimizer.py:308 *)
Definition np_sum (l : list Qc) : Qc := fold_right Qcplus 0%Qc l.
(** The outcome of the solver: one of the three exceptions that are caught, a solution, another exception; goemans_williamson_optimizer.py:154-156 *)
Inductive sdp_answer := SdpFails | SdpSolved (chi : ndarray2) | SdpRaises (e : exn).

(** get_compatibility_msg, goemans_williamson_optimizer.py:122-138 *)
Definition gw_compatible (p : qp) : bool := Nat.eqb (count_type BINARY p) (num_vars p).

(** _extract_adjacency_matrix, goemans_williamson_optimizer.py:228-242: entries of [(-Q + (-Q).T) / 2] *)
Definition adjacency (p : qp) : ndarray2 :=
  let e := o_quad (p_obj p) in
  let adj i j := (- mget (qe_co e) i j)%Qc in
  map (fun i => map (fun j => (adj i j + adj j i) / qz 2)%Qc (seq 0 (qe_dim e))) (seq 0 (qe_dim e)).

(** max_cut_value, goemans_williamson_optimizer.py:296-308: the sum of [adj_matrix * np.outer(x, 1 - x)] *)
Definition max_cut_value (x : list Qc) (adj : ndarray2) : Qc :=
  np_sum (map (fun rx => np_sum (map (fun ay => (fst ay * (snd rx * (1 - snd ay)))%Qc) (combine (fst rx) x))) (combine adj x)).

(** _generate_random_cuts, goemans_williamson_optimizer.py:273-294 *)
Definition add_diag (c : Qc) (m : ndarray2) : ndarray2 :=
  map (fun ir => map (fun ja => if Nat.eqb (fst ir) (fst ja) then (snd ja + c)%Qc else snd ja) (combine (seq 0 (length (snd ir))) (snd ir)))
    (combine (seq 0 (length m)) m).
(** The shifted matrix, goemans_williamson_optimizer.py:285-289 *)
Definition regularised (mineig : ndarray2 -> Qc) (chi : ndarray2) : ndarray2 :=
  if qltb (mineig chi) 0 then add_diag (qz 1001 / qz 1000 * qabs (mineig chi))%Qc chi
  else if qeqb (mineig chi) 0 then add_diag (1 / qz 100000)%Qc chi
  else chi.
(** An entry of [np.dot(r, x)], goemans_williamson_optimizer.py:294 *)
Definition inner (a b : list Qc) : Qc := np_sum (map (fun xy => (fst xy * snd xy)%Qc) (combine a b)).
(** Column [j] of [x = cholesky(chi).T] is row [j] of the factor; goemans_williamson_optimizer.py:290-294 *)
Definition cut_of (factor : ndarray2) (r : list Qc) : list Qc := map (fun v => if qltb 0 (inner r v) then 1%Qc else 0%Qc) factor.
(** _generate_random_cuts, goemans_williamson_optimizer.py:273-294 *)
Definition random_cuts (mineig : ndarray2 -> Qc) (cholesky : ndarray2 -> result ndarray2) (normal : list (list Qc)) (chi : ndarray2) : result (list (list Qc)) :=
  do f <- cholesky (regularised mineig chi); Ok (map (cut_of f) normal).

(** _get_unique_cuts, goemans_williamson_optimizer.py:198-226; the entries are the integers 0 and 1 *)
Definition flip_cut (x : list Qc) : list Qc := map (fun v => if qeqb v 1 then 0%Qc else 1%Qc) x.
(** The first loop, goemans_williamson_optimizer.py:209-214 *)
Definition start_at_0 (c : list Qc * Qc) : result (list Qc * Qc) :=
  do v <- match fst c with v :: _ => Ok v | [] => Err IndexError end;
  Ok (if qeqb v 1 then (flip_cut (fst c), snd c) else c).
(** [cut_str], goemans_williamson_optimizer.py:219 *)
Definition cut_str (x : list Qc) : string := String.concat "" (map (fun v => if qeqb v 1 then "1" else "0") x).
(** The second loop, goemans_williamson_optimizer.py:216-224 *)
Definition drop_seen (l : list (list Qc * Qc)) : list (list Qc * Qc) :=
  snd (fold_left (fun st c => let s := cut_str (fst c) in
                    if existsb (String.eqb s) (fst st) then st else (fst st ++ [s], snd st ++ [c])) l ([], [])).
(** _get_unique_cuts, goemans_williamson_optimizer.py:198-226 *)
Definition unique_cuts (l : list (list Qc * Qc)) : result (list (list Qc * Qc)) := do l <- mapM start_at_0 l; Ok (drop_seen l).

(** solve, goemans_williamson_optimizer.py:140-196; [normal] holds num_cuts rows of random numbers.  With the result the solution of
    the semidefinite program is returned. *)
Definition gw_solve (sort unique : bool) (sdp : ndarray2 -> sdp_answer) (mineig : ndarray2 -> Qc) (cholesky : ndarray2 -> result ndarray2)
    (normal : list (list Qc)) (p : qp) : result (opt_result * option ndarray2) :=
  do _ <- check (gw_compatible p) QiskitOptimizationError;
  let adj := adjacency p in
  match sdp adj with
  | SdpRaises e => Err e
  | SdpFails => do r <- make_result (Some []) (Some 0%Qc) (p_vars p) FAILURE []; Ok (r, None)
  | SdpSolved chi =>
      do cuts <- random_cuts mineig cholesky normal chi;
      let sols := map (fun c => (c, max_cut_value c adj)) cuts in
      let sols := if sort then sort_by (fun a b => qltb (- snd a)%Qc (- snd b)%Qc) sols else sols in
      do sols <- (if unique then unique_cuts sols else Ok sols);
      let sols := firstn (length normal) sols in
      let samples := map (fun c => mkSample (fst c) (snd c) (1 / qn (length sols))%Qc SUCCESS) sols in
      match samples with
      | [] => Err IndexError
      | s :: _ => do r <- make_result (Some (s_x s)) (Some (s_fval s)) (p_vars p) SUCCESS samples; Ok (r, Some chi)
      end
  end.
