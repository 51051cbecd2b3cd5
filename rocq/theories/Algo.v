(** * Results, samples and MinimumEigenOptimizer
    optimization_algorithm.py and minimum_eigen_optimizer.py.

    Simplifications: warnings are not modelled; [raw_results] and the eigensolver's own result object are opaque and left out. *)
From Verif Require Export Feas Conv Ising.
Local Open Scope nat_scope.

(** OptimizationResultStatus, optimization_algorithm.py:32-42 *)
Inductive ostatus := SUCCESS | FAILURE | INFEASIBLE_.
(** [status.value], optimization_algorithm.py:32-42 *)
Definition ostatus_val (s : ostatus) : nat := match s with SUCCESS => 0 | FAILURE => 1 | INFEASIBLE_ => 2 end.

(** SolutionSample, optimization_algorithm.py:45-59 *)
Record sample := mkSample { s_x : list Qc; s_fval : Qc; s_prob : Qc; s_status : ostatus }.

(** OptimizationResult, optimization_algorithm.py:62-151.  [x] and [fval] are None after a failure; the placeholder sample
    (None, None, 1.0, status) of that case is [r_samples = None] here. *)
Record opt_result := mkRes {
  r_x : option (list Qc); r_fval : option Qc; r_vars : list variable; r_dict : option (list (string * Qc));
  r_status : ostatus; r_samples : option (list sample) }.

(** [dict(zip(names, x))]; optimization_algorithm.py:138 *)
Definition zip_dict (names : list string) (x : list Qc) : list (string * Qc) :=
  fold_left (fun d kv => dset String.eqb (fst kv) (snd kv) d) (combine names x) [].

(** __init__, optimization_algorithm.py:102-151 *)
Definition make_result (x : option (list Qc)) (fval : option Qc) (vars : list variable) (st : ostatus) (samples : list sample)
  : result opt_result :=
  do d <- match x with
          | None => Ok None
          | Some x => if Nat.eqb (length x) (length vars) then Ok (Some (zip_dict (map v_name vars) x)) else Err QiskitOptimizationError
          end;
  Ok (mkRes x fval vars d st
        (match samples with
         | [] => match x, fval with Some x, Some f => Some [mkSample x f 1%Qc st] | _, _ => None end
         | _ => Some samples
         end)).

(** __getitem__, optimization_algorithm.py:160-186 *)
Definition getitem (r : opt_result) (k : key) : result Qc :=
  match k with
  | KI z => match r_x r with Some x => py_nth x z | None => Err TypeError end
  | KS s => match r_dict r with
            | Some d => match dget String.eqb s d with Some a => Ok a | None => Err KeyError end
            | None => Err TypeError
            end
  end.

(** ** get_correlations, optimization_algorithm.py:188-209 *)
Definition set2 (m : list (list Qc)) (i j : nat) (v : Qc) : list (list Qc) := update i (update j v (nth i m [])) m.
(** [correlations[i, j]], optimization_algorithm.py:200-208 *)
Definition get2 (m : list (list Qc)) (i j : nat) : Qc := nth j (nth i m []) 0%Qc.
(** The pairs visited by [for i in range(n): for j in range(i)]; optimization_algorithm.py:203-204 *)
Definition lower_pairs (n : nat) : list (nat * nat) := flat_map (fun i => map (fun j => (i, j)) (seq 0 i)) (seq 0 n).
(** The body of the loop over the samples, optimization_algorithm.py:201-208.  With n <= 1 no coordinate is read. *)
Definition corr_sample (n : nat) (m : list (list Qc)) (s : sample) : result (list (list Qc)) :=
  if (n <=? length (s_x s)) || (n <=? 1)
  then Ok (fold_left (fun m ij => set2 m (fst ij) (snd ij)
             (if qeqb (nth (fst ij) (s_x s) 0) (nth (snd ij) (s_x s) 0) then get2 m (fst ij) (snd ij) + s_prob s
              else get2 m (fst ij) (snd ij) - s_prob s)%Qc) (lower_pairs n) m)
  else Err IndexError.
(** The loop over the samples, optimization_algorithm.py:199-209 *)
Definition correlations (samples : list sample) : result (list (list Qc)) :=
  match samples with
  | [] => Err IndexError
  | s :: _ => let n := length (s_x s) in foldM (corr_sample n) samples (repeat (repeat 0%Qc n) n)
  end.
(** get_correlations, optimization_algorithm.py:188-209 *)
Definition get_correlations (r : opt_result) : result (list (list Qc)) :=
  match r_samples r with Some l => correlations l | None => Err TypeError end.

(** ** Converters as seen by the optimizers
    A converter turns a program into another one and, from then on, interprets points of it.  A converter that keeps
    results of earlier conversions (C35 is about those) is not covered, nor is one object occurring twice in the list. *)
Definition interp := list Qc -> result (list Qc).
(** QuadraticProgramConverter, quadratic_program_converter.py:22-45 *)
Definition converter := qp -> result (qp * interp).
(** QuadraticProgramToQubo as a converter, quadratic_program_to_qubo.py:51-93 *)
Definition qubo_converter (pen : option Qc) : converter := fun p => do r <- to_qubo pen p; Ok (r_qubo r, qubo_interpret r).

(** _convert, optimization_algorithm.py:400-421; the interpretations are collected in the order of the converters *)
Definition convert_all (cs : list converter) (p : qp) : result (qp * list interp) :=
  foldM (fun st c => do r <- c (fst st); Ok (fst r, snd st ++ [snd r])) cs (p, []).
(** [for converter in converters[::-1]: x = converter.interpret(x)], optimization_algorithm.py:465-466 *)
Definition interpret_all (fs : list interp) (x : list Qc) : result (list Qc) := foldM (fun x f => f x) (rev fs) x.

(** _get_feasibility_status, optimization_algorithm.py:348-365 *)
Definition feas_status (p : qp) (x : list Qc) : result ostatus :=
  do b <- is_feasible p x; Ok (if b then SUCCESS else INFEASIBLE_).

(** _interpret, optimization_algorithm.py:423-472, for a result class made from x, fval, variables, status and samples *)
Definition interpret (p : qp) (fs : list interp) (samples : list sample) (x : list Qc) : result opt_result :=
  do y <- interpret_all fs x;
  do f <- obj_eval (env_of p) (p_obj p) (XList y);
  do st <- feas_status p y;
  make_result (Some y) (Some f) (p_vars p) st samples.

(** ** sorted, list.sort: stable, by insertion *)
(** optimization_algorithm.py:500 *)
Fixpoint insert_by {A} (lt : A -> A -> bool) (a : A) (l : list A) : list A :=
  match l with
  | [] => [a]
  | b :: l' => if lt b a then b :: insert_by lt a l' else a :: l
  end.
(** [sorted(l, key=...)], optimization_algorithm.py:500 *)
Definition sort_by {A} (lt : A -> A -> bool) (l : list A) : list A := fold_right (insert_by lt) [] l.

(** ** _interpret_samples, optimization_algorithm.py:475-501 *)
Fixpoint tuple_eqb (a b : list Qc) : bool :=
  match a, b with
  | [], [] => true
  | x :: a', y :: b' => qeqb x y && tuple_eqb a' b'
  | _, _ => false
  end.
(** The sort key (status.value, sense * fval), compared as tuples; optimization_algorithm.py:500 *)
Definition sample_lt (s : objsense) (a b : sample) : bool :=
  let va := ostatus_val (s_status a) in let vb := ostatus_val (s_status b) in
  (va <? vb) || (Nat.eqb va vb && qltb (sense_val s * s_fval a) (sense_val s * s_fval b))%Qc.
(** [prob[key] = prob.get(key, 0.0) + probability; array[key] = x]: both dictionaries have the same keys in the same order,
    and x equals its key, so one dictionary is enough. *)
Definition merge_samples (fs : list interp) (raw : list sample) : result (list (list Qc * Qc)) :=
  foldM (fun d s => do x <- interpret_all fs (s_x s); Ok (dadd tuple_eqb x (s_prob s) d)) raw [].
(** _interpret_samples, optimization_algorithm.py:475-501 *)
Definition interpret_samples (p : qp) (fs : list interp) (raw : list sample) : result (list sample) :=
  do d <- merge_samples fs raw;
  do l <- mapM (fun xp => do f <- obj_eval (env_of p) (p_obj p) (XList (fst xp));
                          do st <- feas_status p (fst xp);
                          Ok (mkSample (fst xp) f (snd xp) st)) d;
  Ok (sort_by (sample_lt (o_sense (p_obj p))) l).

(** ** _eigenvector_to_solutions, optimization_algorithm.py:503-576 *)
(** The accepted forms of an eigenstate: a dictionary of counts, a DictStateFn with (real) amplitudes, an array of complex
    amplitudes (also the matrix of any other StateFn), anything else.  The keys of the dictionaries are strings of the
    characters 0 and 1, given here as booleans. *)
Inductive eigenstate :=
| EDict (d : list (list bool * Qc)) | EDictFn (d : list (list bool * Qc)) | EVec (v : list (Qc * Qc)) | EOther.

(** A digit of a bit string as a number, optimization_algorithm.py:543 *)
Definition bit_q (b : bool) : Qc := if b then 1%Qc else 0%Qc.
(** generate_solution, optimization_algorithm.py:542-550 *)
Definition gen_solution (q : qp) (b : list bool) (pr : Qc) : result sample :=
  let x := map bit_q b in
  do f <- obj_eval (env_of q) (p_obj q) (XList x);
  Ok (mkSample x f pr SUCCESS).

(** ["{:b}".format(i)[::-1]] *)
Fixpoint bin_lsb (fuel i : nat) : list bool :=
  match fuel with
  | O => []
  | S fuel' => if i <? 2 then [Nat.odd i] else Nat.odd i :: bin_lsb fuel' (i / 2)
  end.
(** ["{:b}".format(i).rjust(n, "0")[::-1]] *)
Definition bitstr (n i : nat) : list bool := let b := bin_lsb (S i) i in b ++ repeat false (n - length b).

(** The loop that keeps the outcomes of probability at least the threshold; optimization_algorithm.py:556-560, 567-571 *)
Definition keep_outcomes (q : qp) (thr : Qc) (l : list (list bool * Qc)) : result (list sample) :=
  foldM (fun acc bp => if qleb thr (snd bp) then do s <- gen_solution q (fst bp) (snd bp); Ok (acc ++ [s]) else Ok acc) l [].
(** optimization_algorithm.py:553-560; a total of 0 makes [count / all_counts] raise (for Python numbers) *)
Definition dict_outcomes (d : list (list bool * Qc)) : result (list (list bool * Qc)) :=
  let total := fold_left (fun s bc => s + snd bc)%Qc d 0%Qc in
  if qeqb total 0 && negb (match d with [] => true | _ => false end) then Err ZeroDivisionError
  else Ok (map (fun bc => (fst bc, snd bc / total)%Qc) d).
(** optimization_algorithm.py:562-571: |amp * conj(amp)|, and int(log2(size)), which raises on an empty array *)
Definition vec_outcomes (v : list (Qc * Qc)) : result (list (list bool * Qc)) :=
  match v with
  | [] => Err OverflowError
  | _ => Ok (map (fun ia => (bitstr (Nat.log2 (length v)) (fst ia), (fst (snd ia) * fst (snd ia) + snd (snd ia) * snd (snd ia))%Qc))
                 (combine (seq 0 (length v)) v))
  end.
(** The outcomes of an eigenstate, optimization_algorithm.py:537-571 *)
Definition state_outcomes (e : eigenstate) : result (list (list bool * Qc)) :=
  match e with
  | EDict d => dict_outcomes d
  | EDictFn d => dict_outcomes (map (fun bc => (fst bc, snd bc * snd bc)%Qc) d)
  | EVec v => vec_outcomes v
  | EOther => Err TypeError
  end.
(** _eigenvector_to_solutions, optimization_algorithm.py:503-576 *)
Definition eigenvector_to_solutions (e : eigenstate) (q : qp) (thr : Qc) : result (list sample) :=
  do l <- state_outcomes e; keep_outcomes q thr l.
(** The default of min_probability, optimization_algorithm.py:507 *)
Definition MIN_PROB : Qc := (1 / qz 1000000)%Qc.

(** ** MinimumEigenOptimizer.solve, minimum_eigen_optimizer.py:175-257 *)
(** The eigensolver, called with the operator: it may raise, or give no eigenstate; minimum_eigen_optimizer.py:213 *)
Definition eigensolver := qop -> result (option eigenstate).
(** The result with the raw samples; minimum_eigen_optimizer.py:34-82 *)
Record meo_result := mkMeo { m_res : opt_result; m_raw : option (list sample) }.

(** The sort key of the raw samples, minimum_eigen_optimizer.py:222 *)
Definition raw_lt (s : objsense) (a b : sample) : bool := qltb (sense_val s * s_fval a)%Qc (sense_val s * s_fval b)%Qc.
(** _solve_internal, minimum_eigen_optimizer.py:199-257.  Without qubits [to_ising] gives in the code the number 1 in place of
    an operator, so the branch for empty Hamiltonians is followed here only as it is written. *)
Definition solve_internal (solver : eigensolver) (op : qop) (off : Qc) (q p : qp) (fs : list interp) : result meo_result :=
  do raw <- (if 0 <? op_n op
             then do e <- solver op;
                  match e with
                  | None => Ok None
                  | Some e =>
                      do l <- eigenvector_to_solutions e q MIN_PROB;
                      let raw := sort_by (raw_lt (o_sense (p_obj q))) l in
                      match raw with [] => Err IndexError | _ => Ok (Some raw) end
                  end
             else Ok (Some [mkSample (repeat 0%Qc (count_type BINARY q)) off 1%Qc SUCCESS]));
  match raw with
  | Some ((s :: _) as raw) =>
      do samples <- interpret_samples p fs raw;
      do r <- interpret p fs samples (s_x s);
      Ok (mkMeo r (Some raw))
  | _ => do r <- make_result None None (p_vars p) FAILURE []; Ok (mkMeo r None)
  end.
(** solve, minimum_eigen_optimizer.py:175-197, with the list of converters in use *)
Definition min_eigen_solve (solver : eigensolver) (cs : list converter) (p : qp) : result meo_result :=
  if qubo_compatible p
  then do qf <- convert_all cs p;
       do oo <- to_ising (fst qf);
       solve_internal solver (fst oo) (snd oo) (fst qf) p (snd qf)
  else Err QiskitOptimizationError.
(** The default converter, optimization_algorithm.py:388-389 *)
Definition default_converters (pen : option Qc) : list converter := [qubo_converter pen].
