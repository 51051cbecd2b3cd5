(** * WarmStartQAOAOptimizer
    warm_start_qaoa_optimizer.py.

    Simplifications: the circuits made from the initial variables and QAOA itself are a function of the initial variables and the
    operator; the pre-solver is a function; [num_initial_solutions] is not negative. *)
From Verif Require Export Algo.
Local Open Scope string_scope.
Local Open Scope list_scope.
Local Open Scope nat_scope.

(** ** MeanAggregator, warm_start_qaoa_optimizer.py:56-105 *)
(** [int(v)] truncates towards zero; warm_start_qaoa_optimizer.py:73 *)
Definition py_int (v : Qc) : Z := if qleb 0 v then qfloor v else (- qfloor (- v))%Z.
(** _to_string, warm_start_qaoa_optimizer.py:72-73 *)
Definition point_str (x : list Qc) : string := String.concat "" (map (fun v => str_Z (py_int v)) x).
(** _from_string, warm_start_qaoa_optimizer.py:75-76: [float(c)] of a single character raises ValueError unless it is a digit. *)
Definition char_float (c : ascii) : result Qc :=
  let k := nat_of_ascii c in if (48 <=? k) && (k <=? 57) then Ok (qn (k - 48)) else Err ValueError.
(** _from_string, warm_start_qaoa_optimizer.py:75-76 *)
Definition str_point (s : string) : result (list Qc) := mapM char_float (list_ascii_of_string s).
(** The loop over the samples of one result, warm_start_qaoa_optimizer.py:80-90 *)
Definition agg_add (d : list (string * (Qc * Qc))) (s : sample) : list (string * (Qc * Qc)) :=
  let k := point_str (s_x s) in
  dset String.eqb k (s_fval s, match dget String.eqb k d with Some fp => (snd fp + s_prob s)%Qc | None => s_prob s end) d.
(** The sample of a failed result has no point that could be iterated; warm_start_qaoa_optimizer.py:79-90 *)
Definition agg_result (d : list (string * (Qc * Qc))) (r : opt_result) : result (list (string * (Qc * Qc))) :=
  match r_samples r with Some l => Ok (fold_left agg_add l d) | None => Err TypeError end.
(** Aggregate, warm_start_qaoa_optimizer.py:59-105 *)
Definition mean_aggregate (results : list opt_result) : result (list sample) :=
  do d <- foldM agg_result results [];
  mapM (fun kv => do x <- str_point (fst kv);
                  Ok (mkSample x (fst (snd kv)) (snd (snd kv) / qn (length results))%Qc SUCCESS)) d.

(** ** WarmStartQAOAFactory.create_initial_variables, warm_start_qaoa_optimizer.py:134-154 *)
Definition initial_variables (eps : Qc) (x : list Qc) : list Qc :=
  map (fun v => if qltb v eps then eps else if qltb (1 - eps)%Qc v then (1 - eps)%Qc else v) x.

(** _relax_problem, warm_start_qaoa_optimizer.py:354-368 *)
Definition relax_problem (p : qp) : qp := set_vars (map (fun v => mkVar (v_name v) (v_lb v) (v_ub v) CONTINUOUS) (p_vars p)) p.

(** ** WarmStartQAOAOptimizer *)
(** BaseAggregator.aggregate, warm_start_qaoa_optimizer.py:39-53 *)
Definition aggregator := list opt_result -> result (list sample).
(** The settings of the optimizer, warm_start_qaoa_optimizer.py:208-277 *)
Record warm_opt := mkWarm {
  w_pre : qp -> result opt_result; w_relax : bool; w_qaoa : list Qc -> eigensolver; w_eps : Qc; w_num : nat; w_agg : option aggregator; w_convs : list converter }.
(** __init__, warm_start_qaoa_optimizer.py:208-277, with the default factory *)
Definition new_warm (pre : qp -> result opt_result) (relax : bool) (qaoa : list Qc -> eigensolver) (eps : Qc) (num : nat) (agg : option aggregator)
    (cs : list converter) : result warm_opt :=
  do _ <- check (negb (qltb eps 0 || qltb (1 / qz 2)%Qc eps)) QiskitOptimizationError;
  Ok (mkWarm pre relax qaoa eps num (match agg with None => if 1 <? num then Some mean_aggregate else None | Some a => Some a end) cs).

(** solve, warm_start_qaoa_optimizer.py:279-351; a result from several runs has no raw samples *)
Definition warm_solve (w : warm_opt) (p : qp) : result meo_result :=
  do _ <- check (qubo_compatible p) QiskitOptimizationError;
  do qf <- convert_all (w_convs w) p;
  let q := fst qf in
  do pr <- w_pre w (if w_relax w then relax_problem q else q);
  do _ <- check (match r_status pr with SUCCESS => true | _ => false end) QiskitOptimizationError;
  do pres <- match r_samples pr with
             | Some l => Ok (firstn (Nat.min (w_num w) (length l)) l)
             | None => if w_num w =? 0 then Ok [] else Err TypeError
             end;
  do oo <- to_ising q;
  do results <- mapM (fun s => solve_internal (w_qaoa w (initial_variables (w_eps w) (s_x s))) (fst oo) (snd oo) q p (snd qf)) pres;
  match results with
  | [r] => Ok r
  | _ => match w_agg w with
         | None => Err AttributeError
         | Some agg =>
             do samples <- agg (map m_res results);
             match sort_by (raw_lt (o_sense (p_obj q))) samples with
             | [] => Err IndexError
             | s :: l => do r <- interpret p (snd qf) (s :: l) (s_x s); Ok (mkMeo r None)
             end
         end
  end.
