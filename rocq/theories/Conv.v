(** * The converters

    Models qiskit_optimization/converters/: inequality_to_equality.py,
    integer_to_binary.py, linear_equality_to_penalty.py and
    quadratic_program_to_qubo.py.

    Each conversion is first a function from programs to programs; the
    converter objects with their fields are at the end of the file. *)
From Verif Require Export Program.
Local Open Scope string_scope.
Local Open Scope list_scope.
Local Open Scope nat_scope.

(** The target program after a call that may raise; inequality_to_equality.py:81-107 *)
Definition ok_state {A} (x : qp * result A) : result qp :=
  match x with (p, Ok _) => Ok p | (_, Err e) => Err e end.

(** Coefficients given as dictionaries with names, or with indices; inequality_to_equality.py:94-99 *)
Definition by_name (d : list (string * Qc)) : option lincoef := Some (LDict (map (fun kv => (KS (fst kv), snd kv)) d)).
(** [quadratic] with names, inequality_to_equality.py:95-99 *)
Definition by_name2 (d : list ((string * string) * Qc)) : option quadcoef :=
  Some (QDict (map (fun kv => ((KS (fst (fst kv)), KS (snd (fst kv))), snd kv)) d)).
(** [linear] with indices, linear_equality_to_penalty.py:82, 119-122 *)
Definition by_index (d : list (nat * Qc)) : option lincoef :=
  Some (LDict (map (fun kv => (KI (Z.of_nat (fst kv)), snd kv)) d)).
(** [quadratic] with indices, linear_equality_to_penalty.py:83, 119-122 *)
Definition by_index2 (d : list ((nat * nat) * Qc)) : option quadcoef :=
  Some (QDict (map (fun kv => ((KI (Z.of_nat (fst (fst kv))), KI (Z.of_nat (snd (fst kv)))), snd kv)) d)).

(** Declaring a copy of a variable: inequality_to_equality.py:80-90, linear_equality_to_penalty.py:70-78.
    A binary variable gets the bounds 0 and 1. *)
Definition copy_var (dst : qp) (v : variable) : result qp :=
  ok_state (match v_type v with
            | BINARY => binary_var dst (Some (v_name v))
            | INTEGER => integer_var dst (v_lb v) (v_ub v) (Some (v_name v))
            | CONTINUOUS => continuous_var dst (v_lb v) (v_ub v) (Some (v_name v))
            end).

(** ** InequalityToEquality *)
(** The mode, inequality_to_equality.py:45-57, 112-125 *)
Inductive slack_mode := MInteger | MContinuous | MAuto | MOther.

(** _contains_any_float_value, inequality_to_equality.py:395-406 *)
Definition any_float {K} (d : list (K * Qc)) : bool := existsb (fun kv => negb (is_integer (snd kv))) d.

(** _calc_linear_bounds, inequality_to_equality.py:342-348 *)
Definition calc_linear_bounds (src : qp) (lin : list (string * Qc)) : result (Qc * Qc) :=
  foldM (fun b kv =>
           do x <- get_variable src (KS (fst kv));
           Ok (fst b + qmin (v_lb x * snd kv) (v_ub x * snd kv), snd b + qmax (v_lb x * snd kv) (v_ub x * snd kv))%Qc)
        lin (0%Qc, 0%Qc).

(** [min] of four products, inequality_to_equality.py:362-373 *)
Definition qmin4 (a b c d : Qc) : Qc := qmin (qmin (qmin a b) c) d.
(** [max] of four products, inequality_to_equality.py:362-373 *)
Definition qmax4 (a b c d : Qc) : Qc := qmax (qmax (qmax a b) c) d.

(** _calc_quadratic_bounds, inequality_to_equality.py:350-374 *)
Definition calc_quadratic_bounds (src : qp) (lin : list (string * Qc)) (quad : list ((string * string) * Qc))
  : result (Qc * Qc) :=
  do b0 <- calc_linear_bounds src lin;
  foldM (fun b kv =>
           do x <- get_variable src (KS (fst (fst kv)));
           do y <- get_variable src (KS (snd (fst kv)));
           let v := snd kv in
           let ll := (v_lb x * v_lb y * v)%Qc in let lu := (v_lb x * v_ub y * v)%Qc in
           let ul := (v_ub x * v_lb y * v)%Qc in let uu := (v_ub x * v_ub y * v)%Qc in
           Ok (fst b + qmin4 ll lu ul uu, snd b + qmax4 ll lu ul uu)%Qc)
        quad b0.

(** inequality_to_equality.py:189-193, 269-273: rounding of the right-hand side in integer mode *)
Definition slack_rhs (integer : bool) (s : csense) (rhs : Qc) : Qc :=
  if integer then match s with LE => qz (qfloor rhs) | GE => qz (qceil rhs) | EQ => rhs end else rhs.
(** The name of the slack variable, inequality_to_equality.py:196, 224, 276, 305 *)
Definition slack_name (integer : bool) (name : string) : string :=
  (name ++ "@" ++ (if integer then "int_slack" else "continuous_slack"))%string.
(** Upper bound of the slack variable and its coefficient; inequality_to_equality.py:202-213, 229-240, 282-293, 311-322 *)
Definition slack_ub (s : csense) (rhs lhs_lb lhs_ub : Qc) : Qc :=
  match s with LE => (rhs - lhs_lb)%Qc | _ => (lhs_ub - rhs)%Qc end.
(** [sign], inequality_to_equality.py:205, 211, 232, 238 *)
Definition slack_sign (s : csense) : Qc := match s with LE => 1%Qc | _ => (- (1))%Qc end.
(** The slack variable, inequality_to_equality.py:206, 212, 233, 239 *)
Definition add_slack (integer : bool) (dst : qp) (nm : string) (ub : Qc) : result qp :=
  ok_state (if integer then integer_var dst 0 ub (Some nm) else continuous_var dst 0 ub (Some nm)).

(** _add_integer_slack_var_linear_constraint and _add_continuous_slack_var_linear_constraint,
    inequality_to_equality.py:180-248; only called with sense LE or GE. *)
Definition slack_linear (integer : bool) (src dst : qp) (lin : list (string * Qc)) (s : csense) (rhs : Qc) (name : string)
  : result qp :=
  if integer && any_float lin then Err QiskitOptimizationError
  else
    let rhs' := slack_rhs integer s rhs in
    let nm := slack_name integer name in
    do b <- calc_linear_bounds src lin;
    let ub := slack_ub s rhs' (fst b) (snd b) in
    if qltb 0 ub
    then do dst1 <- add_slack integer dst nm ub;
         ok_state (linear_constraint dst1 (by_name (dset String.eqb nm (slack_sign s) lin)) (SStr "==") rhs' (Some name))
    else ok_state (linear_constraint dst (by_name lin) (SStr "==") rhs' (Some name)).

(** _add_integer_slack_var_quadratic_constraint and _add_continuous_slack_var_quadratic_constraint,
    inequality_to_equality.py:258-330 *)
Definition slack_quadratic (integer : bool) (src dst : qp) (lin : list (string * Qc)) (quad : list ((string * string) * Qc))
    (s : csense) (rhs : Qc) (name : string) : result qp :=
  if integer && (any_float lin || any_float quad) then Err QiskitOptimizationError
  else
    let rhs' := slack_rhs integer s rhs in
    let nm := slack_name integer name in
    do b <- calc_quadratic_bounds src lin quad;
    let ub := slack_ub s rhs' (fst b) (snd b) in
    if qltb 0 ub
    then do dst1 <- add_slack integer dst nm ub;
         ok_state (quadratic_constraint dst1 (by_name (dset String.eqb nm (slack_sign s) lin)) (by_name2 quad) (SStr "==") rhs' (Some name))
    else ok_state (quadratic_constraint dst (by_name lin) (by_name2 quad) (SStr "==") rhs' (Some name)).

(** One linear constraint: inequality_to_equality.py:102-129 with the choice of 250-256 *)
Definition ineq_linear (mode : slack_mode) (src dst : qp) (c : lincon) : result qp :=
  do lin <- lin_to_dict_names (var_names src) (lc_lin c);
  match lc_sense c with
  | EQ => ok_state (linear_constraint dst (by_name lin) (SVal EQ) (lc_rhs c) (Some (lc_name c)))
  | s =>
      match mode with
      | MInteger => slack_linear true src dst lin s (lc_rhs c) (lc_name c)
      | MContinuous => slack_linear false src dst lin s (lc_rhs c) (lc_name c)
      | MAuto => slack_linear (negb (any_float lin)) src dst lin s (lc_rhs c) (lc_name c)
      | MOther => Err QiskitOptimizationError
      end
  end.

(** One quadratic constraint: inequality_to_equality.py:132-176 with the choice of 332-340 *)
Definition ineq_quadratic (mode : slack_mode) (src dst : qp) (c : quadcon) : result qp :=
  do lin <- lin_to_dict_names (var_names src) (qc_lin c);
  do quad <- quad_to_dict_names (var_names src) false (qc_quad c);
  match qc_sense c with
  | EQ => ok_state (quadratic_constraint dst (by_name lin) (by_name2 quad) (SVal EQ) (qc_rhs c) (Some (qc_name c)))
  | s =>
      match mode with
      | MInteger => slack_quadratic true src dst lin quad s (qc_rhs c) (qc_name c)
      | MContinuous => slack_quadratic false src dst lin quad s (qc_rhs c) (qc_name c)
      | MAuto => slack_quadratic (negb (any_float lin || any_float quad)) src dst lin quad s (qc_rhs c) (qc_name c)
      | MOther => Err QiskitOptimizationError
      end
  end.

(** convert, inequality_to_equality.py:59-178 *)
Definition ineq_to_eq (mode : slack_mode) (src : qp) : result qp :=
  do dst <- foldM copy_var (p_vars src) (new_qp (p_name src));
  do lin <- lin_to_dict_names (var_names src) (o_lin (p_obj src));
  do quad <- quad_to_dict_names (var_names src) false (o_quad (p_obj src));
  do dst <- ok_state (set_objective dst (o_sense (p_obj src)) (o_const (p_obj src)) (by_name lin) (by_name2 quad));
  do dst <- foldM (ineq_linear mode src) (p_lcs src) dst;
  foldM (ineq_quadratic mode src) (p_qcs src) dst.

(** [{name: x[i] for i, name in enumerate(names)}]; inequality_to_equality.py:389, integer_to_binary.py:226 *)
Definition solution_dict (names : list string) (x : list Qc) : result (list (string * Qc)) :=
  foldM (fun d si => do a <- py_nth x (Z.of_nat (snd si)); Ok (dset String.eqb (fst si) a d))
        (combine names (seq 0 (length names))) [].
(** [sol[name]], inequality_to_equality.py:392, integer_to_binary.py:230-232 *)
Definition sol_get (d : list (string * Qc)) (s : string) : result Qc :=
  match dget String.eqb s d with Some a => Ok a | None => Err KeyError end.

(** interpret, inequality_to_equality.py:376-393 *)
Definition ineq_interpret (src dst : qp) (x : list Qc) : result (list Qc) :=
  do sol <- solution_dict (var_names dst) x;
  mapM (fun v => sol_get sol (v_name v)) (p_vars src).

(** ** IntegerToBinary *)
(** [2 ** z] *)
Definition pow2 (z : Z) : Qc := if (0 <=? z)%Z then qz (2 ^ z) else (1 / qz (2 ^ (- z)))%Qc.

(** [int(np.log2(r))]: truncation towards zero; log2(0) = -inf cannot be converted, log2 of a negative
    number is nan.  Simplification: log2 is exact, while numpy rounds it to a float. *)
Definition int_log2 (r : Qc) : result Z :=
  if qltb r 0 then Err ValueError
  else if qeqb r 0 then Err OverflowError
  else if qleb 1 r then Ok (Z.log2 (qfloor r))
  else Ok (- Z.log2 (qfloor (1 / r)))%Z.

(** The coefficients for a given power, integer_to_binary.py:108-110 *)
Definition enc_coeffs (power : Z) (range : Qc) : list Qc :=
  map (fun i => qz (2 ^ Z.of_nat i)) (seq 0 (Z.to_nat power)) ++ [(range - (pow2 power - 1))%Qc].

(** _convert_var, integer_to_binary.py:103-111 *)
Definition convert_var (name : string) (lb ub : Qc) : result (list (string * Qc)) :=
  let range := (ub - lb)%Qc in
  do power <- int_log2 range;
  let co := enc_coeffs power range in
  Ok (map (fun ic => ((name ++ "@" ++ str_nat (fst ic))%string, snd ic)) (combine (seq 0 (length co)) co)).

(** The table [_conv] of a program: position of an integer variable to its binary variables; integer_to_binary.py:54, 82 *)
Definition conv_table := list (nat * list (string * Qc)).

(** Declaration of the variables, integer_to_binary.py:79-93 *)
Definition declare_bits (dst : qp) (bits : list (string * Qc)) : result qp :=
  foldM (fun d b => ok_state (binary_var d (Some (fst b)))) bits dst.
(** One variable, integer_to_binary.py:79-93 *)
Definition i2b_declare (st : qp * conv_table) (iv : nat * variable) : result (qp * conv_table) :=
  match v_type (snd iv) with
  | INTEGER =>
      do bits <- convert_var (v_name (snd iv)) (v_lb (snd iv)) (v_ub (snd iv));
      do dst <- declare_bits (fst st) bits;
      Ok (dst, dset Nat.eqb (fst iv) bits (snd st))
  | _ => do dst <- copy_var (fst st) (snd iv); Ok (dst, snd st)
  end.

(** Position of a variable in the source, standing for the identity of the Variable object; integer_to_binary.py:119-120, 136-137 *)
Definition src_pos (src : qp) (s : string) : result nat := del_pos (p_vars src) (p_vidx src) (KS s).
(** The variable at a position, integer_to_binary.py:119, 136-137 *)
Definition src_var (src : qp) (i : nat) : result variable :=
  match nth_error (p_vars src) i with Some v => Ok v | None => Err IndexError end.

Section Substitute.
Variable src : qp.
Variable conv : nat -> option (list (string * Qc)).

(** _convert_linear_coefficients_dict, integer_to_binary.py:113-127 *)
Definition i2b_linear (d : list (string * Qc)) : result (list (string * Qc) * Qc) :=
  foldM (fun st kv =>
           do i <- src_pos src (fst kv);
           do x <- src_var src i;
           match conv i with
           | Some bits =>
               Ok (fold_left (fun l b => dset String.eqb (fst b) (snd kv * snd b)%Qc l) bits (fst st),
                   (snd st + snd kv * v_lb x)%Qc)
           | None => Ok (dset String.eqb (v_name x) (snd kv) (fst st), snd st)
           end) d ([], 0%Qc).

(** One term of _convert_quadratic_coefficients_dict, integer_to_binary.py:135-162;
    the state is (quadratic, linear, constant). *)
Definition i2b_term (st : list ((string * string) * Qc) * list (string * Qc) * Qc) (kv : (string * string) * Qc)
  : result (list ((string * string) * Qc) * list (string * Qc) * Qc) :=
  let v := snd kv in
  let '(q, l, c) := st in
  do i <- src_pos src (fst (fst kv)); do x <- src_var src i;
  do j <- src_pos src (snd (fst kv)); do y <- src_var src j;
  match conv i, conv j with
  | Some bx, None =>
      Ok (fold_left (fun q b => dset str2_eqb (fst b, v_name y) (v * snd b)%Qc q) bx q,
          dadd String.eqb (v_name y) (v * v_lb x)%Qc l, c)
  | None, Some by_ =>
      Ok (fold_left (fun q b => dset str2_eqb (v_name x, fst b) (v * snd b)%Qc q) by_ q,
          dadd String.eqb (v_name x) (v * v_lb y)%Qc l, c)
  | Some bx, Some by_ =>
      Ok (fold_left (fun q b => fold_left (fun q b' => dset str2_eqb (fst b, fst b') (v * snd b * snd b')%Qc q) by_ q) bx q,
          fold_left (fun l b => dadd String.eqb (fst b) (v * v_lb x)%Qc l) by_
            (fold_left (fun l b => dadd String.eqb (fst b) (v * v_lb y)%Qc l) bx l),
          (c + v * v_lb x * v_lb y)%Qc)
  | None, None => Ok (dset str2_eqb (v_name x, v_name y) v q, l, c)
  end.
(** _convert_quadratic_coefficients_dict, integer_to_binary.py:129-164 *)
Definition i2b_quadratic (d : list ((string * string) * Qc))
  : result (list ((string * string) * Qc) * list (string * Qc) * Qc) :=
  foldM i2b_term d ([], [], 0%Qc).

(** [for i, v in q_linear.items(): linear[i] = linear.get(i, 0) + v] *)
Definition merge_linear (lin qlin : list (string * Qc)) : list (string * Qc) :=
  fold_left (fun l kv => dadd String.eqb (fst kv) (snd kv) l) qlin lin.

(** integer_to_binary.py:186-192 *)
Definition i2b_lincon (dst : qp) (c : lincon) : result qp :=
  do d <- lin_to_dict_names (var_names src) (lc_lin c);
  do lc <- i2b_linear d;
  ok_state (linear_constraint dst (by_name (fst lc)) (SVal (lc_sense c)) (lc_rhs c - snd lc)%Qc (Some (lc_name c))).
(** integer_to_binary.py:195-213 *)
Definition i2b_quadcon (dst : qp) (c : quadcon) : result qp :=
  do d <- lin_to_dict_names (var_names src) (qc_lin c);
  do lc <- i2b_linear d;
  do d2 <- quad_to_dict_names (var_names src) false (qc_quad c);
  do qlc <- i2b_quadratic d2;
  let '(q, ql, qc) := qlc in
  ok_state (quadratic_constraint dst (by_name (merge_linear (fst lc) ql)) (by_name2 q) (SVal (qc_sense c))
              (qc_rhs c - (snd lc + qc))%Qc (Some (qc_name c))).

(** _substitute_int_var, integer_to_binary.py:166-213 *)
Definition i2b_substitute (dst : qp) : result qp :=
  do d <- lin_to_dict_names (var_names src) (o_lin (p_obj src));
  do lc <- i2b_linear d;
  do d2 <- quad_to_dict_names (var_names src) false (o_quad (p_obj src));
  do qlc <- i2b_quadratic d2;
  let '(q, ql, qc) := qlc in
  do dst <- ok_state (set_objective dst (o_sense (p_obj src)) (o_const (p_obj src) + snd lc + qc)%Qc
                        (by_name (merge_linear (fst lc) ql)) (by_name2 q));
  do dst <- foldM i2b_lincon (p_lcs src) dst;
  foldM i2b_quadcon (p_qcs src) dst.

(** interpret, integer_to_binary.py:215-233 *)
Definition i2b_value (sol : list (string * Qc)) (iv : nat * variable) : result Qc :=
  match conv (fst iv) with
  | Some bits =>
      do s <- foldM (fun s b => do a <- sol_get sol (fst b); Ok (s + a * snd b)%Qc) bits 0%Qc;
      Ok (s + v_lb (snd iv))%Qc
  | None => sol_get sol (v_name (snd iv))
  end.
(** interpret, integer_to_binary.py:215-233 *)
Definition i2b_interpret (dst : qp) (x : list Qc) : result (list Qc) :=
  do sol <- solution_dict (var_names dst) x;
  mapM (i2b_value sol) (combine (seq 0 (num_vars src)) (p_vars src)).
End Substitute.

(** convert, integer_to_binary.py:57-101, giving also the new entries of [_conv] *)
Definition int_to_bin (src : qp) : result (qp * conv_table) :=
  if 0 <? count_type INTEGER src
  then do st <- foldM i2b_declare (combine (seq 0 (num_vars src)) (p_vars src)) (new_qp (p_name src), []);
       do dst <- i2b_substitute src (fun i => dget Nat.eqb i (snd st)) (fst st);
       Ok (dst, snd st)
  else Ok (src, []).

(** ** LinearEqualityToPenalty *)
(** The loop over the constraints, linear_equality_to_penalty.py:87-117;
    the state is (offset, linear, quadratic). *)
Definition pen_con (sense penalty : Qc) (st : Qc * list (nat * Qc) * list ((nat * nat) * Qc)) (c : lincon)
  : result (Qc * list (nat * Qc) * list ((nat * nat) * Qc)) :=
  match lc_sense c with
  | EQ =>
      let '(offset, lin, quad) := st in
      let row := lin_to_dict (lc_lin c) in
      let r := lc_rhs c in
      Ok ((offset + sense * penalty * (r * r))%Qc,
          fold_left (fun l jv => dadd Nat.eqb (fst jv) (sense * penalty * (- qz 2) * snd jv * r)%Qc l) row lin,
          fold_left (fun q jv => fold_left (fun q kw => dadd nat2_eqb (fst jv, fst kw) (sense * penalty * snd jv * snd kw)%Qc q) row q)
                    row quad)
  | _ => Err QiskitOptimizationError
  end.

(** _auto_define_penalty, linear_equality_to_penalty.py:129-164 *)
Definition auto_penalty (src : qp) : Qc :=
  if existsb (fun c => negb (is_integer (lc_rhs c)) || any_float (lin_to_dict (lc_lin c))) (p_lcs src)
  then qz 100000
  else fold_left (fun s a => (s + a)%Qc)
         (map (fun kv => qabs (snd kv)) (lin_to_dict (o_lin (p_obj src)))
          ++ map (fun kv => qabs (snd kv)) (quad_to_dict false (o_quad (p_obj src)))) 1%Qc.

(** convert, linear_equality_to_penalty.py:46-127 with the penalty in use *)
Definition penalize (penalty : Qc) (src : qp) : result qp :=
  do dst <- foldM copy_var (p_vars src) (new_qp (p_name src));
  do st <- foldM (pen_con (sense_val (o_sense (p_obj src))) penalty) (p_lcs src)
             (o_const (p_obj src), lin_to_dict (o_lin (p_obj src)), quad_to_dict false (o_quad (p_obj src)));
  let '(offset, lin, quad) := st in
  ok_state (set_objective dst (o_sense (p_obj src)) offset (by_index lin) (by_index2 quad)).

(** interpret, linear_equality_to_penalty.py:166-184 *)
Definition pen_interpret (src : qp) (x : list Qc) : result (list Qc) :=
  if Nat.eqb (length x) (num_vars src) then Ok x else Err QiskitOptimizationError.

(** ** QuadraticProgramToQubo *)
(** get_compatibility_msg, quadratic_program_to_qubo.py:96-136: no message *)
Definition qubo_compatible (p : qp) : bool :=
  Nat.eqb (count_type CONTINUOUS p) 0 && Nat.eqb (length (p_qcs p)) 0 &&
  negb (existsb (fun c => any_float (lin_to_dict (lc_lin c))) (p_lcs p)) &&
  negb (existsb (fun c => any_float (quad_to_dict false (qc_quad c)) || any_float (lin_to_dict (qc_lin c))) (p_qcs p)).

(** The stages of a conversion, quadratic_program_to_qubo.py:51-79 *)
Record qubo_run := mkRun { r_src : qp; r_eq : qp; r_bin : qp; r_conv : conv_table; r_qubo : qp }.
(** convert, quadratic_program_to_qubo.py:51-79 *)
Definition to_qubo (penalty : option Qc) (p : qp) : result qubo_run :=
  if qubo_compatible p
  then do p1 <- ineq_to_eq MInteger p;
       do p2 <- int_to_bin p1;
       do p3 <- penalize (match penalty with Some c => c | None => auto_penalty (fst p2) end) (fst p2);
       Ok (mkRun p p1 (fst p2) (snd p2) p3)
  else Err QiskitOptimizationError.

(** interpret, quadratic_program_to_qubo.py:81-93 *)
Definition qubo_interpret (r : qubo_run) (x : list Qc) : result (list Qc) :=
  do x1 <- pen_interpret (r_bin r) x;
  do x2 <- i2b_interpret (r_eq r) (fun i => dget Nat.eqb i (r_conv r)) (r_bin r) x1;
  ineq_interpret (r_src r) (r_eq r) x2.

(** ** What is built when a conversion raises
    The same conversions once more, keeping the destination built up to the exception: [_dst] of the converter. *)
(** One call after the other, inequality_to_equality.py:79-178 *)
Definition then_build (s : qp * result unit) (f : qp -> qp * result unit) : qp * result unit :=
  match s with (d, Ok _) => f d | (d, Err e) => (d, Err e) end.
(** A value computed between two calls, inequality_to_equality.py:103, 198 *)
Definition with_value {A} (r : result A) (d : qp) (f : A -> qp * result unit) : qp * result unit :=
  match r with Ok a => f a | Err e => (d, Err e) end.
(** A loop of calls, inequality_to_equality.py:80, 102, 132 *)
Fixpoint build_all {A} (f : qp -> A -> qp * result unit) (l : list A) (d : qp) : qp * result unit :=
  match l with [] => (d, Ok tt) | a :: l' => then_build (f d a) (build_all f l') end.
(** inequality_to_equality.py:80-90, linear_equality_to_penalty.py:70-78 *)
Definition copy_build (d : qp) (v : variable) : qp * result unit :=
  drop_out (match v_type v with
            | BINARY => binary_var d (Some (v_name v))
            | INTEGER => integer_var d (v_lb v) (v_ub v) (Some (v_name v))
            | CONTINUOUS => continuous_var d (v_lb v) (v_ub v) (Some (v_name v))
            end).
(** inequality_to_equality.py:204-213, 231-240, 284-293, 313-322 *)
Definition slack_build (integer : bool) (d : qp) (nm : string) (ub : Qc) : qp * result unit :=
  drop_out (if integer then integer_var d 0 ub (Some nm) else continuous_var d 0 ub (Some nm)).
(** inequality_to_equality.py:180-248 *)
Definition slack_linear_build (integer : bool) (src d : qp) (lin : list (string * Qc)) (s : csense) (rhs : Qc) (name : string) : qp * result unit :=
  if integer && any_float lin then (d, Err QiskitOptimizationError)
  else
    let rhs' := slack_rhs integer s rhs in
    let nm := slack_name integer name in
    with_value (calc_linear_bounds src lin) d (fun b =>
      let ub := slack_ub s rhs' (fst b) (snd b) in
      if qltb 0 ub
      then then_build (slack_build integer d nm ub)
             (fun d1 => linear_constraint d1 (by_name (dset String.eqb nm (slack_sign s) lin)) (SStr "==") rhs' (Some name))
      else linear_constraint d (by_name lin) (SStr "==") rhs' (Some name)).
(** inequality_to_equality.py:258-330 *)
Definition slack_quadratic_build (integer : bool) (src d : qp) (lin : list (string * Qc)) (quad : list ((string * string) * Qc))
    (s : csense) (rhs : Qc) (name : string) : qp * result unit :=
  if integer && (any_float lin || any_float quad) then (d, Err QiskitOptimizationError)
  else
    let rhs' := slack_rhs integer s rhs in
    let nm := slack_name integer name in
    with_value (calc_quadratic_bounds src lin quad) d (fun b =>
      let ub := slack_ub s rhs' (fst b) (snd b) in
      if qltb 0 ub
      then then_build (slack_build integer d nm ub)
             (fun d1 => quadratic_constraint d1 (by_name (dset String.eqb nm (slack_sign s) lin)) (by_name2 quad) (SStr "==") rhs' (Some name))
      else quadratic_constraint d (by_name lin) (by_name2 quad) (SStr "==") rhs' (Some name)).
(** inequality_to_equality.py:102-129, 250-256 *)
Definition ineq_linear_build (mode : slack_mode) (src d : qp) (c : lincon) : qp * result unit :=
  with_value (lin_to_dict_names (var_names src) (lc_lin c)) d (fun lin =>
    match lc_sense c with
    | EQ => linear_constraint d (by_name lin) (SVal EQ) (lc_rhs c) (Some (lc_name c))
    | s =>
        match mode with
        | MInteger => slack_linear_build true src d lin s (lc_rhs c) (lc_name c)
        | MContinuous => slack_linear_build false src d lin s (lc_rhs c) (lc_name c)
        | MAuto => slack_linear_build (negb (any_float lin)) src d lin s (lc_rhs c) (lc_name c)
        | MOther => (d, Err QiskitOptimizationError)
        end
    end).
(** inequality_to_equality.py:132-176, 332-340 *)
Definition ineq_quadratic_build (mode : slack_mode) (src d : qp) (c : quadcon) : qp * result unit :=
  with_value (lin_to_dict_names (var_names src) (qc_lin c)) d (fun lin =>
  with_value (quad_to_dict_names (var_names src) false (qc_quad c)) d (fun quad =>
    match qc_sense c with
    | EQ => quadratic_constraint d (by_name lin) (by_name2 quad) (SVal EQ) (qc_rhs c) (Some (qc_name c))
    | s =>
        match mode with
        | MInteger => slack_quadratic_build true src d lin quad s (qc_rhs c) (qc_name c)
        | MContinuous => slack_quadratic_build false src d lin quad s (qc_rhs c) (qc_name c)
        | MAuto => slack_quadratic_build (negb (any_float lin || any_float quad)) src d lin quad s (qc_rhs c) (qc_name c)
        | MOther => (d, Err QiskitOptimizationError)
        end
    end)).
(** inequality_to_equality.py:73-178 *)
Definition ineq_build (mode : slack_mode) (src : qp) : qp * result unit :=
  then_build (build_all copy_build (p_vars src) (new_qp (p_name src))) (fun d =>
  with_value (lin_to_dict_names (var_names src) (o_lin (p_obj src))) d (fun lin =>
  with_value (quad_to_dict_names (var_names src) false (o_quad (p_obj src))) d (fun quad =>
  then_build (set_objective d (o_sense (p_obj src)) (o_const (p_obj src)) (by_name lin) (by_name2 quad)) (fun d =>
  then_build (build_all (ineq_linear_build mode src) (p_lcs src) d) (fun d =>
  build_all (ineq_quadratic_build mode src) (p_qcs src) d))))).
(** integer_to_binary.py:83-84 *)
Definition bits_build (d : qp) (bits : list (string * Qc)) : qp * result unit :=
  build_all (fun d b => drop_out (binary_var d (Some (fst b)))) bits d.
(** integer_to_binary.py:186-192 *)
Definition i2b_lincon_build (src : qp) (conv : nat -> option (list (string * Qc))) (d : qp) (c : lincon) : qp * result unit :=
  with_value (do t <- lin_to_dict_names (var_names src) (lc_lin c); i2b_linear src conv t) d (fun lc =>
    linear_constraint d (by_name (fst lc)) (SVal (lc_sense c)) (lc_rhs c - snd lc)%Qc (Some (lc_name c))).
(** integer_to_binary.py:195-213 *)
Definition i2b_quadcon_build (src : qp) (conv : nat -> option (list (string * Qc))) (d : qp) (c : quadcon) : qp * result unit :=
  with_value (do t <- lin_to_dict_names (var_names src) (qc_lin c); i2b_linear src conv t) d (fun lc =>
  with_value (do t <- quad_to_dict_names (var_names src) false (qc_quad c); i2b_quadratic src conv t) d (fun qlc =>
    let '(q, ql, qc) := qlc in
    quadratic_constraint d (by_name (merge_linear (fst lc) ql)) (by_name2 q) (SVal (qc_sense c)) (qc_rhs c - (snd lc + qc))%Qc (Some (qc_name c)))).
(** integer_to_binary.py:166-213 *)
Definition i2b_build (src : qp) (conv : nat -> option (list (string * Qc))) (d : qp) : qp * result unit :=
  with_value (do t <- lin_to_dict_names (var_names src) (o_lin (p_obj src)); i2b_linear src conv t) d (fun lc =>
  with_value (do t <- quad_to_dict_names (var_names src) false (o_quad (p_obj src)); i2b_quadratic src conv t) d (fun qlc =>
    let '(q, ql, qc) := qlc in
    then_build (set_objective d (o_sense (p_obj src)) (o_const (p_obj src) + snd lc + qc)%Qc (by_name (merge_linear (fst lc) ql)) (by_name2 q)) (fun d =>
    then_build (build_all (i2b_lincon_build src conv) (p_lcs src) d) (fun d =>
    build_all (i2b_quadcon_build src conv) (p_qcs src) d)))).
(** linear_equality_to_penalty.py:67-127 *)
Definition pen_build (penalty : Qc) (src : qp) : qp * result unit :=
  then_build (build_all copy_build (p_vars src) (new_qp (p_name src))) (fun d =>
  with_value (foldM (pen_con (sense_val (o_sense (p_obj src))) penalty) (p_lcs src)
                (o_const (p_obj src), lin_to_dict (o_lin (p_obj src)), quad_to_dict false (o_quad (p_obj src)))) d (fun st =>
    let '(offset, lin, quad) := st in
    set_objective d (o_sense (p_obj src)) offset (by_index lin) (by_index2 quad))).

(** ** The converter objects: the fields are updated as in the code *)
(** InequalityToEquality.__init__, inequality_to_equality.py:45-57 *)
Record ineq_obj := mkIneq { io_mode : slack_mode; io_src : option qp; io_dst : option qp }.
(** A new converter, inequality_to_equality.py:45-57 *)
Definition new_ineq (m : slack_mode) : ineq_obj := mkIneq m None None.
(** convert, inequality_to_equality.py:59-178 *)
Definition io_convert (o : ineq_obj) (p : qp) : ineq_obj * result qp :=
  let '(d, r) := ineq_build (io_mode o) p in (mkIneq (io_mode o) (Some p) (Some d), do _ <- r; Ok d).
(** interpret, inequality_to_equality.py:376-393; without a conversion [_dst] is None *)
Definition io_interpret (o : ineq_obj) (x : list Qc) : result (list Qc) :=
  match io_src o, io_dst o with Some p, Some q => ineq_interpret p q x | _, _ => Err AttributeError end.
(** mode.setter, inequality_to_equality.py:417-424 *)
Definition io_set_mode (m : slack_mode) (o : ineq_obj) : ineq_obj := mkIneq m (io_src o) (io_dst o).

(** IntegerToBinary.__init__, integer_to_binary.py:51-55.  [_conv] is a dictionary on Variable objects, compared by
    identity, and is never cleared.  Every conversion works on new objects (a deep copy of the problem, line 71), so
    an object is named by the number of the conversion and the position in the program. *)
Record i2b_obj := mkI2B { bo_src : option qp; bo_dst : option qp; bo_count : nat; bo_conv : list ((nat * nat) * list (string * Qc)) }.
(** A new converter, integer_to_binary.py:51-55 *)
Definition new_i2b : i2b_obj := mkI2B None None 0 [].
(** The loop declaring the variables, integer_to_binary.py:79-93; entries of [_conv] made before an exception stay. *)
Fixpoint bo_declare (g i : nat) (vs : list variable) (dst : qp) (conv : list ((nat * nat) * list (string * Qc)))
  : list ((nat * nat) * list (string * Qc)) * (qp * result unit) :=
  match vs with
  | [] => (conv, (dst, Ok tt))
  | v :: vs' =>
      match v_type v with
      | INTEGER =>
          match convert_var (v_name v) (v_lb v) (v_ub v) with
          | Err e => (conv, (dst, Err e))
          | Ok bits =>
              let conv' := dset nat2_eqb (g, i) bits conv in
              match bits_build dst bits with
              | (dst', Err e) => (conv', (dst', Err e))
              | (dst', Ok _) => bo_declare g (S i) vs' dst' conv'
              end
          end
      | _ => match copy_build dst v with (dst', Err e) => (conv, (dst', Err e)) | (dst', Ok _) => bo_declare g (S i) vs' dst' conv end
      end
  end.
(** [self._conv[x]], integer_to_binary.py:120-121, 229-230 *)
Definition bo_lookup (g : nat) (conv : list ((nat * nat) * list (string * Qc))) (i : nat) : option (list (string * Qc)) :=
  dget nat2_eqb (g, i) conv.
(** convert, integer_to_binary.py:57-101 *)
Definition bo_convert (o : i2b_obj) (p : qp) : i2b_obj * result qp :=
  let g := S (bo_count o) in
  if 0 <? count_type INTEGER p
  then let '(conv, r) := bo_declare g 0 (p_vars p) (new_qp (p_name p)) (bo_conv o) in
       let '(d, r') := then_build r (i2b_build p (bo_lookup g conv)) in
       (mkI2B (Some p) (Some d) g conv, do _ <- r'; Ok d)
  else (mkI2B (Some p) (Some p) g (bo_conv o), Ok p).
(** interpret, integer_to_binary.py:215-233 *)
Definition bo_interpret (o : i2b_obj) (x : list Qc) : result (list Qc) :=
  match bo_src o, bo_dst o with
  | Some p, Some q => i2b_interpret p (bo_lookup (bo_count o) (bo_conv o)) q x
  | _, _ => Err AttributeError
  end.

(** LinearEqualityToPenalty.__init__ and penalty.setter, linear_equality_to_penalty.py:35-44, 195-205 *)
Record pen_obj := mkPen { po_src : option qp; po_dst : option qp; po_penalty : option Qc; po_auto : bool }.
(** penalty.setter, linear_equality_to_penalty.py:195-205 *)
Definition po_set_penalty (c : option Qc) (o : pen_obj) : pen_obj :=
  mkPen (po_src o) (po_dst o) c (match c with None => true | Some _ => false end).
(** A new converter, linear_equality_to_penalty.py:35-44 *)
Definition new_pen (c : option Qc) : pen_obj := po_set_penalty c (mkPen None None None true).
(** convert, linear_equality_to_penalty.py:46-127; the penalty used is stored only when the conversion succeeds.
    Multiplying by a penalty None would raise, which the setter excludes. *)
Definition po_convert (o : pen_obj) (p : qp) : pen_obj * result qp :=
  match (if po_auto o then Ok (auto_penalty p) else match po_penalty o with Some c => Ok c | None => Err TypeError end) with
  | Err e => (mkPen (Some p) (Some (new_qp (p_name p))) (po_penalty o) (po_auto o), Err e)
  | Ok c =>
      match pen_build c p with
      | (q, Ok _) => (mkPen (Some p) (Some q) (Some c) (po_auto o), Ok q)
      | (q, Err e) => (mkPen (Some p) (Some q) (po_penalty o) (po_auto o), Err e)
      end
  end.
(** interpret, linear_equality_to_penalty.py:166-184 *)
Definition po_interpret (o : pen_obj) (x : list Qc) : result (list Qc) :=
  match po_src o with Some p => pen_interpret p x | None => Err AttributeError end.

(** QuadraticProgramToQubo.__init__, quadratic_program_to_qubo.py:36-49 *)
Record qubo_obj := mkQubo { qo_ineq : ineq_obj; qo_i2b : i2b_obj; qo_pen : pen_obj }.
(** A new converter, quadratic_program_to_qubo.py:36-49 *)
Definition new_qubo (c : option Qc) : qubo_obj := mkQubo (new_ineq MInteger) new_i2b (new_pen c).
(** convert, quadratic_program_to_qubo.py:51-79 *)
Definition qo_convert (o : qubo_obj) (p : qp) : qubo_obj * result qp :=
  if qubo_compatible p
  then let '(o1, r1) := io_convert (qo_ineq o) p in
       match r1 with
       | Err e => (mkQubo o1 (qo_i2b o) (qo_pen o), Err e)
       | Ok p1 =>
           let '(o2, r2) := bo_convert (qo_i2b o) p1 in
           match r2 with
           | Err e => (mkQubo o1 o2 (qo_pen o), Err e)
           | Ok p2 => let '(o3, r3) := po_convert (qo_pen o) p2 in (mkQubo o1 o2 o3, r3)
           end
       end
  else (o, Err QiskitOptimizationError).
(** interpret, quadratic_program_to_qubo.py:81-93 *)
Definition qo_interpret (o : qubo_obj) (x : list Qc) : result (list Qc) :=
  do x1 <- po_interpret (qo_pen o) x; do x2 <- bo_interpret (qo_i2b o) x1; io_interpret (qo_ineq o) x2.
(** penalty, quadratic_program_to_qubo.py:149-167 *)
Definition qo_penalty (o : qubo_obj) : option Qc := po_penalty (qo_pen o).
(** penalty.setter, quadratic_program_to_qubo.py:158-167 *)
Definition qo_set_penalty (c : option Qc) (o : qubo_obj) : qubo_obj := mkQubo (qo_ineq o) (qo_i2b o) (po_set_penalty c (qo_pen o)).

(** What a caller can do with a converter; quadratic_program_to_qubo.py:51, 81, 158 *)
Inductive conv_op := CConvert (p : qp) | CInterpret (x : list Qc) | CPenalty (c : option Qc).
(** One call, quadratic_program_to_qubo.py:51-93, 158-167 *)
Definition qo_step (o : qubo_obj) (c : conv_op) : qubo_obj :=
  match c with CConvert p => fst (qo_convert o p) | CInterpret _ => o | CPenalty c => qo_set_penalty c o end.
(** A history of calls, quadratic_program_to_qubo.py:51-93, 158-167 *)
Definition qo_run (o : qubo_obj) (l : list conv_op) : qubo_obj := fold_left qo_step l o.

(** What a caller can do with the three converters used alone; inequality_to_equality.py:59, 376, 417, integer_to_binary.py:57, 215 and
    linear_equality_to_penalty.py:46, 166, 195 *)
Inductive ineq_op := IConvert (p : qp) | IInterpret (x : list Qc) | IMode (m : slack_mode).
(** One call, inequality_to_equality.py:59-178, 376-393, 417-424 *)
Definition io_step (o : ineq_obj) (c : ineq_op) : ineq_obj :=
  match c with IConvert p => fst (io_convert o p) | IInterpret _ => o | IMode m => io_set_mode m o end.
(** A history of calls, inequality_to_equality.py:59-178, 376-393, 417-424 *)
Definition io_run (o : ineq_obj) (l : list ineq_op) : ineq_obj := fold_left io_step l o.
(** A history of conversions, integer_to_binary.py:57-101; interpret, lines 215-233, changes nothing *)
Definition bo_run (o : i2b_obj) (l : list qp) : i2b_obj := fold_left (fun o p => fst (bo_convert o p)) l o.
(** One call, linear_equality_to_penalty.py:46-127, 166-184, 195-205 *)
Definition po_step (o : pen_obj) (c : conv_op) : pen_obj :=
  match c with CConvert p => fst (po_convert o p) | CInterpret _ => o | CPenalty c => po_set_penalty c o end.
(** A history of calls, linear_equality_to_penalty.py:46-127, 166-184, 195-205 *)
Definition po_run (o : pen_obj) (l : list conv_op) : pen_obj := fold_left po_step l o.
