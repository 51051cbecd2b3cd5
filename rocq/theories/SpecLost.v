(** * What a product of two integer variables loses in IntegerToBinary *)
From Verif Require Export IntBinProps.
Local Open Scope nat_scope.

(** The bits of the integer variable at position [i], counted instead of weighed; integer_to_binary.py:154-157 adds them up like this *)
Definition bits_set (q : qp) (tbl : conv_table) (y : list Qc) (i : nat) : Qc :=
  match conv_of tbl i with Some bits => sumof (fun b => valof (var_names q) y (fst b)) bits | None => 0%Qc end.
(** The difference between the products of the integer variables of [p] at [x] and what became of them at [y] *)
Definition lost (p q : qp) (tbl : conv_table) (e : quadexpr) (x y : list Qc) : Qc :=
  sumof (fun kv => let i := fst (fst kv) in let j := snd (fst kv) in
    match nth_error (p_vars p) i, nth_error (p_vars p) j with
    | Some vi, Some vj =>
        match v_type vi, v_type vj with
        | INTEGER, INTEGER => (snd kv * (v_lb vj * (at_ x i - v_lb vi - bits_set q tbl y i) + v_lb vi * (at_ x j - v_lb vj - bits_set q tbl y j)))%Qc
        | _, _ => 0%Qc
        end
    | _, _ => 0%Qc
    end) (qe_co e).
(** The constraint [c'] at [y] says what [c] says at [x], but for what its products lose. *)
Definition row_less (p q : qp) (tbl : conv_table) (x y : list Qc) (c c' : quadcon) : Prop :=
  qc_name c' = qc_name c /\ qc_sense c' = qc_sense c /\
  (qc_at c' y - qc_rhs c' = qc_at c x - qc_rhs c - lost p q tbl (qc_quad c) x y)%Qc.

(** The 0/1 assignment [y] of the QUBO stands for the point [z], slack values included, which satisfies all constraints; [worth] is
    the objective at [z] less what products of integer variables lose. *)
Definition bits_mean (r : qubo_run) (y z : list Qc) : Prop :=
  feasible (r_qubo r) y /\ i2b_interpret (r_eq r) (conv_of (r_conv r)) (r_bin r) y = Ok z /\ feasible (r_eq r) z.
Definition worth (p : qp) (r : qubo_run) (z y : list Qc) : Qc :=
  (obj_at (p_obj p) (firstn (num_vars p) z) - lost (r_eq r) (r_bin r) (r_conv r) (o_quad (p_obj (r_eq r))) z y)%Qc.
