(** * Specification of the elimination of variables *)
From Verif Require Export SpecAlgo SpecMore Recur.
Local Open Scope nat_scope.

Definition without (a : string) (names : list string) : list string := filter (fun s => negb (String.eqb s a)) names.
(** One after the other, a variable is struck off in favour of a different one that is still there; [rest] are left. *)
Inductive eliminates : list string -> repls -> list string -> Prop :=
| el_done names : eliminates names [] names
| el_step names a b same rep rest : In a names -> In b names -> a <> b -> eliminates (without a names) rep rest ->
    eliminates names ((a, (b, same)) :: rep) rest.
(** Every struck off variable has the value of its partner, or one minus it. *)
Definition respects (rep : repls) (val : string -> Qc) : Prop :=
  Forall (fun e : string * (string * bool) => val (fst e) = if snd (snd e) then val (fst (snd e)) else (1 - val (fst (snd e)))%Qc) rep.
(** The objective at an assignment of values to names *)
Definition obj_val (p : qp) (val : string -> Qc) : Qc := obj_at (p_obj p) (map val (map v_name (p_vars p))).

(** A program without constraints in which every variable may be 0, whose objective has one column per variable, an upper
    triangular quadratic part and fractional entries, and none of whose names is the reserved one: every result of the
    conversion to a QUBO is of this kind, if it does not use the reserved name. *)
Definition plain_qubo (p : qp) : Prop :=
  prog_wf p /\ p_lcs p = [] /\ p_qcs p = [] /\ Forall (fun v => in_range v 0%Qc) (p_vars p) /\ ~ In CONST (var_names p) /\
  obj_shaped p /\ quad_upper (o_quad (p_obj p)) /\ le_int (o_lin (p_obj p)) = false.
(** An optimizer whose answers have samples, all with one entry per variable; one whose answers are points. *)
Definition samples_sized (inner : nat -> qp -> result opt_result) : Prop :=
  forall k p, exists r s ss, inner k p = Ok r /\ r_samples r = Some (s :: ss) /\ Forall (fun t => length (s_x t) = num_vars p) (s :: ss).
Definition answers_sized (final : qp -> result opt_result) : Prop :=
  forall p, exists r x, final p = Ok r /\ r_x r = Some x /\ length x = num_vars p.

(** One added at place [i] *)
Definition one_more (i : nat) (x : list Qc) : list Qc :=
  map (fun ka => if Nat.eqb (fst ka) i then (snd ka + 1)%Qc else snd ka) (combine (seq 0 (length x)) x).
(** The first answer finds variable [i] and another one most strongly correlated, and the correlation is not positive. *)
Definition first_apart (inner : nat -> qp -> result opt_result) (p : qp) (i : nat) : Prop :=
  exists r m j, inner 0 p = Ok r /\ get_correlations r = Ok m /\ strongest m = Ok (i, j) /\ i < num_vars p /\ j < num_vars p /\ (get2 m i j <= 0)%Qc.
(** In the objective of [p], variable [i] is replaced by itself plus one; everything else is as it was. *)
Definition moved_up (i : nat) (p p' : qp) : Prop :=
  p' = set_obj (p_obj p') p /\ o_sense (p_obj p') = o_sense (p_obj p) /\ o_quad (p_obj p') = o_quad (p_obj p) /\
  forall g, (1 / qz 10000000000 < g)%Qc -> on_grid g p -> forall x, length x = num_vars p -> obj_at (p_obj p') x = obj_at (p_obj p) (one_more i x).

(** The results [l] of the rounds from round [k] on, in order, account for the replacements: each is the answer for the program left
    by the rounds before, and names the most strongly correlated pair of that program; [red] is the program left at the end. *)
Inductive recorded (inner : nat -> qp -> result opt_result) : nat -> qp -> repls -> list opt_result -> qp -> Prop :=
| rec_done k q : recorded inner k q [] [] q
| rec_step k q r m i j a b same q' rep l red : inner k q = Ok r -> get_correlations r = Ok m -> strongest m = Ok (i, j) ->
    nth_error (map v_name (p_vars q)) i = Some a -> nth_error (map v_name (p_vars q)) j = Some b -> (same = true <-> (0 < get2 m i j)%Qc) ->
    map v_name (p_vars q') = without a (map v_name (p_vars q)) -> recorded inner (S k) q' rep l red ->
    recorded inner k q ((a, (b, same)) :: rep) (r :: l) red.
