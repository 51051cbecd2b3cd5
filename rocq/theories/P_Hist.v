(** * C99: the history of the recursive optimizer *)
From Verif Require Import RecurHistFacts.
Local Open Scope string_scope.
Local Open Scope list_scope.
Local Open Scope nat_scope.

(** Whether results are kept does not change the answer, the replacements, the error or the caller's problem. *)
Theorem C99_answer : forall kz hist inner final min cs p, let h := recursive_history kz hist inner final min cs p in let s := recursive_solve kz inner final min cs p in
  fst h = fst s /\ (forall rr, snd h = Ok rr -> snd s = Ok (rr_result rr, rr_replacements rr)) /\ (forall e, snd h = Err e <-> snd s = Err e).
Proof.
  intros kz hist inner final min cs p h s. destruct (history_answer kz inner final min cs p hist) as [A B]. fold h s in A, B. split; [exact A|]. rewrite <- B. split.
  - intros rr ->. reflexivity.
  - intro e. destruct (snd h) as [rr|e']; cbn [bind]; split; congruence.
Qed.
(** With ALL_ITERATIONS there is one result per eliminated variable, in order; each is the answer for the program of its round, and
    its strongest correlation is the replacement made.  The last entry is the answer for what was left. *)
Theorem C99_all : forall kz inner final min cs p q fs p' rr, convert_all cs p = Ok (q, fs) -> plain_qubo q ->
  recursive_history kz ALL_ITERATIONS inner final min cs p = (p', Ok rr) ->
  exists red r, recorded inner 0 q (rr_replacements rr) (fst (rr_history rr)) red /\ length (fst (rr_history rr)) = num_vars q - min /\
    num_vars red = Nat.min min (num_vars q) /\ final red = Ok r /\ snd (rr_history rr) = Some r.
Proof. intros kz inner final min cs p q fs p' rr Ec G H. exact (history_complete kz inner final min cs p q fs p' rr Ec G H). Qed.
(** For the default converter: the recorded rounds start from the QUBO of the problem, if it does not use the reserved name. *)
Theorem C99_default : forall kz inner final min pen p qr p' rr, prog_wf p -> to_qubo pen p = Ok qr -> ~ In CONST (map v_name (p_vars (r_qubo qr))) ->
  recursive_history kz ALL_ITERATIONS inner final min (default_converters pen) p = (p', Ok rr) ->
  exists red r, recorded inner 0 (r_qubo qr) (rr_replacements rr) (fst (rr_history rr)) red /\ length (fst (rr_history rr)) = num_vars (r_qubo qr) - min /\
    num_vars red = Nat.min min (num_vars (r_qubo qr)) /\ final red = Ok r /\ snd (rr_history rr) = Some r.
Proof.
  intros kz inner final min pen p qr p' rr W Hq C H. pose proof (qubo_plain pen p qr W Hq C) as G.
  assert (convert_all (default_converters pen) p = Ok (r_qubo qr, [qubo_interpret qr])) as Hc by (unfold convert_all, default_converters, qubo_converter; cbn [foldM fst snd]; rewrite Hq; reflexivity).
  exact (C99_all _ _ _ _ _ _ _ _ _ _ Hc G H).
Qed.
(** With LAST_ITERATION only the last entry is kept, with NO_ITERATIONS none. *)
Theorem C99_less : forall kz inner final min cs p p' rr, recursive_history kz ALL_ITERATIONS inner final min cs p = (p', Ok rr) ->
  (exists last, recursive_history kz LAST_ITERATION inner final min cs p = (p', Ok last) /\ rr_history last = ([], snd (rr_history rr))) /\
  (exists none, recursive_history kz NO_ITERATIONS inner final min cs p = (p', Ok none) /\ rr_history none = ([], None)).
Proof.
  intros kz inner final min cs p p' rr H. split; eexists; (split; [apply (history_settings _ _ _ _ _ _ _ _ _ H); discriminate|reflexivity]).
Qed.

(** Four variables, two rounds: the first answer puts x1 opposite to x0, the second x3 equal to x2. *)
Definition ex99 : qp := run (new_qp "") [OAddVars (KCount 4) 0 1 BINARY None "{}";
   OObjective MAXIMIZE 1 (Some (LDict [(KI 0, qz 2); (KI 3, qz (-1))])) (Some (QDict [((KI 0, KI 1), qz 3); ((KI 1, KI 2), qz (-2)); ((KI 2, KI 3), 1%Qc)]))].
Definition inner99 : nat -> qp -> result opt_result := fun k p =>
  Ok (mkRes None (Some (qn k)) [] None SUCCESS (Some [mkSample (firstn (num_vars p) (if Nat.even k then [1; 0; 0; 1] else [1; 1; 1; 0])%Qc ++ repeat 0%Qc (num_vars p - 4)) 0 (1 / qz 2) SUCCESS;
                                             mkSample (firstn (num_vars p) [0; 1; 1; 1]%Qc ++ repeat 0%Qc (num_vars p - 4)) 0 (1 / qz 2) SUCCESS])).
Definition final99 : qp -> result opt_result := fun p => Ok (mkRes (Some (repeat 1%Qc (num_vars p))) (Some (qz 7)) [] None SUCCESS None).
Example C99_case : match to_qubo None ex99 with Ok qr => ~ In CONST (map v_name (p_vars (r_qubo qr))) /\ num_vars (r_qubo qr) = 4 | Err _ => False end /\
  match recursive_history true ALL_ITERATIONS inner99 final99 2 (default_converters None) ex99 with
  | (_, Ok rr) => rr_replacements rr = [("x1", ("x0", false)); ("x3", ("x2", true))] /\ map r_fval (fst (rr_history rr)) = [Some 0%Qc; Some 1%Qc] /\
                  match snd (rr_history rr) with Some r => r_fval r = Some (qz 7) /\ r_x r = Some [1; 1]%Qc | None => False end
  | _ => False end.
Proof. vm_compute. intuition discriminate. Qed.
Example C99_less_case : match recursive_history true LAST_ITERATION inner99 final99 2 (default_converters None) ex99, recursive_history true NO_ITERATIONS inner99 final99 2 (default_converters None) ex99 with
  | (_, Ok a), (_, Ok b) => fst (rr_history a) = [] /\ match snd (rr_history a) with Some r => r_fval r = Some (qz 7) | None => False end /\ rr_history b = ([], None)
  | _, _ => False end.
Proof. vm_compute. auto. Qed.
Example C99_answer_case : match recursive_history true NO_ITERATIONS (fun _ _ => Err ValueError) final99 2 (default_converters None) ex99 with
  | (_, Err e) => e = ValueError | _ => False end.
Proof. vm_compute. reflexivity. Qed.
Print Assumptions C99_answer.
Print Assumptions C99_all.
Print Assumptions C99_default.
Print Assumptions C99_less.
