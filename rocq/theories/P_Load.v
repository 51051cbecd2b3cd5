(** * C94: loading a model replaces what the program held *)
From Verif Require Import LoadFacts ConvMore.
From Coq Require Import Lia.
Local Open Scope string_scope.
Local Open Scope list_scope.
Local Open Scope nat_scope.

(** Whatever the program held, from_docplex gives the same; it returns exactly when the model can be imported, with the program of the model. *)
Theorem C94_replaced : forall p m,
  (forall p', load_docplex p' m = load_docplex p m) /\
  (forall q, load_docplex p m = (q, Ok tt) <-> from_docplex m = Ok q) /\
  (forall e, snd (load_docplex p m) = Err e <-> from_docplex m = Err e).
Proof.
  intros p m. split; [intro p'; apply load_anywhere|]. pose proof (load_result p m) as R. destruct (load_docplex p m) as [r [[]|x]].
  - rewrite R. split; [intro q; split; congruence|intro e; split; intro H; discriminate H].
  - destruct R as [R _]. rewrite R. split; [intro q; split; intro H; discriminate H|intro e; cbn; split; congruence].
Qed.
(** A file: the same, and if the file cannot be read the program stays as it is. *)
Theorem C94_file : forall reader p file,
  (forall q, load_lp reader p file = (q, Ok tt) <-> read_from_lp reader file = Ok q) /\
  (forall p', (exists m, reader file (parse_problem_name file) = Ok m) -> load_lp reader p' file = load_lp reader p file) /\
  (forall e, reader file (parse_problem_name file) = Err e -> load_lp reader p file = (p, Err e)).
Proof.
  intros reader p file. unfold load_lp, read_from_lp. destruct (reader file (parse_problem_name file)) as [m|x]; cbn [with_value bind].
  - split; [apply C94_replaced|]. split; [intros p' _; apply load_anywhere|intros e H; discriminate H].
  - split; [intro q; split; intro H; discriminate H|]. split; [intros p' [m H]; discriminate H|intros e H; congruence].
Qed.
(** Refuted: "a model that cannot be imported leaves the program as it was".  The second of three variables is semi-continuous;
    the old program is gone, the first variable of the model is there. *)
Theorem C94_failed_refuted : exists ops m q e, let p := run (new_qp "old") ops in
  num_vars p = 2 /\ length (p_lcs p) = 1 /\ load_docplex p m = (q, Err e) /\ p_name q = "new" /\ var_names q = ["u"] /\ p_lcs q = [] /\ p_obj q = empty_obj.
Proof.
  set (ops := [OAddVars (KCount 2) 0 1 BINARY (Some "a") "{}"; OLinCon (by_index [(0, 1%Qc)]) (SStr "<=") 1 None; OObjective MAXIMIZE 1 (by_index [(1, qz 2)]) None]).
  set (m := mkDM "new" [mkDVar (Some "u") DBinary 0 1; mkDVar (Some "v") DOtherType 0 (qz 5); mkDVar (Some "w") DInteger 0 (qz 5)] MINIMIZE (mkDE 0 [(2, 1%Qc)] []) []).
  exists ops, m. eexists. exists QiskitOptimizationError. cbv zeta. split; [reflexivity|]. split; [reflexivity|]. split; [unfold load_docplex; rewrite clear_new; reflexivity|]. repeat split.
Qed.
(** What holds: a raising call leaves a well-formed program, the one of a part of the model (the objective may still be empty). *)
Theorem C94_left_partial : forall p m q e, load_docplex p m = (q, Err e) -> prog_wf q /\
  exists m' r, part_of m' m /\ from_docplex m' = Ok r /\ same_but_objective q r /\
    ((p_obj q = p_obj r /\ dm_obj m' = dm_obj m /\ dm_sense m' = dm_sense m) \/ (p_obj q = empty_obj /\ dm_cons m' = [])).
Proof.
  intros p m q e E. split; [pose proof (load_wf p m) as W; rewrite E in W; exact W|]. pose proof (load_result p m) as R. rewrite E in R. exact (proj2 R).
Qed.
(** A logical constraint between a quadratic and a linear one: the objective is set, the linear constraints before it are there, the quadratic ones are not. *)
Definition ex94 : dmodel := mkDM "m" [mkDVar None DInteger 0 (qz 5); mkDVar (Some "y") DBinary 0 1] MAXIMIZE (mkDE 1 [(0, qz 2)] [((0, 1), qz 3)])
  [DLinear (Some "r") LE (mkDE 0 [(0, 1%Qc); (1, 1%Qc)] []) (mkDE (qz 4) [] []); DQuadratic (Some "s") LE (mkDE 0 [] [((0, 0), 1%Qc)]) (mkDE (qz 9) [] []); DOtherCon;
   DLinear (Some "t") GE (mkDE 0 [(1, 1%Qc)] []) (mkDE 0 [(0, 1%Qc)] [])].
Example C94_case :
  let m := mkDM "m" (dm_vars ex94) MAXIMIZE (dm_obj ex94) (filter (fun c => negb (match c with DOtherCon => true | _ => false end)) (dm_cons ex94)) in
  let p := run (new_qp "old") [OAddVar 0 1 BINARY (Some "y"); OLinCon (by_name [("y", 1%Qc)]) (SStr "<=") 1 (Some "t")] in
  (let (q, r) := load_docplex p m in r = Ok tt /\ var_names q = ["x0"; "y"] /\ map lc_name (p_lcs q) = ["r"; "t"] /\ map qc_name (p_qcs q) = ["s"]) /\
  (let (q, r) := load_docplex p ex94 in r = Err QiskitOptimizationError /\ var_names q = ["x0"; "y"] /\ map lc_name (p_lcs q) = ["r"] /\ p_qcs q = [] /\
     qeqb (obj_at (p_obj q) [qz 2; 1%Qc]) (qz 11) = true) /\
  (let (q, r) := load_lp (fun _ _ => Err DOcplexException) p [] in r = Err DOcplexException /\ q = p).
Proof. vm_compute. repeat split. Qed.
Print Assumptions C94_replaced.
Print Assumptions C94_file.
Print Assumptions C94_failed_refuted.
Print Assumptions C94_left_partial.

(** Refuted for from_ising: nothing is cleared, and the terms, given by position, fall on the variables that were there before;
    the new variables do not occur in the objective. *)
Theorem C94_ising_refuted : exists ops q x, let p := run (new_qp "") ops in let op := mkOp 1 [(([true], [false]), 1%Qc)] in
  num_vars p = 1 /\ from_ising p op 0 true = (q, Ok tt) /\ num_vars q = 2 /\ bits 1 (skipn 1 x) /\ length x = 2 /\ obj_at (p_obj q) x <> energy op (skipn 1 x).
Proof.
  set (ops := [OAddVar 0 (qz 9) INTEGER (Some "a")]). set (op := mkOp 1 [(([true], [false]), 1%Qc)]). set (p := run (new_qp "") ops).
  assert (match from_ising p op 0 true with (q, Ok _) => Nat.eqb (num_vars q) 2 && negb (qeqb (obj_at (p_obj q) [1%Qc; 0%Qc]) (energy op [0%Qc])) | _ => false end = true) as V by (vm_compute; reflexivity).
  destruct (from_ising p op 0 true) as [q [[]|]] eqn:E; [|discriminate V]. apply andb_prop in V. destruct V as [V1 V2]. apply Nat.eqb_eq in V1. apply negb_true_iff, qeqb_false in V2.
  exists ops, q, [1%Qc; 0%Qc]. cbv zeta. fold p op. split; [reflexivity|]. split; [exact E|]. split; [exact V1|]. split; [split; [reflexivity|repeat constructor]|]. split; [reflexivity|exact V2].
Qed.
(** Refuted: a raising from_ising leaves new variables behind, whether a name is taken or the operator has an X. *)
Theorem C94_ising_failed_refuted :
  (exists ops q, let p := run (new_qp "") ops in var_names p = ["x_1"] /\ from_ising p (mkOp 2 [(([true; true], [false; false]), 1%Qc)]) 0 true = (q, Err QiskitOptimizationError) /\ var_names q = ["x_1"; "x_0"]) /\
  (exists q, from_ising (new_qp "") (mkOp 2 [(([true; false], [true; false]), 1%Qc)]) 0 true = (q, Err QiskitOptimizationError) /\ var_names q = ["x_0"; "x_1"]).
Proof.
  split; [exists [OAddVar 0 1 BINARY (Some "x_1")]; eexists; cbv zeta; split; [reflexivity|split; [reflexivity|reflexivity]]|eexists; split; reflexivity].
Qed.
(** What holds: if the names are free, the variables are appended, the constraints and the name stay, and the energies are the objective as a function
    of the first variables of the program, old or new (of the new ones if there were none); ... *)
Theorem C94_ising_partial : forall p n terms off linear, Forall (ising_term n) terms -> NoDup (map fst terms) ->
  (forall i, i < n -> ~ In ("x_" ++ str_nat i)%string (map fst (p_vidx p))) ->
  exists q, from_ising p (mkOp n terms) off linear = (q, Ok tt) /\ p_vars q = p_vars p ++ map (fun i => mkVar ("x_" ++ str_nat i) 0 1 BINARY) (seq 0 n) /\
    p_lcs q = p_lcs p /\ p_qcs q = p_qcs p /\ p_name q = p_name p /\ o_sense (p_obj q) = MINIMIZE /\
    forall x, length x = num_vars q -> bits n (firstn n x) -> obj_at (p_obj q) x = (energy (mkOp n terms) (firstn n x) + off)%Qc.
Proof. exact from_ising_anywhere. Qed.
(** ... and a raising call only adds variables: all of them, or those before the first name that is taken. *)
Theorem C94_ising_left_partial : forall p op off linear q e, from_ising p op off linear = (q, Err e) ->
  exists k, k <= op_n op /\ p_vars q = p_vars p ++ map (fun i => mkVar ("x_" ++ str_nat i) 0 1 BINARY) (seq 0 k) /\
    p_lcs q = p_lcs p /\ p_qcs q = p_qcs p /\ p_obj q = p_obj p /\ p_name q = p_name p /\
    ((k < op_n op /\ In ("x_" ++ str_nat k)%string (map fst (p_vidx p)) /\ e = QiskitOptimizationError) \/ k = op_n op).
Proof. exact from_ising_fails. Qed.
Example C94_ising_case :
  let p := run (new_qp "n") [OAddVar 0 1 BINARY (Some "a"); OLinCon (by_name [("a", 1%Qc)]) (SStr "<=") 1 (Some "t"); OObjective MAXIMIZE (qz 7) (by_name [("a", 1%Qc)]) None] in
  let op := mkOp 2 [(([true; true], [false; false]), qz 3); (([false; true], [false; false]), qz 2)] in
  let (q, r) := from_ising p op (qz 10) false in
  r = Ok tt /\ var_names q = ["a"; "x_0"; "x_1"] /\ length (p_lcs q) = 1 /\ qeqb (obj_at (p_obj q) [1; 0; 1]%Qc) (energy op [1; 0]%Qc + qz 10) = true /\
  qeqb (obj_at (p_obj q) [1; 0; 1]%Qc) (energy op [0; 1]%Qc + qz 10) = false.
Proof. vm_compute. repeat split. Qed.
Print Assumptions C94_ising_refuted.
Print Assumptions C94_ising_failed_refuted.
Print Assumptions C94_ising_partial.
Print Assumptions C94_ising_left_partial.
