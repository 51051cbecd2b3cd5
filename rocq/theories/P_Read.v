(** * C65: graphs read from tsplib files; C86: names read from LP files *)
From Verif Require Import ReadFacts DocWf ConvMore TspFacts.
Local Open Scope string_scope.
Local Open Scope list_scope.
Local Open Scope nat_scope.

(** ** C65 *)
(** Of the coordinates read a complete graph is made, whose weights are the distances rounded to the nearest whole numbers, to even ones in the middle; so it has a program. *)
Theorem C65_graph_partial : forall int_of float_of hyp file coord, hypot_like hyp -> tsplib_coords int_of float_of file = Ok coord ->
  exists g w, parse_tsplib int_of float_of hyp file = Ok g /\ g_n g = length coord /\ complete g w /\ (exists p, tsp_program g = Ok p) /\
  forall i j, rounds_even (hyp (fst (nth i coord (0, 0)) - fst (nth j coord (0, 0))) (snd (nth i coord (0, 0)) - snd (nth j coord (0, 0))))%Qc (w i j).
Proof.
  intros int_of float_of hyp file coord H E. assert (coord <> []) as N. { intros ->. unfold tsplib_coords in E. destruct (foldM _ file _) as [[b [|c r]]|]; discriminate E. }
  destruct (tsplib_graph_spec hyp coord H N) as (g & G & L & C). exists g, (fun i j => np_rint (distance hyp coord i j)). unfold parse_tsplib. rewrite E. split; [exact G|]. split; [exact L|]. split; [exact C|]. split.
  - destruct (tsp_spec _ _ C) as (p & Ep & _); [rewrite L; destruct coord; [congruence|cbn; lia]|eauto].
  - intros i j. exact (rint_rounds (distance hyp coord i j)).
Qed.
Example C65_graph_case : let int_of s := if String.eqb s "1" then Ok 1%Z else if String.eqb s "2" then Ok 2%Z else if String.eqb s "5" then Ok 5%Z else Err ValueError in
  let float_of s := do z <- int_of s; Ok (qz z / qz 2)%Qc in let hyp a b := (qabs a + qabs b)%Qc in
  match parse_tsplib int_of float_of hyp (plain_file "2" [("1", "2", "1"); ("2", "5", "2")]) with
  | Ok g => map fst (g_edges g) = [(0, 1)] /\ g_n g = 2 /\ match map snd (g_edges g) with [Some w] => qeqb w (qz 2) = true | _ => False end
  | _ => False
  end.
Proof. vm_compute. auto. Qed.

(** ** C86 *)
(** The name is the text of the last comment with the name among the comments at the top of the file, without the white space around it ... *)
Theorem C86_name : forall file b1 l s b2 rest, top file (b1 ++ l :: b2) rest -> names_problem l s -> Forall (fun l => forall t, ~ names_problem l t) b2 ->
  forall n, n = parse_problem_name file <-> trims s n.
Proof. intros file b1 l s b2 rest T H N n. rewrite (parse_named file b1 l s b2 rest T H N). symmetry. apply trims_strip. Qed.
(** ... and empty if there is none there, whatever comes later. *)
Theorem C86_none : forall file b rest, top file b rest -> Forall (fun l => forall t, ~ names_problem l t) b -> parse_problem_name file = "".
Proof. exact parse_unnamed. Qed.
Example C86_case : let e := String newline "" in
  parse_problem_name ["\This file has been generated by DOcplex" ++ e; "\ENCODING=ISO-8859-1" ++ e; "\Problem name: my problem " ++ e; e; "Minimize" ++ e; "\Problem name: other" ++ e]%string = "my problem" /\
  parse_problem_name ["Minimize" ++ e; "\Problem name: other" ++ e]%string = "" /\ parse_problem_name [] = "" /\
  parse_problem_name ["\Problem name: a" ++ e; "\Problem name:b"]%string = "b".
Proof. vm_compute. auto. Qed.
(** The program read from a file has this name, if the reader keeps the name handed to it. *)
Theorem C86_read : forall reader file p, (forall n m, reader file n = Ok m -> dmodel_wf m /\ dm_name m = n) -> read_from_lp reader file = Ok p -> p_name p = parse_problem_name file.
Proof.
  intros reader file p H E. unfold read_from_lp in E. destruct (reader file _) as [m|e] eqn:R; [|discriminate E]. cbn [bind] in E. destruct (H _ _ R) as [W <-]. now destruct (from_docplex_spec m p W E) as (_ & N & _).
Qed.
(** A program written and read again has its name: refuted for a name with a blank at its end. *)
Theorem C86_round_trip_refuted : exists p, prog_wf p /\ forall printer reader file, write_to_lp printer p = Ok file -> (forall m, to_docplex p = Ok m -> lp_file m file /\ reads reader file m) ->
  exists p', read_from_lp reader file = Ok p' /\ p_name p' <> p_name p.
Proof.
  exists (new_qp "p "). split; [apply (reachable_wf "p " []); constructor|]. intros printer reader file _ H. destruct (H (mkDM "p " [] MINIMIZE (d_num 0) [])) as [F R]; [reflexivity|].
  unfold read_from_lp. rewrite (lp_file_name _ _ F), R. cbn [bind]. eexists. split; [reflexivity|]. discriminate.
Qed.
(** What holds: names without white space at the ends, if the model comes back from docplex; then all of it comes back, as for C53. *)
Theorem C86_round_trip_partial : forall p printer reader file, prog_wf p -> exprs_small p -> Forall plain (p_vars p) -> ~ In EmptyString (var_names p) ->
  Forall (fun c => le_co (lc_lin c) = [] -> lc_rhs c = 0%Qc) (p_lcs p) ->
  Forall (fun c => qe_co (qc_quad c) = [] -> le_co (qc_lin c) = [] /\ qc_rhs c = 0%Qc) (p_qcs p) -> trimmed (p_name p) ->
  write_to_lp printer p = Ok file -> (forall m, to_docplex p = Ok m -> lp_file m file /\ reads reader file m) ->
  exists p', read_from_lp reader file = Ok p' /\ p_name p' = p_name p /\ p_vars p' = p_vars p /\ o_sense (p_obj p') = o_sense (p_obj p) /\
    (forall x, length x = num_vars p -> obj_at (p_obj p') x = obj_at (p_obj p) x) /\
    Forall2 (same_lc (num_vars p)) (filter (fun c => negb (void_lc c)) (p_lcs p)) (p_lcs p') /\
    Forall2 (same_qc (num_vars p)) (filter (fun c => negb (void_qc c)) (p_qcs p)) (p_qcs p').
Proof.
  intros p printer reader file H1 H2 H3 H4 H5 H6 T _ H. destruct (round_trip p H1 H2 H3 H4 H5 H6) as (m & p' & Em & Ep & R). destruct (H m Em) as [F Rd]. exists p'. split; [|exact R].
  assert (dm_name m = p_name p) as N. { unfold to_docplex in Em. inv_ok. reflexivity. }
  unfold read_from_lp. rewrite (lp_file_name _ _ F), Rd. cbn [bind]. rewrite N. assert (p_name p = strip (p_name p)) as <- by (apply trims_strip; split; [exact T|]; exists "", ""; rewrite string_app_nil_r; auto).
  rewrite <- N. unfold rename. destruct m. exact Ep.
Qed.
Example C86_round_trip_case : let p := run (new_qp "m") [OAddVar 0 1 BINARY (Some "a"); OObjective MAXIMIZE (qz 3) (Some (LDict [(KI 0, qz 2)])) None] in
  let printer m := ["\Problem name: " ++ dm_name m ++ String newline ""; "Maximize"]%string in
  match to_docplex p with Ok m => lp_file m (printer m) /\ match write_to_lp printer p with Ok file => match read_from_lp (fun _ n => Ok (rename n m)) file with Ok p' => p_name p' = "m" /\ var_names p' = ["a"] | _ => False end | _ => False end | _ => False end.
Proof.
  intros p printer. destruct (to_docplex p) as [m|] eqn:E; [|vm_compute in E; discriminate E]. vm_compute in E. injection E as <-. split; [|vm_compute; auto].
  exists [], [], ["Maximize"]. split; [|constructor]. split; [reflexivity|]. split; [constructor; [eexists; reflexivity|constructor]|]. intros (t & H). discriminate H.
Qed.
Print Assumptions C65_graph_partial.
Print Assumptions C86_name.
Print Assumptions C86_none.
Print Assumptions C86_read.
Print Assumptions C86_round_trip_refuted.
Print Assumptions C86_round_trip_partial.
