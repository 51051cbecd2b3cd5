(** * Instance files
    applications/max_cut.py:97-126, applications/tsp.py:144-201 *)
From Verif Require Export App.
Local Open Scope string_scope.
Local Open Scope list_scope.
Local Open Scope nat_scope.

(** ** Maxcut.parse_gset_format, max_cut.py:97-126
    A line is given by its integers, as [map(int, line.split())] gives them; lines with other words are not modelled. *)
(** [w[s, t] = v] for the array of shape (n, n), as a dictionary of the entries set; max_cut.py:116, 122 *)
Definition put_entry (n : nat) (s t v : Z) (w : list ((nat * nat) * Z)) : result (list ((nat * nat) * Z)) :=
  match py_index n s, py_index n t with
  | Some i, Some j => Ok (dset nat2_eqb (i, j) v w)
  | _, _ => Err IndexError
  end.
(** One line after the header, max_cut.py:119-123 *)
Definition gset_edge (n : nat) (w : list ((nat * nat) * Z)) (line : list Z) : result (list ((nat * nat) * Z)) :=
  match line with
  | [s; t; _] => put_entry n (s - 1) (t - 1) (t - 1) w
  | _ => Err ValueError
  end.
(** [w[i, j]]; max_cut.py:125 *)
Definition entry (w : list ((nat * nat) * Z)) (i j : nat) : Z := match dget nat2_eqb (i, j) w with Some v => v | None => 0%Z end.
(** parse_gset_format, max_cut.py:97-126 *)
Definition parse_gset (file : list (list Z)) : result (list (list Z)) :=
  match file with
  | [] => Err AssertionError
  | [n; m] :: edges =>
      if (n <? 0)%Z then Err ValueError
      else
        let k := Z.to_nat n in
        do w <- foldM (gset_edge k) edges [];
        if negb (m =? Z.of_nat (length edges))%Z then Err AssertionError
        else Ok (map (fun i => map (fun j => (entry w i j + entry w j i)%Z) (seq 0 k)) (seq 0 k))
  | _ :: _ => Err ValueError
  end.

(** ** Tsp.parse_tsplib_format, tsp.py:144-201: reading the coordinates
    A line is a string, with its newline.  [int] and [float] of strings are given.  The graph that is made of the
    coordinates (tsp.py:190-201, by networkx) is not modelled. *)
Definition newline : ascii := "010"%char.
(** [line.split(":")]; tsp.py:163, 166, 173, 176 *)
Fixpoint split_colon (s : string) : list string :=
  match s with
  | EmptyString => [""]
  | String c r =>
      if Ascii.eqb c ":" then "" :: split_colon r
      else match split_colon r with a :: l => String c a :: l | [] => [String c ""] end
  end.
(** [line.split(":")[1]] *)
Definition after_colon (s : string) : result string := match split_colon s with _ :: a :: _ => Ok a | _ => Err IndexError end.
(** White space of [line.split()], tsp.py:185; ASCII *)
Definition is_space (c : ascii) : bool := let n := nat_of_ascii c in ((9 <=? n) && (n <=? 13)) || ((28 <=? n) && (n <=? 32)).
(** [line.split()]; tsp.py:185 *)
Fixpoint words_from (cur : string) (s : string) : list string :=
  match s with
  | EmptyString => if String.eqb cur "" then [] else [cur]
  | String c r =>
      if is_space c then if String.eqb cur "" then words_from "" r else cur :: words_from "" r
      else words_from (cur ++ String c "") r
  end.
(** [line.split()], tsp.py:185 *)
Definition words (s : string) : list string := words_from "" s.
Section Tsplib.
Variable int_of : string -> result Z.
Variable float_of : string -> result Qc.
(** Whether the section has begun, and the coordinates; tsp.py:158-160 *)
Definition tsplib_state : Type := bool * list (Qc * Qc).
(** One line, tsp.py:162-188.  [coord = []] before the dimension is known, so that every index is out of range. *)
Definition tsplib_line (st : tsplib_state) (line : string) : result tsplib_state :=
  if prefix "NAME" line then do _ <- after_colon line; Ok st
  else if prefix "TYPE" line then do t <- after_colon line; if String.eqb t "TSP" then Ok st else Err QiskitOptimizationError
  else if prefix "DIMENSION" line then
    do t <- after_colon line; do d <- int_of t;
    if (d <? 0)%Z then Err ValueError else Ok (fst st, repeat (0, 0)%Qc (Z.to_nat d))
  else if prefix "EDGE_WEIGHT_TYPE" line then do t <- after_colon line; if String.eqb t "EUC_2D" then Ok st else Err QiskitOptimizationError
  else if prefix "NODE_COORD_SECTION" line then Ok (true, snd st)
  else if fst st then
    match words line with
    | [] => Err IndexError
    | [a] => do _ <- int_of a; Err IndexError
    | [a; b] => do i <- int_of a; do _ <- float_of b; Err IndexError
    | a :: b :: c :: _ =>
        do i <- int_of a; do x <- float_of b;
        match py_index (length (snd st)) (i - 1) with
        | None => Err IndexError
        | Some k => do y <- float_of c; Ok (true, update k (x, y) (snd st))
        end
    end
  else Ok st.
(** The loop over the lines, tsp.py:159-188 *)
Definition tsplib_coords (file : list string) : result (list (Qc * Qc)) :=
  do st <- foldM tsplib_line file (false, []);
  match snd st with [] => Err ValueError | c => Ok c end.
End Tsplib.
