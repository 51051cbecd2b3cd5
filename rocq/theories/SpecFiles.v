(** * What the files mean *)
From Verif Require Export Files Spec.
Local Open Scope nat_scope.

(** The lines of the edges: one-based, between different nodes, every pair once. *)
Definition gset_lines (n : nat) (edges : list (nat * nat * Z)) : list (list Z) :=
  map (fun e => [Z.of_nat (fst (fst e)); Z.of_nat (snd (fst e)); snd e]) edges.
Definition gset_file (n : nat) (edges : list (nat * nat * Z)) : list (list Z) :=
  [Z.of_nat n; Z.of_nat (length edges)] :: gset_lines n edges.
Definition gset_wf (n : nat) (edges : list (nat * nat * Z)) : Prop :=
  Forall (fun e => 1 <= fst (fst e) <= n /\ 1 <= snd (fst e) <= n /\ fst (fst e) <> snd (fst e)) edges /\
  NoDup (map fst edges) /\ forall s t, In (s, t) (map fst edges) -> ~ In (t, s) (map fst edges).
Definition mat_at (m : list (list Z)) (i j : nat) : Z := nth j (nth i m []) 0%Z.
(** The adjacency matrix with the weights of the file. *)
Definition gset_faithful (n : nat) (edges : list (nat * nat * Z)) (m : list (list Z)) : Prop :=
  length m = n /\ Forall (fun r => length r = n) m /\
  (forall s t w, In (s, t, w) edges -> mat_at m (s - 1) (t - 1) = w /\ mat_at m (t - 1) (s - 1) = w) /\
  forall i j, i < n -> j < n -> ~ In (S i, S j) (map fst edges) -> ~ In (S j, S i) (map fst edges) -> mat_at m i j = 0%Z.

(** A line that can be read: three numbers, the first two of which address nodes, from the end if not positive. *)
Definition gset_line_ok (n : Z) (line : list Z) : Prop := exists s t w, line = [s; t; w] /\ (1 - n <= s <= n)%Z /\ (1 - n <= t <= n)%Z.
Definition no_colon (s : string) : bool := all_chars (fun c => negb (Ascii.eqb c ":")) s.
(** A line of the coordinate section, and a file with no lines but these and the two that are needed. *)
Definition plain_word (s : string) : bool := negb (String.eqb s "") && all_chars (fun c => negb (is_space c)) s.
Definition numeral (s : string) : bool := negb (String.eqb s "") && all_chars is_digit s.
Definition endl : string := String newline "".
(** Lines of the coordinate section with fewer than three words *)
Definition short_line (words : list string) : string := match words with [] => endl | [a] => (a ++ endl)%string | a :: b :: _ => (a ++ " " ++ b ++ endl)%string end.
Definition coord_line (r : string * string * string) : string :=
  (fst (fst r) ++ " " ++ snd (fst r) ++ " " ++ snd r ++ endl)%string.
Definition plain_file (dim : string) (rows : list (string * string * string)) : list string :=
  ("DIMENSION:" ++ dim)%string :: ("NODE_COORD_SECTION" ++ endl)%string :: map coord_line rows.
(** A file as the format has it. *)
Definition tsplib_file (name dim : string) (rows : list (string * string * string)) : list string :=
  app [("NAME : " ++ name ++ endl)%string; ("TYPE : TSP" ++ endl)%string; ("DIMENSION : " ++ dim ++ endl)%string;
       ("EDGE_WEIGHT_TYPE : EUC_2D" ++ endl)%string; ("NODE_COORD_SECTION" ++ endl)%string]
    (app (map coord_line rows) [("EOF" ++ endl)%string]).
