(** * What the name of a problem in an LP file is *)
From Verif Require Export Read SpecFiles.
Local Open Scope string_scope.
Local Open Scope list_scope.

(** Comments begin with a backslash; the comment with the name begins with a fixed text. *)
Definition comment (l : string) : Prop := exists t, l = ("\" ++ t)%string.
Definition names_problem (l t : string) : Prop := l = ("\Problem name:" ++ t)%string.
(** The comments at the top of a file *)
Definition top (file b rest : list string) : Prop := file = b ++ rest /\ Forall comment b /\ match rest with [] => True | l :: _ => ~ comment l end.
(** White space: tab, line feed, vertical tab, form feed, carriage return, the four separators and the blank *)
Definition white (c : ascii) : bool := existsb (Nat.eqb (nat_of_ascii c)) [9; 10; 11; 12; 13; 28; 29; 30; 31; 32].
(** [n] is [s] without the white space around it. *)
Definition trimmed (n : string) : Prop := (forall c t, n = String c t -> white c = false) /\ (forall c t, n = (t ++ String c "")%string -> white c = false).
Definition trims (s n : string) : Prop := trimmed n /\ exists a b, s = (a ++ n ++ b)%string /\ all_chars white a = true /\ all_chars white b = true.
Definition rename (n : string) (m : dmodel) : dmodel := mkDM n (dm_vars m) (dm_sense m) (dm_obj m) (dm_cons m).
(** The file that docplex prints: comments with the name among them, then the model *)
Definition lp_file (m : dmodel) (file : list string) : Prop :=
  exists b1 b2 rest, top file (b1 ++ ("\Problem name: " ++ dm_name m ++ String newline "")%string :: b2) rest /\ Forall (fun l => forall t, ~ names_problem l t) b2.
(** The docplex reader gives back the model printed, under the name handed over. *)
Definition reads (reader : list string -> string -> result dmodel) (file : list string) (m : dmodel) : Prop := forall n, reader file n = Ok (rename n m).
