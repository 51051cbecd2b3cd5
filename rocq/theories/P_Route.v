(** * C63, C64 continued: graphs that are not complete, points that are not feasible *)
From Verif Require Import RouteFacts.
Local Open Scope list_scope.
Local Open Scope nat_scope.

(** Two nodes that are not joined make the program fail with KeyError, not with a program in which the way between them is free. *)
Theorem C63_missing : forall g i j, i < g_n g -> j < g_n g -> i <> j -> ~ joined g i j -> tsp_program g = Err KeyError.
Proof. exact tsp_missing. Qed.
Theorem C64_missing : forall g vehicles depot i j, i < g_n g -> j < g_n g -> i <> j -> ~ joined g i j -> vrp_program g vehicles depot = Err KeyError.
Proof. exact vrp_missing. Qed.
Definition path3 : graph := mkGraph 3 [((0, 1), Some (qz 2)); ((1, 2), Some (qz 3))].
Example C63_missing_case : ~ joined path3 2 0 /\ tsp_program path3 = Err KeyError /\ vrp_program path3 1 0 = Err KeyError.
Proof. split; [|split; vm_compute; reflexivity]. intros (e & [<-|[<-|[]]] & [H|H]); discriminate H. Qed.

(** Any point with a value per edge becomes one route per vehicle and, if edges are left, one list of them.  Each edge of value not 0 occurs once and no other does; the routes start at
    the depot, go on where they are and end when they are back; a route that is not back goes as far as it can. *)
Theorem C64_any : forall g vehicles depot x, g_n g * (g_n g - 1) <= length x -> exists own left, vrp_interpret g vehicles depot x = Ok (own ++ left) /\
  length own = Z.to_nat vehicles /\ Forall (trail depot depot) own /\ (left = [] \/ exists l, l <> [] /\ left = [l]) /\ NoDup (concat (own ++ left)) /\
  (forall i j, In (i, j) (concat (own ++ left)) <-> i < g_n g /\ j < g_n g /\ i <> j /\ at_ x (edge_number (g_n g) i j) <> 0%Qc) /\
  forall m r, nth_error own m = Some r -> ends_at depot r = depot /\ r <> [] \/ forall e, In e (concat (skipn (S m) (own ++ left))) -> fst e <> ends_at depot r.
Proof. exact interpret_any. Qed.
(** A point with fewer values raises IndexError. *)
Theorem C64_short : forall g vehicles depot x, length x < g_n g * (g_n g - 1) -> vrp_interpret g vehicles depot x = Err IndexError.
Proof. exact interpret_short. Qed.
(** One vehicle of depot 0 stops at 1; the edge from 2 to 0 is left.  A second one has an empty route. *)
Example C64_any_case : vrp_interpret path3 1 0 [1; 0; 0; 0; 1; 0]%Qc = Ok [[(0, 1)]; [(2, 0)]] /\ vrp_interpret path3 2 0 [1; 0; 1; 0; 1; 0]%Qc = Ok [[(0, 1); (1, 0)]; []; [(2, 0)]] /\
  vrp_interpret path3 1 0 [1; 0; 0; 0; 1]%Qc = Err IndexError.
Proof. vm_compute. auto. Qed.

Print Assumptions C63_missing.
Print Assumptions C64_missing.
Print Assumptions C64_any.
Print Assumptions C64_short.
