(** * C07-C10, C12: expressions *)
From Verif Require Import ViewFacts ExprExact.
Local Open Scope string_scope.
Local Open Scope list_scope.
Local Open Scope nat_scope.

(** Data for the examples: three variables. *)
Definition ex_env : venv := mkEnv 3 [("x", 0); ("y", 1); ("z", 2)].
Definition ex_names := ["x"; "y"; "z"].
Lemma ex_exact : index_exact ex_names (ve_idx ex_env).
Proof.
  intros s i. split.
  - simpl. destruct (String.eqb_spec s "x"); [intros [=]; now subst|]. destruct (String.eqb_spec s "y"); [intros [=]; now subst|].
    destruct (String.eqb_spec s "z"); [intros [=]; now subst|discriminate].
  - destruct i as [|[|[|]]]; simpl; intro H; try (injection H as <-; reflexivity). destruct n; discriminate.
Qed.

(** ** C07 *)
Theorem C07_construct : forall names env,
  index_exact names (ve_idx env) -> length names = ve_n env ->
  (forall ints l, exists e, lin_make env (LList ints l) = Ok e /\ lin_sized (length l) e /\ forall i, coef1 e i = nth i l 0%Qc) /\
  (forall d, keys_legal (points_to names (ve_n env)) d ->
     exists e, lin_make env (LDict d) = Ok e /\ lin_sized (ve_n env) e /\
       forall i, i < ve_n env -> last_given (points_to names (ve_n env)) d i (coef1 e i)) /\
  (forall d e, lin_make env (LDict d) = Ok e -> keys_legal (points_to names (ve_n env)) d).
Proof. exact lin_construct. Qed.
Theorem C07_evaluate : forall names env,
  index_exact names (ve_idx env) -> length names = ve_n env ->
  forall e, lin_sized (ve_n env) e ->
  (forall x, length x = ve_n env -> lin_eval env e (XList x) = Ok (lin_at e x)) /\
  (forall x, length x <> ve_n env -> lin_eval env e (XList x) = Err ValueError) /\
  (forall d x, describes names (ve_n env) d x -> lin_eval env e (XDict d) = Ok (lin_at e x)).
Proof. exact lin_evaluate. Qed.
Theorem C07_views : forall names env,
  index_exact names (ve_idx env) -> length names = ve_n env ->
  forall e, lin_sized (ve_n env) e -> NoDup names ->
  (length (lin_to_array e) = ve_n env /\ forall i, i < ve_n env -> nth_error (lin_to_array e) i = Some (coef1 e i)) /\
  (forall i, dgetq Nat.eqb i (lin_to_dict e) = coef1 e i) /\
  (exists d, lin_to_dict_names names e = Ok d /\
     Forall2 (fun kv sv => nth_error names (fst kv) = Some (fst sv) /\ snd sv = snd kv) (lin_to_dict e) d) /\
  (forall k i, points_to names (ve_n env) k i -> lin_get env e k = Ok (coef1 e i)).
Proof. exact lin_views. Qed.
(** 2x + 3y - z given with mixed keys (the second entry for y wins), at a point given with mixed keys. *)
Example C07_case : index_exact ex_names (ve_idx ex_env) /\ length ex_names = ve_n ex_env /\
  match lin_make ex_env (LDict [(KS "x", qz 2); (KI 1, qz 5); (KS "z", (- (1))%Qc); (KI (-2), qz 3)]) with
  | Ok e => res_is (lin_eval ex_env e (XDict [(KI 0, qz 10); (KS "y", qz 100)])) (qz 320) && res_is (lin_get ex_env e (KS "y")) (qz 3)
  | Err _ => false end = true.
Proof. split; [exact ex_exact|]. split; [reflexivity|vm_compute; reflexivity]. Qed.
(** The first key of no variable is reported: KeyError for a name, IndexError for a number. *)
Theorem C07_bad_key : forall names env, index_exact names (ve_idx env) -> length names = ve_n env ->
  forall pre k v post, keys_legal (points_to names (ve_n env)) pre -> (forall i, ~ points_to names (ve_n env) k i) ->
  lin_make env (LDict (pre ++ (k, v) :: post)) = Err (match k with KS _ => KeyError | KI _ => IndexError end).
Proof. intros names env Hx Hl pre k v post L B. exact (lin_dict_bad names env Hx Hl pre k v post L B). Qed.
Example C07_bad_key_case : lin_make ex_env (LDict [(KI 0, 1%Qc); (KI 3, 1%Qc); (KS "no", 1%Qc)]) = Err IndexError /\ lin_make ex_env (LDict [(KI (-3), 1%Qc); (KS "no", 1%Qc); (KI (-4), 1%Qc)]) = Err KeyError.
Proof. vm_compute. auto. Qed.
Print Assumptions C07_construct.
Print Assumptions C07_bad_key.
Print Assumptions C07_evaluate.
Print Assumptions C07_views.

(** ** C08 *)
Theorem C08_matrix : forall env ints rows,
  Forall (fun r => length r = length rows) rows ->
  exists e, quad_make env (QList ints rows) = Ok e /\ quad_sized (length rows) e /\
    Forall (fun kv => snd kv <> 0%Qc) (qe_co e) /\
    forall x, length x = length rows ->
      quad_at e x = form_at (length rows) (fun i j => nth j (nth i rows []) 0%Qc) x.
Proof. exact quad_construct_list. Qed.
Theorem C08_dict : forall names env,
  index_exact names (ve_idx env) -> length names = ve_n env ->
  forall d, keys_legal (points_to2 names (ve_n env)) d ->
  exists e M, quad_make env (QDict d) = Ok e /\ quad_sized (ve_n env) e /\
    Forall (fun kv => snd kv <> 0%Qc) (qe_co e) /\
    (forall i j, i < ve_n env -> j < ve_n env -> last_given (points_to2 names (ve_n env)) d (i, j) (M i j)) /\
    forall x, length x = ve_n env -> quad_at e x = form_at (ve_n env) M x.
Proof. exact quad_construct_dict. Qed.
Theorem C08_sparse : forall env e0, quad_wf e0 ->
  exists e, quad_make env (QSparse e0) = Ok e /\ quad_sized (qe_dim e0) e /\
    Forall (fun kv => snd kv <> 0%Qc) (qe_co e) /\
    forall x, length x = qe_dim e0 -> quad_at e x = quad_at e0 x.
Proof. exact quad_construct_sparse. Qed.
Theorem C08_evaluate : forall names env,
  index_exact names (ve_idx env) -> length names = ve_n env ->
  forall e, quad_shape (ve_n env) e ->
  (forall x, length x = ve_n env -> quad_eval env e (XList x) = Ok (quad_at e x)) /\
  (forall x, length x <> ve_n env -> quad_eval env e (XList x) = Err ValueError) /\
  (forall d x, describes names (ve_n env) d x -> quad_eval env e (XDict d) = Ok (quad_at e x)).
Proof. exact quad_evaluate. Qed.
Theorem C08_symmetric_view : forall env e, quad_sized (ve_n env) e ->
  (forall i j, i < ve_n env -> j < ve_n env ->
     nth j (nth i (quad_to_array true e) []) 0%Qc = nth i (nth j (quad_to_array true e) []) 0%Qc) /\
  (forall x, length x = ve_n env ->
     form_at (ve_n env) (fun i j => nth j (nth i (quad_to_array true e) []) 0%Qc) x = quad_at e x) /\
  (forall x, length x = ve_n env ->
     form_at (ve_n env) (fun i j => nth j (nth i (quad_to_array false e) []) 0%Qc) x = quad_at e x).
Proof. exact quad_symmetric_view. Qed.
Theorem C08_rebuild : forall env e sym ints, quad_sized (ve_n env) e ->
  (exists e', quad_make env (QList ints (quad_to_array sym e)) = Ok e' /\ qe_dim e' = qe_dim e /\
    forall i j, coef2 e' i j = coef2 e i j) /\
  (exists e', quad_make env (QDict (dict_keys (quad_to_dict sym e))) = Ok e' /\ qe_dim e' = qe_dim e /\
    forall i j, coef2 e' i j = coef2 e i j).
Proof. exact quad_rebuild. Qed.
(** to_array and to_dict, by index and by name, plain and symmetric, show the same coefficients. *)
Theorem C08_views : forall names n e sym, length names = n -> NoDup names -> quad_sized n e ->
  (length (quad_to_array sym e) = n /\ forall i, i < n -> length (nth i (quad_to_array sym e) []) = n) /\
  NoDup (map fst (quad_to_dict sym e)) /\
  (forall i j, i < n -> j < n -> nth j (nth i (quad_to_array sym e) []) 0%Qc = mget (quad_to_dict sym e) i j) /\
  (forall i j, i < n -> j < n -> mget (quad_to_dict sym e) i j = if sym then ((coef2 e i j + coef2 e j i) / 2)%Qc else coef2 e i j) /\
  exists d, quad_to_dict_names names sym e = Ok d /\ Forall2 (same_entry names) (quad_to_dict sym e) d.
Proof. exact quad_views. Qed.
Example C08_case :
  match quad_make ex_env (QList true [[1%Qc; qz 2; 0%Qc]; [qz 4; 0%Qc; (- qz 3)%Qc]; [0%Qc; qz 3; qz 7]]) with
  | Ok e => Nat.eqb (length (qe_co e)) 3 && qeqb (coef2 e 0 1) (qz 6) && qeqb (coef2 e 1 0) 0 && qeqb (coef2 e 1 2) 0 &&
            res_is (quad_eval ex_env e (XList [1%Qc; qz 2; qz 3])) (qz (1 + 12 + 63))
  | Err _ => false end = true.
Proof. vm_compute. reflexivity. Qed.
(** In the first pair with a key of no variable an unknown name comes first. *)
Theorem C08_bad_key : forall names env, index_exact names (ve_idx env) -> length names = ve_n env ->
  forall pre ki kj v post, keys_legal (points_to2 names (ve_n env)) pre -> (forall i, ~ points_to names (ve_n env) ki i) \/ (forall j, ~ points_to names (ve_n env) kj j) ->
  (~ known_key names ki \/ ~ known_key names kj -> quad_make env (QDict (pre ++ (ki, kj, v) :: post)) = Err KeyError) /\
  (known_key names ki -> known_key names kj -> quad_make env (QDict (pre ++ (ki, kj, v) :: post)) = Err IndexError).
Proof. intros names env Hx Hl pre ki kj v post L B. exact (quad_dict_bad names env Hx Hl pre ki kj v post L B). Qed.
Example C08_bad_key_case : quad_make ex_env (QDict [((KI 0, KI 2), 1%Qc); ((KI 3, KS "no"), 1%Qc)]) = Err KeyError /\ quad_make ex_env (QDict [((KI 0, KI 2), 1%Qc); ((KS "z", KI 3), 1%Qc); ((KI 3, KS "no"), 1%Qc)]) = Err IndexError.
Proof. vm_compute. auto. Qed.
Print Assumptions C08_matrix.
Print Assumptions C08_bad_key.
Print Assumptions C08_dict.
Print Assumptions C08_sparse.
Print Assumptions C08_evaluate.
Print Assumptions C08_symmetric_view.
Print Assumptions C08_rebuild.
Print Assumptions C08_views.

(** ** C09 *)
(** Refuted for negative indices: (0, -1) and (0, 2) denote the same pair of three variables, but read differently. *)
Theorem C09_negative_index_refuted : exists env e ki kj kj' v,
  quad_sized (ve_n env) e /\
  points_to ex_names (ve_n env) ki 0 /\ points_to ex_names (ve_n env) kj 2 /\ points_to ex_names (ve_n env) kj' 2 /\
  quad_get env e (ki, kj) = Ok v /\ quad_get env e (ki, kj') <> Ok v.
Proof.
  exists ex_env, (mkQuad 3 false [((0, 2), qz 5)]), (KI 0), (KI 2), (KI (-1)), (qz 5).
  split; [split; [split; repeat constructor; simpl; tauto|split; [repeat constructor; simpl; lia|reflexivity]]|].
  repeat split; simpl; try lia.
  assert (res_is (quad_get ex_env (mkQuad 3 false [((0, 2), qz 5)]) (KI 0, KI (-1))) (qz 5) = false) as H by (vm_compute; reflexivity).
  intro E. rewrite E in H. simpl in H. rewrite qeqb_refl in H. discriminate.
Qed.
(** Refuted for expressions given as lists of ints: numpy truncates the assigned value. *)
Theorem C09_integer_dtype_refuted : exists env e k v e',
  lin_make env (LList true [1%Qc; qz 2; qz 3]) = Ok e /\ lin_set env e k v = Ok e' /\ lin_get env e' k <> Ok v.
Proof.
  exists ex_env, (lin_of_list true [1%Qc; qz 2; qz 3]), (KI 0), (1 / qz 2)%Qc.
  eexists. split; [reflexivity|]. split; [reflexivity|].
  match goal with |- ?r <> Ok ?v => assert (res_is r v = false) as H by (vm_compute; reflexivity); destruct r as [a|]; [|discriminate] end.
  simpl in H. intros [=]. subst. rewrite qeqb_refl in H. discriminate.
Qed.
(** What holds as stated.  Not among it: integer-typed coefficient arrays, and negative indices of quadratic expressions. *)
Theorem C09_linear_partial : forall names env,
  index_exact names (ve_idx env) -> length names = ve_n env ->
  forall e k i v, lin_sized (ve_n env) e -> le_int e = false -> points_to names (ve_n env) k i ->
  exists e', lin_set env e k v = Ok e' /\ lin_sized (ve_n env) e' /\ le_int e' = false /\
    lin_get env e' k = Ok v /\
    (forall k', points_to names (ve_n env) k' i -> lin_get env e' k' = Ok v) /\
    forall k' j, points_to names (ve_n env) k' j -> j <> i -> lin_get env e' k' = lin_get env e k'.
Proof. exact lin_assign. Qed.
Theorem C09_quadratic_partial : forall names env,
  index_exact names (ve_idx env) -> length names = ve_n env ->
  forall e ki kj i j v,
  quad_sized (ve_n env) e -> qe_int e = false -> nonneg_key ki -> nonneg_key kj ->
  points_to names (ve_n env) ki i -> points_to names (ve_n env) kj j ->
  exists e', quad_set env e (ki, kj) v = Ok e' /\ quad_sized (ve_n env) e' /\ qe_int e' = false /\
    quad_get env e' (ki, kj) = Ok v /\ quad_get env e' (kj, ki) = Ok v /\
    forall ka kb a b, nonneg_key ka -> nonneg_key kb ->
      points_to names (ve_n env) ka a -> points_to names (ve_n env) kb b ->
      (a, b) <> (i, j) -> (a, b) <> (j, i) -> quad_get env e' (ka, kb) = quad_get env e (ka, kb).
Proof. exact quad_assign. Qed.
(** For every key, every value and expressions of every size and type: an assignment keeps the value, or the part of it before the point
    if the matrix has integers; all keys of that variable read it, the others read what they did; and a key of no variable is KeyError
    if it is an unknown name, else IndexError. *)
Theorem C09_linear_exact : forall names env, index_exact names (ve_idx env) -> length names = ve_n env ->
  forall e k v, lin_wf e -> le_dim e <= ve_n env ->
  (forall i, points_to names (le_dim e) k i ->
     exists e' w, kept_as (le_int e) v w /\ lin_set env e k v = Ok e' /\ lin_wf e' /\ le_dim e' = le_dim e /\ le_int e' = le_int e /\
       forall k' j, points_to names (le_dim e) k' j -> (j = i -> lin_get env e' k' = Ok w) /\ (j <> i -> lin_get env e' k' = lin_get env e k')) /\
  ((forall i, ~ points_to names (le_dim e) k i) ->
     (~ known_key names k -> lin_set env e k v = Err KeyError /\ lin_get env e k = Err KeyError) /\
     (known_key names k -> lin_set env e k v = Err IndexError /\ lin_get env e k = Err IndexError)).
Proof.
  intros names env Hx Hl e k v W N. split; [intros i P; exact (lin_any names env Hx Hl e k i v W N P)|]. intro P. pose proof (lin_bad names env Hx Hl e k v N P) as B. cbv zeta in B.
  destruct k as [z|s]; cbn [known_key]; [split; [intro K; now destruct K|auto]|]. destruct (in_dec string_dec s names); split; intro; try contradiction; exact B.
Qed.
(** The same for pairs.  All spellings with the same place agree; a pair with one index from the end has its own place, which lies below the
    diagonal if that index is the larger one and reads 0 as long as nothing is written with such a pair. *)
Theorem C09_quadratic_exact : forall names env, index_exact names (ve_idx env) -> length names = ve_n env ->
  forall e ki kj v, quad_wf e -> qe_dim e <= ve_n env ->
  (forall i j, points_to names (qe_dim e) ki i -> points_to names (qe_dim e) kj j ->
     exists e' w, kept_as (qe_int e) v w /\ quad_set env e (ki, kj) v = Ok e' /\ quad_wf e' /\ qe_dim e' = qe_dim e /\ qe_int e' = qe_int e /\
       forall ka kb a b, points_to names (qe_dim e) ka a -> points_to names (qe_dim e) kb b ->
         (pair_place ka kb a b = pair_place ki kj i j -> quad_get env e' (ka, kb) = Ok w) /\ (pair_place ka kb a b <> pair_place ki kj i j -> quad_get env e' (ka, kb) = quad_get env e (ka, kb))) /\
  ((forall i, ~ points_to names (qe_dim e) ki i) \/ (forall j, ~ points_to names (qe_dim e) kj j) ->
     (~ known_key names ki \/ ~ known_key names kj -> quad_set env e (ki, kj) v = Err KeyError /\ quad_get env e (ki, kj) = Err KeyError) /\
     (known_key names ki -> known_key names kj -> quad_set env e (ki, kj) v = Err IndexError /\ quad_get env e (ki, kj) = Err IndexError)) /\
  (forall i j, quad_upper e -> points_to names (qe_dim e) ki i -> points_to names (qe_dim e) kj j -> from_end ki = true -> from_end kj = false -> j < i ->
     quad_get env e (ki, kj) = Ok 0%Qc /\ quad_get env e (kj, ki) = Ok 0%Qc).
Proof.
  intros names env Hx Hl e ki kj v W N. split; [|split].
  - intros i j P Q. eapply (quad_any names env); eassumption.
  - exact (quad_bad names env Hx Hl e ki kj v N).
  - intros i j U P Q Fi Fj L. eapply (quad_mixed names env); eassumption.
Qed.
Example C09_exact_case : let e := mkQuad 3 true [((0, 2), qz 5)] in
  match quad_set ex_env e (KI (-1), KI 0) (- (qz 7 / qz 2))%Qc with
  | Ok e' => res_is (quad_get ex_env e' (KI 0, KI (-1))) (qz (-3)) && res_is (quad_get ex_env e' (KI 0, KS "z")) (qz 5) && res_is (quad_get ex_env e' (KI (-3), KI (-1))) (qz 5)
  | Err _ => false end = true /\
  quad_get ex_env e (KI 7, KS "no") = Err KeyError /\ quad_get ex_env e (KI 7, KS "z") = Err IndexError /\ lin_set ex_env (mkLin 1 false []) (KS "z") 1 = Err IndexError.
Proof. vm_compute. auto. Qed.
Example C09_case :
  match quad_set ex_env (mkQuad 3 false [((0, 2), qz 5)]) (KS "z", KI 1) (qz 4) with
  | Ok e => res_is (quad_get ex_env e (KI 1, KS "z")) (qz 4) && res_is (quad_get ex_env e (KI 2, KI 0)) (qz 5)
  | Err _ => false end = true.
Proof. vm_compute. reflexivity. Qed.
Print Assumptions C09_negative_index_refuted.
Print Assumptions C09_integer_dtype_refuted.
Print Assumptions C09_linear_exact.
Print Assumptions C09_quadratic_exact.
Print Assumptions C09_linear_partial.
Print Assumptions C09_quadratic_partial.

(** ** C10 *)
Theorem C10_linear : forall env e x h n, lin_shape n e -> length x = n -> length h = n ->
  length (lin_grad e) = n /\ exists a b, lin_eval env e (XList x) = Ok a /\ lin_eval env e (XList (vadd x h)) = Ok b /\
  b = (a + dot (lin_grad e) h)%Qc.
Proof. exact lin_gradient. Qed.
Theorem C10_quadratic : forall env e x h n, quad_shape n e -> length x = n -> length h = n ->
  exists g a b c, quad_grad env e (XList x) = Ok g /\ length g = n /\
    quad_eval env e (XList x) = Ok a /\ quad_eval env e (XList (vadd x h)) = Ok b /\ quad_eval env e (XList h) = Ok c /\
    b = (a + dot g h + c)%Qc.
Proof. exact quad_gradient. Qed.
Theorem C10_objective : forall env o x h n, obj_sized n o -> length x = n -> length h = n ->
  exists g a b c, obj_grad env o (XList x) = Ok g /\ length g = n /\
    obj_eval env o (XList x) = Ok a /\ obj_eval env o (XList (vadd x h)) = Ok b /\
    quad_eval env (o_quad o) (XList h) = Ok c /\ b = (a + dot g h + c)%Qc.
Proof. exact obj_gradient. Qed.
Definition ex_obj : objective :=
  mkObj 1 (mkLin 3 false [(0, qz 2); (2, qz 3)]) (mkQuad 3 false [((0, 1), qz 4); ((2, 2), qz 5)]) MINIMIZE.
Example C10_case : obj_sized 3 ex_obj /\
  match obj_grad ex_env ex_obj (XList [1%Qc; qz 2; qz 3]) with
  | Ok [a; b; c] => qeqb a (qz 10) && qeqb b (qz 4) && qeqb c (qz 33) | _ => false end = true.
Proof.
  split; [|vm_compute; reflexivity]. split; [split; [split; repeat constructor; simpl; (lia || intuition lia)|reflexivity]|].
  split; [split; repeat constructor; simpl; (lia || intuition congruence)|]. split; [repeat constructor; simpl; lia|reflexivity].
Qed.
Print Assumptions C10_linear.
Print Assumptions C10_quadratic.
Print Assumptions C10_objective.

(** ** C12 *)
Theorem C12_senses :
  (forall s c, sense_convert (SStr s) = Ok c <-> exists t, In t (spellings c) /\ same_word s t) /\
  (forall s, (forall c t, In t (spellings c) -> ~ same_word s t) -> sense_convert (SStr s) = Err QiskitOptimizationError) /\
  (forall a c, sense_convert a = Ok c -> sense_convert (SVal c) = Ok c).
Proof. exact sense_spellings. Qed.
Example C12_case : sense_convert (SStr "gE") = Ok GE /\ sense_convert (SStr "=<") = Err QiskitOptimizationError /\
  sense_convert (SStr "==") = Ok EQ.
Proof. vm_compute. auto. Qed.
Print Assumptions C12_senses.
