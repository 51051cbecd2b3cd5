(** * C85: variables in bulk *)
From Verif Require Import BulkFacts ProgramFacts ProgramProps.
Local Open Scope string_scope.
Local Open Scope list_scope.
Local Open Scope nat_scope.

(** What _var_dict returns: the new variables under their names, which are different from one another and from all names before; they come after the old variables, with the bounds and
    the type given, and are found by their names.  Nothing else is changed.  _var_list returns the same variables without the names. *)
Theorem C85_dict : forall name0 ops keys lb ub ty name fmt q d, let p := run (new_qp name0) ops in
  var_dict p keys lb ub ty name fmt = (q, Ok d) ->
  NoDup (map fst d) /\ p_vars q = p_vars p ++ map snd d /\ p_lcs q = p_lcs p /\ p_qcs q = p_qcs p /\ p_obj q = p_obj p /\
  (forall nm v, In (nm, v) d -> v = mkVar nm lb ub ty /\ get_variable q (KS nm) = Ok v /\ ~ In nm (map v_name (p_vars p))) /\
  var_list p keys lb ub ty name fmt = (q, Ok (map snd d)).
Proof.
  intros name0 ops keys lb ub ty name fmt q d p H. unfold var_dict, var_list, add_variables2 in *. destruct (add_variables p keys lb ub ty name fmt) as [q0 [names|e]] eqn:E; [|discriminate H].
  cbn [bind fst snd] in *. injection H as <- <-. pose proof (add_grown _ _ _ _ _ _ _ _ _ E) as [V (A & B & C & _) [N1 N2] K _]. unfold num_vars.
  assert (skipn (length (p_vars p)) (p_vars q0) = map (fun nm => mkVar nm lb ub ty) names) as S. { rewrite V, skipn_app, skipn_all, Nat.sub_diag. reflexivity. } rewrite S.
  rewrite dict_zip_combine; [|now rewrite ?map_length|exact N1].
  assert (forall (f : string -> variable) l, map fst (combine l (map f l)) = l /\ map snd (combine l (map f l)) = map f l) as G. { intros f l. induction l as [|s l [IH1 IH2]]; cbn; [auto|]. now rewrite IH1, IH2. }
  destruct (G (fun nm => mkVar nm lb ub ty) names) as [G1 G2]. rewrite G1, G2. split; [exact N1|]. split; [exact V|]. split; [exact A|]. split; [exact B|]. split; [exact C|]. split; [|reflexivity].
  intros nm v Hv. assert (In nm names) as Hn by (rewrite <- G1; now apply (in_map fst) in Hv). assert (v = mkVar nm lb ub ty) as -> by (clear -Hv; induction names as [|s l IH]; [destruct Hv|]; destruct Hv as [Hv|Hv]; [congruence|auto]).
  split; [reflexivity|]. assert (run (new_qp name0) (ops ++ [OAddVars keys lb ub ty name fmt]) = q0) as R. { unfold run. rewrite fold_left_app. cbn [fold_left]. fold (run (new_qp name0) ops). fold p. cbn [step]. rewrite E. reflexivity. }
  split.
  - destruct (all_lookups name0 (ops ++ [OAddVars keys lb ub ty name fmt])) as (_ & L & _). rewrite R in L. assert (In (mkVar nm lb ub ty) (p_vars q0)) as I by (rewrite V; apply in_or_app; right; now apply (in_map (fun nm => mkVar nm lb ub ty))).
    apply In_nth_error in I. destruct I as (i & I). apply (proj1 (L i _ I)).
  - intro C2. apply (N2 nm Hn). apply in_map_iff in C2. destruct C2 as (v & <- & Iv). apply In_nth_error in Iv. destruct Iv as (i & Iv). destruct (all_lookups name0 ops) as (_ & L & _). destruct (L i v Iv) as (_ & _ & D). apply (dget_in _ str_eqb_sp) in D. now apply (in_map fst) in D.
Qed.
Example C85_dict_case : let p := run (new_qp "") [OAddVar 0 1 BINARY (Some "x1")] in
  match integer_var_dict p (KCount 2) (Some (qz 2)) (Some (qz 5)) None (Some "_{}") with (q, Ok d) => map fst d = ["x_1"; "x_2"] /\ map v_name (p_vars q) = ["x1"; "x_1"; "x_2"] /\ map v_type (map snd d) = [INTEGER; INTEGER] | _ => False end /\
  match binary_var_list p (KSeq ["a"; "b"]) (Some "y") None with (q, Ok l) => map v_name l = ["ya"; "yb"] | _ => False end.
Proof. vm_compute. auto. Qed.

(** Keys given one by one: each is put into the format, in order, if the names are new and different ... *)
Theorem C85_keys : forall p keys lb ub ty name pre post, no_brace pre = true -> no_brace post = true -> (lb <= ub)%Qc ->
  NoDup (map (fun k => name ++ pre ++ k ++ post)%string keys) -> (forall k, In k keys -> ~ In (name ++ pre ++ k ++ post)%string (map fst (p_vidx p))) ->
  exists q d, var_dict p (KSeq keys) lb ub ty (Some name) (pre ++ "{}" ++ post)%string = (q, Ok d) /\ map fst d = map (fun k => name ++ pre ++ k ++ post)%string keys.
Proof.
  intros p keys lb ub ty name pre post H1 H2 Hb N F. destruct (seq_ok lb ub ty name pre post H1 H2 Hb keys p N F) as (q & E). assert (add_variables p (KSeq keys) lb ub ty (Some name) (pre ++ "{}" ++ post)%string = (q, Ok (map (key_name name pre post) keys))) as E2.
  { unfold add_variables. rewrite contains_none_slot by assumption. rewrite count_one by assumption. exact E. }
  exists q. unfold var_dict, add_variables2. rewrite E2. cbn [bind fst snd]. eexists. split; [reflexivity|]. pose proof (add_grown _ _ _ _ _ _ _ _ _ E2) as [V _ _ _ _]. unfold num_vars. rewrite V, skipn_app, skipn_all, Nat.sub_diag. cbn [app skipn].
  rewrite dict_zip_combine; [|now rewrite ?map_length|exact N]. set (l := map (key_name name pre post) keys). change (map (fun k => (name ++ pre ++ k ++ post)%string) keys) with l. clear. induction l as [|s l IH]; cbn; [reflexivity|]. now rewrite IH.
Qed.
(** ... and otherwise QiskitOptimizationError is raised, as it is for a number below 1. *)
Theorem C85_clash : forall p keys lb ub ty name pre post, no_brace pre = true -> no_brace post = true -> (lb <= ub)%Qc ->
  ~ NoDup (map (fun k => name ++ pre ++ k ++ post)%string keys) \/ (exists k, In k keys /\ In (name ++ pre ++ k ++ post)%string (map fst (p_vidx p))) ->
  exists q, var_dict p (KSeq keys) lb ub ty (Some name) (pre ++ "{}" ++ post)%string = (q, Err QiskitOptimizationError).
Proof.
  intros p keys lb ub ty name pre post H1 H2 Hb F. destruct (seq_clash lb ub ty name pre post H1 H2 Hb keys p F) as (q & E). exists q. unfold var_dict, add_variables2, add_variables. rewrite contains_none_slot by assumption. rewrite count_one by assumption. cbv iota. rewrite E. reflexivity.
Qed.
Theorem C85_few : forall p n lb ub ty name fmt, (n < 1)%Z -> var_dict p (KCount n) lb ub ty name fmt = (p, Err QiskitOptimizationError).
Proof. intros p n lb ub ty name fmt H. unfold var_dict, add_variables2, add_variables. apply Z.ltb_lt in H. now rewrite H. Qed.
(** So it is for a format with two places for the key or with doubled braces around one, and nothing is changed. *)
Theorem C85_format : forall p keys lb ub ty name fmt, (exists a b, fmt = (a ++ "{{}}" ++ b)%string) \/ (exists a b c, fmt = (a ++ "{}" ++ b ++ "{}" ++ c)%string) ->
  var_dict p keys lb ub ty name fmt = (p, Err QiskitOptimizationError) /\ var_list p keys lb ub ty name fmt = (p, Err QiskitOptimizationError).
Proof. intros p keys lb ub ty name fmt H. unfold var_dict, var_list, add_variables2. rewrite (format_refused p keys lb ub ty name fmt H). split; reflexivity. Qed.
Example C85_format_case : let p := run (new_qp "") [OAddVar 0 1 BINARY (Some "ya")] in
  map (fun f => match snd (binary_var_dict p (KSeq ["b"]) (Some "y") (Some f)) with Ok d => Ok (map fst d) | Err e => Err e end) ["_{{}}"; "{}{}"; "a{}b{}c"; "_{}"] =
  [Err QiskitOptimizationError; Err QiskitOptimizationError; Err QiskitOptimizationError; Ok ["y_b"]].
Proof. vm_compute. reflexivity. Qed.
(** Less than one variable raises: refuted for an empty sequence. *)
Theorem C85_empty_refuted : exists keys p, keys = KSeq [] /\ binary_var_dict p keys None None = (p, Ok []).
Proof. exists (KSeq []), (new_qp "p"). split; reflexivity. Qed.
Example C85_clash_case : let p := run (new_qp "") [OAddVar 0 1 BINARY (Some "ya")] in
  snd (binary_var_dict p (KSeq ["b"; "a"]) (Some "y") None) = Err QiskitOptimizationError /\ snd (binary_var_dict p (KSeq ["b"; "b"]) (Some "y") None) = Err QiskitOptimizationError /\ snd (binary_var_dict p (KCount 0) (Some "y") None) = Err QiskitOptimizationError.
Proof. vm_compute. auto. Qed.
(** The number of variables of a type grows by the number of new ones of this type; the three counts sum up to the number of variables. *)
Theorem C85_counts : forall p keys lb ub ty name fmt q d, var_dict p keys lb ub ty name fmt = (q, Ok d) ->
  (forall t, get_num_vars q (Some t) = get_num_vars p (Some t) + if vartype_eqb ty t then length d else 0) /\ get_num_vars q None = get_num_vars p None + length d /\
  get_num_vars q None = get_num_binary_vars q + get_num_integer_vars q + get_num_continuous_vars q.
Proof.
  intros p keys lb ub ty name fmt q d H. unfold var_dict, add_variables2 in H. destruct (add_variables p keys lb ub ty name fmt) as [q0 [names|e]] eqn:E; [|discriminate H].
  cbn [bind fst snd] in *. injection H as <- <-. pose proof (add_grown _ _ _ _ _ _ _ _ _ E) as [V _ [N1 _] _ _]. unfold num_vars. rewrite V, skipn_app, skipn_all, Nat.sub_diag. cbn [app skipn]. rewrite dict_zip_combine; [|now rewrite ?map_length|exact N1].
  rewrite combine_length, map_length, Nat.min_id. split; [|split].
  - intro t. unfold get_num_vars, count_type. rewrite V, filter_app, app_length. f_equal. clear. induction names as [|s l IH]; cbn [map filter v_type length]; [destruct (vartype_eqb ty t); reflexivity|]. destruct (vartype_eqb ty t); cbn [length]; now rewrite IH.
  - unfold get_num_vars, num_vars. now rewrite V, app_length, map_length.
  - unfold get_num_binary_vars, get_num_integer_vars, get_num_continuous_vars, get_num_vars, count_type, num_vars. clear. induction (p_vars q0) as [|v l IH]; [reflexivity|]. cbn [filter length]. destruct (v_type v); cbn [vartype_eqb length]; lia.
Qed.
Example C85_counts_case : let q := fst (integer_var_dict (fst (binary_var_list (new_qp "") (KCount 3) None None)) (KCount 2) None None None None) in
  (get_num_vars q None, get_num_binary_vars q, get_num_integer_vars q, get_num_continuous_vars q) = (5, 3, 2, 0).
Proof. vm_compute. reflexivity. Qed.

(** The public methods: binary variables are between 0 and 1, the others between the bounds given or 0 and INFINITY; the list holds the variables of the dictionary, and both calls fail alike. *)
Theorem C85_public : forall name0 ops keys lb ub name fmt, let p := run (new_qp name0) ops in
  let pairs := [(binary_var_dict p keys name fmt, binary_var_list p keys name fmt, (0%Qc, 1%Qc, BINARY));
    (integer_var_dict p keys lb ub name fmt, integer_var_list p keys lb ub name fmt, (match lb with Some b => b | None => 0%Qc end, match ub with Some b => b | None => INFINITY end, INTEGER));
    (continuous_var_dict p keys lb ub name fmt, continuous_var_list p keys lb ub name fmt, (match lb with Some b => b | None => 0%Qc end, match ub with Some b => b | None => INFINITY end, CONTINUOUS))] in
  forall rd rl l u t, In (rd, rl, (l, u, t)) pairs ->
  fst rl = fst rd /\
  match snd rd with
  | Ok d => snd rl = Ok (map snd d) /\ p_vars (fst rd) = p_vars p ++ map snd d /\
            Forall (fun e => v_name (snd e) = fst e /\ v_lb (snd e) = l /\ v_ub (snd e) = u /\ v_type (snd e) = t) d
  | Err e => snd rl = Err e
  end.
Proof.
  intros name0 ops keys lb ub name fmt p pairs rd rl l u t H.
  assert (exists f, rd = var_dict p keys l u t name f /\ rl = var_list p keys l u t name f) as (f & -> & ->).
  { exists (or_else fmt "{}"). destruct H as [H|[H|[H|[]]]]; injection H as <- <- <- <- <-; split; reflexivity. }
  destruct (var_dict p keys l u t name f) as [q [d|e]] eqn:E; cbn [fst snd].
  - destruct (C85_dict _ _ _ _ _ _ _ _ _ _ E) as (_ & V & _ & _ & _ & D & L). fold p in L, V. rewrite L. split; [reflexivity|]. split; [reflexivity|]. split; [exact V|].
    apply Forall_forall. intros [nm v] Hv. destruct (D _ _ Hv) as (-> & _). cbn. auto.
  - unfold var_dict, var_list in *. destruct (add_variables2 p keys l u t name f) as [q0 [nl|e0]]; cbn [bind fst snd] in *; [discriminate E|]. injection E as <- <-. split; reflexivity.
Qed.
(** Without a format the keys follow the name. *)
Theorem C85_default : forall p keys name, NoDup (map (fun k => name ++ k)%string keys) -> (forall k, In k keys -> ~ In (name ++ k)%string (map fst (p_vidx p))) ->
  exists q d, binary_var_dict p (KSeq keys) (Some name) None = (q, Ok d) /\ map fst d = map (fun k => name ++ k)%string keys.
Proof.
  intros p keys name N F. assert (forall k, (k ++ "")%string = k) as A. { intro k. induction k as [|a k IH]; cbn; [reflexivity|]. now rewrite IH. }
  assert (map (fun k => name ++ "" ++ k ++ "")%string keys = map (fun k => name ++ k)%string keys) as M. { apply map_ext. intro k. cbn. now rewrite A. }
  destruct (C85_keys p keys 0%Qc 1%Qc BINARY name "" "" eq_refl eq_refl) as (q & d & E & D).
  - discriminate.
  - rewrite M. exact N.
  - intros k Hk. cbn. rewrite A. now apply F.
  - exists q, d. split; [exact E|]. now rewrite D.
Qed.
Example C85_public_case : let p := run (new_qp "") [OAddVar 0 1 BINARY (Some "x1")] in
  match integer_var_list p (KCount 1) (Some (qz 2)) None None None, continuous_var_dict p (KSeq ["a"]) None (Some (qz 3)) (Some "u") None with
  | (_, Ok [i]), (_, Ok [(nm, u)]) => qeqb (v_lb i) (qz 2) && qeqb (v_ub i) INFINITY && qeqb (v_lb u) 0 && qeqb (v_ub u) (qz 3) && String.eqb nm "ua" && vartype_eqb (v_type i) INTEGER && vartype_eqb (v_type u) CONTINUOUS = true
  | _, _ => False end.
Proof. vm_compute. reflexivity. Qed.

Print Assumptions C85_dict.
Print Assumptions C85_public.
Print Assumptions C85_default.
Print Assumptions C85_keys.
Print Assumptions C85_clash.
Print Assumptions C85_few.
Print Assumptions C85_format.
Print Assumptions C85_empty_refuted.
Print Assumptions C85_counts.
