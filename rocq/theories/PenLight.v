(** * Objectives whose range the automatic penalty exceeds *)
From Verif Require Export PenProps SpecMore.
Local Open Scope nat_scope.

Lemma close_diff v a b : close_values v -> in_range v a -> in_range v b -> has_type v a -> has_type v b -> (a - b <= 1)%Qc /\ (b - a <= 1)%Qc.
Proof.
  intros [B|C] [A1 A2] [B1 B2] Ta Tb; [|split; qlra]. unfold has_type in *. rewrite B in *. destruct Ta as [-> | ->], Tb as [-> | ->]; split; qlra.
Qed.
Lemma unit_range v a : unit_values v -> in_range v a -> has_type v a -> (0 <= a)%Qc /\ (a <= 1)%Qc.
Proof.
  intros [B|[C1 C2]] [A1 A2] Ta; [|split; qlra]. unfold has_type in *. rewrite B in *. destruct Ta as [-> | ->]; split; qlra.
Qed.
Lemma scaled_le v d : (d <= 1)%Qc -> (- d <= 1)%Qc -> (v * d <= qabs v)%Qc.
Proof. intros H1 H2. destruct (abs_le v) as (A & B & C). destruct (Qclt_le_dec v 0) as [N|N]; qnra. Qed.
Lemma unit_product a b : (0 <= a)%Qc -> (a <= 1)%Qc -> (0 <= b)%Qc -> (b <= 1)%Qc -> (0 <= a * b)%Qc /\ (a * b <= 1)%Qc.
Proof. intros. split; qnra. Qed.
Lemma at_of {A} (R : A -> Qc -> Prop) l x i v : Forall2 R l x -> nth_error l i = Some v -> R v (at_ x i).
Proof.
  intros F. revert i. induction F as [|a b l x H F IH]; intros i E; [now destruct i|]. destruct i as [|i]; cbn in E; [injection E as <-; exact H|]. apply (IH i E).
Qed.

Section Light.
Variables (pen : Qc) (p q : qp).
Hypothesis W : prog_wf p.
Hypothesis H : penalize pen p = Ok q.
Hypothesis Lo : light_objective p.
Lemma light_range x y : in_bounds p x -> in_bounds p y -> typed p x -> typed p y -> (obj_at (p_obj p) x - obj_at (p_obj p) y <= weight (p_obj p))%Qc.
Proof using W H Lo.
  intros Bx By Tx Ty. destruct (penalize_spec pen p q W H) as (_ & _ & _ & _ & _ & _ & (F1 & F2) & _).
  assert (length x = num_vars p) as Lx by (symmetry; exact (Forall2_length _ _ _ Tx)). assert (length y = num_vars p) as Ly by (symmetry; exact (Forall2_length _ _ _ Ty)).
  pose proof W as (_ & _ & _ & _ & (W1 & W2 & _) & _). unfold obj_at, weight.
  rewrite !(lin_entries_in (o_lin (p_obj p))), !(quad_entries_in (o_quad (p_obj p))); rewrite ?Lx, ?Ly; try assumption; try apply W1; try apply W2.
  destruct Lo as [L1 L2]. destruct W1 as [_ W1]. destruct W2 as [_ W2].
  assert (forall l, incl l (le_co (o_lin (p_obj p))) -> (dsum (at_ x) l - dsum (at_ y) l <= sumof (fun kv => qabs (snd kv)) l)%Qc) as A.
  { induction l as [|[i v] l IH]; intro I; [rewrite !dsum_nil, sumof_nil; qlra|]. rewrite !dsum_cons, sumof_cons. cbn [snd].
    assert (dsum (at_ x) l - dsum (at_ y) l <= sumof (fun kv => qabs (snd kv)) l)%Qc as K by (apply IH; intros a Ha; apply I; now right).
    assert (v * (at_ x i - at_ y i) <= qabs v)%Qc as S; [|qlra].
    destruct (nth_error (p_vars p) i) as [w|] eqn:E.
    - destruct (close_diff w (at_ x i) (at_ y i)) as [D1 D2]; [eapply L1; [apply I; left; reflexivity|exact E]|eapply at_of; eauto|eapply at_of; eauto|eapply at_of; eauto|eapply at_of; eauto|]. apply scaled_le; qlra.
    - apply nth_error_None in E. unfold at_. rewrite !nth_overflow by (unfold num_vars in *; lia). apply scaled_le; qlra. }
  assert (forall l, incl l (qe_co (o_quad (p_obj p))) -> (dsum (fun ij => (at_ x (fst ij) * at_ x (snd ij))%Qc) l - dsum (fun ij => (at_ y (fst ij) * at_ y (snd ij))%Qc) l <= sumof (fun kv => qabs (snd kv)) l)%Qc) as B.
  { induction l as [|[[i j] v] l IH]; intro I; [rewrite !dsum_nil, sumof_nil; qlra|]. rewrite !dsum_cons, sumof_cons. cbn [fst snd].
    match type of IH with _ -> (?a - ?b <= ?c)%Qc => assert (a - b <= c)%Qc as K by (apply IH; intros e He; apply I; now right) end.
    assert (v * (at_ x i * at_ x j - at_ y i * at_ y j) <= qabs v)%Qc as S; [|qlra].
    assert (forall z k, in_bounds p z -> typed p z -> k = i \/ k = j -> (0 <= at_ z k)%Qc /\ (at_ z k <= 1)%Qc) as U.
    { intros z k Bz Tz Hk. destruct (nth_error (p_vars p) k) as [w|] eqn:E.
      - apply (unit_range w); [eapply L2; [apply I; left; reflexivity|]|eapply at_of; eauto|eapply at_of; eauto]. destruct Hk; subst; auto.
      - apply nth_error_None in E. pose proof (Forall2_length _ _ _ Tz) as Lz. unfold at_. rewrite !nth_overflow by lia. split; qlra. }
    destruct (U x i), (U x j), (U y i), (U y j); auto. destruct (unit_product (at_ x i) (at_ x j)), (unit_product (at_ y i) (at_ y j)); auto. apply scaled_le; qlra. }
  specialize (A _ (incl_refl _)). specialize (B _ (incl_refl _)). qlra.
Qed.
End Light.
