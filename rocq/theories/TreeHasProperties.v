(** Property C129: the Has methods of tree nodes *)
From Verif Require Import Base TreeModel TreeSpec TreeHeap TreeProofs TreeBuild TreeProperties.

Section properties.
  Context {T : Type}.
  Notation W := (tworld T).
  Implicit Types (w : W) (t : btree).

  Lemma has_of {P : nat -> Prop} (m : M W (option nat)) w : (exists s, m w = Ok (s, w) /\ forall y, s = Some y <-> P y) ->
    exists b, (s <- m ;; ret (not_nil s)) w = Ok (b, w) /\ (b = true <-> exists y, P y).
  Proof.
    intros (s&E&H). exists (not_nil s). split; [unfold bind; by rewrite E|]. destruct s as [y|]; cbn.
    - split; [|done]. intros _. exists y. by apply H.
    - split; [done|]. intros [y Hy]. by apply H in Hy.
  Qed.
  Theorem C129_relatives w t x : whole w t -> x ∈ preorder t ->
    (exists b, HasSibling (Some x) w = Ok (b, w) /\ (b = true <-> exists y, siblings t x y)) /\
    (exists b, HasUncle (Some x) w = Ok (b, w) /\ (b = true <-> exists y, uncle t x y)) /\
    (exists b, HasGrandparent (Some x) w = Ok (b, w) /\ (b = true <-> exists y, grandparent t x y)).
  Proof.
    intros Hw Hx. split; [|split].
    - apply (has_of (Sibling (Some x))). by apply C56_Sibling.
    - apply (has_of (Uncle (Some x))). by apply C56_Uncle.
    - apply (has_of (Grandparent (Some x))). by apply C56_Grandparent.
  Qed.
  Theorem C129_children w t n : whole w t -> n ∈ preorder t ->
    (exists b, HasLeft (Some n) w = Ok (b, w) /\ (b = true <-> exists y, left_child t n y)) /\
    (exists b, HasRight (Some n) w = Ok (b, w) /\ (b = true <-> exists y, right_child t n y)) /\
    (exists b, HasChild (Some n) w = Ok (b, w) /\ (b = true <-> exists y, child t n y)) /\
    (exists b, HasBothChild (Some n) w = Ok (b, w) /\ (b = true <-> (exists y, left_child t n y) /\ exists y, right_child t n y)) /\
    (exists b, IsLeaf (Some n) w = Ok (b, w) /\ (b = true <-> forall y, ~ child t n y)).
  Proof.
    intros Hw Hn. destruct (preorder_sub _ _ Hn) as (l&r&Hs).
    destruct (C56_Has w t n l r Hw Hs) as (E1&E2&E3&E4&_).
    assert (HL : not_nil (root l) = true <-> exists y, left_child t n y).
    { split.
      - destruct l as [|l1 y l2]; [done|]. intros _. exists y. by exists l1, l2, r.
      - intros (y&l1&l2&r'&Hs'). destruct (sub_unique _ _ _ _ _ _ (proj2 Hw) Hs Hs') as [-> ->]. done. }
    assert (HR : not_nil (root r) = true <-> exists y, right_child t n y).
    { split.
      - destruct r as [|l1 y l2]; [done|]. intros _. exists y. by exists l1, l2, l.
      - intros (y&l1&l2&l'&Hs'). destruct (sub_unique _ _ _ _ _ _ (proj2 Hw) Hs Hs') as [-> ->]. done. }
    assert (HC : not_nil (root l) || not_nil (root r) = true <-> exists y, child t n y).
    { rewrite orb_true_iff, HL, HR. unfold child. split; [intros [[y ?]|[y ?]]; eauto|intros [y [?|?]]; eauto]. }
    split; [eauto|]. split; [eauto|]. split; [|split].
    - exists (not_nil (root l) || not_nil (root r)). split; [|done]. unfold HasChild, bind. rewrite E1.
      destruct (not_nil (root l)); [done|exact E2].
    - eexists. split; [exact E4|]. by rewrite andb_true_iff, HL, HR.
    - eexists. split; [exact E3|]. rewrite negb_true_iff, <- not_true_iff_false, HC. naive_solver.
  Qed.
  Theorem C129_parent w t n : whole w t -> n ∈ preorder t ->
    exists b, HasParent (Some n) w = Ok (b, w) /\ (b = true <-> root t <> Some n).
  Proof.
    intros Hw Hn. destruct (preorder_sub _ _ Hn) as (l&r&Hs). destruct (C56_Has w t n l r Hw Hs) as (_&_&_&_&b&E&Hb).
    unfold IsRoot, bind in E. destruct (HasParent (Some n) w) as [[b' w']| |] eqn:Ep; [|done..]. injection E as E ->.
    exists b'. split; [done|]. rewrite <- Hb, <- E. by destruct b'.
  Qed.
End properties.

(** Example: the tree of C56_example; node 3 has a sibling, an uncle and a grandparent, the root has none. *)
Example C129_example : match run_build 0 ex_vals with
  | Ok (_, w) => Some (map (fun x => match HasSibling (Some x) w, HasUncle (Some x) w, HasGrandparent (Some x) w, HasChild (Some x) w with
      | Ok (a, _), Ok (b, _), Ok (c, _), Ok (d, _) => Some (a, b, c, d) | _, _, _, _ => None end) [0; 1; 3; 7])
  | _ => None end
  = Some [Some (false, false, false, true); Some (true, false, false, true); Some (true, true, true, true); Some (true, true, true, false)].
Proof. vm_compute. reflexivity. Qed.

Print Assumptions C129_relatives. Print Assumptions C129_children. Print Assumptions C129_parent.
