(** Properties C52-C58: tree *)
From Coq Require Import ZifyBool ZifyNat.
From Verif Require Import Base TreeModel TreeSpec TreeProofs TreeBuild TreeHeap.

Definition run_build {T} (zero : T) (vals : list T) : res (option nat * tworld T) := BuildTree vals (empty_tworld zero).

Section properties.
  Context {T : Type}.
  Implicit Types (w : tworld T) (t : btree) (fuel : nat).

  (** ** C52 *)
  Theorem C52_BuildTree_BFS (vals : list T) w : exists r w' ns,
    BuildTree vals w = Ok (r, w') /\
    (forall fuel, length vals < fuel -> TraversalBFS fuel r w' = Ok (map Some ns, w')) /\
    map (t_val w') ns = vals /\ NoDup ns.
  Proof.
    destruct (BuildTree_spec vals w) as (t&w'&E&[Hr Hn]&Hv&_&Hp&_). exists (root t), w', (level_order t).
    split; [done|]. split; [|split; [done|by rewrite level_order_perm]].
    intros fuel Hf. apply TraversalBFS_spec; [eauto|]. rewrite <- size_preorder, Hp, seq_length. done.
  Qed.
  Theorem C52_BuildTree_nil w : BuildTree [] w = Ok (None, w).
  Proof. exact eq_refl. Qed.
  (** The result is a whole tree made of new nodes only, the other trees are untouched. *)
  Theorem C52_BuildTree_whole (vals : list T) w ts : forest w ts -> exists t w',
    BuildTree vals w = Ok (root t, w') /\ forest w' (opt_tree t ++ ts) /\ map (t_val w') (level_order t) = vals.
  Proof.
    intros Hf. destruct (BuildTree_forest vals w ts Hf) as (t&w'&E&Hf'). exists t, w'. split; [done|]. split; [done|].
    destruct (BuildTree_spec vals w) as (t2&w2&E2&[Hr _]&Hv&_). rewrite E in E2. injection E2 as E3 <-.
    assert (t = t2) as ->; [|done].
    assert (Hr1 : rep w' None (root t) t). { destruct t; [done|]. apply Hf'. left. }
    rewrite <- E3 in Hr. by eapply rep_det.
  Qed.

  (** ** C53 *)
  Theorem C53_DFS_preorder w t s fuel : whole w t -> sub s t -> s <> Leaf -> size s <= fuel ->
    TraversalDFS fuel (root s) w = Ok (map Some (preorder s), w) /\ NoDup (preorder s).
  Proof.
    intros [Hr Hn] Hs Hne Hf. split; [|by eapply sub_NoDup].
    apply TraversalDFS_spec; [done| |done]. by eapply rep_sub.
  Qed.
  Theorem C53_BFS_levels w t s fuel : whole w t -> sub s t -> size s < fuel ->
    TraversalBFS fuel (root s) w = Ok (map Some (level_order s), w) /\ NoDup (level_order s) /\ level_order s ≡ₚ preorder s.
  Proof.
    intros [Hr Hn] Hs Hf. split; [|split; [|apply level_order_perm]].
    - apply TraversalBFS_spec; [|done]. by eapply rep_sub.
    - rewrite level_order_perm. by eapply sub_NoDup.
  Qed.
  (** On nil one returns nothing, the other panics. *)
  Theorem C53_nil w fuel : TraversalBFS (S fuel) None w = Ok ([], w) /\ TraversalDFS fuel None w = Panic.
  Proof. done. Qed.

  (** ** C54 *)
  Theorem C54_Layer w t d x fuel : whole w t -> x ∈ row d t -> size t < fuel ->
    Layer fuel (Some x) w = Ok (Z.of_nat d, w).
  Proof. intros Hw Hx Hf. apply (Layer_spec w t); [done..|]. pose proof (row_depth _ _ _ Hx). lia. Qed.
  Theorem C54_Layer_all w t x fuel : whole w t -> x ∈ preorder t -> size t < fuel ->
    exists d, x ∈ row d t /\ Layer fuel (Some x) w = Ok (Z.of_nat d, w).
  Proof. intros Hw Hx Hf. apply row_preorder in Hx as [d Hd]. exists d. split; [done|]. by apply (C54_Layer w t). Qed.
  Theorem C54_Layer_nil w fuel : Layer (S fuel) None w = Ok ((-1)%Z, w).
  Proof. done. Qed.
  Theorem C54_MaxDepth w t s fuel : whole w t -> sub s t -> size s < fuel -> s <> Leaf ->
    exists h, MaxDepth fuel (root s) w = Ok (Z.of_nat h, w) /\ (forall d, row d s <> [] <-> d <= h).
  Proof.
    intros [Hr Hn] Hs Hf Hne. destruct (rep_sub _ _ _ _ _ Hr Hs) as [p Hp]. exists (rows s - 1). split.
    - apply (MaxDepth_spec w s p); [done|]. pose proof (rows_size s). lia.
    - intros d. rewrite row_lt. destruct s; [done|]. cbn. lia.
  Qed.

  (** ** C55 *)
  (** Every program that attaches only nil or the root of another tree keeps a forest; in it the
      links match; and the returned child is the root of a tree of its own. *)
  Theorem C55_history_consistent (zero : T) cs w : t_history (empty_tworld zero) cs w ->
    (exists ts, forest w ts) /\
    forall x y, x < t_n w -> (t_left w x = Some y \/ t_right w x = Some y <-> y < t_n w /\ t_parent w y = Some x).
  Proof.
    intros H. destruct (t_history_forest _ _ _ H (ex_intro _ _ (empty_forest zero))) as [ts Hf].
    split; [eauto|]. by eapply forest_links.
  Qed.
  Theorem C55_step (zero : T) cs w c : t_history (empty_tworld zero) cs w -> t_ok w c ->
    exists r w', t_exec c w = Ok (r, w') /\ t_does c w r w'.
  Proof.
    intros H Hok. destruct (t_history_forest _ _ _ H (ex_intro _ _ (empty_forest zero))) as [ts Hf].
    destruct (t_step c w (ex_intro _ _ Hf) Hok) as (r&w'&?&?&_). eauto.
  Qed.
  Theorem C55_old_child_is_root (zero : T) cs w n c y w' : t_history (empty_tworld zero) cs w ->
    (t_ok w (CSetLeft n c) /\ SetLeft (Some n) c w = Ok (Some y, w')) \/
    (t_ok w (CSetRight n c) /\ SetRight (Some n) c w = Ok (Some y, w')) ->
    t_parent w' y = None.
  Proof.
    intros H Hc. destruct (t_history_forest _ _ _ H (ex_intro _ _ (empty_forest zero))) as [ts Hf].
    destruct Hc as [[Hok E]|[Hok E]].
    - destruct (t_step _ w (ex_intro _ _ Hf) Hok) as (r&w2&E2&Hd&_). cbn [t_exec] in E2. rewrite E in E2. injection E2 as <- <-.
      destruct (Hd ts Hf) as (t1&t2&rest&_&_&_&Er&Hf2). symmetry in Er.
      destruct (child_of true n t1) eqn:Ec; [done|]. destruct Hf2 as (Hf2&_). cbn in Er. injection Er as <-.
      destruct (Hf2 (Node b1 x b2)) as (_&_&Hp&_); [right; left|]. done.
    - destruct (t_step _ w (ex_intro _ _ Hf) Hok) as (r&w2&E2&Hd&_). cbn [t_exec] in E2. rewrite E in E2. injection E2 as <- <-.
      destruct (Hd ts Hf) as (t1&t2&rest&_&_&_&Er&Hf2). symmetry in Er.
      destruct (child_of false n t1) eqn:Ec; [done|]. destruct Hf2 as (Hf2&_). cbn in Er. injection Er as <-.
      destruct (Hf2 (Node b1 x b2)) as (_&_&Hp&_); [right; left|]. done.
  Qed.
  (** Attaching the child of another node always leaves that node pointing at it. *)
  Theorem C55_set_refuted w x n c : t_left w x = Some c \/ t_right w x = Some c -> n <> x ->
    (exists o w', SetLeft (Some n) (Some c) w = Ok (o, w') /\ t_parent w' c = Some n /\ (t_left w' x = Some c \/ t_right w' x = Some c)) /\
    (exists o w', SetRight (Some n) (Some c) w = Ok (o, w') /\ t_parent w' c = Some n /\ (t_left w' x = Some c \/ t_right w' x = Some c)).
  Proof.
    intros H Hne. split.
    - rewrite SetLeft_eq. eexists _, _. split; [reflexivity|]. cbn. rewrite fn_lookup_insert, fn_lookup_insert_ne by done. done.
    - rewrite SetRight_eq. eexists _, _. split; [reflexivity|]. cbn. rewrite fn_lookup_insert, fn_lookup_insert_ne by done. done.
  Qed.

  (** ** C56 *)
  Theorem C56_IsLeft w t x : whole w t -> x ∈ preorder t ->
    exists b, IsLeft (Some x) w = Ok (b, w) /\ (b = true <-> exists p, left_child t p x).
  Proof. exact (IsLeft_spec w t x). Qed.
  Theorem C56_IsRight w t x : whole w t -> x ∈ preorder t ->
    exists b, IsRight (Some x) w = Ok (b, w) /\ (b = true <-> exists p, right_child t p x).
  Proof. exact (IsRight_spec w t x). Qed.
  Theorem C56_Sibling w t x : whole w t -> x ∈ preorder t ->
    exists s, Sibling (Some x) w = Ok (s, w) /\ (forall y, s = Some y <-> siblings t x y).
  Proof. exact (Sibling_spec w t x). Qed.
  Theorem C56_Uncle w t x : whole w t -> x ∈ preorder t ->
    exists s, Uncle (Some x) w = Ok (s, w) /\ (forall y, s = Some y <-> uncle t x y).
  Proof. exact (Uncle_spec w t x). Qed.
  Theorem C56_Grandparent w t x : whole w t -> x ∈ preorder t ->
    exists s, Grandparent (Some x) w = Ok (s, w) /\ (forall y, s = Some y <-> grandparent t x y).
  Proof. exact (Grandparent_spec w t x). Qed.
  Theorem C56_IsChildRelation w t n x : whole w t -> x ∈ preorder t ->
    (exists b, IsLeftRelation (Some n) (Some x) w = Ok (b, w) /\ (b = true <-> left_child t n x)) /\
    (exists b, IsRightRelation (Some n) (Some x) w = Ok (b, w) /\ (b = true <-> right_child t n x)) /\
    (exists b, IsChildRelation (Some n) (Some x) w = Ok (b, w) /\ (b = true <-> child t n x)).
  Proof.
    intros. split; [|split]; [by apply IsLeftRelation_spec|by apply IsRightRelation_spec|by apply IsChildRelation_spec].
  Qed.
  Theorem C56_pair_relations w t n y : whole w t -> n ∈ preorder t ->
    (exists b, IsSiblingRelation (Some n) (Some y) w = Ok (b, w) /\ (b = true <-> siblings t n y)) /\
    (exists b, IsUncleRelation (Some n) (Some y) w = Ok (b, w) /\ (b = true <-> uncle t n y)) /\
    (exists b, IsGrandparentRelation (Some n) (Some y) w = Ok (b, w) /\ (b = true <-> grandparent t n y)).
  Proof.
    intros Hw Hn.
    destruct (Sibling_spec w t n Hw Hn) as (s&Hs&Hs'). destruct (Uncle_spec w t n Hw Hn) as (u&Hu&Hu').
    destruct (Grandparent_spec w t n Hw Hn) as (g&Hg&Hg').
    unfold reads, IsSiblingRelation, IsUncleRelation, IsGrandparentRelation, bind in *. rewrite Hs, Hu, Hg.
    split; [|split]; (eexists; split; [reflexivity|]); rewrite bool_decide_eq_true; auto.
  Qed.
  Theorem C56_IsAncestorRelation w t n y fuel : whole w t -> y ∈ preorder t -> size t < fuel ->
    exists b, IsAncestorRelation fuel (Some n) (Some y) w = Ok (b, w) /\ (b = true <-> below t n y).
  Proof. exact (IsAncestor_spec w t n y fuel). Qed.
  Theorem C56_nil w t n fuel : whole w t -> n ∈ preorder t -> size t < fuel ->
    IsAncestorRelation fuel (Some n) None w = Ok (false, w) /\ IsAncestorRelation fuel None (Some n) w = Ok (false, w) /\
    IsChildRelation (Some n) None w = Ok (false, w).
  Proof. intros Hw Hn Hf. split; [done|]. split; [by eapply IsAncestor_nil|done]. Qed.
  Theorem C56_Has w t n l r : whole w t -> sub (Node l n r) t ->
    HasLeft (Some n) w = Ok (not_nil (root l), w) /\ HasRight (Some n) w = Ok (not_nil (root r), w) /\
    IsLeaf (Some n) w = Ok (negb (not_nil (root l) || not_nil (root r)), w) /\
    HasBothChild (Some n) w = Ok (not_nil (root l) && not_nil (root r), w) /\
    (exists b, IsRoot (Some n) w = Ok (b, w) /\ (b = true <-> root t = Some n)).
  Proof.
    intros [Hr Hn] Hs. destruct (rep_node _ _ _ _ _ _ _ Hr Hs) as (El&Er&_).
    assert (HL : HasLeft (Some n) w = Ok (not_nil (root l), w)) by (unfold HasLeft, bind, tget; by rewrite El).
    assert (HR : HasRight (Some n) w = Ok (not_nil (root r), w)) by (unfold HasRight, bind, tget; by rewrite Er).
    split; [done|]. split; [done|]. split; [rewrite IsLeaf_val, El, Er; done|]. split.
    - unfold HasBothChild, bind. rewrite HL. destruct (not_nil (root l)); [by rewrite HR|done].
    - eexists. split; [reflexivity|]. rewrite <- (whole_root w t n); [|by split|by eapply sub_in].
      destruct (t_parent w n); cbn; split; congruence.
  Qed.

  (** ** C57 *)
  Theorem C57_IsDescendantRelation_exact w t n y fuel : whole w t -> n ∈ preorder t -> size t < fuel ->
    exists b, IsDescendantRelation fuel (Some n) (Some y) w = Ok (b, w) /\ (b = true <-> ~ below t y n).
  Proof. exact (IsDescendant_exact w t n y fuel). Qed.
  (** It holds of every two nodes neither of which is below the other, and of a node and its child. *)
  Theorem C57_IsDescendantRelation_refuted w t n y fuel : whole w t -> n ∈ preorder t -> size t < fuel ->
    ~ below t n y -> ~ below t y n -> IsDescendantRelation fuel (Some n) (Some y) w = Ok (true, w).
  Proof.
    intros Hw Hn Hf _ H. destruct (IsDescendant_exact w t n y fuel Hw Hn Hf) as (b&E&Hb).
    rewrite (proj2 Hb H) in E. done.
  Qed.

  (** ** C58 *)
  Theorem C58_DrawTree_exact w t s fuel : whole w t -> sub s t -> size s < fuel ->
    DrawTree fuel (root s) w = Ok (drawn (map (t_val w) (level_order s)), w).
  Proof. intros [Hr Hn] Hs Hf. apply DrawTree_spec; [|done]. by eapply rep_sub. Qed.
  (** The rows come out right if row d has 2d nodes, except that the last may be shorter. *)
  Theorem C58_DrawTree_rows w t fuel : whole w t -> t <> Leaf -> size t < fuel ->
    (forall d, 1 <= d -> S d < rows t -> length (row d t) = 2 * d) -> length (row (rows t - 1) t) <= Nat.max 1 (2 * (rows t - 1)) ->
    exists ps, DrawTree fuel (root t) w = Ok (ps, w) /\ one_row_per_line w t ps.
  Proof.
    intros Hw Hne Hf H1 H2. eexists. split; [apply (C58_DrawTree_exact w t t); [done|apply sub_here|done]|].
    by apply drawn_rows.
  Qed.
End properties.

(** A perfect tree of four levels is drawn on five lines. *)
Theorem C58_DrawTree_refuted : exists (w : tworld nat) t fuel ps,
  whole w t /\ size t < fuel /\ DrawTree fuel (root t) w = Ok (ps, w) /\ ~ one_row_per_line w t ps.
Proof.
  destruct (BuildTree_spec (seq 1 15) (empty_tworld 0)) as (t&w&E&Hw&Hv&_&Hp&_&Ht).
  exists w, t, 16. eexists. split; [done|].
  assert (Hsz : size t < 16). { rewrite <- size_preorder, Hp, seq_length. cbn. lia. }
  split; [done|]. split; [apply (C58_DrawTree_exact w t t); [done|apply sub_here|done]|].
  rewrite Hv. unfold one_row_per_line. intros H. apply (f_equal length) in H. rewrite map_length, seq_length in H.
  assert (E5 : length (split_lines [] (drawn (seq 1 15))) = 5) by done. rewrite E5, Ht in H. done.
Qed.

(** ** Examples *)
Definition ex_vals : list nat := [10; 20; 30; 40; 50; 60; 70; 80; 90].
Example C52_example : match run_build 0 ex_vals with
  | Ok (r, w) => match TraversalBFS 20 r w with Ok (ns, w') => Some (map (fun n => match n with Some x => t_val w' x | None => 0 end) ns) | _ => None end
  | _ => None end = Some ex_vals.
Proof. vm_compute. reflexivity. Qed.
Example C53_example : match run_build 0 ex_vals with
  | Ok (r, w) => match TraversalDFS 20 r w with Ok (ns, w') => Some (map (fun n => match n with Some x => t_val w' x | None => 0 end) ns) | _ => None end
  | _ => None end = Some [10; 20; 40; 80; 90; 50; 30; 60; 70].
Proof. vm_compute. reflexivity. Qed.
Example C54_example : match run_build 0 ex_vals with
  | Ok (r, w) => match Layer 20 (Some 7) w, MaxDepth 20 r w, MaxDepth 20 (Some 2) w with Ok (a, _), Ok (b, _), Ok (c, _) => Some (a, b, c) | _, _, _ => None end
  | _ => None end = Some (3, 3, 1)%Z.
Proof. vm_compute. reflexivity. Qed.
(** The hypotheses of C53-C58 hold of every tree BuildTree makes. *)
Example whole_example : exists w t, whole w t /\ size t = 9 /\ left_child t 1 3 /\ siblings t 1 2 /\ uncle t 4 2 /\
  grandparent t 7 1 /\ below t 1 8 /\ ~ below t 2 8 /\ map (t_val w) (level_order t) = ex_vals.
Proof.
  destruct (BuildTree_spec ex_vals (empty_tworld 0)) as (t&w&E&Hw&Hv&_&Hp&_&Ht). exists w, t. split; [done|]. clear -Hv Ht.
  subst t. cbv [heap_tree length ex_vals empty_tworld t_n Nat.ltb Nat.leb Nat.mul Nat.add] in *.
  split; [done|].
  assert (L13 : left_child (Node (Node (Node (Node Leaf 7 Leaf) 3 (Node Leaf 8 Leaf)) 1 (Node Leaf 4 Leaf)) 0 (Node (Node Leaf 5 Leaf) 2 (Node Leaf 6 Leaf))) 1 3) by (eexists _, _, _; eauto using sub).
  split; [done|]. split; [exists 0; left; split; eexists _, _, _; eauto using sub|].
  split; [exists 1; split; [right; eexists _, _, _; eauto using sub|exists 0; left; split; eexists _, _, _; eauto using sub]|].
  split; [exists 3; split; [left; eexists _, _, _; eauto using sub|left; eexists _, _, _; eauto using sub]|].
  split; [eexists _, _; split; [eauto using sub|cbn; set_solver]|]. split; [|done].
  intros (l&r&H&H8). repeat match goal with H : sub _ _ |- _ => inversion H; clear H; subst end; cbn in H8; set_solver.
Qed.
(** An allowed program, and the smallest forbidden one: n2.SetLeft(c) while c is n1's child. *)
Example C55_example : exists w, t_history (empty_tworld 0)
  [CNew 1; CNew 2; CNew 3; CSetLeft 0 (Some 1); CSetRight 1 (Some 2); CNew 4; CSetLeft 0 (Some 3); CSetRight 3 (Some 1); CSetLeft 0 None] w /\
  t_left w 0 = None /\ t_right w 3 = Some 1 /\ t_parent w 1 = Some 3.
Proof.
  apply (t_run_with _ _ (fun w => t_left w 0 = None /\ t_right w 3 = Some 1 /\ t_parent w 1 = Some 3)).
  vm_compute. done.
Qed.
Example C55_refuted_example :
  match (a <- NewNode 1 ;; b <- NewNode 2 ;; c <- NewNode 3 ;; SetLeft a c ;;; SetLeft b c) (empty_tworld 0) with
  | Ok (_, w) => Some (t_left w 0, t_left w 1, t_parent w 2) | _ => None end = Some (Some 2, Some 2, Some 1).
Proof. vm_compute. reflexivity. Qed.
Example C57_example : match run_build 0 ex_vals with
  | Ok (r, w) => match IsDescendantRelation 20 (Some 1) (Some 2) w, IsDescendantRelation 20 (Some 2) (Some 1) w,
                       IsDescendantRelation 20 (Some 0) (Some 1) w, IsDescendantRelation 20 (Some 1) (Some 0) w with
      | Ok (a, _), Ok (b, _), Ok (c, _), Ok (d, _) => Some (a, b, c, d) | _, _, _, _ => None end
  | _ => None end = Some (true, true, true, false).
Proof. vm_compute. reflexivity. Qed.
Example C58_example : match run_build 0 (seq 1 15) with
  | Ok (r, w) => match DrawTree 20 r w with Ok (ps, _) => Some (split_lines [] ps) | _ => None end
  | _ => None end = Some [[1]; [2; 3]; [4; 5; 6; 7]; [8; 9; 10; 11; 12; 13]; [14; 15]].
Proof. vm_compute. reflexivity. Qed.

Print Assumptions C52_BuildTree_BFS.
Print Assumptions C52_BuildTree_nil.
Print Assumptions C52_BuildTree_whole.
Print Assumptions C53_DFS_preorder.
Print Assumptions C53_BFS_levels.
Print Assumptions C53_nil.
Print Assumptions C54_Layer.
Print Assumptions C54_Layer_all.
Print Assumptions C54_Layer_nil.
Print Assumptions C54_MaxDepth.
Print Assumptions C55_history_consistent.
Print Assumptions C55_step.
Print Assumptions C55_old_child_is_root.
Print Assumptions C55_set_refuted.
Print Assumptions C56_Sibling.
Print Assumptions C56_Uncle.
Print Assumptions C56_Grandparent.
Print Assumptions C56_IsChildRelation.
Print Assumptions C56_pair_relations.
Print Assumptions C56_IsAncestorRelation.
Print Assumptions C56_Has.
Print Assumptions C57_IsDescendantRelation_exact.
Print Assumptions C57_IsDescendantRelation_refuted.
Print Assumptions C58_DrawTree_exact.
Print Assumptions C58_DrawTree_rows.
Print Assumptions C58_DrawTree_refuted.
