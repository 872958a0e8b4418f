From Coq Require Import ZifyBool ZifyNat.
From Verif Require Import Base TreeModel TreeSpec.

(** * Trees alone *)
Lemma sub_trans s t u : sub s t -> sub t u -> sub s u.
Proof. intros H1 H2. induction H2; eauto using sub. Qed.
Lemma sub_preorder s t : sub s t -> preorder s ⊆ preorder t.
Proof. induction 1; cbn; set_solver. Qed.
Lemma preorder_sub x t : x ∈ preorder t -> exists l r, sub (Node l x r) t.
Proof.
  induction t as [|l IHl y r IHr]; cbn; [set_solver|].
  rewrite elem_of_cons, elem_of_app. intros [->|[H|H]].
  - eauto using sub.
  - destruct (IHl H) as (?&?&?). eauto using sub.
  - destruct (IHr H) as (?&?&?). eauto using sub.
Qed.
Lemma sub_in l x r t : sub (Node l x r) t -> x ∈ preorder t.
Proof. intros H%sub_preorder. apply H. cbn. set_solver. Qed.
Lemma sub_unique l r l' r' x t : NoDup (preorder t) -> sub (Node l x r) t -> sub (Node l' x r') t -> l = l' /\ r = r'.
Proof.
  induction t as [|a IHa y b IHb]; cbn; intros Hn H1 H2; [inversion H1|].
  rewrite NoDup_cons, NoDup_app in Hn. destruct Hn as (Hy&Ha&Hab&Hb).
  inversion H1; subst; inversion H2; subst; auto;
    repeat match goal with H : sub (Node _ _ _) _ |- _ => pose proof (sub_in _ _ _ _ H); revert H end; intros;
    set_solver.
Qed.
Lemma size_preorder t : length (preorder t) = size t.
Proof. induction t; cbn; rewrite ?app_length; lia. Qed.
Lemma rows_size t : rows t <= size t.
Proof. induction t; cbn; lia. Qed.
Lemma row_lt t : forall d, row d t <> [] <-> d < rows t.
Proof.
  induction t as [|l IHl x r IHr]; intros d; cbn.
  - destruct d; split; intros; [done|lia|done|lia].
  - destruct d as [|d]; [split; [lia|done]|].
    cbn. specialize (IHl d). specialize (IHr d). destruct (row d l) eqn:E; cbn.
    + split; intros H; [apply IHr in H; lia|]. apply IHr.
      assert (~ d < rows l) by (intros ?%IHl; done). lia.
    + split; [|done]. intros _. assert (d < rows l) by (by apply IHl). lia.
Qed.
Lemma row_nil t d : rows t <= d -> row d t = [].
Proof. intros H. destruct (row d t) eqn:E; [done|]. pose proof (proj1 (row_lt t d)). rewrite E in *. exfalso. assert (d < rows t) by auto. lia. Qed.
Lemma row_preorder t : forall x, x ∈ preorder t <-> exists d, x ∈ row d t.
Proof.
  induction t as [|l IHl y r IHr]; intros x; cbn.
  - split; [set_solver|]. intros [[] ?]; set_solver.
  - rewrite elem_of_cons, elem_of_app, IHl, IHr. split.
    + intros [->|[[d H]|[d H]]].
      * exists 0. cbn. set_solver.
      * exists (S d). cbn. set_solver.
      * exists (S d). cbn. set_solver.
    + intros [[|d] H]; cbn in H; [set_solver|]. apply elem_of_app in H as [?|?]; eauto.
Qed.

(** The rows one by one: level order is a permutation of preorder. *)
Fixpoint zip_rows (a b : list (list nat)) : list (list nat) :=
  match a, b with
  | [], b => b
  | a, [] => a
  | x :: a, y :: b => (x ++ y) :: zip_rows a b
  end.
Lemma zip_rows_length a : forall b, length (zip_rows a b) = Nat.max (length a) (length b).
Proof. induction a; intros []; cbn; auto. Qed.
Lemma zip_rows_nil a : zip_rows a [] = a.
Proof. destruct a; done. Qed.
Lemma concat_zip a : forall b, concat (zip_rows a b) ≡ₚ concat a ++ concat b.
Proof.
  induction a as [|x a IH]; intros [|y b]; cbn; rewrite ?app_nil_r; auto.
  rewrite IH. solve_Permutation.
Qed.
Definition all_rows (t : btree) : list (list nat) := map (fun d => row d t) (seq 0 (rows t)).
Lemma zip_map (f g : nat -> list nat) : forall n m k,
  (forall d, k + n <= d -> f d = []) -> (forall d, k + m <= d -> g d = []) ->
  zip_rows (map f (seq k n)) (map g (seq k m)) = map (fun d => f d ++ g d) (seq k (Nat.max n m)).
Proof.
  induction n as [|n IH]; intros m k Hf Hg; cbn.
  - apply map_ext_in. intros d Hd%in_seq. rewrite Hf by lia. done.
  - destruct m as [|m]; cbn.
    + rewrite (Hg k) by lia. rewrite app_nil_r. f_equal. apply map_ext_in. intros d Hd%in_seq.
      rewrite (Hg d) by lia. by rewrite app_nil_r.
    + f_equal. apply IH; intros; [apply Hf|apply Hg]; lia.
Qed.
Lemma all_rows_node l x r : all_rows (Node l x r) = [x] :: zip_rows (all_rows l) (all_rows r).
Proof.
  unfold all_rows. rewrite zip_map; cbn [rows seq map].
  - f_equal. rewrite <- seq_shift, map_map. apply map_ext. done.
  - intros. apply row_nil. lia.
  - intros. apply row_nil. lia.
Qed.
Lemma level_order_perm t : level_order t ≡ₚ preorder t.
Proof.
  unfold level_order. fold (all_rows t). induction t as [|l IHl x r IHr]; [done|].
  rewrite all_rows_node. cbn. rewrite concat_zip, IHl, IHr. done.
Qed.

(** * Reading the structs *)
Section proofs.
  Context {T : Type}.
  Implicit Types (w : tworld T).

  Lemma rep_root w p n t : rep w p n t -> n = root t.
  Proof. destruct t; cbn; tauto. Qed.
  Lemma rep_det w t : forall p p' n t', rep w p n t -> rep w p' n t' -> t = t'.
  Proof.
    induction t as [|l IHl x r IHr]; intros p p' n [|l2 x2 r2]; cbn; intros H1 H2; [done|naive_solver..|].
    destruct H1 as (->&_&?&?), H2 as ([= ->]&_&?&?). f_equal; eauto.
  Qed.
  Lemma rep_sub w s t p n : rep w p n t -> sub s t -> exists p', rep w p' (root s) s.
  Proof.
    intros H1 H2. revert p n H1. induction H2; intros p n H1.
    - exists p. pose proof (rep_root _ _ _ _ H1). congruence.
    - cbn in H1. destruct H1 as (_&_&?&_). eauto.
    - cbn in H1. destruct H1 as (_&_&_&?). eauto.
  Qed.
  (** The fields of a node that has the subtrees l and r. *)
  Lemma rep_node w l x r t p n : rep w p n t -> sub (Node l x r) t ->
    t_left w x = root l /\ t_right w x = root r /\ rep w (Some x) (root l) l /\ rep w (Some x) (root r) r.
  Proof.
    intros H1 H2. destruct (rep_sub _ _ _ _ _ H1 H2) as [p' (_&_&Hl&Hr)].
    rewrite <- (rep_root _ _ _ _ Hl), <- (rep_root _ _ _ _ Hr). auto.
  Qed.
  Lemma rep_parent_child w t p n x y : rep w p n t -> child t x y -> t_parent w y = Some x.
  Proof.
    intros H1 [(l&r&r'&H2)|(l&r&l'&H2)]; destruct (rep_node _ _ _ _ _ _ _ H1 H2) as (_&_&?&?); cbn in *; tauto.
  Qed.
  (** Every node is the root or the child of something. *)
  Lemma sub_parent t y : y ∈ preorder t -> root t = Some y \/ exists x, child t x y.
  Proof.
    induction t as [|l IHl x r IHr]; cbn; [set_solver|].
    rewrite elem_of_cons, elem_of_app. intros [->|[H|H]]; auto; right.
    - destruct (IHl H) as [E|[z Hz]].
      + exists x. left. destruct l; cbn in E; simplify_eq. exists l1, l2, r. apply sub_here.
      + exists z. destruct Hz as [(a&b&c&?)|(a&b&c&?)]; [left|right]; exists a, b, c; by apply sub_left.
    - destruct (IHr H) as [E|[z Hz]].
      + exists x. right. destruct r; cbn in E; simplify_eq. exists r1, r2, l. apply sub_here.
      + exists z. destruct Hz as [(a&b&c&?)|(a&b&c&?)]; [left|right]; exists a, b, c; by apply sub_right.
  Qed.
  Lemma child_in t x y : child t x y -> x ∈ preorder t /\ y ∈ preorder t.
  Proof.
    intros [(l&r&r'&H)|(l&r&l'&H)]; split.
    1,3: by eapply sub_in.
    all: apply (sub_in l y r); eapply sub_trans; [|exact H]; eauto using sub.
  Qed.
  Lemma root_not_child t x y : NoDup (preorder t) -> root t = Some y -> ~ child t x y.
  Proof.
    intros Hn Hr Hc. destruct t as [|l z r]; cbn in *; simplify_eq.
    apply NoDup_cons in Hn as [Hy _].
    destruct Hc as [(a&b&c&H)|(a&b&c&H)]; inversion H; subst.
    1,4: apply Hy; cbn; set_solver.
    all: apply Hy; match goal with X : sub _ ?u |- _ => assert (y ∈ preorder u); [|set_solver];
      apply sub_preorder in X; apply X; cbn; set_solver end.
  Qed.
  Lemma whole_parent w t y x : whole w t -> y ∈ preorder t -> (t_parent w y = Some x <-> child t x y).
  Proof.
    intros [Hr Hn] Hy. split; [|by eapply rep_parent_child].
    intros Hp. destruct (sub_parent _ _ Hy) as [E|[z Hz]].
    - destruct t; cbn in *; simplify_eq. destruct Hr as (_&?&_). congruence.
    - pose proof (rep_parent_child _ _ _ _ _ _ Hr Hz). congruence.
  Qed.
  Lemma whole_root w t y : whole w t -> y ∈ preorder t -> (t_parent w y = None <-> root t = Some y).
  Proof.
    intros [Hr Hn] Hy. split.
    - intros Hp. destruct (sub_parent _ _ Hy) as [E|[z Hz]]; auto.
      pose proof (rep_parent_child _ _ _ _ _ _ Hr Hz). congruence.
    - intros E. destruct t; cbn in *; simplify_eq. tauto.
  Qed.
  Lemma whole_left w t x y : whole w t -> x ∈ preorder t -> (t_left w x = Some y <-> left_child t x y).
  Proof.
    intros [Hr Hn] (l&r&H)%preorder_sub. destruct (rep_node _ _ _ _ _ _ _ Hr H) as (El&_&_). rewrite El. split.
    - intros E. destruct l; cbn in E; simplify_eq. by exists l1, l2, r.
    - intros (a&b&c&H'). destruct (sub_unique _ _ _ _ _ _ Hn H H') as [-> _]. done.
  Qed.
  Lemma whole_right w t x y : whole w t -> x ∈ preorder t -> (t_right w x = Some y <-> right_child t x y).
  Proof.
    intros [Hr Hn] (l&r&H)%preorder_sub. destruct (rep_node _ _ _ _ _ _ _ Hr H) as (_&El&_). rewrite El. split.
    - intros E. destruct r; cbn in E; simplify_eq. by exists r1, r2, l.
    - intros (a&b&c&H'). destruct (sub_unique _ _ _ _ _ _ Hn H H') as [_ ->]. done.
  Qed.
  Lemma child_unique w t x x' y : whole w t -> child t x y -> child t x' y -> x = x'.
  Proof.
    intros [Hr Hn] H1 H2. pose proof (rep_parent_child _ _ _ _ _ _ Hr H1).
    pose proof (rep_parent_child _ _ _ _ _ _ Hr H2). congruence.
  Qed.
  Lemma sub_NoDup s t : sub s t -> NoDup (preorder t) -> NoDup (preorder s).
  Proof. induction 1; cbn; [done| |]; rewrite NoDup_cons, NoDup_app; tauto. Qed.
  Lemma left_not_right t x y : NoDup (preorder t) -> left_child t x y -> right_child t x y -> False.
  Proof.
    intros Hn (a&b&c&H1) (a'&b'&c'&H2). destruct (sub_unique _ _ _ _ _ _ Hn H1 H2) as [_ ->].
    apply (sub_NoDup _ _ H1) in Hn. cbn in Hn. rewrite NoDup_cons in Hn. destruct Hn as [_ Hn].
    apply NoDup_cons in Hn as [Hn _]. apply Hn. rewrite elem_of_app. right. cbn. left.
  Qed.

  (** * Relations *)
  Definition reads {A} (m : M (tworld T) A) w (a : A) : Prop := m w = Ok (a, w).

  Lemma IsRoot_val w x : IsRoot (Some x) w = Ok (negb (not_nil (t_parent w x)), w).
  Proof. done. Qed.
  Lemma IsLeft_val w x : IsLeft (Some x) w =
    Ok (match t_parent w x with None => false | Some p => bool_decide (t_left w p = Some x) end, w).
  Proof. unfold IsLeft, HasParent. unfold bind, ret, tget. cbn. destruct (t_parent w x) eqn:E; cbn; by rewrite ?E. Qed.
  Lemma IsRight_val w x : IsRight (Some x) w =
    Ok (match t_parent w x with None => false | Some p => bool_decide (t_right w p = Some x) end, w).
  Proof. unfold IsRight, HasParent. unfold bind, ret, tget. cbn. destruct (t_parent w x) eqn:E; cbn; by rewrite ?E. Qed.
  Lemma Sibling_val w x : Sibling (Some x) w =
    Ok (match t_parent w x with None => None
        | Some p => if bool_decide (t_left w p = Some x) then t_right w p else t_left w p end, w).
  Proof.
    unfold Sibling. unfold bind at 1. rewrite IsRoot_val. destruct (t_parent w x) as [p|] eqn:E; cbn; [|done].
    unfold bind at 1. rewrite IsLeft_val, E. case_bool_decide; unfold bind, tget; rewrite E; done.
  Qed.
  Lemma Uncle_val w x : Uncle (Some x) w =
    match t_parent w x with None => Ok (None, w) | Some p => Sibling (Some p) w end.
  Proof. unfold Uncle. unfold bind at 1. rewrite IsRoot_val. destruct (t_parent w x) as [p|] eqn:E; cbn; [|done]. unfold bind, tget. by rewrite E. Qed.
  Lemma Grandparent_val w x : Grandparent (Some x) w =
    Ok (match t_parent w x with None => None | Some p => t_parent w p end, w).
  Proof. unfold Grandparent. unfold bind at 1. rewrite IsRoot_val. destruct (t_parent w x) as [p|] eqn:E; cbn; [|done]. unfold bind, tget. by rewrite E. Qed.

  Lemma IsLeft_spec w t x : whole w t -> x ∈ preorder t ->
    exists b, reads (IsLeft (Some x)) w b /\ (b = true <-> exists p, left_child t p x).
  Proof.
    intros Hw Hx. unfold reads. rewrite IsLeft_val. eexists. split; [reflexivity|].
    destruct (t_parent w x) as [p|] eqn:E.
    - assert (Hc : child t p x) by (by apply (whole_parent w)). destruct (child_in _ _ _ Hc) as [Hp _].
      rewrite bool_decide_eq_true, (whole_left w t) by done. split; [eauto|].
      intros [q Hq]. assert (q = p) as -> by (eapply child_unique; eauto; by left). done.
    - split; [done|]. intros [q Hq]. assert (child t q x) as H by (by left).
      apply (whole_parent w) in H; [congruence|done..].
  Qed.
  Lemma IsRight_spec w t x : whole w t -> x ∈ preorder t ->
    exists b, reads (IsRight (Some x)) w b /\ (b = true <-> exists p, right_child t p x).
  Proof.
    intros Hw Hx. unfold reads. rewrite IsRight_val. eexists. split; [reflexivity|].
    destruct (t_parent w x) as [p|] eqn:E.
    - assert (Hc : child t p x) by (by apply (whole_parent w)). destruct (child_in _ _ _ Hc) as [Hp _].
      rewrite bool_decide_eq_true, (whole_right w t) by done. split; [eauto|].
      intros [q Hq]. assert (q = p) as -> by (eapply child_unique; eauto; by right). done.
    - split; [done|]. intros [q Hq]. assert (child t q x) as H by (by right).
      apply (whole_parent w) in H; [congruence|done..].
  Qed.
  Lemma Sibling_spec w t x : whole w t -> x ∈ preorder t ->
    exists s, reads (Sibling (Some x)) w s /\ (forall y, s = Some y <-> siblings t x y).
  Proof.
    intros Hw Hx. unfold reads. rewrite Sibling_val. eexists. split; [reflexivity|]. intros y.
    destruct (t_parent w x) as [p|] eqn:E.
    - assert (Hc : child t p x) by (by apply (whole_parent w)). destruct (child_in _ _ _ Hc) as [Hp _].
      case_bool_decide as H.
      + rewrite (whole_right w t) by done. apply (whole_left w t) in H; [|done..]. split.
        * intros ?. exists p. auto.
        * intros (q&[[H1 H2]|[H1 H2]]).
          -- assert (q = p) as -> by (eapply child_unique; eauto; by left). done.
          -- assert (q = p) as -> by (eapply child_unique; eauto; by right).
             destruct Hw as [_ Hn]. destruct (left_not_right t p x Hn H H1).
      + assert (~ left_child t p x) by (rewrite <- (whole_left w t); done).
        rewrite (whole_left w t) by done. split.
        * intros ?. exists p. right. split; [|done]. by destruct Hc.
        * intros (q&[[H1 H2]|[H1 H2]]).
          -- assert (q = p) as -> by (eapply child_unique; eauto; by left). done.
          -- assert (q = p) as -> by (eapply child_unique; eauto; by right). done.
    - split; [done|]. intros (q&H). assert (child t q x) as H' by (unfold child; tauto).
      apply (whole_parent w) in H'; [congruence|done..].
  Qed.
  Lemma Uncle_spec w t x : whole w t -> x ∈ preorder t ->
    exists s, reads (Uncle (Some x)) w s /\ (forall y, s = Some y <-> uncle t x y).
  Proof.
    intros Hw Hx. unfold reads. rewrite Uncle_val. destruct (t_parent w x) as [p|] eqn:E.
    - assert (Hc : child t p x) by (by apply (whole_parent w)). destruct (child_in _ _ _ Hc) as [Hp _].
      destruct (Sibling_spec w t p Hw Hp) as (s&Hs&Hs'). exists s. split; [done|]. intros y. rewrite Hs'. split.
      + intros ?. by exists p.
      + intros (q&Hq&?). assert (q = p) as -> by (eapply child_unique; eauto). done.
    - exists None. split; [done|]. intros y. split; [done|]. intros (q&Hq&_).
      apply (whole_parent w) in Hq; [congruence|done..].
  Qed.
  Lemma Grandparent_spec w t x : whole w t -> x ∈ preorder t ->
    exists s, reads (Grandparent (Some x)) w s /\ (forall y, s = Some y <-> grandparent t x y).
  Proof.
    intros Hw Hx. unfold reads. rewrite Grandparent_val. eexists. split; [reflexivity|]. intros y.
    destruct (t_parent w x) as [p|] eqn:E.
    - assert (Hc : child t p x) by (by apply (whole_parent w)). destruct (child_in _ _ _ Hc) as [Hp _].
      rewrite (whole_parent w t) by done. split.
      + intros ?. by exists p.
      + intros (q&Hq&?). assert (q = p) as -> by (eapply child_unique; eauto). done.
    - split; [done|]. intros (q&Hq&_). apply (whole_parent w) in Hq; [congruence|done..].
  Qed.
  (** The pair relations; the second node may be anything. *)
  Lemma IsLeftRelation_spec w t n x : whole w t -> x ∈ preorder t ->
    exists b, reads (IsLeftRelation (Some n) (Some x)) w b /\ (b = true <-> left_child t n x).
  Proof.
    intros Hw Hx. destruct (IsLeft_spec w t x Hw Hx) as (b&Hb&Hb'). unfold reads, IsLeftRelation in *. cbn.
    unfold bind at 1. rewrite Hb. destruct b.
    - destruct (proj1 Hb' eq_refl) as [p Hp].
      assert (E : t_parent w x = Some p) by (apply (whole_parent w t); [done|done|by left]).
      eexists. split; [reflexivity|]. rewrite E, bool_decide_eq_true. split; [congruence|].
      intros H. assert (n = p) as -> by (eapply child_unique; eauto; by left). done.
    - exists false. split; [done|]. split; [done|]. intros ?. apply Hb'. eauto.
  Qed.
  Lemma IsRightRelation_spec w t n x : whole w t -> x ∈ preorder t ->
    exists b, reads (IsRightRelation (Some n) (Some x)) w b /\ (b = true <-> right_child t n x).
  Proof.
    intros Hw Hx. destruct (IsRight_spec w t x Hw Hx) as (b&Hb&Hb'). unfold reads, IsRightRelation in *. cbn.
    unfold bind at 1. rewrite Hb. destruct b.
    - destruct (proj1 Hb' eq_refl) as [p Hp].
      assert (E : t_parent w x = Some p) by (apply (whole_parent w t); [done|done|by right]).
      eexists. split; [reflexivity|]. rewrite E, bool_decide_eq_true. split; [congruence|].
      intros H. assert (n = p) as -> by (eapply child_unique; eauto; by right). done.
    - exists false. split; [done|]. split; [done|]. intros ?. apply Hb'. eauto.
  Qed.
  Lemma IsChildRelation_spec w t n x : whole w t -> x ∈ preorder t ->
    exists b, reads (IsChildRelation (Some n) (Some x)) w b /\ (b = true <-> child t n x).
  Proof.
    intros Hw Hx. destruct (IsLeftRelation_spec w t n x Hw Hx) as (b&Hb&Hb').
    destruct (IsRightRelation_spec w t n x Hw Hx) as (c&Hc&Hc'). unfold reads, IsChildRelation, child in *.
    unfold bind at 1. rewrite Hb. destruct b; [exists true|exists c]; (split; [done|]); [tauto|].
    rewrite Hc'. split; [auto|]. intros [H|H]; [|done]. by apply Hb' in H.
  Qed.

  (** Ancestors: by induction on the depth. *)
  Lemma row_child d : forall t y, y ∈ row (S d) t -> exists x, x ∈ row d t /\ child t x y.
  Proof.
    induction d as [|d IH]; intros [|l x r] y; cbn; try set_solver.
    - intros H. exists x. split; [set_solver|]. apply elem_of_app in H as [H|H]; [left|right].
      + destruct l as [|a z b]; cbn in H; [set_solver|]. apply elem_of_list_singleton in H as ->. exists a, b, r. apply sub_here.
      + destruct r as [|a z b]; cbn in H; [set_solver|]. apply elem_of_list_singleton in H as ->. exists a, b, l. apply sub_here.
    - intros H. apply elem_of_app in H as [H|H]; destruct (IH _ _ H) as (z&Hz&Hc); exists z; (split; [cbn; set_solver|]).
      + destruct Hc as [(a&b&c&?)|(a&b&c&?)]; [left|right]; exists a, b, c; by apply sub_left.
      + destruct Hc as [(a&b&c&?)|(a&b&c&?)]; [left|right]; exists a, b, c; by apply sub_right.
  Qed.
  Lemma row_0 t x : x ∈ row 0 t <-> root t = Some x.
  Proof. destruct t; cbn; [split; [set_solver|done]|]. rewrite elem_of_list_singleton. split; congruence. Qed.
  Lemma row_in d t x : x ∈ row d t -> x ∈ preorder t.
  Proof. intros. apply row_preorder. eauto. Qed.
  Lemma below_self t x : x ∈ preorder t -> below t x x.
  Proof. intros (l&r&H)%preorder_sub. exists l, r. split; [done|]. cbn. set_solver. Qed.
  Lemma below_child w t n x y : whole w t -> child t x y -> (below t n y <-> n = y \/ below t n x).
  Proof.
    intros Hw Hc. split.
    - intros (l&r&Hs&Hy). cbn in Hy. apply elem_of_cons in Hy as [->|Hy]; [auto|]. right.
      assert (exists z, child (Node l n r) z y) as [z Hz].
      { destruct (sub_parent (Node l n r) y) as [E|?]; [cbn; set_solver| |done].
        exfalso. destruct Hw as [_ Hn]. cbn in E. simplify_eq.
        pose proof (sub_NoDup _ _ Hs Hn) as Hn'.
        cbn in Hn'. apply NoDup_cons in Hn' as [? _]. done. }
      assert (child t z y) as Hz'.
      { destruct Hz as [(a&b&c&?)|(a&b&c&?)]; [left|right]; exists a, b, c; eapply sub_trans; eauto. }
      assert (x = z) as -> by (eapply child_unique; eauto).
      exists l, r. split; [done|]. by apply (child_in _ _ _ Hz).
    - intros [->|(l&r&Hs&Hx)].
      + apply below_self. by apply (child_in _ _ _ Hc).
      + exists l, r. split; [done|]. apply preorder_sub in Hx as (a&b&Hab).
        destruct Hw as [_ Hn]. destruct Hc as [(l1&r1&c&H)|(l1&r1&c&H)].
        * destruct (sub_unique _ _ _ _ _ _ Hn H (sub_trans _ _ _ Hab Hs)) as [<- <-].
          apply sub_preorder in Hab. apply Hab. cbn. set_solver.
        * destruct (sub_unique _ _ _ _ _ _ Hn H (sub_trans _ _ _ Hab Hs)) as [<- <-].
          apply sub_preorder in Hab. apply Hab. cbn. set_solver.
  Qed.
  Lemma anc_loop_spec w t n : whole w t -> forall d y fuel, y ∈ row d t -> d + 1 < fuel ->
    exists b, reads (anc_loop fuel (Some n) (Some y)) w b /\ (b = true <-> below t n y).
  Proof.
    intros Hw d. induction d as [|d IH]; intros y [|fuel] Hy Hf; try lia; cbn.
    - case_bool_decide as E; simplify_eq.
      + exists true. split; [done|]. split; [|done]. intros _. apply below_self. by eapply row_in.
      + exists false. unfold reads, bind, tget. destruct fuel as [|fuel]; [lia|].
        assert (Hp : t_parent w y = None). { apply (whole_root w t); [done|by eapply row_in|by apply row_0]. }
        rewrite Hp. split; [done|]. split; [done|]. intros (l&r&Hs&Hb).
        cbn in Hb. apply elem_of_cons in Hb as [->|Hb]; [done|]. exfalso.
        assert (child (Node l n r) n y \/ exists z, child (Node l n r) z y) as Hz.
        { destruct (sub_parent (Node l n r) y) as [E'|?]; [cbn; set_solver| |eauto]. cbn in E'. congruence. }
        assert (exists z, child t z y) as [z Hz'].
        { destruct Hz as [Hz|[z Hz]]; eexists; (destruct Hz as [(a&b&c&?)|(a&b&c&?)]; [left|right]; exists a, b, c; eapply sub_trans; eauto). }
        apply (whole_parent w t) in Hz'; [congruence|done|by eapply row_in].
    - destruct (row_child _ _ _ Hy) as (x&Hx&Hc).
      case_bool_decide as E; simplify_eq.
      + exists true. split; [done|]. split; [|done]. intros _. apply below_self. by eapply row_in.
      + destruct (IH x fuel Hx) as (b&Hb&Hb'); [lia|]. exists b. unfold reads, bind, tget in *.
        assert (Hp : t_parent w y = Some x). { apply (whole_parent w t); [done|by eapply row_in|done]. }
        rewrite Hp. split; [done|]. rewrite Hb', (below_child w t n x y) by done.
        split; [auto|]. intros [->|?]; [congruence|done].
  Qed.
  Lemma row_depth t d x : x ∈ row d t -> d < size t.
  Proof.
    intros H. pose proof (rows_size t). assert (d < rows t); [|lia]. apply row_lt. intros E. rewrite E in H. set_solver.
  Qed.
  Lemma IsAncestor_spec w t n y fuel : whole w t -> y ∈ preorder t -> size t < fuel ->
    exists b, reads (IsAncestorRelation fuel (Some n) (Some y)) w b /\ (b = true <-> below t n y).
  Proof.
    intros Hw Hy Hf. apply row_preorder in Hy as [d Hd]. pose proof (row_depth _ _ _ Hd).
    apply (anc_loop_spec w t n Hw d y fuel Hd). lia.
  Qed.
  Lemma IsAncestor_nil w t y fuel : whole w t -> y ∈ preorder t -> size t < fuel ->
    reads (IsAncestorRelation fuel None (Some y)) w false.
  Proof.
    intros Hw Hy Hf. apply row_preorder in Hy as [d Hd]. pose proof (row_depth _ _ _ Hd).
    unfold IsAncestorRelation. cbn. assert (d + 1 < fuel) as Hf' by lia. clear Hf H. revert y fuel Hd Hf'.
    induction d as [|d IH]; intros y [|fuel] Hy Hf; try lia; cbn; rewrite bool_decide_eq_false_2 by done; unfold reads, bind, tget.
    - destruct fuel as [|fuel]; [lia|].
      assert (Hp : t_parent w y = None). { apply (whole_root w t); [done|by eapply row_in|by apply row_0]. }
      by rewrite Hp.
    - destruct (row_child _ _ _ Hy) as (x&Hx&Hc).
      assert (Hp : t_parent w y = Some x). { apply (whole_parent w t); [done|by eapply row_in|done]. }
      rewrite Hp. apply IH; [done|lia].
  Qed.
  Lemma IsDescendant_exact w t n y fuel : whole w t -> n ∈ preorder t -> size t < fuel ->
    exists b, reads (IsDescendantRelation fuel (Some n) (Some y)) w b /\ (b = true <-> ~ below t y n).
  Proof.
    intros Hw Hn Hf. destruct (IsAncestor_spec w t y n fuel Hw Hn Hf) as (b&Hb&Hb').
    exists (negb b). unfold IsDescendantRelation, reads, bind in *. rewrite Hb. split; [done|].
    rewrite <- Hb'. destruct b; cbn; split; congruence.
  Qed.

  (** * Layer and MaxDepth *)
  Lemma Layer_spec w t : whole w t -> forall d x fuel, x ∈ row d t -> d < fuel ->
    reads (Layer fuel (Some x)) w (Z.of_nat d).
  Proof.
    intros Hw d. induction d as [|d IH]; intros x [|fuel] Hx Hf; try lia; cbn; unfold reads; unfold bind at 1; rewrite IsRoot_val.
    - assert (Hp : t_parent w x = None). { apply (whole_root w t); [done|by eapply row_in|by apply row_0]. }
      by rewrite Hp.
    - destruct (row_child _ _ _ Hx) as (p&Hp&Hc).
      assert (E : t_parent w x = Some p). { apply (whole_parent w t); [done|by eapply row_in|done]. }
      rewrite E. cbn. unfold bind, tget. rewrite E, (IH p fuel Hp) by lia. unfold ret. repeat f_equal. lia.
  Qed.
  Lemma IsLeaf_val w x : IsLeaf (Some x) w = Ok (negb (not_nil (t_left w x) || not_nil (t_right w x)), w).
  Proof. unfold IsLeaf, HasChild, HasLeft, HasRight, bind, tget, ret. by destruct (t_left w x). Qed.
  Lemma MaxDepth_spec w t : forall p fuel, rep w p (root t) t -> rows t < fuel ->
    reads (MaxDepth fuel (root t)) w (Z.of_nat (rows t - 1)).
  Proof.
    induction t as [|l IHl x r IHr]; intros p [|fuel] Hr Hf; cbn in *; try lia; [done|].
    destruct Hr as (_&_&Hl&Hr). unfold reads. unfold bind at 1. rewrite IsLeaf_val.
    pose proof (rep_root _ _ _ _ Hl) as El. pose proof (rep_root _ _ _ _ Hr) as Er. rewrite El in Hl. rewrite Er in Hr.
    assert (IL := IHl _ fuel Hl). assert (IR := IHr _ fuel Hr). unfold reads in *. rewrite El, Er.
    destruct (negb _) eqn:E.
    - unfold ret. repeat f_equal. destruct l, r; cbn in *; try done.
    - unfold bind, tget. rewrite El, IL by lia. rewrite Er, IR by lia. unfold ret, go_max. do 2 f_equal.
      destruct l, r; cbn in *; try done; destruct (_ >? _)%Z eqn:G; lia.
  Qed.

  (** * Traversals *)
  Fixpoint forest_pre (ts : list btree) : list nat := match ts with [] => [] | t :: ts => preorder t ++ forest_pre ts end.
  Fixpoint forest_size (ts : list btree) : nat := match ts with [] => 0 | t :: ts => size t + forest_size ts end.
  Lemma dfs_loop_spec w fuel : forall ts res,
    (forall t, t ∈ ts -> t <> Leaf /\ exists p, rep w p (root t) t) -> forest_size ts <= fuel ->
    reads (dfs_loop fuel (map root ts) res) w (res ++ map Some (forest_pre ts)).
  Proof.
    induction fuel as [|fuel IH]; intros [|t ts] res Hts Hf; cbn; try (by rewrite app_nil_r).
    - exfalso. destruct t; cbn in Hf; [|lia]. destruct (Hts Leaf) as [? _]; [set_solver|done].
    - destruct (Hts t) as (Ht&p&Hp); [set_solver|]. destruct t as [|l x r]; [done|]. cbn [root].
      cbn in Hp. destruct Hp as (_&_&Hl&Hr).
      pose proof (rep_root _ _ _ _ Hl) as El. pose proof (rep_root _ _ _ _ Hr) as Er.
      rewrite El in Hl. rewrite Er in Hr.
      assert (K : forall ts', ts' = opt_tree l ++ opt_tree r ++ ts ->
        reads (dfs_loop fuel (map root ts') (res ++ [Some x])) w (res ++ map Some (preorder (Node l x r) ++ forest_pre ts))).
      { intros ts' ->. assert (Hts' : forall t, t ∈ opt_tree l ++ opt_tree r ++ ts -> t <> Leaf /\ exists p, rep w p (root t) t).
        { intros t Ht'. rewrite !elem_of_app in Ht'. destruct Ht' as [H|[H|H]].
          - destruct l; cbn [opt_tree] in H; [set_solver|]. apply elem_of_list_singleton in H as ->. split; [done|eauto].
          - destruct r; cbn [opt_tree] in H; [set_solver|]. apply elem_of_list_singleton in H as ->. split; [done|eauto].
          - apply Hts. set_solver. }
        replace (res ++ map Some (preorder (Node l x r) ++ forest_pre ts))
          with ((res ++ [Some x]) ++ map Some (forest_pre (opt_tree l ++ opt_tree r ++ ts))).
        { apply IH; [done|]. cbn in Hf. destruct l, r; cbn in *; lia. }
        rewrite <- app_assoc. cbn. do 2 f_equal. f_equal. destruct l, r; cbn; rewrite ?app_nil_r, <- ?app_assoc; cbn; rewrite <- ?app_assoc; done. }
      specialize (K _ eq_refl). unfold reads in *. unfold HasLeft, HasRight, bind, tget, ret. rewrite Er.
      destruct r; cbn [not_nil root]; rewrite ?Er; cbn [root]; rewrite ?El; destruct l; cbn [not_nil root]; rewrite ?El; exact K.
  Qed.
  Lemma TraversalDFS_spec w t fuel : t <> Leaf -> (exists p, rep w p (root t) t) -> size t <= fuel ->
    reads (TraversalDFS fuel (root t)) w (map Some (preorder t)).
  Proof.
    intros Ht Hr Hf. unfold TraversalDFS, reads. destruct t as [|l x r]; [done|]. cbn [root].
    unfold bind at 1. rewrite IsLeaf_val. destruct (negb _) eqn:E.
    - destruct Hr as [p (_&_&Hl&Hr)]. rewrite (rep_root _ _ _ _ Hl), (rep_root _ _ _ _ Hr) in E.
      destruct l, r; cbn in *; done.
    - assert (H := dfs_loop_spec w fuel [Node l x r] []). cbn [map root] in H. unfold reads in H. rewrite H.
      + cbn. rewrite app_nil_r. done.
      + intros t Ht'. apply elem_of_list_singleton in Ht' as ->. auto.
      + cbn in *. lia.
  Qed.

  (** BFS: [val] below [level] grows by the rows of the subtree. *)
  Definition put_rows (val : list (list (option nat))) (level : nat) (rs : list (list nat)) : list (list (option nat)) :=
    take level val ++ (fix go (a : list (list (option nat))) (b : list (list nat)) := match a, b with
      | a, [] => a | [], b => map (map Some) b | x :: a, y :: b => (x ++ map Some y) :: go a b end) (drop level val) rs.
  Definition zip_some := (fix go (a : list (list (option nat))) (b : list (list nat)) := match a, b with
      | a, [] => a | [], b => map (map Some) b | x :: a, y :: b => (x ++ map Some y) :: go a b end).
  Lemma zip_some_nil a : zip_some a [] = a.
  Proof. by destruct a. Qed.
  Lemma zip_some_zip a : forall b c, zip_some (zip_some a b) c = zip_some a (zip_rows b c).
  Proof.
    induction a as [|x a IH]; intros [|y b] [|z c]; cbn; try done.
    - rewrite map_app. f_equal. clear. revert c. induction b as [|y b IH]; intros [|z c]; cbn; try done.
      rewrite map_app. f_equal. apply IH.
    - rewrite IH, map_app, app_assoc. done.
  Qed.
  Lemma put_rows_nil val level : put_rows val level [] = val.
  Proof. unfold put_rows. fold zip_some. rewrite zip_some_nil. apply take_drop. Qed.
  Lemma zip_some_length a b : length (zip_some a b) = Nat.max (length a) (length b).
  Proof. revert b. induction a; intros []; cbn; rewrite ?map_length; auto. Qed.
  Lemma put_rows_length val level rs : level <= length val -> level <= length (put_rows val level rs).
  Proof. intros. unfold put_rows. rewrite app_length, take_length. lia. Qed.
  Lemma put_rows_put val level a b : level <= length val ->
    put_rows (put_rows val level a) level b = put_rows val level (zip_rows a b).
  Proof.
    intros H. unfold put_rows. fold zip_some.
    assert (length (take level val) = level) by (rewrite take_length; lia).
    rewrite take_app_alt, drop_app_alt by done. by rewrite zip_some_zip.
  Qed.
  Lemma put_rows_cons val level x rs :
    level <= length val ->
    put_rows val level ([x] :: rs) = put_rows (put_rows val level [[x]]) (S level) rs.
  Proof.
    intros H. unfold put_rows. fold zip_some.
    assert (Hl : length (take level val) = level) by (rewrite take_length; lia).
    destruct (drop level val) as [|v vs] eqn:E.
    - cbn. rewrite (take_ge (take level val ++ _)) by (rewrite app_length; cbn; lia). rewrite (drop_ge (take level val ++ _)) by (rewrite app_length; cbn; lia).
      rewrite <- app_assoc. cbn. by destruct rs.
    - cbn. rewrite zip_some_nil.
      replace (take level val ++ (v ++ [Some x]) :: vs) with ((take level val ++ [v ++ [Some x]]) ++ vs) by (by rewrite <- app_assoc).
      assert (length (take level val ++ [v ++ [Some x]]) = S level) by (rewrite app_length; cbn; lia).
      rewrite take_app_alt, drop_app_alt by done. rewrite <- app_assoc. done.
  Qed.
  Lemma bfs_rec_spec w t : forall p fuel val level, rep w p (root t) t -> rows t < fuel -> level <= length val ->
    reads (bfs_rec fuel (root t) val level) w (put_rows val level (all_rows t)).
  Proof.
    induction t as [|l IHl x r IHr]; intros p [|fuel] val level Hr Hf Hlev; cbn [root]; cbn [rows] in Hf; try lia.
    - cbn. rewrite put_rows_nil. done.
    - destruct Hr as (_&_&Hl&Hr). pose proof (rep_root _ _ _ _ Hl) as El. pose proof (rep_root _ _ _ _ Hr) as Er.
      rewrite El in Hl. rewrite Er in Hr. cbn [bfs_rec].
      assert (E1 : (if Nat.eqb (length val) level then ret (val ++ [[Some x]])
         else match val !! level with
              | Some row => ret (<[level:=row ++ [Some x]]> val) | None => panic end) w
         = Ok (put_rows val level [[x]], w)).
      { unfold put_rows. destruct (Nat.eqb_spec (length val) level) as [E|E].
        - rewrite drop_ge, take_ge by lia. done.
        - assert (H : level < length val) by lia. apply lookup_lt_is_Some in H as [v Hv]. rewrite Hv.
          rewrite (drop_S _ v) by done. unfold ret. do 2 f_equal.
          rewrite insert_take_drop by (by eapply lookup_lt_Some). cbn. by destruct (drop (S level) val). }
      unfold reads. unfold bind at 1. rewrite E1. unfold bind at 1, tget. rewrite El. unfold bind at 1.
      assert (Hlen : S level <= length (put_rows val level [[x]])).
      { unfold put_rows. fold zip_some. rewrite app_length, take_length, zip_some_length, drop_length. cbn. lia. }
      rewrite (IHl _ fuel _ (S level) Hl) by lia. unfold bind, tget. rewrite Er.
      rewrite (IHr _ fuel _ (S level) Hr); [|lia|by apply put_rows_length].
      rewrite put_rows_put by done. rewrite all_rows_node, <- put_rows_cons by done. done.
  Qed.
  Lemma TraversalBFS_spec w t fuel : (exists p, rep w p (root t) t) -> size t < fuel ->
    reads (TraversalBFS fuel (root t)) w (map Some (level_order t)).
  Proof.
    intros [p Hr] Hf. unfold TraversalBFS, reads, bind. pose proof (rows_size t).
    rewrite (bfs_rec_spec w t p fuel [] 0 Hr) by (cbn; lia). unfold ret. do 2 f_equal.
    unfold level_order. fold (all_rows t). unfold put_rows. cbn.
    destruct (all_rows t); [done|]. by rewrite concat_map.
  Qed.

  (** * DrawTree *)
  Lemma draw_loop_lines w (xs : list nat) : forall layer count out fuel done,
    1 <= layer -> count = length done -> count < 2 * layer -> length done + length xs < fuel ->
    exists out', reads (draw_loop (map Some xs) (Z.of_nat layer) (Z.of_nat count) (out ++ flat_map (fun v => [PVal v; PTab]) done)) w (out ++ out') /\
      out' = lines fuel layer (done ++ map (t_val w) xs).
  Proof.
    induction xs as [|x xs IH]; intros layer count out fuel dn Hl Hc Hlt Hf.
    - cbn. eexists. split; [reflexivity|]. rewrite app_nil_r. destruct fuel as [|fuel]; [lia|]. cbn [lines].
      destruct (Nat.ltb_spec (length dn) (2 * layer)); [done|lia].
    - cbn [map draw_loop]. unfold reads, bind at 1, tget.
      replace (Z.of_nat layer =? 0)%Z with false by lia.
      replace ((out ++ flat_map (fun v => [PVal v; PTab]) dn) ++ [PVal (t_val w x); PTab])
        with (out ++ flat_map (fun v => [PVal v; PTab]) (dn ++ [t_val w x])) by (by rewrite flat_map_app, app_assoc).
      destruct (_ =? _)%Z eqn:E.
      + destruct fuel as [|fuel]; [lia|].
        replace (Z.of_nat layer + 1)%Z with (Z.of_nat (S layer)) by lia. change 0%Z with (Z.of_nat 0).
        destruct (IH (S layer) 0 ((out ++ flat_map (fun v => [PVal v; PTab]) (dn ++ [t_val w x])) ++ [PNewline]) fuel []) as (o&H1&H2); [lia|done|lia|cbn in *; lia|].
        cbn [flat_map] in H1. rewrite app_nil_r in H1. unfold reads in H1. rewrite H1.
        eexists. split; [rewrite <- !app_assoc; reflexivity|]. rewrite H2.
        assert (length (dn ++ [t_val w x]) = 2 * layer) as EL by (rewrite app_length; cbn; lia).
        cbn [lines]. replace (dn ++ t_val w x :: map (t_val w) xs) with ((dn ++ [t_val w x]) ++ map (t_val w) xs) by (by rewrite <- app_assoc).
        rewrite take_app_alt, drop_app_alt by done.
        destruct (Nat.ltb_spec (length ((dn ++ [t_val w x]) ++ map (t_val w) xs)) (2 * layer)) as [HH|HH]; [rewrite app_length, EL in HH; lia|]. done.
      + destruct (IH layer (S count) out fuel (dn ++ [t_val w x])) as (o&H1&H2); [lia|rewrite app_length; cbn; lia|lia|rewrite app_length; cbn in *; lia|].
        replace (Z.of_nat count + 1)%Z with (Z.of_nat (S count)) by lia.
        unfold reads in H1. rewrite H1. eexists. split; [reflexivity|]. rewrite H2. rewrite <- app_assoc. done.
  Qed.
  Lemma DrawTree_spec w t fuel : (exists p, rep w p (root t) t) -> size t < fuel ->
    reads (DrawTree fuel (root t)) w (drawn (map (t_val w) (level_order t))).
  Proof.
    intros Hr Hf. unfold DrawTree, reads, bind. rewrite (TraversalBFS_spec w t fuel Hr Hf).
    destruct (level_order t) as [|x xs] eqn:E; [done|]. cbn [map draw_loop]. unfold bind at 1, tget. cbn [Z.eqb].
    destruct (draw_loop_lines w xs 1 0 [PVal (t_val w x); PNewline] (S (length xs)) []) as (o&H1&H2); [lia|done|lia|cbn; lia|].
    cbn [flat_map app] in H1. unfold reads in H1. cbn [app]. change (0 + 1)%Z with (Z.of_nat 1). change 0%Z with (Z.of_nat 0).
    rewrite H1, H2. cbn. rewrite map_length. done.
  Qed.
End proofs.
