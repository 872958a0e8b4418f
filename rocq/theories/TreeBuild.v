From Coq Require Import ZifyBool ZifyNat.
From Verif Require Import Base TreeModel TreeSpec TreeProofs.

Section set.
  Context {T : Type}.
  Implicit Types (w : tworld T).

  Definition t_child (lft : bool) w (n : nat) : option nat := if lft then t_left w n else t_right w n.
  Definition set_child (lft : bool) (n : nat) (c : option nat) w : tworld T :=
    let p1 := match t_child lft w n with Some o => <[o:=None]> (t_parent w) | None => t_parent w end in
    let p2 := match c with Some c => <[c:=Some n]> p1 | None => p1 end in
    mk_tworld (t_val w) p2 (if lft then <[n:=c]> (t_left w) else t_left w)
      (if lft then t_right w else <[n:=c]> (t_right w)) (t_n w).
  Lemma SetLeft_eq n c w : SetLeft (Some n) c w = Ok (t_left w n, set_child true n c w).
  Proof. unfold SetLeft, set_child, bind, tget, ret. cbn. destruct (t_left w n) eqn:E, c; cbn; rewrite ?E; done. Qed.
  Lemma SetRight_eq n c w : SetRight (Some n) c w = Ok (t_right w n, set_child false n c w).
  Proof. unfold SetRight, set_child, bind, tget, ret. cbn. destruct (t_right w n) eqn:E, c; cbn; rewrite ?E; done. Qed.

  (** Frames *)
  Definition same_at w w' (x : nat) : Prop :=
    t_parent w' x = t_parent w x /\ t_left w' x = t_left w x /\ t_right w' x = t_right w x.
  Lemma rep_frame w w' t : forall p n, rep w p n t -> (forall x, x ∈ preorder t -> same_at w w' x) -> rep w' p n t.
  Proof.
    induction t as [|l IHl x r IHr]; intros p n; cbn; [done|]. intros (->&Hp&Hl&Hr) Hf.
    destruct (Hf x) as (E1&E2&E3); [set_solver|]. rewrite E1, E2, E3. split; [done|]. split; [done|].
    split; [apply IHl|apply IHr]; auto; intros; apply Hf; set_solver.
  Qed.
  (** The same with a new parent for the root. *)
  Lemma rep_reparent w w' t p q n : rep w p n t -> NoDup (preorder t) ->
    (forall x, x ∈ preorder t -> t_left w' x = t_left w x /\ t_right w' x = t_right w x /\
       (root t <> Some x -> t_parent w' x = t_parent w x)) ->
    (forall x, root t = Some x -> t_parent w' x = q) ->
    rep w' q n t.
  Proof.
    destruct t as [|l x r]; cbn; [done|]. intros (->&Hp&Hl&Hr) Hn Hf Hq.
    apply NoDup_cons in Hn as [Hx Hn].
    destruct (Hf x) as (E2&E3&_); [set_solver|]. rewrite E2, E3, (Hq x eq_refl). split; [done|]. split; [done|].
    rewrite elem_of_app in Hx.
    split; eapply rep_frame; eauto; intros y Hy;
      (destruct (Hf y) as (?&?&E); [rewrite elem_of_cons, elem_of_app; tauto|]);
      (split; [apply E; intros [= ->]; tauto|done]).
  Qed.

  (** [put] *)
  Lemma put_perm b n t : NoDup (preorder t) ->
    n ∈ preorder t -> forall s, preorder (put b n s t) ++ preorder (child_of b n t) ≡ₚ preorder t ++ preorder s.
  Proof.
    induction t as [|l IHl x r IHr]; cbn; intros Hn Hin s; [set_solver|].
    rewrite NoDup_cons, NoDup_app in Hn. destruct Hn as (Hx&Hl&Hlr&Hr).
    destruct (Nat.eqb_spec x n) as [->|E].
    - destruct b; cbn; solve_Permutation.
    - assert (Hno : forall t', n ∉ preorder t' -> put b n s t' = t' /\ child_of b n t' = Leaf).
      { clear. induction t' as [|l IHl x r IHr]; cbn; [done|]. intros H.
        destruct (Nat.eqb_spec x n); [subst; destruct H; left|]. rewrite elem_of_cons, elem_of_app in H. destruct IHl as [-> ->]; [tauto|]. destruct IHr as [-> ->]; [tauto|]. done. }
      cbn. apply elem_of_cons in Hin as [->|Hin]; [done|]. apply elem_of_app in Hin as [Hin|Hin].
      + destruct (Hno r) as [-> ->]; [set_solver|]. specialize (IHl Hl Hin s).
        replace (match child_of b n l with Leaf => Leaf | Node a y c => Node a y c end) with (child_of b n l) by (by destruct (child_of b n l)).
        rewrite <- Permutation_middle || idtac.
        transitivity (x :: (preorder (put b n s l) ++ preorder (child_of b n l)) ++ preorder r); [solve_Permutation|].
        rewrite IHl. solve_Permutation.
      + destruct (Hno l) as [-> ->]; [set_solver|]. specialize (IHr Hr Hin s).
        transitivity (x :: preorder l ++ (preorder (put b n s r) ++ preorder (child_of b n r))); [solve_Permutation|].
        rewrite IHr. solve_Permutation.
  Qed.
  Lemma put_notin b n s t : n ∉ preorder t -> put b n s t = t.
  Proof.
    induction t as [|l IHl x r IHr]; cbn; [done|]. intros H.
    destruct (Nat.eqb_spec x n); [set_solver|]. rewrite IHl, IHr by set_solver. done.
  Qed.
  Lemma root_put b n s t : root (put b n s t) = root t.
  Proof. destruct t; cbn; [done|]. destruct (Nat.eqb _ _), b; done. Qed.
  Lemma rep_put b w w' n s t : forall p q, rep w p q t ->
    rep w' (Some n) (root s) s -> t_child b w' n = root s -> t_child (negb b) w' n = t_child (negb b) w n ->
    t_parent w' n = t_parent w n ->
    (forall x, x ∈ preorder (put b n Leaf t) -> x <> n -> same_at w w' x) ->
    NoDup (preorder t) ->
    rep w' p q (put b n s t).
  Proof.
    induction t as [|l IHl x r IHr]; intros p q Hr Hs Ec Eo Ep Hf Hn; [done|].
    cbn in Hr. destruct Hr as (->&Hp&Hl&Hr). cbn in Hn. rewrite NoDup_cons, NoDup_app in Hn. destruct Hn as (Hx&Hnl&Hlr&Hnr).
    cbn in Hf |- *. destruct (Nat.eqb_spec x n) as [->|E].
    - destruct b; cbn in *; (split; [done|]); (split; [congruence|]); rewrite Ec, Eo; (split; [|]); try done.
      + eapply rep_frame; [exact Hr|]. intros y Hy. apply Hf; set_solver.
      + eapply rep_frame; [exact Hl|]. intros y Hy. apply Hf; set_solver.
    - cbn in Hf. destruct (Hf x) as (E1&E2&E3); [set_solver|done|]. cbn. rewrite E1, E2, E3.
      split; [done|]. split; [done|]. split.
      + apply IHl; auto. intros y Hy ?. apply Hf; set_solver.
      + apply IHr; auto. intros y Hy ?. apply Hf; set_solver.
  Qed.
  Lemma child_of_sub b n t : n ∈ preorder t -> NoDup (preorder t) ->
    exists l r, sub (Node l n r) t /\ child_of b n t = if b then l else r.
  Proof.
    intros Hin Hn. induction t as [|l IHl x r IHr]; cbn in *; [set_solver|].
    rewrite NoDup_cons, NoDup_app in Hn. destruct Hn as (Hx&Hnl&Hlr&Hnr).
    destruct (Nat.eqb_spec x n) as [->|E]; [exists l, r; split; [apply sub_here|done]|].
    apply elem_of_cons in Hin as [->|Hin]; [done|]. apply elem_of_app in Hin as [Hin|Hin].
    - destruct (IHl Hin Hnl) as (a&c&Hs&E'). exists a, c. split; [by apply sub_left|].
      destruct (child_of b n l) eqn:E2; [|done]. rewrite <- E'.
      assert (Hnr' : n ∉ preorder r) by set_solver. revert Hnr'. clear. induction r as [|l IHl x r IHr]; cbn; [done|]. intros H.
      destruct (Nat.eqb_spec x n); [set_solver|]. rewrite IHl, IHr by set_solver. done.
    - destruct (IHr Hin Hnr) as (a&c&Hs&E'). exists a, c. split; [by apply sub_right|].
      assert (child_of b n l = Leaf) as ->; [|done].
      assert (Hnl' : n ∉ preorder l) by set_solver. revert Hnl'. clear. induction l as [|l IHl x r IHr]; cbn; [done|]. intros H.
      destruct (Nat.eqb_spec x n); [set_solver|]. rewrite IHl, IHr by set_solver. done.
  Qed.
  Lemma child_of_rep b w n t p q : rep w p q t -> NoDup (preorder t) -> n ∈ preorder t ->
    t_child b w n = root (child_of b n t) /\ rep w (Some n) (root (child_of b n t)) (child_of b n t).
  Proof.
    intros Hr Hn Hin. destruct (child_of_sub b n t Hin Hn) as (l&r&Hs&->).
    destruct (rep_node _ _ _ _ _ _ _ Hr Hs) as (?&?&?&?). destruct b; done.
  Qed.

  Lemma concat_opt (t : btree) : concat (map preorder (opt_tree t)) = preorder t.
  Proof. destruct t; cbn; rewrite ?app_nil_r; done. Qed.

  (** Attaching [t2] (or nil, when [t2] is Leaf) under [n] of [t1]. *)
  Lemma set_child_forest b w n t1 t2 ts : forest w (t1 :: opt_tree t2 ++ ts) -> n ∈ preorder t1 ->
    forest (set_child b n (root t2) w) (put b n t2 t1 :: opt_tree (child_of b n t1) ++ ts).
  Proof.
    intros (Hr&Hn&Hall) Hin.
    assert (Hn1 : NoDup (preorder t1)). { cbn in Hn. apply NoDup_app in Hn. tauto. }
    cbn in Hn. rewrite map_app, concat_app, concat_opt in Hn.
    assert (Hr1 : rep w None (root t1) t1) by (apply Hr; left).
    destruct (child_of_rep b w n t1 _ _ Hr1 Hn1 Hin) as [Ec Hold].
    set (o := child_of b n t1) in *.
    pose proof (put_perm b n t1 Hn1 Hin) as Hperm. fold o in Hperm.
    set (w' := set_child b n (root t2) w).
    assert (Hin0 : forall x, x ∈ preorder (put b n Leaf t1) -> x ∈ preorder t1).
    { intros x Hx. specialize (Hperm Leaf). cbn in Hperm. rewrite app_nil_r in Hperm. rewrite <- Hperm, elem_of_app. auto. }
    assert (HPn0 : NoDup (preorder (put b n Leaf t1) ++ preorder o)).
    { rewrite (Hperm Leaf). cbn. by rewrite app_nil_r. }
    rewrite !NoDup_app in Hn. destruct Hn as (_&H12&Hn2&H23&Hns).
    assert (Hsame : forall x, x <> n -> root o <> Some x -> root t2 <> Some x -> same_at w w' x).
    { intros x Hxn Hxo Hx2. unfold w', set_child, same_at. cbn. rewrite Ec.
      split; [|by destruct b; cbn; rewrite ?fn_lookup_insert_ne by congruence].
      destruct (root t2); [rewrite fn_lookup_insert_ne by congruence|];
        (destruct (root o); [rewrite fn_lookup_insert_ne by congruence|]; done). }
    assert (Hno : n ∉ preorder o).
    { destruct (child_of_sub b n t1 Hin Hn1) as (l&r&Hs&E). fold o in E.
      apply (sub_NoDup _ _ Hs) in Hn1. cbn in Hn1. apply NoDup_cons in Hn1 as [Hn1 _]. rewrite E. destruct b; set_solver. }
    assert (Hroot : forall (t : btree) x, root t = Some x -> x ∈ preorder t).
    { intros [|? z ?] x; cbn; [done|]. intros [= ->]. left. }
    assert (Ho1 : forall x, x ∈ preorder o -> x ∈ preorder t1).
    { intros x Hx. specialize (Hperm Leaf). cbn in Hperm. rewrite app_nil_r in Hperm. rewrite <- Hperm, elem_of_app. auto. }
    assert (D2 : forall x, x ∈ preorder t1 -> x ∉ preorder t2).
    { intros x Hx Hx2. eapply H12; [done|]. rewrite elem_of_app. auto. }
    assert (Ds : forall x, x ∈ preorder t1 -> x ∉ concat (map preorder ts)).
    { intros x Hx Hx2. eapply H12; [done|]. rewrite elem_of_app. auto. }
    assert (Hn2' : n ∉ preorder t2) by auto.
    assert (R2 : rep w' (Some n) (root t2) t2).
    { assert (rep w None (root t2) t2) by (destruct t2; [done|apply Hr; right; left]).
      eapply (rep_reparent w w' t2 None); [done|done| |].
      - intros x Hx.
        assert (x <> n) by congruence.
        assert (root o <> Some x). { intros ?%Hroot%Ho1. by eapply D2. }
        split; [|split].
        + unfold w', set_child. cbn. destruct b; [by rewrite fn_lookup_insert_ne by congruence|done].
        + unfold w', set_child. cbn. destruct b; [done|by rewrite fn_lookup_insert_ne by congruence].
        + intros. by apply Hsame.
      - intros x Hx. unfold w', set_child. cbn. rewrite Hx, fn_lookup_insert. done. }
    assert (Ro : rep w' None (root o) o).
    { eapply (rep_reparent w w' o (Some n)); [done| | |].
      - apply NoDup_app in HPn0. tauto.
      - intros x Hx.
        assert (x <> n) by congruence.
        assert (root t2 <> Some x). { intros ?%Hroot. by eapply D2; [apply Ho1|]. }
        split; [|split].
        + unfold w', set_child. cbn. destruct b; [by rewrite fn_lookup_insert_ne by congruence|done].
        + unfold w', set_child. cbn. destruct b; [done|by rewrite fn_lookup_insert_ne by congruence].
        + intros. by apply Hsame.
      - intros x Hx. unfold w', set_child. cbn. rewrite Ec, Hx.
        destruct (root t2) as [y|] eqn:Ey; [|by rewrite fn_lookup_insert].
        rewrite fn_lookup_insert_ne, fn_lookup_insert; [done|]. intros ->. apply Hroot in Ey, Hx. by eapply D2; [apply Ho1|]. }
    assert (R1 : rep w' None (root t1) (put b n t2 t1)).
    { apply (rep_put b w w' n t2 t1 _ _ Hr1 R2); [| | | |done].
      - unfold w', set_child, t_child. cbn. destruct b; by rewrite fn_lookup_insert.
      - unfold w', set_child, t_child. cbn. by destruct b.
      - unfold w', set_child. cbn. rewrite Ec.
        destruct (root t2) as [y|] eqn:Ey; [rewrite fn_lookup_insert_ne by (intros ->; by apply Hroot in Ey)|];
          (destruct (root o) as [z|] eqn:Ez; [rewrite fn_lookup_insert_ne by (intros ->; by apply Hroot in Ez)|]; done).
      - intros x Hx Hxn. apply Hsame; [done| |].
        + intros ?%Hroot. apply NoDup_app in HPn0 as (_&HH&_). by eapply HH.
        + intros ?%Hroot. apply Hin0 in Hx. by eapply D2. }
    assert (HP : concat (map preorder (put b n t2 t1 :: opt_tree o ++ ts)) ≡ₚ concat (map preorder (t1 :: opt_tree t2 ++ ts))).
    { cbn. rewrite !map_app, !concat_app, !concat_opt, !app_assoc, Hperm. done. }
    split; [|split].
    - intros t Ht. apply elem_of_cons in Ht as [->|Ht].
      + split; [|by rewrite root_put]. destruct t1; cbn in *; [set_solver|]. destruct (Nat.eqb _ _), b; done.
      + apply elem_of_app in Ht as [Ht|Ht].
        * destruct o eqn:Eo; cbn in Ht; [set_solver|]. apply elem_of_list_singleton in Ht as ->. done.
        * destruct (Hr t) as [Hl Hrt]; [rewrite elem_of_cons, elem_of_app; auto|]. split; [done|]. eapply rep_frame; [done|].
          intros x Hx. assert (Hxs : x ∈ concat (map preorder ts)).
          { rewrite elem_of_list_In, in_concat. exists (preorder t). rewrite <- !elem_of_list_In. split; [|done].
            apply elem_of_list_fmap. eauto. }
          apply Hsame.
          -- intros ->. by eapply Ds.
          -- intros ?%Hroot%Ho1. by eapply Ds.
          -- intros ?%Hroot. by eapply H23.
    - rewrite HP. cbn. rewrite map_app, concat_app, concat_opt. rewrite !NoDup_app. auto.
    - intros x. rewrite HP. apply Hall.
  Qed.

  Lemma forest_perm w ts ts' : ts ≡ₚ ts' -> forest w ts -> forest w ts'.
  Proof.
    intros HP (H1&H2&H3). assert (HC : concat (map preorder ts) ≡ₚ concat (map preorder ts')).
    { clear -HP. induction HP; cbn; auto.
      - by rewrite IHHP.
      - solve_Permutation.
      - by etransitivity. }
    split; [|split].
    - intros t Ht. apply H1. by rewrite HP.
    - by rewrite <- HC.
    - intros x. rewrite <- HC. done.
  Qed.
  Lemma forest_new w ts v : forest w ts ->
    exists w', NewNode v w = Ok (Some (t_n w), w') /\ forest w' (Node Leaf (t_n w) Leaf :: ts) /\ t_val w' (t_n w) = v /\
      (forall x, x < t_n w -> same_at w w' x /\ t_val w' x = t_val w x) /\ t_n w' = S (t_n w).
  Proof.
    intros (H1&H2&H3). eexists. split; [reflexivity|]. split; [|split; [|split]]; cbn.
    - split; [|split].
      + intros t Ht. apply elem_of_cons in Ht as [->|Ht].
        * cbn. rewrite !fn_lookup_insert. done.
        * destruct (H1 t Ht) as [Hl Hr]. split; [done|]. eapply rep_frame; [done|]. intros x Hx.
          assert (x < t_n w).
          { apply H3. rewrite elem_of_list_In, in_concat. exists (preorder t). rewrite <- !elem_of_list_In. split; [|done].
            apply elem_of_list_fmap. eauto. }
          unfold same_at. cbn. by rewrite !fn_lookup_insert_ne by lia.
      + cbn. constructor; [|done]. intros H. apply H3 in H. lia.
      + cbn. intros x. rewrite elem_of_cons, H3. lia.
    - by rewrite fn_lookup_insert.
    - intros x Hx. unfold same_at. cbn. by rewrite !fn_lookup_insert_ne by lia.
    - done.
  Qed.
  Lemma forest_tree w ts x : forest w ts -> x < t_n w -> exists t, t ∈ ts /\ x ∈ preorder t.
  Proof.
    intros (_&_&H3) Hx. apply H3 in Hx. rewrite elem_of_list_In, in_concat in Hx. destruct Hx as (p&Hp&Hx).
    apply elem_of_list_In in Hp. apply elem_of_list_In in Hx. apply elem_of_list_fmap in Hp as (t&->&Ht). eauto.
  Qed.
  Lemma forest_whole w ts t : forest w ts -> t ∈ ts -> whole w t.
  Proof.
    intros (H1&H2&_) Ht. split; [by apply H1|]. apply elem_of_list_split in Ht as (a&b&->).
    rewrite map_app, concat_app in H2. cbn in H2. rewrite !NoDup_app in H2. tauto.
  Qed.
  Lemma row_root w t d : whole w t -> forall x y, x ∈ row d t -> root t = Some y -> has_root w x y.
  Proof.
    intros Hw. induction d as [|d IH]; intros x y Hx Hy.
    - apply row_0 in Hx. assert (x = y) as -> by congruence. apply hr_here.
      apply (whole_root w t); [done| |done]. apply row_preorder. exists 0. by apply row_0.
    - destruct (row_child _ _ _ Hx) as (p&Hp&Hc). eapply hr_up; [|by eapply IH].
      eapply rep_parent_child; [|done]. apply Hw.
  Qed.
  Lemma forest_root w ts c : forest w ts -> c < t_n w -> t_parent w c = None -> exists t, t ∈ ts /\ root t = Some c.
  Proof.
    intros Hf Hc Hp. destruct (forest_tree w ts c Hf Hc) as (t&Ht&Hin). exists t. split; [done|].
    apply (whole_root w t); [by eapply forest_whole|done..].
  Qed.
  (** Allowed attachments keep the forest. *)
  Lemma set_forest b w ts n c : forest w ts -> n < t_n w ->
    match c with None => True | Some c => c < t_n w /\ t_parent w c = None /\ ~ has_root w n c end ->
    exists t1 t2 rest, ts ≡ₚ t1 :: opt_tree t2 ++ rest /\ n ∈ preorder t1 /\ root t2 = c /\
      forest (set_child b n c w) (put b n t2 t1 :: opt_tree (child_of b n t1) ++ rest) /\
      t_child b w n = root (child_of b n t1).
  Proof.
    intros Hf Hn Hc. destruct (forest_tree w ts n Hf Hn) as (t1&Ht1&Hin).
    pose proof (forest_whole _ _ _ Hf Ht1) as [Hr1 Hn1].
    assert (exists t2 rest, ts ≡ₚ t1 :: opt_tree t2 ++ rest /\ root t2 = c) as (t2&rest&HP&E).
    { apply elem_of_Permutation in Ht1 as [ts1 HP]. destruct c as [c|].
      - destruct Hc as (Hc&Hp&Hnr). destruct (forest_root w ts c Hf Hc Hp) as (t2&Ht2&Er).
        assert (t2 <> t1).
        { intros ->. apply Hnr. apply row_preorder in Hin as [d Hd]. eapply row_root; [by split|done|done]. }
        rewrite HP in Ht2. apply elem_of_cons in Ht2 as [->|Ht2]; [done|].
        apply elem_of_Permutation in Ht2 as [ts2 HP2]. exists t2, ts2. split; [|done]. rewrite HP, HP2. destruct t2; done.
      - exists Leaf, ts1. done. }
    exists t1, t2, rest. split; [done|]. split; [done|]. split; [done|]. subst c. split.
    - apply set_child_forest; [|done]. by eapply forest_perm.
    - by apply (child_of_rep b w n t1 _ _ Hr1 Hn1 Hin).
  Qed.

  Lemma t_step c w : (exists ts, forest w ts) -> t_ok w c ->
    exists r w', t_exec c w = Ok (r, w') /\ t_does c w r w' /\ exists ts, forest w' ts.
  Proof.
    intros [ts Hf] Hok. destruct c as [v|n c|n c]; cbn [t_ok t_exec t_does] in *.
    - destruct (forest_new w ts v Hf) as (w'&E&Hf'&Hv&_). exists (Some (t_n w)), w'. split; [done|]. split; [|eauto].
      split; [done|]. split; [done|]. intros ts' Hf2. destruct (forest_new w ts' v Hf2) as (w2&E2&?&_). congruence.
    - destruct Hok as [Hn Hc]. rewrite SetLeft_eq. eexists _, _. split; [reflexivity|]. split.
      + intros ts' Hf'. destruct (set_forest true w ts' n c Hf' Hn Hc) as (t1&t2&rest&?&?&?&?&?). exists t1, t2, rest. auto.
      + destruct (set_forest true w ts n c Hf Hn Hc) as (t1&t2&rest&?&?&?&?&?). eauto.
    - destruct Hok as [Hn Hc]. rewrite SetRight_eq. eexists _, _. split; [reflexivity|]. split.
      + intros ts' Hf'. destruct (set_forest false w ts' n c Hf' Hn Hc) as (t1&t2&rest&?&?&?&?&?). exists t1, t2, rest. auto.
      + destruct (set_forest false w ts n c Hf Hn Hc) as (t1&t2&rest&?&?&?&?&?). eauto.
  Qed.
  Lemma t_history_forest w cs w' : t_history w cs w' -> (exists ts, forest w ts) -> exists ts, forest w' ts.
  Proof.
    induction 1 as [|w c r w1 cs w2 Hok Hex Hh IH]; [done|]. intros Hf. apply IH.
    destruct (t_step c w Hf Hok) as (r'&w1'&E&_&?). rewrite Hex in E. by simplify_eq.
  Qed.
  Lemma empty_forest (zero : T) : forest (empty_tworld zero) [].
  Proof. split; [|split]; [set_solver|constructor|]. cbn. intros. split; [set_solver|lia]. Qed.

  (** In a forest every link is matched. *)
  Lemma forest_links w ts : forest w ts -> forall x y, x < t_n w ->
    (t_left w x = Some y \/ t_right w x = Some y <-> y < t_n w /\ t_parent w y = Some x).
  Proof.
    intros Hf x y Hx. destruct (forest_tree w ts x Hf Hx) as (t&Ht&Hin). pose proof (forest_whole _ _ _ Hf Ht) as Hw.
    rewrite (whole_left w t), (whole_right w t) by done. fold (child t x y). split.
    - intros Hc. split; [|eapply rep_parent_child; [apply Hw|done]].
      destruct Hf as (_&_&H3). apply H3. rewrite elem_of_list_In, in_concat. exists (preorder t).
      rewrite <- !elem_of_list_In. split; [|by apply (child_in t x y)]. apply elem_of_list_fmap. eauto.
    - intros [Hy Hp]. destruct (forest_tree w ts y Hf Hy) as (t'&Ht'&Hin').
      pose proof (forest_whole _ _ _ Hf Ht') as Hw'. apply (whole_parent w t') in Hp; [|done..].
      destruct (child_in _ _ _ Hp) as [Hin2 _].
      assert (t = t') as ->; [|done].
      destruct Hf as (_&H2&_). clear -H2 Ht Ht' Hin Hin2.
      induction ts as [|u ts IH]; [set_solver|]. cbn in H2. apply NoDup_app in H2 as (_&Hd&H2).
      assert (Hcc : forall s, s ∈ ts -> x ∈ preorder s -> x ∈ concat (map preorder ts)).
      { intros s Hs Hxs. rewrite elem_of_list_In, in_concat. exists (preorder s). rewrite <- !elem_of_list_In. split; [|done].
        apply elem_of_list_fmap. eauto. }
      apply elem_of_cons in Ht as [->|Ht], Ht' as [->|Ht']; auto.
      + destruct (Hd x Hin). eauto.
      + destruct (Hd x Hin2). eauto.
  Qed.

  (** Checking a history by computation. *)
  Lemma has_root_fun w x y : has_root w x y -> forall z, has_root w x z -> y = z.
  Proof. induction 1; intros u Hu; inversion Hu; subst; try congruence. apply IHhas_root. congruence. Qed.
  Fixpoint root_of (fuel : nat) w (x : nat) : option nat :=
    match fuel with O => None | S fuel => match t_parent w x with None => Some x | Some p => root_of fuel w p end end.
  Lemma root_of_spec fuel w : forall x y, root_of fuel w x = Some y -> has_root w x y.
  Proof.
    induction fuel as [|fuel IH]; intros x y; cbn; [done|]. destruct (t_parent w x) eqn:E; intros H.
    - eapply hr_up; eauto.
    - injection H as ->. by apply hr_here.
  Qed.
  Definition t_okb w (c : t_call T) : bool :=
    match c with
    | CNew _ => true
    | CSetLeft n c | CSetRight n c =>
        (n <? t_n w) && match c with None => true | Some c => (c <? t_n w) && negb (not_nil (t_parent w c)) &&
          match root_of (t_n w) w n with Some r => negb (Nat.eqb r c) | None => false end end
    end.
  Lemma t_okb_ok w c : t_okb w c = true -> t_ok w c.
  Proof.
    assert (K : forall n c, (n <? t_n w) && match c with None => true | Some c => (c <? t_n w) && negb (not_nil (t_parent w c)) &&
          match root_of (t_n w) w n with Some r => negb (Nat.eqb r c) | None => false end end = true ->
      n < t_n w /\ match c with None => True | Some c => c < t_n w /\ t_parent w c = None /\ ~ has_root w n c end).
    { intros n [c'|]; [|intros; split; [lia|done]]. rewrite !andb_true_iff. intros (H1&(H2&H3)&H4).
      split; [lia|]. split; [lia|]. split; [by destruct (t_parent w c')|]. intros Hr.
      destruct (root_of (t_n w) w n) as [r|] eqn:E; [|done]. apply root_of_spec in E.
      rewrite (has_root_fun _ _ _ E _ Hr) in H4. rewrite Nat.eqb_refl in H4. done. }
    destruct c; cbn [t_ok t_okb]; [done|apply K..].
  Qed.
  Fixpoint t_run (cs : list (t_call T)) w : option (tworld T) :=
    match cs with
    | [] => Some w
    | c :: cs => if t_okb w c then match t_exec c w with Ok (_, w1) => t_run cs w1 | _ => None end else None
    end.
  Lemma t_run_history cs : forall w w', t_run cs w = Some w' -> t_history w cs w'.
  Proof.
    induction cs as [|c cs IH]; intros w w'; cbn [t_run].
    - intros [= ->]. constructor.
    - destruct (t_okb w c) eqn:Eo; [|done]. destruct (t_exec c w) as [[r w1]| |] eqn:E; [|done..].
      intros H. eapply th_cons; [by apply t_okb_ok|done|by apply IH].
  Qed.
  Lemma t_run_with cs w (P : tworld T -> Prop) : match t_run cs w with Some w' => P w' | None => False end ->
    exists w', t_history w cs w' /\ P w'.
  Proof. destruct (t_run cs w) as [w'|] eqn:E; [|done]. intros HP. exists w'. split; [by apply t_run_history|done]. Qed.
End set.
