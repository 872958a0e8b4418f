(** Doubly linked chains of heap cells, shared by the ring and dllist proofs. *)
From Verif Require Import Base.

(** Every element of [l] points forwards to, and is pointed back at by, its successor in [l]. *)
Fixpoint chain (nx pv : nat -> option nat) (l : list nat) : Prop :=
  match l with
  | x :: ((y :: _) as l') => nx x = Some y /\ pv y = Some x /\ chain nx pv l'
  | _ => True
  end.
Global Arguments chain : simpl never.

(** Membership in explicit lists, cheaper than [set_solver]. *)
Ltac mem :=
  repeat match goal with
  | H : forall _ : ?A, _ |- _ => lazymatch type of A with Prop => fail | _ => clear H end
  | H : NoDup _ |- _ => clear H
  | H : chain _ _ _ |- _ => clear H
  end;
  repeat rewrite ?elem_of_app, ?elem_of_cons, ?elem_of_list_singleton, ?elem_of_nil in *;
  first [tauto | intuition congruence].

Section chain.
  Implicit Types nx pv : nat -> option nat.

  Lemma chain_one nx pv x : chain nx pv [x] <-> True.
  Proof. done. Qed.
  Lemma chain_cons nx pv x y l :
    chain nx pv (x :: y :: l) <-> nx x = Some y /\ pv y = Some x /\ chain nx pv (y :: l).
  Proof. done. Qed.

  Lemma chain_app nx pv l1 x l2 :
    chain nx pv (l1 ++ x :: l2) <-> chain nx pv (l1 ++ [x]) /\ chain nx pv (x :: l2).
  Proof.
    induction l1 as [|a l1 IH]; [by cbn [app]; rewrite chain_one; tauto|].
    destruct l1 as [|b l1].
    - cbn [app]. rewrite !chain_cons, !chain_one. tauto.
    - cbn [app] in *. rewrite !chain_cons. rewrite IH. tauto.
  Qed.

  Lemma chain_glue nx pv l1 x y l2 :
    chain nx pv (l1 ++ x :: y :: l2) <->
    chain nx pv (l1 ++ [x]) /\ nx x = Some y /\ pv y = Some x /\ chain nx pv (y :: l2).
  Proof. rewrite chain_app, chain_cons. tauto. Qed.

  (** Only the forward pointers of all but the last and the backward pointers of all
      but the first element matter. *)
  Lemma chain_ext nx pv nx' pv' l :
    chain nx pv l ->
    (forall l1 x l2, l = l1 ++ x :: l2 -> l2 <> [] -> nx' x = nx x) ->
    (forall l1 x l2, l = l1 ++ x :: l2 -> l1 <> [] -> pv' x = pv x) ->
    chain nx' pv' l.
  Proof.
    induction l as [|x l IH]; [done|]. destruct l as [|y l]; [done|].
    rewrite !chain_cons. intros (H1 & H2 & H3) Hn Hp. split_and!.
    - by rewrite (Hn [] x (y :: l)).
    - by rewrite (Hp [x] y l).
    - apply IH; [done| |].
      + intros l1 z l2 E Hl2. apply (Hn (x :: l1) z l2); [by rewrite E|done].
      + intros l1 z l2 E Hl1. apply (Hp (x :: l1) z l2); [by rewrite E|done].
  Qed.

  Lemma chain_ext_snoc nx pv nx' pv' l z :
    chain nx pv (l ++ [z]) ->
    (forall x, x ∈ l -> nx' x = nx x) ->
    (forall x, x ∈ tail (l ++ [z]) -> pv' x = pv x) ->
    chain nx' pv' (l ++ [z]).
  Proof.
    intros H Hn Hp. apply (chain_ext nx pv); [done| |].
    - intros l1 x l2 E Hl2. apply Hn.
      destruct l2 as [|w l2 _] using rev_ind; [done|].
      change (x :: l2 ++ [w]) with ((x :: l2) ++ [w]) in E. rewrite app_assoc in E.
      apply app_inj_tail in E as [-> ->]. rewrite elem_of_app. right. by left.
    - intros l1 x l2 E Hl1. apply Hp. destruct l1 as [|w l1]; [done|].
      rewrite E. cbn. rewrite elem_of_app. right. by left.
  Qed.

  Lemma chain_ext_cons nx pv nx' pv' a l :
    chain nx pv (a :: l) ->
    (forall l1 x l2, a :: l = l1 ++ x :: l2 -> l2 <> [] -> nx' x = nx x) ->
    (forall x, x ∈ l -> pv' x = pv x) ->
    chain nx' pv' (a :: l).
  Proof.
    intros H Hn Hp. apply (chain_ext nx pv); [done|done|].
    intros l1 x l2 E Hl1. apply Hp. destruct l1 as [|w l1]; [done|].
    injection E as -> ->. rewrite elem_of_app. right. by left.
  Qed.

  (** The version used most: a chain with its last element split off. *)
  Lemma chain_ext_mid nx pv nx' pv' a l z :
    chain nx pv (a :: l ++ [z]) ->
    (forall x, x ∈ a :: l -> nx' x = nx x) ->
    (forall x, x ∈ l ++ [z] -> pv' x = pv x) ->
    chain nx' pv' (a :: l ++ [z]).
  Proof. intros H Hn Hp. by apply (chain_ext_snoc nx pv _ _ (a :: l) z). Qed.

  Lemma chain_nx nx pv l1 x y l2 : chain nx pv (l1 ++ x :: y :: l2) -> nx x = Some y.
  Proof. rewrite chain_glue. tauto. Qed.
  Lemma chain_pv nx pv l1 x y l2 : chain nx pv (l1 ++ x :: y :: l2) -> pv y = Some x.
  Proof. rewrite chain_glue. tauto. Qed.
  Lemma chain_lookup_nx nx pv l i x y :
    chain nx pv l -> l !! i = Some x -> l !! S i = Some y -> nx x = Some y.
  Proof.
    intros H Hx Hy. apply elem_of_list_split_length in Hx as (l1 & l2 & -> & ->).
    rewrite lookup_app_r in Hy by lia. replace (S (length l1) - length l1) with 1 in Hy by lia.
    destruct l2; [done|]. injection Hy as ->. eapply chain_nx. exact H.
  Qed.
  Lemma chain_lookup_pv nx pv l i x y :
    chain nx pv l -> l !! i = Some x -> l !! S i = Some y -> pv y = Some x.
  Proof.
    intros H Hx Hy. apply elem_of_list_split_length in Hx as (l1 & l2 & -> & ->).
    rewrite lookup_app_r in Hy by lia. replace (S (length l1) - length l1) with 1 in Hy by lia.
    destruct l2; [done|]. injection Hy as ->. eapply chain_pv. exact H.
  Qed.
End chain.

(** Instantiate the disjointness facts that [NoDup_app] yields. *)
Ltac nodup_at x :=
  repeat match goal with
  | H : forall y : nat, y ∈ _ -> y ∉ _ |- _ => specialize (H x)
  end.
Ltac nodup_split H :=
  repeat rewrite ?NoDup_app, ?NoDup_cons in H; decompose [and] H; clear H.

(** Cutting a chain into segments and putting segments together. *)
Section segments.
  Implicit Types nx pv : nat -> option nat.

  Lemma seg_ext nx pv nx' pv' s :
    chain nx pv s -> NoDup s ->
    (forall x, x ∈ s -> last s <> Some x -> nx' x = nx x) ->
    (forall x, x ∈ s -> head s <> Some x -> pv' x = pv x) ->
    chain nx' pv' s.
  Proof.
    intros H Hnd Hn Hp. apply (chain_ext nx pv); [done| |].
    - intros l1 x l2 -> Hl2. apply Hn; [mem|].
      destruct l2 as [|y l2 _] using rev_ind; [done|].
      change (x :: l2 ++ [y]) with ((x :: l2) ++ [y]). rewrite app_assoc, last_snoc. intros [= ->].
      nodup_split Hnd. nodup_at x. mem.
    - intros l1 x l2 -> Hl1. apply Hp; [mem|]. destruct l1 as [|y l1]; [done|]. cbn. intros [= ->].
      cbn in Hnd. nodup_split Hnd. mem.
  Qed.

  Lemma chain_join nx pv l1 l2 x y :
    last l1 = Some x -> head l2 = Some y ->
    chain nx pv (l1 ++ l2) <-> chain nx pv l1 /\ nx x = Some y /\ pv y = Some x /\ chain nx pv l2.
  Proof.
    intros Hl Hh. apply last_Some in Hl as [l1' ->]. destruct l2 as [|y' l2]; [done|]. injection Hh as ->.
    rewrite <- app_assoc. cbn [app]. apply chain_glue.
  Qed.

  Lemma last_cons_some (r : nat) l : exists x, last (r :: l) = Some x /\ x ∈ r :: l.
  Proof.
    destruct (last (r :: l)) as [x|] eqn:E.
    - exists x. split; [done|]. by apply last_Some_elem_of.
    - by apply last_None in E.
  Qed.
  Lemma head_snoc_some' (r : nat) l : exists x, head (l ++ [r]) = Some x /\ x ∈ l ++ [r].
  Proof. destruct l as [|a l]; cbn; eexists; split; try done; mem. Qed.

  (** A cyclic list of cells [root :: ids]. *)
  Definition cyc nx pv root ids : Prop := chain nx pv ((root :: ids) ++ [root]).

  Lemma cyc_split nx pv root pre post a b :
    last (root :: pre) = Some a -> head (post ++ [root]) = Some b ->
    cyc nx pv root (pre ++ post) <->
    chain nx pv (root :: pre) /\ nx a = Some b /\ pv b = Some a /\ chain nx pv (post ++ [root]).
  Proof.
    intros Ha Hb. unfold cyc. rewrite app_comm_cons, <- app_assoc. by apply chain_join.
  Qed.

  Lemma cyc_insert nx pv nx' pv' root pre post a b e :
    NoDup (root :: pre ++ post) -> e ∉ root :: pre ++ post ->
    last (root :: pre) = Some a -> head (post ++ [root]) = Some b ->
    cyc nx pv root (pre ++ post) ->
    nx' a = Some e -> nx' e = Some b -> (forall x, x ∉ [a; e] -> nx' x = nx x) ->
    pv' e = Some a -> pv' b = Some e -> (forall x, x ∉ [e; b] -> pv' x = pv x) ->
    cyc nx' pv' root (pre ++ e :: post).
  Proof.
    intros Hnd He Ha Hb Hc N1 N2 N3 P1 P2 P3.
    apply (cyc_split _ _ _ _ _ _ _ Ha Hb) in Hc as (C1 & _ & _ & C2).
    apply (cyc_split _ _ root pre (e :: post) a e Ha eq_refl).
    assert (Hnd' := Hnd). rewrite app_comm_cons in Hnd'. apply NoDup_app in Hnd' as (Nd1 & D & Nd2).
    assert (Nd2' : NoDup (post ++ [root])).
    { change (NoDup ([root] ++ pre ++ post)) in Hnd. rewrite Permutation_app_comm, <- app_assoc in Hnd.
      by apply NoDup_app in Hnd as (_ & _ & Hnd). }
    assert (Hbin : b ∈ post ++ [root]) by (destruct post; cbn in *; simplify_eq; mem).
    assert (Hain : a ∈ root :: pre) by by apply last_Some_elem_of.
    split_and!; [|done|done|].
    - eapply seg_ext; [exact C1|done| |].
      + intros x Hx Hl. apply N3. assert (x <> a) by congruence. assert (x <> e) by mem. mem.
      + intros x Hx Hl. apply P3. specialize (D x Hx). assert (x <> root) by (intros ->; done).
        assert (x <> b) by (intros ->; mem). mem.
    - cbn [app]. apply (chain_join _ _ [e] (post ++ [root]) e b eq_refl Hb). split_and!; [done|done|done|].
      eapply seg_ext; [exact C2|done| |].
      + intros x Hx Hl. rewrite last_snoc in Hl. assert (x <> root) by congruence. apply N3.
        assert (x <> a). { intros ->. apply (D a); mem. } mem.
      + intros x Hx Hl. apply P3. assert (x <> b) by congruence. mem.
  Qed.

  Lemma cyc_remove nx pv nx' pv' root pre post a b e :
    NoDup (root :: pre ++ e :: post) ->
    last (root :: pre) = Some a -> head (post ++ [root]) = Some b ->
    cyc nx pv root (pre ++ e :: post) ->
    nx' a = Some b -> (forall x, x ∉ [a; e] -> nx' x = nx x) ->
    pv' b = Some a -> (forall x, x ∉ [e; b] -> pv' x = pv x) ->
    cyc nx' pv' root (pre ++ post).
  Proof.
    intros Hnd Ha Hb Hc N1 N2 P1 P2.
    apply (cyc_split _ _ root pre (e :: post) a e Ha eq_refl) in Hc as (C1 & _ & _ & C2).
    cbn [app] in C2. apply (chain_join _ _ [e] (post ++ [root]) e b eq_refl Hb) in C2 as (_ & _ & _ & C2).
    apply (cyc_split _ _ _ _ _ _ _ Ha Hb).
    assert (Hnd' := Hnd). rewrite app_comm_cons in Hnd'. apply NoDup_app in Hnd' as (Nd1 & D & Nd2).
    assert (Nd2' : NoDup (e :: post ++ [root])).
    { change (NoDup ([root] ++ pre ++ e :: post)) in Hnd. rewrite Permutation_app_comm, <- app_assoc in Hnd.
      by apply NoDup_app in Hnd as (_ & _ & Hnd). }
    apply NoDup_cons in Nd2' as [He Nd2'].
    assert (Hbin : b ∈ post ++ [root]) by (destruct post; cbn in *; simplify_eq; mem).
    assert (Hain : a ∈ root :: pre) by by apply last_Some_elem_of.
    split_and!; [|done|done|].
    - eapply seg_ext; [exact C1|done| |].
      + intros x Hx Hl. apply N2. specialize (D x Hx). assert (x <> a) by congruence. mem.
      + intros x Hx Hl. apply P2. specialize (D x Hx). assert (x <> root) by (intros ->; done).
        assert (x <> b) by (intros ->; mem). mem.
    - eapply seg_ext; [exact C2|done| |].
      + intros x Hx Hl. rewrite last_snoc in Hl. assert (x <> root) by congruence. apply N2.
        assert (x <> a). { intros ->. apply (D a); mem. } mem.
      + intros x Hx Hl. apply P2. assert (x <> b) by congruence. assert (x <> e) by (intros ->; mem). mem.
  Qed.

  Lemma cyc_swap_adj nx pv nx' pv' root pre post p q a b :
    NoDup (root :: pre ++ a :: b :: post) ->
    last (root :: pre) = Some p -> head (post ++ [root]) = Some q ->
    cyc nx pv root (pre ++ a :: b :: post) ->
    nx' p = Some b -> nx' b = Some a -> nx' a = Some q -> (forall x, x ∉ [p; a; b] -> nx' x = nx x) ->
    pv' b = Some p -> pv' a = Some b -> pv' q = Some a -> (forall x, x ∉ [a; b; q] -> pv' x = pv x) ->
    cyc nx' pv' root (pre ++ b :: a :: post).
  Proof.
    intros Hnd Ha Hb Hc N1 N2 N3 N4 P1 P2 P3 P4.
    apply (cyc_split _ _ root pre (a :: b :: post) p a Ha eq_refl) in Hc as (C1 & _ & _ & C2).
    cbn [app] in C2. apply (chain_join _ _ [a; b] (post ++ [root]) b q eq_refl Hb) in C2 as (_ & _ & _ & C2).
    apply (cyc_split _ _ root pre (b :: a :: post) p b Ha eq_refl).
    assert (Hnd' := Hnd). rewrite app_comm_cons in Hnd'. apply NoDup_app in Hnd' as (Nd1 & D & Nd2).
    assert (Nd2' : NoDup (a :: b :: post ++ [root])).
    { change (NoDup ([root] ++ pre ++ a :: b :: post)) in Hnd. rewrite Permutation_app_comm, <- app_assoc in Hnd.
      by apply NoDup_app in Hnd as (_ & _ & Hnd). }
    apply NoDup_cons in Nd2' as [He Nd2']. apply NoDup_cons in Nd2' as [He' Nd2'].
    assert (Hbin : q ∈ post ++ [root]) by (destruct post; cbn in *; simplify_eq; mem).
    assert (Hain : p ∈ root :: pre) by by apply last_Some_elem_of.
    split_and!; [|done|done|].
    - eapply seg_ext; [exact C1|done| |].
      + intros x Hx Hl. apply N4. specialize (D x Hx). assert (x <> p) by congruence. mem.
      + intros x Hx Hl. apply P4. specialize (D x Hx). assert (x <> root) by (intros ->; done).
        assert (x <> q) by (intros ->; mem). mem.
    - cbn [app]. apply (chain_join _ _ [b; a] (post ++ [root]) a q eq_refl Hb).
      split_and!; [by apply chain_cons; rewrite chain_one|done|done|].
      eapply seg_ext; [exact C2|done| |].
      + intros x Hx Hl. rewrite last_snoc in Hl. assert (x <> root) by congruence. apply N4.
        assert (x <> p). { intros ->. apply (D p); mem. } mem.
      + intros x Hx Hl. apply P4. assert (x <> q) by congruence. assert (x <> a) by (intros ->; mem).
        assert (x <> b) by (intros ->; mem). mem.
  Qed.

  Lemma cyc_swap_far nx pv nx' pv' root pre mid post p m1 m2 q a b :
    NoDup (root :: pre ++ a :: mid ++ b :: post) ->
    last (root :: pre) = Some p -> head mid = Some m1 -> last mid = Some m2 -> head (post ++ [root]) = Some q ->
    cyc nx pv root (pre ++ a :: mid ++ b :: post) ->
    nx' p = Some b -> nx' b = Some m1 -> nx' m2 = Some a -> nx' a = Some q ->
    (forall x, x ∉ [p; a; b; m2] -> nx' x = nx x) ->
    pv' b = Some p -> pv' m1 = Some b -> pv' a = Some m2 -> pv' q = Some a ->
    (forall x, x ∉ [a; b; m1; q] -> pv' x = pv x) ->
    cyc nx' pv' root (pre ++ b :: mid ++ a :: post).
  Proof.
    intros Hnd Ha Hm1 Hm2 Hb Hc N1 N2 N3 N4 N5 P1 P2 P3 P4 P5.
    apply (cyc_split _ _ root pre (a :: mid ++ b :: post) p a Ha eq_refl) in Hc as (C1 & _ & _ & C2).
    assert (Hh : head ((mid ++ b :: post) ++ [root]) = Some m1) by (destruct mid; done).
    cbn [app] in C2. apply (chain_join _ _ [a] ((mid ++ b :: post) ++ [root]) a m1 eq_refl Hh) in C2 as (_ & _ & _ & C2).
    rewrite <- app_assoc in C2. apply (chain_join _ _ mid (b :: post ++ [root]) m2 b Hm2 eq_refl) in C2 as (C2 & _ & _ & C3).
    apply (chain_join _ _ [b] (post ++ [root]) b q eq_refl Hb) in C3 as (_ & _ & _ & C3).
    assert (Hnd' := Hnd). rewrite app_comm_cons in Hnd'. apply NoDup_app in Hnd' as (Nd1 & D & Nd2).
    assert (Nd2' : NoDup (a :: mid ++ b :: post ++ [root])).
    { change (NoDup ([root] ++ pre ++ a :: mid ++ b :: post)) in Hnd. rewrite Permutation_app_comm, <- app_assoc in Hnd.
      apply NoDup_app in Hnd as (_ & _ & Hnd). cbn in Hnd. rewrite <- app_assoc in Hnd. exact Hnd. }
    apply NoDup_cons in Nd2' as [He Nd2']. apply NoDup_app in Nd2' as (Ndm & Dm & Nd2').
    apply NoDup_cons in Nd2' as [He' Nd2'].
    assert (Hbin : q ∈ post ++ [root]) by (destruct post; cbn in *; simplify_eq; mem).
    assert (Hain : p ∈ root :: pre) by by apply last_Some_elem_of.
    assert (Hm1in : m1 ∈ mid) by (destruct mid; cbn in *; simplify_eq; mem).
    assert (Hm2in : m2 ∈ mid) by by apply last_Some_elem_of.
    apply (cyc_split _ _ root pre (b :: mid ++ a :: post) p b Ha eq_refl). split_and!; [|done|done|].
    - eapply seg_ext; [exact C1|done| |].
      + intros x Hx Hl. apply N5. specialize (D x Hx). assert (x <> p) by congruence.
        assert (x <> m2) by (intros ->; mem). mem.
      + intros x Hx Hl. apply P5. specialize (D x Hx). assert (x <> root) by (intros ->; done).
        assert (x <> q) by (intros ->; mem). assert (x <> m1) by (intros ->; mem). mem.
    - assert (Hh' : head ((mid ++ a :: post) ++ [root]) = Some m1) by (destruct mid; done).
      cbn [app]. apply (chain_join _ _ [b] ((mid ++ a :: post) ++ [root]) b m1 eq_refl Hh').
      split_and!; [by rewrite chain_one|done|done|].
      rewrite <- app_assoc. cbn [app]. apply (chain_join _ _ mid (a :: post ++ [root]) m2 a Hm2 eq_refl).
      split_and!; [|done|done|].
      + eapply seg_ext; [exact C2|done| |].
        * intros x Hx Hl. apply N5. specialize (Dm x Hx). assert (x <> m2) by congruence.
          assert (x <> a) by (intros ->; mem). assert (x <> p) by (intros ->; apply (D p); mem). mem.
        * intros x Hx Hl. apply P5. specialize (Dm x Hx). assert (x <> m1) by congruence.
          assert (x <> a) by (intros ->; mem). assert (x <> q) by (intros ->; mem). mem.
      + apply (chain_join _ _ [a] (post ++ [root]) a q eq_refl Hb). split_and!; [by rewrite chain_one|done|done|].
        eapply seg_ext; [exact C3|done| |].
        * intros x Hx Hl. rewrite last_snoc in Hl. assert (x <> root) by congruence. apply N5.
          assert (x <> p) by (intros ->; apply (D p); mem). assert (x <> a) by (intros ->; mem).
          assert (x <> b) by (intros ->; mem). assert (x <> m2) by (intros ->; apply (Dm m2); mem). mem.
        * intros x Hx Hl. apply P5. assert (x <> q) by congruence. assert (x <> a) by (intros ->; mem).
          assert (x <> b) by (intros ->; mem). assert (x <> m1) by (intros ->; apply (Dm m1); mem). mem.
  Qed.

  (** Cells outside the cycle do not matter. *)
  Lemma cyc_frame nx pv nx' pv' root ids :
    cyc nx pv root ids ->
    (forall x, x ∈ root :: ids -> nx' x = nx x /\ pv' x = pv x) -> cyc nx' pv' root ids.
  Proof.
    intros H Hx. unfold cyc in *. eapply chain_ext_snoc; [exact H| |].
    - intros x Hin. by apply Hx.
    - intros x Hin. apply Hx. cbn in Hin. mem.
  Qed.

  Lemma cyc_next nx pv root pre e post :
    cyc nx pv root (pre ++ e :: post) -> nx e = head (post ++ [root]).
  Proof.
    unfold cyc. rewrite app_comm_cons, <- app_assoc. cbn [app]. intros H.
    destruct post as [|y post]; cbn in *; eapply (chain_nx nx pv (root :: pre)); exact H.
  Qed.
  Lemma cyc_prev nx pv root pre e post :
    cyc nx pv root (pre ++ e :: post) -> pv e = last (root :: pre).
  Proof.
    intros H. destruct (last_cons_some root pre) as (p & Hp & _). rewrite Hp.
    apply (cyc_split _ _ root pre (e :: post) p e Hp eq_refl) in H. tauto.
  Qed.
  Lemma cyc_root_next nx pv root ids : cyc nx pv root ids -> nx root = head (ids ++ [root]).
  Proof.
    unfold cyc. cbn [app]. intros H. destruct ids as [|y ids]; cbn [app head] in *; by apply (chain_nx nx pv []) in H.
  Qed.
  Lemma cyc_root_prev nx pv root ids : cyc nx pv root ids -> pv root = last (root :: ids).
  Proof.
    intros H. destruct (last_cons_some root ids) as (p & Hp & _). rewrite Hp.
    rewrite <- (app_nil_r ids) in H. apply (cyc_split _ _ root ids [] p root Hp eq_refl) in H. tauto.
  Qed.
End segments.
Global Opaque chain.
