From Coq Require Import ZifyBool ZifyNat.
From Verif Require Import Base RingModel Chain RingSpec.

Section rings.
  Context {T : Type}.
  Implicit Types h : rheap T.

  (** Two heaps that read the same. *)
  Definition heq h h' : Prop :=
    (forall x, lnx h' x = lnx h x) /\ (forall x, lpv h' x = lpv h x) /\
    (forall x, r_val h' x = r_val h x) /\ r_fresh h' = r_fresh h.

  Lemma heq_refl h : heq h h.
  Proof. done. Qed.
  Lemma heq_trans h1 h2 h3 : heq h1 h2 -> heq h2 h3 -> heq h1 h3.
  Proof.
    intros (A & B & C & D) (A' & B' & C' & D'). split_and!; intros; congruence.
  Qed.

  Lemma ring_ext h h' l :
    (forall x, x ∈ l -> lnx h' x = lnx h x /\ lpv h' x = lpv h x) ->
    (forall x, x ∈ l -> x < r_fresh h <-> x < r_fresh h') ->
    heap_ring h l -> heap_ring h' l.
  Proof.
    intros H Hb. destruct l as [|r t]; [done|]. intros (Hnd & Hf & Hc).
    split_and!; [done|intros x Hx; by apply Hb; auto|].
    eapply chain_ext_mid; [done| |].
    - intros x Hx. apply H. done.
    - intros x Hx. apply H. rewrite elem_of_app, elem_of_list_singleton in Hx.
      rewrite elem_of_cons. tauto.
  Qed.
  Lemma heq_ring h h' l : heq h h' -> heap_ring h l <-> heap_ring h' l.
  Proof.
    intros (A & B & C & D). split; apply ring_ext; intros; rewrite ?D; done.
  Qed.
  Lemma heq_unchanged h h' : heq h h' -> r_unchanged (rabs h) (rabs h').
  Proof.
    intros H. split_and!.
    - intros x. cbn. destruct H as (_ & _ & _ & ->). done.
    - intros l. by apply heq_ring.
    - intros x _. cbn. apply H.
  Qed.

  Lemma ring_rotate h l1 l2 : heap_ring h (l1 ++ l2) -> heap_ring h (l2 ++ l1).
  Proof.
    destruct l1 as [|a l1]; [by rewrite app_nil_r|].
    destruct l2 as [|b l2]; [by rewrite app_nil_r|].
    cbn [app heap_ring]. intros (Hnd & Hf & Hc). split_and!.
    - change (NoDup ((b :: l2) ++ (a :: l1))). rewrite Permutation_app_comm. exact Hnd.
    - intros x Hx. apply Hf. change (x ∈ (a :: l1) ++ (b :: l2)).
      change (x ∈ (b :: l2) ++ (a :: l1)) in Hx. rewrite elem_of_app in *. tauto.
    - rewrite <- app_assoc in Hc. cbn in Hc.
      change (a :: l1 ++ b :: l2 ++ [a]) with ((a :: l1) ++ b :: l2 ++ [a]) in Hc.
      apply chain_app in Hc as [H1 H2].
      rewrite <- app_assoc. cbn.
      change (b :: l2 ++ a :: l1 ++ [b]) with ((b :: l2) ++ a :: l1 ++ [b]).
      apply chain_app. split; [exact H2|exact H1].
  Qed.

  Lemma chain_det nx pv x z t t' :
    chain nx pv (x :: t ++ [z]) -> chain nx pv (x :: t' ++ [z]) ->
    z ∉ t -> z ∉ t' -> t = t'.
  Proof.
    revert x t'. induction t as [|a t IH]; intros x t' H1 H2 Hz Hz'.
    - destruct t' as [|a' t']; [done|]. cbn [app] in H1, H2. rewrite chain_cons in H1, H2. destruct H1 as (H1 & _), H2 as (H2 & _).
      exfalso. apply Hz'. rewrite H1 in H2. injection H2 as ->. by left.
    - destruct t' as [|a' t'].
      + cbn [app] in H1, H2. rewrite chain_cons in H1, H2. destruct H1 as (H1 & _), H2 as (H2 & _).
        exfalso. apply Hz. rewrite H1 in H2. injection H2 as ->. by left.
      + cbn [app] in H1, H2. rewrite chain_cons in H1, H2.
        destruct H1 as (H1 & _ & H1'), H2 as (H2 & _ & H2').
        rewrite H1 in H2. injection H2 as ->. f_equal.
        rewrite not_elem_of_cons in Hz, Hz'. apply (IH a'); tauto.
  Qed.
  Lemma ring_unique h x t t' : heap_ring h (x :: t) -> heap_ring h (x :: t') -> t = t'.
  Proof.
    intros (N1 & _ & C1) (N2 & _ & C2). eapply chain_det; [done|done| |].
    - by apply NoDup_cons in N1 as [? _].
    - by apply NoDup_cons in N2 as [? _].
  Qed.
  Lemma ring_at h l x : heap_ring h l -> x ∈ l -> exists l1 l2, l = l1 ++ x :: l2 /\ heap_ring h (x :: l2 ++ l1).
  Proof.
    intros H Hx. apply elem_of_list_split in Hx as (l1 & l2 & ->).
    exists l1, l2. split; [done|]. by apply ring_rotate in H.
  Qed.
  (** Rings that meet have the same elements. *)
  Lemma ring_meet h l l' x y : heap_ring h l -> heap_ring h l' -> x ∈ l -> x ∈ l' -> y ∈ l -> y ∈ l'.
  Proof.
    intros H H' Hx Hx' Hy.
    destruct (ring_at _ _ _ H Hx) as (l1 & l2 & -> & H1).
    destruct (ring_at _ _ _ H' Hx') as (l3 & l4 & -> & H2).
    pose proof (ring_unique _ _ _ _ H1 H2) as E.
    assert (y ∈ x :: l4 ++ l3) as Hy'.
    { rewrite <- E. rewrite elem_of_cons, !elem_of_app in *. rewrite elem_of_cons in Hy. tauto. }
    rewrite elem_of_cons, !elem_of_app in *. rewrite elem_of_cons. tauto.
  Qed.

  Definition covered h : Prop := forall x, x < r_fresh h -> exists t, heap_ring h (x :: t).

  Lemma covered_ok h : covered h -> rings_ok (rabs h).
  Proof.
    intros H. split; cbn [nodes isring value rabs].
    - exact H.
    - intros l x Hl Hx. destruct l as [|r t]; [done|]. by apply Hl.
    - intros l Hl. destruct l as [|r t]; [done|]. by apply Hl.
    - apply ring_rotate.
    - apply ring_unique.
  Qed.

  Lemma ring_nodes h l x : heap_ring h l -> x ∈ l -> x < r_fresh h.
  Proof. intros Hl Hx. destruct l as [|r t]; [done|]. by apply Hl. Qed.
  Lemma ring_nodup h l : heap_ring h l -> NoDup l.
  Proof. intros Hl. destruct l as [|r t]; [done|]. by apply Hl. Qed.

  Lemma ring_length h l : heap_ring h l -> length l <= r_fresh h.
  Proof.
    intros H. rewrite <- (seq_length (r_fresh h) 0).
    apply submseteq_length, NoDup_submseteq; [by eapply ring_nodup|].
    intros x Hx. rewrite elem_of_seq. pose proof (ring_nodes _ _ _ H Hx). lia.
  Qed.

  (** Successor and predecessor of the head of a ring. *)
  Lemma ring_next h r t : heap_ring h (r :: t) -> lnx h r = head (t ++ [r]).
  Proof.
    intros (_ & _ & H). destruct t as [|a t]; cbn [app] in H; rewrite chain_cons in H; apply H.
  Qed.
  Lemma ring_prev h r t : heap_ring h (r :: t) -> lpv h r = last (r :: t).
  Proof.
    intros (_ & _ & H). destruct t as [|b t _] using rev_ind; [cbn [app] in H; rewrite chain_cons in H; apply H|].
    rewrite app_comm_cons, last_snoc.
    rewrite <- app_assoc in H. cbn in H.
    exact (chain_pv _ _ (r :: t) b r [] H).
  Qed.

  (** Structs on a ring of two or more have a non-nil next field. *)
  Lemma ring_inited h r t a : heap_ring h (r :: a :: t) -> is_Some (r_next h r).
  Proof.
    intros H. pose proof (ring_next _ _ _ H) as E. apply ring_nodup in H.
    unfold lnx in E. destruct (r_next h r); [eauto|]. cbn in E. injection E as ->.
    apply NoDup_cons in H as [H _]. exfalso. apply H. by left.
  Qed.
  Lemma ring_inited_all h l x : heap_ring h l -> length l <> 1 -> x ∈ l -> is_Some (r_next h x).
  Proof.
    intros H Hl Hx. destruct (ring_at _ _ _ H Hx) as (l1 & l2 & -> & H1).
    rewrite app_length in Hl. cbn in Hl.
    destruct (l2 ++ l1) as [|a t] eqn:E.
    - apply (f_equal length) in E. rewrite app_length in E. cbn in E. lia.
    - by eapply ring_inited.
  Qed.

  (** init, Next, Prev *)
  Definition inited h r : rheap T :=
    match r_next h r with
    | None => mk_rheap (<[r:=Some r]> (r_next h)) (<[r:=Some r]> (r_prev h)) (r_val h) (r_fresh h)
    | Some _ => h
    end.
  Lemma inited_heq h r : heq h (inited h r).
  Proof.
    unfold inited. destruct (r_next h r) eqn:E; [apply heq_refl|].
    split_and!; try done; intros x; unfold lnx, lpv; cbn;
      destruct (decide (x = r)) as [->|Hn]; rewrite ?fn_lookup_insert, ?fn_lookup_insert_ne by done;
      rewrite ?E; done.
  Qed.
  Lemma inited_some h r : is_Some (r_next (inited h r) r).
  Proof.
    unfold inited. destruct (r_next h r) eqn:E; [by rewrite E|]. cbn. rewrite fn_lookup_insert. done.
  Qed.
  Lemma inited_mono h r x : is_Some (r_next h x) -> is_Some (r_next (inited h r) x).
  Proof.
    unfold inited. destruct (r_next h r) eqn:E; [done|]. cbn. intros Hx.
    destruct (decide (x = r)) as [->|Hn]; rewrite ?fn_lookup_insert, ?fn_lookup_insert_ne by done; done.
  Qed.
  Lemma Next_ok h r : r_Next (Some r) h = Ok (lnx h r, inited h r).
  Proof.
    unfold r_Next, bind, get_next, lnx, inited. destruct (r_next h r) eqn:E; [done|]. done.
  Qed.
  Lemma Prev_ok h r : r_Prev (Some r) h = Ok (lpv h r, inited h r).
  Proof.
    unfold r_Prev, bind, get_next, lpv, inited. destruct (r_next h r) eqn:E; [done|]. done.
  Qed.

  Lemma get_next_ok h x : is_Some (r_next h x) -> get_next (Some x) h = Ok (lnx h x, h).
  Proof. unfold get_next, lnx. by intros [y ->]. Qed.
  Lemma get_prev_ok h x : is_Some (r_next h x) -> get_prev (Some x) h = Ok (lpv h x, h).
  Proof. unfold get_prev, lpv. by intros [y ->]. Qed.

  (** Moving along a ring whose structs are initialised. *)
  Lemma ring_succ h l i x : heap_ring h l -> l !! i = Some x -> lnx h x = l !! (S i mod length l).
  Proof.
    intros H Hi. pose proof (lookup_lt_Some _ _ _ Hi) as Hlt.
    destruct l as [|r t]; [done|]. destruct H as (_ & _ & H).
    destruct (decide (S i = length (r :: t))) as [E|E].
    - rewrite E, Nat.mod_same by done. cbn [lookup list_lookup].
      apply (chain_lookup_nx _ _ _ i x r H).
      + change (r :: t ++ [r]) with ((r :: t) ++ [r]). by apply lookup_app_l_Some.
      + change (r :: t ++ [r]) with ((r :: t) ++ [r]). rewrite E, lookup_app_r by lia.
        by rewrite Nat.sub_diag.
    - rewrite Nat.mod_small by lia. destruct (lookup_lt_is_Some_2 (r :: t) (S i)) as [y Hy]; [lia|].
      rewrite Hy. apply (chain_lookup_nx _ _ _ i x y H);
      change (r :: t ++ [r]) with ((r :: t) ++ [r]); by apply lookup_app_l_Some.
  Qed.
  Lemma ring_pred h l i x : heap_ring h l -> l !! i = Some x ->
    lpv h x = l !! ((i + (length l - 1)) mod length l).
  Proof.
    intros H Hi. pose proof (lookup_lt_Some _ _ _ Hi) as Hlt.
    destruct i as [|i].
    - rewrite Nat.mod_small by lia. destruct l as [|r t]; [done|]. injection Hi as ->.
      rewrite (ring_prev _ _ _ H), last_lookup. f_equal. cbn. lia.
    - replace (S i + (length l - 1)) with (i + 1 * length l) by lia.
      rewrite Nat.mod_add, Nat.mod_small by lia.
      destruct (lookup_lt_is_Some_2 l i) as [y Hy]; [lia|]. rewrite Hy.
      destruct l as [|r t]; [done|]. destruct H as (_ & _ & H).
      apply (chain_lookup_pv _ _ _ i y x H);
      change (r :: t ++ [r]) with ((r :: t) ++ [r]); by apply lookup_app_l_Some.
  Qed.

  Definition all_init h (l : list nat) : Prop := forall x, x ∈ l -> is_Some (r_next h x).
  Lemma all_init_ring h r t : heap_ring h (r :: t) -> is_Some (r_next h r) -> all_init h (r :: t).
  Proof.
    intros H Hr x Hx. destruct t as [|a t].
    - apply elem_of_list_singleton in Hx as ->. done.
    - eapply ring_inited_all; [exact H|done|done].
  Qed.

  Lemma forw_ok h l k i x :
    heap_ring h l -> all_init h l -> l !! i = Some x ->
    r_forw k (Some x) h = Ok (l !! ((i + k) mod length l), h).
  Proof.
    intros H Ha. revert i x. induction k as [|k IH]; intros i x Hi.
    - pose proof (lookup_lt_Some _ _ _ Hi). rewrite Nat.add_0_r, Nat.mod_small, Hi by lia. done.
    - cbn [r_forw]. pose proof (lookup_lt_Some _ _ _ Hi) as Hlt.
      rewrite (bind_ok _ _ _ _ _ (get_next_ok _ _ (Ha _ (elem_of_list_lookup_2 _ _ _ Hi)))).
      rewrite (ring_succ _ _ _ _ H Hi).
      destruct (lookup_lt_is_Some_2 l (S i mod length l)) as [y Hy].
      { apply Nat.mod_upper_bound. lia. }
      rewrite Hy, (IH _ _ Hy). do 3 f_equal.
      rewrite Nat.add_mod_idemp_l by lia. f_equal. lia.
  Qed.
  Lemma back_ok h l k i x :
    heap_ring h l -> all_init h l -> l !! i = Some x ->
    r_back k (Some x) h = Ok (l !! ((i + k * (length l - 1)) mod length l), h).
  Proof.
    intros H Ha. revert i x. induction k as [|k IH]; intros i x Hi.
    - pose proof (lookup_lt_Some _ _ _ Hi). cbn. rewrite Nat.add_0_r, Nat.mod_small, Hi by lia. done.
    - cbn [r_back]. pose proof (lookup_lt_Some _ _ _ Hi) as Hlt.
      rewrite (bind_ok _ _ _ _ _ (get_prev_ok _ _ (Ha _ (elem_of_list_lookup_2 _ _ _ Hi)))).
      rewrite (ring_pred _ _ _ _ H Hi).
      destruct (lookup_lt_is_Some_2 l ((i + (length l - 1)) mod length l)) as [y Hy].
      { apply Nat.mod_upper_bound. lia. }
      rewrite Hy, (IH _ _ Hy). do 3 f_equal.
      rewrite Nat.add_mod_idemp_l by lia. f_equal. lia.
  Qed.

  Lemma Move_ok h r t n :
    heap_ring h (r :: t) ->
    exists h', heq h h' /\ is_Some (r_next h' r) /\
      r_Move (Some r) n h = Ok ((r :: t) !! Z.to_nat (n mod Z.of_nat (length (r :: t))), h').
  Proof.
    intros H. unfold r_Move.
    destruct (r_next h r) as [y|] eqn:E.
    - exists h. split; [apply heq_refl|]. split; [by rewrite E|].
      assert (Hi : is_Some (r_next h r)) by (by rewrite E).
      rewrite (bind_ok _ _ _ _ _ (get_next_ok _ _ Hi)).
      assert (exists z, lnx h r = Some z) as [z ->] by (unfold lnx; rewrite E; eauto).
      pose proof (all_init_ring _ _ _ H Hi) as Ha.
      set (L := length (r :: t)) in *. assert (HL : 0 < L) by (unfold L; cbn; lia).
      destruct (n <? 0)%Z eqn:Hn; [|destruct (n >? 0)%Z eqn:Hn'].
      + rewrite (back_ok _ (r :: t) _ 0 r H Ha eq_refl). do 3 f_equal. fold L.
        apply Nat2Z.inj. rewrite Nat2Z.inj_mod, Z2Nat.id by (apply Z.mod_pos_bound; lia).
        replace (Z.of_nat (0 + Z.to_nat (- n) * (L - 1))) with (n + (- n) * Z.of_nat L)%Z
          by (rewrite Nat.add_0_l, Nat2Z.inj_mul, Z2Nat.id, Nat2Z.inj_sub by lia; lia).
        by rewrite Z.mod_add by lia.
      + rewrite (forw_ok _ (r :: t) _ 0 r H Ha eq_refl). do 3 f_equal. fold L.
        apply Nat2Z.inj. rewrite Nat2Z.inj_mod, Z2Nat.id by (apply Z.mod_pos_bound; lia).
        do 2 f_equal. lia.
      + replace n with 0%Z by lia. rewrite Z.mod_0_l by lia. done.
    - exists (inited h r). split; [apply inited_heq|]. split; [apply inited_some|].
      unfold bind, get_next. rewrite E. cbn.
      assert (t = []) as ->.
      { destruct t as [|a t]; [done|]. apply ring_inited in H. rewrite E in H. by destruct H. }
      cbn. rewrite Z.mod_1_r. unfold inited. by rewrite E.
  Qed.

  (** Len and Do *)
  Lemma loop_ok {A} h r t fuel body (f : nat -> A -> A) a l1 x l2 :
    heap_ring h (r :: t) -> all_init h (r :: t) ->
    (forall y b, y ∈ t -> body (Some y) b h = Ok (f y b, h)) ->
    t ++ [r] = l1 ++ x :: l2 -> length l2 < fuel ->
    r_loop fuel (Some r) (Some x) body a h = Ok (foldl (fun b y => f y b) a (take (length t - length l1) (x :: l2)), h).
  Proof.
    intros H Ha Hb. revert fuel a l1 x. induction l2 as [|z l2 IH]; intros fuel a l1 x E Hf.
    - apply app_inj_tail in E as [-> ->]. destruct fuel; [lia|]. cbn [r_loop].
      rewrite bool_decide_eq_true_2 by done. by rewrite Nat.sub_diag.
    - destruct fuel as [|fuel]; [lia|]. cbn [r_loop].
      assert (Hlen : length t = S (length l1 + length l2)).
      { apply (f_equal length) in E. rewrite !app_length in E. cbn in E. lia. }
      assert (Hx : (t ++ [r]) !! length l1 = Some x).
      { by rewrite E, lookup_app_r, Nat.sub_diag by lia. }
      rewrite lookup_app_l in Hx by lia.
      assert (Hxt : x ∈ t) by by eapply elem_of_list_lookup_2.
      assert (Hxr : x <> r).
      { intros ->. apply ring_nodup in H. apply NoDup_cons in H. tauto. }
      rewrite bool_decide_eq_false_2 by congruence.
      rewrite (bind_ok _ _ _ _ _ (Hb _ _ Hxt)).
      rewrite (bind_ok _ _ _ _ _ (get_next_ok _ _ (Ha _ (elem_of_list_further _ _ _ Hxt)))).
      assert (Hz : lnx h x = Some z).
      { destruct H as (_ & _ & Hc). rewrite E in Hc.
        exact (chain_nx _ _ (r :: l1) x z l2 Hc). }
      rewrite Hz. erewrite (IH _ _ (l1 ++ [x])); [|by rewrite <- app_assoc|cbn in Hf; lia].
      rewrite app_length. cbn [length].
      replace (length t - length l1) with (S (length t - (length l1 + 1))) by lia. done.
  Qed.
  Lemma loop_all {A} h r t fuel body (f : nat -> A -> A) a x :
    heap_ring h (r :: t) -> all_init h (r :: t) ->
    (forall y b, y ∈ t -> body (Some y) b h = Ok (f y b, h)) ->
    head (t ++ [r]) = Some x -> length t < fuel ->
    r_loop fuel (Some r) (Some x) body a h = Ok (foldl (fun b y => f y b) a t, h).
  Proof.
    intros H Ha Hb Hx Hf. destruct (t ++ [r]) as [|x' l2] eqn:E; [done|]. injection Hx as ->.
    assert (Hl : length l2 = length t).
    { apply (f_equal length) in E. rewrite app_length in E. cbn in E. lia. }
    rewrite (loop_ok h r t fuel body f a [] x l2 H Ha Hb); [|done|lia].
    rewrite Nat.sub_0_r, <- E, take_app. done.
  Qed.

  Lemma head_snoc_some t (r : nat) : exists x, head (t ++ [r]) = Some x.
  Proof. destruct t; cbn; eauto. Qed.

  Lemma Len_ok h r t fuel :
    heap_ring h (r :: t) -> length t < fuel ->
    exists h', heq h h' /\ r_Len fuel (Some r) h = Ok (Z.of_nat (length (r :: t)), h').
  Proof.
    intros H Hf. exists (inited h r). split; [apply inited_heq|]. unfold r_Len.
    rewrite (bind_ok _ _ _ _ _ (Next_ok _ _)), (ring_next _ _ _ H).
    apply (heq_ring _ _ _ (inited_heq h r)) in H.
    destruct (head_snoc_some t r) as [x Hx]. rewrite Hx.
    rewrite (loop_all _ r t fuel _ (fun _ n => (n + 1)%Z) _ x H); [|by apply all_init_ring, inited_some|done|done|done].
    do 2 f_equal. cbn [length]. clear.
    assert (forall k, foldl (fun b _ => (b + 1)%Z) k t = (k + Z.of_nat (length t))%Z) as ->; [|lia].
    induction t as [|a t IH]; intros k; cbn; [lia|]. rewrite IH. lia.
  Qed.

  Lemma Do_ok {A} h r t fuel (f : T -> A -> A) a :
    heap_ring h (r :: t) -> length t < fuel ->
    exists h', heq h h' /\
      r_Do fuel (Some r) f a h = Ok (foldl (fun b v => f v b) a (map (r_val h) (r :: t)), h').
  Proof.
    intros H Hf. exists (inited h r). split; [apply inited_heq|]. unfold r_Do.
    cbn [get_val]. rewrite (bind_ok _ _ _ (r_val h r) h eq_refl).
    rewrite (bind_ok _ _ _ _ _ (Next_ok _ _)), (ring_next _ _ _ H).
    apply (heq_ring _ _ _ (inited_heq h r)) in H.
    destruct (head_snoc_some t r) as [x Hx]. rewrite Hx.
    rewrite (loop_all _ r t fuel _ (fun y b => f (r_val h y) b) _ x H); [|by apply all_init_ring, inited_some| |done|done].
    - do 2 f_equal. cbn. generalize (f (r_val h r) a) as b. clear.
      induction t as [|y t IH]; intros b; cbn; [done|]. apply IH.
    - intros y b _. cbn. unfold bind, get_val. cbn. by rewrite (proj1 (proj2 (proj2 (inited_heq h r))) y).
  Qed.

  (** Link, as a change of the pointers read. *)
  Record linked h h' (r s n p : nat) : Prop := {
    lk_nx : forall x, lnx h' x = (<[p:=Some n]> (<[r:=Some s]> (lnx h))) x;
    lk_pv : forall x, lpv h' x = (<[n:=Some p]> (<[s:=Some r]> (lpv h))) x;
    lk_val : forall x, r_val h' x = r_val h x;
    lk_fresh : r_fresh h' = r_fresh h }.

  Lemma ring_elem_next h l x : heap_ring h l -> x ∈ l -> exists y, lnx h x = Some y /\ y ∈ l.
  Proof.
    intros H Hx. apply elem_of_list_lookup in Hx as [i Hi].
    pose proof (lookup_lt_Some _ _ _ Hi).
    destruct (lookup_lt_is_Some_2 l (S i mod length l)) as [y Hy]; [apply Nat.mod_upper_bound; lia|].
    exists y. rewrite (ring_succ _ _ _ _ H Hi). split; [done|]. by eapply elem_of_list_lookup_2.
  Qed.
  Lemma ring_elem_prev h l x : heap_ring h l -> x ∈ l -> exists y, lpv h x = Some y /\ y ∈ l.
  Proof.
    intros H Hx. apply elem_of_list_lookup in Hx as [i Hi].
    pose proof (lookup_lt_Some _ _ _ Hi).
    destruct (lookup_lt_is_Some_2 l ((i + (length l - 1)) mod length l)) as [y Hy]; [apply Nat.mod_upper_bound; lia|].
    exists y. rewrite (ring_pred _ _ _ _ H Hi). split; [done|]. by eapply elem_of_list_lookup_2.
  Qed.

  Lemma Link_ok h r s t t' :
    heap_ring h (r :: t) -> heap_ring h (s :: t') ->
    exists n p h', lnx h r = Some n /\ lpv h s = Some p /\ n ∈ r :: t /\ p ∈ s :: t' /\
      linked h h' r s n p /\ r_Link (Some r) (Some s) h = Ok (Some n, h').
  Proof.
    intros Hr Hs.
    destruct (ring_elem_next _ _ r Hr) as (n & Hn & Hnl); [by left|].
    destruct (ring_elem_prev _ _ s Hs) as (p & Hp & Hpl); [by left|].
    set (h1 := inited h r). set (h2 := inited h1 s).
    assert (E1 : heq h h1) by apply inited_heq.
    assert (E2 : heq h h2) by (eapply heq_trans; [exact E1|apply inited_heq]).
    assert (Ir : is_Some (r_next h2 r)) by apply inited_mono, inited_some.
    assert (Is : is_Some (r_next h2 s)) by apply inited_some.
    assert (Hr2 := proj1 (heq_ring _ _ _ E2) Hr). assert (Hs2 := proj1 (heq_ring _ _ _ E2) Hs).
    assert (In : is_Some (r_next h2 n)) by exact (all_init_ring _ _ _ Hr2 Ir n Hnl).
    assert (Ip : is_Some (r_next h2 p)) by exact (all_init_ring _ _ _ Hs2 Is p Hpl).
    exists n, p. eexists. split_and!; [done..|shelve|].
    unfold r_Link. rewrite (bind_ok _ _ _ _ _ (Next_ok _ _)), Hn. fold h1.
    rewrite (bind_ok _ _ _ _ _ (Prev_ok _ _)). fold h2.
    rewrite (proj1 (proj2 E1)), Hp. unfold bind, set_next, set_prev, ret. reflexivity.
    Unshelve.
    destruct E2 as (A & B & C & D). split; cbn; [| |done|done].
    - intros x. unfold lnx at 1. cbn.
      destruct (decide (x = p)) as [->|Hxp]; [by rewrite !fn_lookup_insert|].
      rewrite !(fn_lookup_insert_ne _ p) by done.
      destruct (decide (x = r)) as [->|Hxr]; [by rewrite !fn_lookup_insert|].
      rewrite !(fn_lookup_insert_ne _ r) by done. rewrite <- A. done.
    - intros x. unfold lpv at 1. cbn.
      assert (Hi : is_Some ((<[p:=Some n]> (<[r:=Some s]> (r_next h2))) x) <-> is_Some (r_next h2 x)).
      { destruct (decide (x = p)) as [->|Hxp]; [by rewrite !fn_lookup_insert|].
        rewrite !(fn_lookup_insert_ne _ p) by done.
        destruct (decide (x = r)) as [->|Hxr]; [by rewrite !fn_lookup_insert|].
        by rewrite !(fn_lookup_insert_ne _ r) by done. }
      destruct (decide (x = n)) as [->|Hxn].
      { rewrite !fn_lookup_insert. destruct (proj2 Hi In) as [? ->]. done. }
      rewrite !(fn_lookup_insert_ne _ n) by done.
      destruct (decide (x = s)) as [->|Hxs].
      { rewrite !fn_lookup_insert. destruct (proj2 Hi Is) as [? ->]. done. }
      rewrite !(fn_lookup_insert_ne _ s) by done. rewrite <- B. unfold lpv.
      destruct (r_next h2 x) eqn:Ex.
      + destruct (proj2 Hi) as [? ->]; [done|]. done.
      + destruct ((<[p:=Some n]> (<[r:=Some s]> (r_next h2))) x) eqn:Ey; [|done].
        exfalso. by destruct (proj1 Hi ltac:(eauto)) as [? ?].
  Qed.

  Lemma linked_same h h' r s n p :
    linked h h' r s n p -> lnx h r = Some s -> lpv h s = Some r -> n = s -> p = r -> heq h h'.
  Proof.
    intros [A B C D] H1 H2 -> ->. split_and!; try done; intros x.
    - rewrite A. destruct (decide (x = r)) as [->|?]; rewrite ?fn_lookup_insert, ?fn_lookup_insert_ne by done; done.
    - rewrite B. destruct (decide (x = s)) as [->|?]; rewrite ?fn_lookup_insert, ?fn_lookup_insert_ne by done; done.
  Qed.
  Lemma linked_far h h' r s n p l :
    linked h h' r s n p -> r ∉ l -> s ∉ l -> n ∉ l -> p ∉ l -> heap_ring h l <-> heap_ring h' l.
  Proof.
    intros [A B C D] H1 H2 H3 H4.
    assert (forall x, x ∈ l -> lnx h' x = lnx h x /\ lpv h' x = lpv h x) as E.
    { intros x Hx. rewrite A, B. rewrite !fn_lookup_insert_ne by (intros ->; done). done. }
    split; apply ring_ext; try (intros; rewrite D; done); [done|].
    intros x Hx. destruct (E x Hx). done.
  Qed.

  (** Rings with their head split off from either side. *)
  Lemma ring_head_tail (r : nat) t : exists n t', t ++ [r] = n :: t'.
  Proof. destruct t; cbn; eauto. Qed.
  Lemma ring_last_front (r : nat) t : exists p t', r :: t = t' ++ [p].
  Proof. destruct t as [|p t _] using rev_ind; [by exists r, []|]. by exists p, (r :: t). Qed.

  Lemma link_join h h' r s n p t t' :
    heap_ring h (r :: t) -> heap_ring h (s :: t') -> s ∉ r :: t ->
    lnx h r = Some n -> lpv h s = Some p -> linked h h' r s n p ->
    heap_ring h' (r :: (s :: t') ++ t).
  Proof.
    intros Hr Hs Hd Hn Hp [A B C D].
    assert (Hdis : forall x, x ∈ r :: t -> x ∉ s :: t').
    { intros x H1 H2. apply Hd. eapply (ring_meet h (s :: t') (r :: t) x); try done. by left. }
    rewrite (ring_next _ _ _ Hr) in Hn. rewrite (ring_prev _ _ _ Hs) in Hp.
    destruct Hr as (Nr & Fr & Cr), Hs as (Ns & Fs & Cs).
    destruct (ring_head_tail r t) as (n' & T1 & E1). rewrite E1 in *. injection Hn as ->.
    destruct (ring_last_front s t') as (p' & T2 & E2). rewrite E2, last_snoc in Hp. injection Hp as ->.
    assert (Np : NoDup (T2 ++ [p])) by (rewrite <- E2; done).
    assert (Nn : NoDup (n :: T1)).
    { rewrite <- E1. change (NoDup ([r] ++ t)) in Nr. rewrite Permutation_app_comm. done. }
    assert (Hpin : forall x, x ∈ T2 ++ [p] <-> x ∈ s :: t') by (intros; rewrite E2; done).
    assert (Hnin : forall x, x ∈ n :: T1 <-> x ∈ r :: t).
    { intros. rewrite <- E1, elem_of_app, elem_of_list_singleton, elem_of_cons. tauto. }
    split_and!.
    - change (NoDup ([r] ++ (s :: t') ++ t)). rewrite (Permutation_app_comm (s :: t') t), app_assoc.
      apply NoDup_app. split_and!; [done| |done]. intros x Hx. by apply Hdis.
    - rewrite D. intros x Hx. rewrite elem_of_cons, elem_of_app in Hx.
      destruct Hx as [->|[Hx|Hx]]; [apply Fr; by left|by apply Fs|apply Fr; by right].
    - replace (r :: ((s :: t') ++ t) ++ [r]) with (r :: T2 ++ p :: n :: T1)
        by (rewrite <- app_assoc, E1, E2, <- app_assoc; done).
      change (r :: T2 ++ p :: n :: T1) with ((r :: T2) ++ p :: n :: T1).
      assert (r ∉ T2 ++ [p]) by (rewrite Hpin; apply Hdis; by left).
      assert (p ∉ n :: T1).
      { rewrite Hnin. intros Hx. apply (Hdis _ Hx). rewrite <- Hpin, elem_of_app. right. by left. }
      assert (n ∉ T2 ++ [p]) by (rewrite Hpin; apply Hdis, Hnin; by left).
      assert (s ∉ n :: T1) by (by rewrite Hnin).
      assert (s ∈ T2 ++ [p]) by (apply Hpin; by left).
      apply chain_glue. split_and!.
      + assert (exists q, T2 ++ [p] = s :: q) as [q Eq] by (rewrite <- E2; eauto).
        cbn [app]. rewrite Eq. apply chain_cons. rewrite A, B. split_and!.
        * rewrite fn_lookup_insert_ne by mem. by rewrite fn_lookup_insert.
        * rewrite fn_lookup_insert_ne by mem. by rewrite fn_lookup_insert.
        * rewrite <- Eq. eapply chain_ext_snoc.
          -- rewrite <- E2. change (s :: t' ++ [s]) with ((s :: t') ++ [s]) in Cs.
             rewrite E2, <- app_assoc in Cs. cbn [app] in Cs.
             apply chain_glue in Cs as [Cs _]. rewrite E2. exact Cs.
          -- intros x Hx. rewrite A. apply NoDup_app in Np as (_ & Np & _). specialize (Np _ Hx).
             rewrite !fn_lookup_insert_ne; [done| |]; intros ->; mem.
          -- intros x Hx. rewrite B. rewrite Eq in Hx. cbn in Hx.
             rewrite Eq in Np. apply NoDup_cons in Np as [Np _].
             rewrite !fn_lookup_insert_ne; [done| |]; intros ->; [done|].
             rewrite Eq in *. mem.
      + rewrite A. by rewrite fn_lookup_insert.
      + rewrite B. by rewrite fn_lookup_insert.
      + rewrite <- E1. eapply chain_ext_snoc.
        * rewrite E1. apply chain_cons in Cr as (_ & _ & Cr). exact Cr.
        * intros x Hx. rewrite A. assert (x ∈ r :: t) by (by right). apply NoDup_cons in Nr as [Nr _].
          rewrite !fn_lookup_insert_ne; [done| |]; intros ->; [done|]. rewrite <- Hnin in *. done.
        * intros x Hx. rewrite B. rewrite E1 in Hx. cbn in Hx. apply NoDup_cons in Nn as [Nn _].
          rewrite !fn_lookup_insert_ne; [done| |]; intros ->; [|done]. mem.
  Qed.

  Lemma link_split h h' r s n p u v :
    heap_ring h (r :: u ++ s :: v) -> u <> [] ->
    lnx h r = Some n -> lpv h s = Some p -> linked h h' r s n p ->
    heap_ring h' (r :: s :: v) /\ heap_ring h' u.
  Proof.
    intros Hr Hu Hn Hp [A B C D].
    rewrite (ring_next _ _ _ Hr) in Hn.
    destruct Hr as (Nr & Fr & Cr).
    destruct u as [|n' u]; [done|]. cbn in Hn. injection Hn as ->.
    destruct (ring_last_front n u) as (p' & u' & E).
    cbn [app] in Cr. rewrite <- app_assoc in Cr. cbn [app] in Cr.
    assert (p' = p) as ->.
    { change (r :: n :: u ++ s :: v ++ [r]) with ((r :: n :: u) ++ s :: v ++ [r]) in Cr.
      rewrite E in Cr. change (r :: u' ++ [p']) with ((r :: u') ++ [p']) in Cr. rewrite <- app_assoc in Cr.
      apply chain_pv in Cr. congruence. }
    assert (Np : forall x, x ∈ n :: u -> x ∉ r :: s :: v).
    { intros x Hx. change (NoDup ([r] ++ (n :: u) ++ s :: v)) in Nr.
      rewrite app_assoc, (Permutation_app_comm [r]), <- app_assoc in Nr.
      apply NoDup_app in Nr as (_ & Nr & _). apply (Nr x Hx). }
    assert (Nv : NoDup (r :: s :: v)).
    { change (NoDup ([r] ++ (n :: u) ++ s :: v)) in Nr.
      rewrite app_assoc, (Permutation_app_comm [r]), <- app_assoc in Nr.
      apply NoDup_app in Nr as (_ & _ & Nr). exact Nr. }
    assert (Nu : NoDup (n :: u)).
    { change (NoDup ([r] ++ (n :: u) ++ s :: v)) in Nr.
      apply NoDup_app in Nr as (_ & _ & Nr). by apply NoDup_app in Nr as (? & _). }
    assert (Hnm : n ∉ r :: s :: v) by (apply Np; by left).
    assert (Hpm : p ∉ r :: s :: v) by (apply Np; rewrite E, elem_of_app; right; by left).
    assert (Hrs : r <> s) by (intros ->; apply NoDup_cons in Nv as [Nv _]; mem).
    split; split_and!.
    - done.
    - rewrite D. intros x Hx. apply Fr. mem.
    - cbn [app]. apply chain_cons. rewrite A, B. split_and!.
      + rewrite fn_lookup_insert_ne by mem. by rewrite fn_lookup_insert.
      + rewrite fn_lookup_insert_ne by mem. by rewrite fn_lookup_insert.
      + eapply chain_ext_mid.
        * change (r :: n :: u ++ s :: v ++ [r]) with ((r :: n :: u) ++ s :: v ++ [r]) in Cr.
          apply chain_app in Cr as [_ Cr]. exact Cr.
        * intros x Hx. rewrite A. apply NoDup_cons in Nv as [Nv _].
          rewrite !fn_lookup_insert_ne; [done| |]; intros ->; mem.
        * intros x Hx. rewrite B. apply NoDup_cons in Nv as [_ Nv]. apply NoDup_cons in Nv as [Nv _].
          rewrite !fn_lookup_insert_ne; [done| |]; intros ->; mem.
    - done.
    - rewrite D. intros x Hx. apply Fr. mem.
    - change (n :: u ++ [n]) with ((n :: u) ++ [n]). rewrite E, <- app_assoc. cbn [app].
      apply chain_glue. rewrite A, B, !fn_lookup_insert. split_and!; [|done|done|done].
      eapply chain_ext_snoc.
      + change (r :: n :: u ++ s :: v ++ [r]) with ((r :: n :: u) ++ s :: v ++ [r]) in Cr.
        rewrite E in Cr. apply chain_app in Cr as [Cr _].
        change ((r :: u' ++ [p]) ++ [s]) with (r :: (u' ++ [p]) ++ [s]) in Cr. rewrite <- E in Cr. cbn [app] in Cr.
        apply chain_cons in Cr as (_ & _ & Cr). change (n :: u ++ [s]) with ((n :: u) ++ [s]) in Cr.
        rewrite E, <- app_assoc in Cr. apply chain_app in Cr as [Cr _]. exact Cr.
      + intros x Hx. rewrite A. assert (x ∈ n :: u) by (rewrite E; mem).
        assert (x ∉ [p]). { rewrite E in Nu. apply NoDup_app in Nu as (_ & Nu & _). by apply Nu. }
        rewrite !fn_lookup_insert_ne; [done| |]; intros ->; [|mem].
        apply (Np _ H). by left.
      + intros x Hx. rewrite B. rewrite <- E in Hx. cbn in Hx. apply NoDup_cons in Nu as [Nu _].
        rewrite !fn_lookup_insert_ne; [done| |]; intros ->; [|mem].
        apply (Np x); [by right|]. right. by left.
  Qed.

  Lemma link_self h h' r n p t :
    heap_ring h (r :: t) -> t <> [] ->
    lnx h r = Some n -> lpv h r = Some p -> linked h h' r r n p ->
    heap_ring h' [r] /\ heap_ring h' t.
  Proof.
    intros Hr Ht Hn Hp [A B C D].
    rewrite (ring_next _ _ _ Hr) in Hn. rewrite (ring_prev _ _ _ Hr) in Hp.
    destruct Hr as (Nr & Fr & Cr).
    destruct t as [|n' t]; [done|]. cbn in Hn. injection Hn as ->.
    destruct (ring_last_front n t) as (p' & t' & E).
    rewrite E, app_comm_cons, last_snoc in Hp. injection Hp as ->.
    apply NoDup_cons in Nr as [Hrt Nt].
    assert (r <> p) by (intros ->; apply Hrt; rewrite E; mem).
    assert (r <> n) by (intros ->; apply Hrt; mem).
    split; split_and!.
    - apply NoDup_singleton.
    - rewrite D. intros x Hx. apply Fr. mem.
    - cbn [app]. apply chain_cons. rewrite A, B. split_and!; [| |done].
      + rewrite fn_lookup_insert_ne by done. by rewrite fn_lookup_insert.
      + rewrite fn_lookup_insert_ne by done. by rewrite fn_lookup_insert.
    - done.
    - rewrite D. intros x Hx. apply Fr. by right.
    - change (n :: t ++ [n]) with ((n :: t) ++ [n]). rewrite E, <- app_assoc. cbn [app].
      apply chain_glue. rewrite A, B, !fn_lookup_insert. split_and!; [|done|done|done].
      eapply chain_ext_snoc.
      + change (r :: (n :: t) ++ [r]) with ((r :: n :: t) ++ [r]) in Cr. rewrite E in Cr.
        change ((r :: t' ++ [p]) ++ [r]) with (r :: (t' ++ [p]) ++ [r]) in Cr. rewrite <- E in Cr. cbn [app] in Cr.
        apply chain_cons in Cr as (_ & _ & Cr). change (n :: t ++ [r]) with ((n :: t) ++ [r]) in Cr.
        rewrite E, <- app_assoc in Cr. apply chain_app in Cr as [Cr _]. exact Cr.
      + intros x Hx. rewrite A. rewrite E in Hrt, Nt.
        apply NoDup_app in Nt as (_ & Nt & _). specialize (Nt x Hx).
        rewrite !fn_lookup_insert_ne; [done| |]; intros ->; mem.
      + intros x Hx. rewrite B. rewrite <- E in Hx. cbn in Hx. apply NoDup_cons in Nt as [Nt _].
        rewrite !fn_lookup_insert_ne; [done| |]; intros ->; mem.
  Qed.

  Context (zero : T).

  (** New *)
  Lemma grow_ok k : forall h p, p < r_fresh h -> exists p' h',
    r_grow zero k (Some p) h = Ok (Some p', h') /\
    last (p :: seq (r_fresh h) k) = Some p' /\
    chain (r_next h') (r_prev h') (p :: seq (r_fresh h) k) /\
    (forall x, x ∉ p :: seq (r_fresh h) k -> r_next h' x = r_next h x) /\
    (forall x, x ∉ seq (r_fresh h) k -> r_prev h' x = r_prev h x) /\
    (forall x, x ∉ seq (r_fresh h) k -> r_val h' x = r_val h x) /\
    (forall x, x ∈ seq (r_fresh h) k -> r_val h' x = zero) /\
    r_fresh h' = r_fresh h + k.
  Proof.
    induction k as [|k IH]; intros h p Hp.
    - exists p, h. cbn [seq]. split_and!; try done.
      intros x Hx. by apply elem_of_nil in Hx.
    - set (q := r_fresh h).
      set (h1 := mk_rheap (<[p:=Some q]> (<[q:=None]> (r_next h)))
                          (<[q:=Some p]> (<[q:=None]> (r_prev h)))
                          (<[q:=zero]> (r_val h)) (S q)).
      destruct (IH h1 q) as (p' & h' & Hg & Hl & Hc & Hn & Hpv & Hv & Hz & Hf); [cbn; lia|].
      cbn [r_fresh h1] in *. cbn [seq].
      assert (Hq : forall x, x ∈ seq (S q) k -> S q <= x) by (intros x Hx; apply elem_of_seq in Hx; lia).
      assert (Hpq : p ∉ q :: seq (S q) k).
      { rewrite elem_of_cons. intros [->|Hx]; [unfold q in *; lia|]. apply Hq in Hx. unfold q in *. lia. }
      assert (Hqq : q ∉ seq (S q) k).
      { intros Hx. apply Hq in Hx. lia. }
      exists p', h'. split_and!.
      + cbn [r_grow]. unfold bind at 1 2 3 4, alloc, set_prev, set_next, get_next. fold q. cbn.
        rewrite fn_lookup_insert. exact Hg.
      + rewrite last_cons_cons. exact Hl.
      + apply chain_cons. split_and!; [| |done].
        * rewrite Hn by done. cbn. by rewrite fn_lookup_insert.
        * rewrite Hpv by done. cbn. by rewrite fn_lookup_insert.
      + intros x Hx. rewrite Hn by mem. cbn. rewrite !fn_lookup_insert_ne by mem. done.
      + intros x Hx. rewrite Hpv by mem. cbn. rewrite !fn_lookup_insert_ne by mem. done.
      + intros x Hx. rewrite Hv by mem. cbn. rewrite !fn_lookup_insert_ne by mem. done.
      + intros x Hx. apply elem_of_cons in Hx as [->|Hx]; [|by apply Hz].
        rewrite Hv by done. cbn. by rewrite fn_lookup_insert.
      + rewrite Hf. lia.
  Qed.

  (** From the raw pointers to the rings read. *)
  Lemma chain_raw h r t :
    chain (r_next h) (r_prev h) (r :: t ++ [r]) -> chain (lnx h) (lpv h) (r :: t ++ [r]).
  Proof.
    intros H.
    assert (Hi : forall x, x ∈ r :: t -> is_Some (r_next h x)).
    { intros x Hx. apply elem_of_list_split in Hx as (l1 & l2 & E).
      change (r :: t ++ [r]) with ((r :: t) ++ [r]) in H. rewrite E, <- app_assoc in H. cbn [app] in H.
      destruct l2 as [|y l2]; cbn [app] in H; apply chain_nx in H; eauto. }
    eapply chain_ext_mid; [exact H| |].
    - intros x Hx. unfold lnx. by destruct (Hi x Hx) as [y ->].
    - intros x Hx. unfold lpv. destruct (Hi x) as [y ->]; [mem|done].
  Qed.

  Lemma New_ok h n :
    (0 < n)%Z ->
    exists h', let l := seq (r_fresh h) (Z.to_nat n) in
      r_New zero n h = Ok (Some (r_fresh h), h') /\ heap_ring h' l /\
      (forall x, x ∉ l -> lnx h' x = lnx h x /\ lpv h' x = lpv h x /\ r_val h' x = r_val h x) /\
      (forall x, x ∈ l -> r_val h' x = zero) /\
      r_fresh h' = r_fresh h + Z.to_nat n.
  Proof.
    intros Hn. set (r := r_fresh h). set (k := Z.to_nat (n - 1)).
    replace (Z.to_nat n) with (S k) by lia.
    set (h0 := mk_rheap (<[r:=None]> (r_next h)) (<[r:=None]> (r_prev h)) (<[r:=zero]> (r_val h)) (S r)).
    destruct (grow_ok k h0 r) as (p & h1 & Hg & Hl & Hc & Hnx & Hpv & Hv & Hz & Hf); [cbn; lia|].
    change (r_fresh h0) with (S r) in *.
    eexists. cbn zeta. split_and!.
    - unfold r_New. destruct (n <=? 0)%Z eqn:E; [lia|].
      rewrite (bind_ok (alloc zero) _ h (Some r) h0 eq_refl). fold k.
      rewrite (bind_ok _ _ _ _ _ Hg).
      unfold bind, set_next, set_prev, ret. reflexivity.
    - cbn [seq]. set (t := seq (S r) k) in *.
      assert (Hr : r ∉ t) by (intros Hx; apply elem_of_seq in Hx; lia).
      split_and!.
      + change (NoDup (seq r (S k))). apply NoDup_seq.
      + intros x Hx. cbn. rewrite Hf. change (x ∈ seq r (S k)) in Hx. apply elem_of_seq in Hx. lia.
      + apply chain_raw. cbn.
        assert (exists t', r :: t = t' ++ [p]) as [t' E].
        { apply last_Some in Hl. exact Hl. }
        change (r :: t ++ [r]) with ((r :: t) ++ [r]). rewrite E, <- app_assoc. cbn [app].
        apply chain_glue. rewrite !fn_lookup_insert. split_and!; [|done|done|by apply chain_one].
        rewrite E in Hc. eapply chain_ext_snoc; [exact Hc| |].
        * intros x Hx.
          assert (Hnd : NoDup (t' ++ [p])).
          { rewrite <- E. change (NoDup (seq r (S k))). apply NoDup_seq. }
          apply NoDup_app in Hnd as (_ & Hnd & _). specialize (Hnd x Hx).
          rewrite fn_lookup_insert_ne by mem. done.
        * intros x Hx. rewrite <- E in Hx. cbn in Hx. rewrite fn_lookup_insert_ne by mem. done.
    - intros x Hx. cbn [seq] in Hx. unfold lnx, lpv. cbn.
      assert (x <> p).
      { intros ->. apply Hx. apply last_Some_elem_of in Hl. done. }
      rewrite !fn_lookup_insert_ne by mem. rewrite Hnx by done. rewrite Hpv by mem. rewrite Hv by mem.
      cbn. rewrite !fn_lookup_insert_ne by mem. done.
    - intros x Hx. cbn [seq] in Hx. apply elem_of_cons in Hx as [->|Hx]; cbn; [|by apply Hz].
      rewrite Hv. { cbn. by rewrite fn_lookup_insert. } intros Hx. apply elem_of_seq in Hx. lia.
    - cbn. rewrite Hf. lia.
  Qed.

  Lemma Zero_ok h :
    exists h', let r := r_fresh h in
      alloc zero h = Ok (Some r, h') /\ heap_ring h' [r] /\
      (forall x, x <> r -> lnx h' x = lnx h x /\ lpv h' x = lpv h x /\ r_val h' x = r_val h x) /\
      r_val h' r = zero /\ r_fresh h' = S r.
  Proof.
    eexists. cbn zeta. split_and!; [reflexivity| | |cbn; by rewrite fn_lookup_insert|done].
    - split_and!; [apply NoDup_singleton|cbn; intros x ->%elem_of_list_singleton; lia|].
      cbn [app]. apply chain_cons. unfold lnx, lpv. cbn. rewrite !fn_lookup_insert. split_and!; [done|done|by apply chain_one].
    - intros x Hx. unfold lnx, lpv. cbn. rewrite !fn_lookup_insert_ne by done. done.
  Qed.
End rings.

(** One call. *)
Section steps.
  Context {T : Type} (zero : T).
  Implicit Types h : rheap T.

  Lemma heq_covered h h' : heq h h' -> covered h -> covered h'.
  Proof.
    intros H Hc x Hx. destruct (Hc x) as [t Ht]; [by rewrite <- (proj2 (proj2 (proj2 H)))|].
    exists t. by apply (heq_ring _ _ _ H).
  Qed.

  (** Coverage after a change of the rings over [touched]. *)
  Lemma covered_after h h' (touched : list nat) :
    covered h -> r_fresh h' = r_fresh h ->
    (forall l, (forall x, x ∈ l -> x ∉ touched) -> heap_ring h l <-> heap_ring h' l) ->
    (forall l x, heap_ring h l -> x ∈ l -> x ∈ touched -> forall y, y ∈ l -> y ∈ touched) ->
    (forall x, x ∈ touched -> exists l, heap_ring h' l /\ x ∈ l) ->
    covered h'.
  Proof.
    intros Hc Hf Ho Hm Ht x Hx. rewrite Hf in Hx.
    destruct (decide (x ∈ touched)) as [Hin|Hin].
    - destruct (Ht x Hin) as (l & Hl & Hxl).
      destruct (ring_at _ _ _ Hl Hxl) as (l1 & l2 & _ & H). eauto.
    - destruct (Hc x Hx) as [t H]. exists t. apply Ho; [|done].
      intros y Hy Hyt. apply Hin. eapply Hm; [exact H|exact Hy|done|by left].
  Qed.

  Definition step_goal c r h h' : Prop :=
    ring_exec zero c h = Ok (r, h') /\ ring_does zero (rabs h) (rabs h') c r /\ covered h'.

  Lemma rmap_ok {A B} (f : A -> B) (m : M (rheap T) A) h a h' :
    m h = Ok (a, h') -> rmap f m h = Ok (f a, h').
  Proof. intros H. unfold rmap. by rewrite (bind_ok _ _ _ _ _ H). Qed.

  Lemma step_link h r x :
    covered h -> r < r_fresh h -> x < r_fresh h -> exists res h', step_goal (RLink r (Some x)) res h h'.
  Proof.
    intros Hc Hr Hx.
    destruct (Hc r Hr) as [t Ht]. destruct (Hc x Hx) as [t' Ht'].
    destruct (Link_ok h r x t t' Ht Ht') as (n & p & h' & Hn & Hp & Hnt & Hpt & Hl & He).
    assert (Hex : ring_exec zero (RLink r (Some x)) h = Ok (RPtr (Some n), h')) by exact (rmap_ok RPtr _ _ _ _ He).
    assert (Hnodes : same_nodes (rabs h) (rabs h')) by (intros y; cbn; by rewrite (lk_fresh _ _ _ _ _ _ Hl)).
    assert (Hvals : same_values (rabs h) (rabs h')) by (intros y _; cbn; by rewrite (lk_val _ _ _ _ _ _ Hl)).
    assert (Hfar : forall l, (forall y, y ∈ l -> y ∉ (r :: t) ++ (x :: t')) -> heap_ring h l <-> heap_ring h' l).
    { intros l Hd. eapply linked_far; [exact Hl|..]; intros Hin; apply (Hd _ Hin); mem. }
    destruct (decide (x ∈ r :: t)) as [Hin|Hin].
    - assert (Hsub : forall y, y ∈ x :: t' -> y ∈ r :: t).
      { intros y Hy. eapply (ring_meet h (x :: t') (r :: t) x); try done. by left. }
      assert (Hfar' : other_rings (rabs h) (rabs h') (r :: t)).
      { intros l Hd. apply Hfar. intros y Hy. rewrite elem_of_app. intros [?|?%Hsub]; by eapply Hd. }
      assert (Hmeet : forall l y, heap_ring h l -> y ∈ l -> y ∈ r :: t -> forall z, z ∈ l -> z ∈ r :: t).
      { intros l y H1 H2 H3 z Hz. by eapply (ring_meet h l (r :: t) y). }
      assert (Hcov : (forall y, y ∈ r :: t -> exists l, heap_ring h' l /\ y ∈ l) -> covered h').
      { intros Hy. eapply (covered_after h h' (r :: t)); [done|by apply (lk_fresh _ _ _ _ _ _ Hl)|exact Hfar'|exact Hmeet|exact Hy]. }
      rewrite (ring_next _ _ _ Ht) in Hn.
      apply elem_of_cons in Hin as [->|Hin].
      + assert (t' = t) as -> by by eapply ring_unique.
        destruct (decide (t = [])) as [->|Hne].
        * cbn in Hn. injection Hn as ->. assert (p = n) as ->.
          { rewrite (ring_prev _ _ _ Ht) in Hp. cbn in Hp. congruence. }
          assert (Hq : heq h h').
          { eapply linked_same; [exact Hl|rewrite (ring_next _ _ _ Ht); done|done|done|done]. }
          eexists _, h'. split_and!; [exact Hex| |by eapply heq_covered].
          apply (rd_Link_self zero (rabs h) (rabs h') n []); try done. by apply (heq_ring _ _ _ Hq).
        * destruct (link_self h h' r n p t) as [H1 H2]; try done.
          { by rewrite (ring_next _ _ _ Ht). }
          eexists _, h'. split_and!; [exact Hex| |].
          -- rewrite <- Hn. by apply (rd_Link_self zero (rabs h) (rabs h') r t).
          -- apply Hcov. intros y Hy. apply elem_of_cons in Hy as [->|Hy]; [exists [r]|exists t]; split; try done. mem.
      + apply elem_of_list_split in Hin as (u & v & ->).
        destruct (decide (u = [])) as [->|Hne].
        * cbn in Hn. injection Hn as ->.
          assert (Hp' : lpv h n = Some r).
          { destruct Ht as (_ & _ & Ht). cbn [app] in Ht. apply chain_cons in Ht. tauto. }
          assert (p = r) as -> by congruence.
          assert (Hq : heq h h').
          { eapply linked_same; [exact Hl|rewrite (ring_next _ _ _ Ht); done|done|done|done]. }
          eexists _, h'. split_and!; [exact Hex| |by eapply heq_covered].
          apply (rd_Link_split zero (rabs h) (rabs h') r n [] v); try done. by apply (heq_ring _ _ _ Hq).
        * destruct (link_split h h' r x n p u v) as [H1 H2]; try done.
          { by rewrite (ring_next _ _ _ Ht). }
          eexists _, h'. split_and!; [exact Hex| |].
          -- rewrite <- Hn. rewrite <- app_assoc. destruct u as [|z u]; [done|].
             by apply (rd_Link_split zero (rabs h) (rabs h') r x (z :: u) v).
          -- apply Hcov. intros y Hy.
             assert (y ∈ r :: x :: v \/ y ∈ u) as [?|?] by mem; eauto.
    - pose proof (link_join h h' r x n p t t' Ht Ht' Hin Hn Hp Hl) as Hj.
      rewrite (ring_next _ _ _ Ht) in Hn.
      eexists _, h'. split_and!; [exact Hex| |].
      + rewrite <- Hn. by apply (rd_Link_join zero (rabs h) (rabs h') r x t t').
      + eapply (covered_after h h' ((r :: t) ++ (x :: t'))); [done|by apply (lk_fresh _ _ _ _ _ _ Hl)|exact Hfar| |].
        * intros l y H1 H2 H3 z Hz. rewrite elem_of_app in *. destruct H3 as [H3|H3].
          -- left. by eapply (ring_meet h l (r :: t) y).
          -- right. by eapply (ring_meet h l (x :: t') y).
        * intros y Hy. exists (r :: (x :: t') ++ t). split; [done|]. mem.
  Qed.

  Lemma step_unlink h r n :
    covered h -> r < r_fresh h -> (0 < n)%Z -> exists res h', step_goal (RUnlink r n) res h h'.
  Proof.
    intros Hc Hr Hn. destruct (Hc r Hr) as [t Ht].
    destruct (Move_ok h r t (n + 1) Ht) as (h1 & Hq & Hi & Hm).
    set (L := length (r :: t)) in *.
    assert (HL : 0 < L) by (unfold L; cbn; lia).
    set (j := Z.to_nat ((n + 1) mod Z.of_nat L)) in *. set (k := Z.to_nat (n mod Z.of_nat L)).
    pose proof (Z.mod_pos_bound (n + 1) (Z.of_nat L)). pose proof (Z.mod_pos_bound n (Z.of_nat L)).
    assert (Hj : j < L) by lia. assert (Hk : k < L) by lia.
    destruct (lookup_lt_is_Some_2 (r :: t) j Hj) as [x Hx]. rewrite Hx in Hm.
    assert (Hjk : j = (k + 1) mod L).
    { apply Nat2Z.inj. rewrite Nat2Z.inj_mod. unfold j, k. rewrite Z2Nat.id by lia.
      rewrite Nat2Z.inj_add, Z2Nat.id by lia. rewrite Z.add_mod_idemp_l by lia. done. }
    pose proof (heq_covered _ _ Hq Hc) as Hc1.
    assert (Ht1 : heap_ring h1 (r :: t)) by by apply (heq_ring _ _ _ Hq).
    assert (Hf1 : r_fresh h1 = r_fresh h) by apply Hq.
    destruct (step_link h1 r x) as (res & h' & He & Hd & Hc'); [done|by rewrite Hf1| |].
    { eapply ring_nodes; [exact Ht1|]. by eapply elem_of_list_lookup_2. }
    assert (Hex : ring_exec zero (RUnlink r n) h = Ok (res, h')).
    { cbn. unfold r_Unlink. destruct (n <=? 0)%Z eqn:E; [lia|]. unfold rmap.
      unfold bind at 1. rewrite (bind_ok _ _ _ _ _ Hm). exact He. }
    exists res, h'. split_and!; [exact Hex| |done].
    assert (Hoth : forall l, other_rings (rabs h1) (rabs h') l -> other_rings (rabs h) (rabs h') l).
    { intros l Ho m Hm'. cbn. rewrite (heq_ring _ _ _ Hq). by apply Ho. }
    assert (Hsn : same_nodes (rabs h1) (rabs h') -> same_nodes (rabs h) (rabs h')).
    { intros Ho y. cbn. rewrite <- Hf1. apply Ho. }
    assert (Hsv : same_values (rabs h1) (rabs h') -> same_values (rabs h) (rabs h')).
    { intros Ho y Hy. rewrite (Ho y) by (cbn in *; by rewrite Hf1). apply Hq. }
    inversion Hd; subst.
    - (* joining is impossible: x is on the ring of r *)
      exfalso. match goal with H : x ∉ _ |- _ => apply H end.
      match goal with H : isring (rabs h1) (r :: ?t0) |- _ => assert (t0 = t) as -> by (eapply ring_unique; [exact H|exact Ht1]) end.
      by eapply elem_of_list_lookup_2.
    - (* split *)
      match goal with H : isring (rabs h1) (r :: u ++ x :: v) |- _ =>
        assert (t = u ++ x :: v) as -> by (eapply ring_unique; [exact Ht1|exact H]) end.
      assert (length u = k) as Hu.
      { assert (Hj' : (r :: u ++ x :: v) !! S (length u) = Some x).
        { change ((u ++ x :: v) !! length u = Some x). by apply list_lookup_middle. }
        assert (j = S (length u)) as ->.
        { eapply NoDup_lookup; [by eapply ring_nodup|exact Hx|exact Hj']. }
        destruct (decide (k + 1 = L)) as [El|El].
        - rewrite El, Nat.mod_same in Hjk by lia. lia.
        - rewrite Nat.mod_small in Hjk by lia. lia. }
      replace (RPtr (head (u ++ [x]))) with (RPtr (T := T) (head ((u ++ x :: v) ++ [r]))) by (by destruct u).
      apply (rd_Unlink zero (rabs h) (rabs h') r n (u ++ x :: v) k); try done; auto.
      + rewrite <- Hu, drop_app. done.
      + intros Hk0. rewrite <- Hu, take_app. match goal with H : u <> [] -> _ |- _ => apply H end.
        intros ->. cbn in Hu. lia.
    - (* self *)
      match goal with H : isring (rabs h1) (x :: ?t0) |- _ => assert (t0 = t) as -> by (eapply ring_unique; [exact H|exact Ht1]) end.
      assert (j = 0) as Hj0.
      { eapply NoDup_lookup; [by eapply ring_nodup|exact Hx|done]. }
      assert (k + 1 = L) as Hkl.
      { destruct (decide (k + 1 = L)) as [El|El]; [done|]. rewrite Nat.mod_small in Hjk by lia. lia. }
      assert (k = length t) as Hkt by (unfold L in Hkl; cbn in Hkl; lia).
      apply (rd_Unlink zero (rabs h) (rabs h') x n t k); try done; auto.
      + by rewrite Hkt, drop_all.
      + intros Hk0. rewrite Hkt, firstn_all. match goal with H : t <> [] -> _ |- _ => apply H end.
        intros ->. cbn in Hkt. lia.
  Qed.

  Lemma ring_step h c :
    covered h -> (forall x, x ∈ ring_args c -> x < r_fresh h) ->
    exists r h', step_goal c r h h'.
  Proof.
    intros Hc Ha.
    destruct c as [n| |r|r|r n|r [x|]|r n|[r|]|[r|]|r v]; cbn [ring_args] in Ha;
      try (destruct (Hc r) as [t Ht]; [apply Ha; by left|]).
    - destruct (decide (n <= 0)%Z) as [Hn|Hn].
      + exists (RPtr None), h. split_and!; [| |done].
        * apply (rmap_ok RPtr). unfold r_New. by destruct (n <=? 0)%Z eqn:E; [|lia].
        * apply rd_New_nil; [done|]. apply heq_unchanged, heq_refl.
      + destruct (New_ok zero h n) as (h' & He & Hr & Ho & Hz & Hf); [lia|]. cbn zeta in *.
        exists (RPtr (Some (r_fresh h))), h'.
        assert (Hrange : forall x, x ∈ seq (r_fresh h) (Z.to_nat n) <-> r_fresh h <= x < r_fresh h + Z.to_nat n).
        { intros x. apply elem_of_seq. }
        assert (Hoth : other_rings (rabs h) (rabs h') (seq (r_fresh h) (Z.to_nat n))).
        { intros l Hl. split; apply ring_ext.
          - intros x Hx. destruct (Ho x (Hl x Hx)) as (? & ? & ?). done.
          - intros x Hx. specialize (Hl x Hx). rewrite Hrange in Hl. rewrite Hf. lia.
          - intros x Hx. destruct (Ho x (Hl x Hx)) as (? & ? & ?). done.
          - intros x Hx. specialize (Hl x Hx). rewrite Hrange in Hl. rewrite Hf. lia. }
        split_and!; [by apply (rmap_ok RPtr)| |].
        * replace (Z.to_nat n) with (S (Z.to_nat (n - 1))) in * by lia. cbn [seq] in *.
          apply (rd_New zero (rabs h) (rabs h') n (r_fresh h) (seq (S (r_fresh h)) (Z.to_nat (n - 1)))); try done.
          -- lia.
          -- cbn. rewrite seq_length. lia.
          -- intros x Hx. rewrite Hrange in Hx. cbn. lia.
          -- intros x. rewrite Hrange. cbn. rewrite Hf. lia.
          -- intros x Hx. cbn in *. apply Ho. rewrite Hrange. lia.
        * intros x Hx. destruct (decide (x < r_fresh h)) as [Hlt|Hlt].
          -- destruct (Hc x Hlt) as [t Ht]. exists t. apply Hoth; [|done].
             intros y Hy. rewrite Hrange. pose proof (ring_nodes _ _ _ Ht Hy). lia.
          -- destruct (ring_at _ _ x Hr) as (l1 & l2 & _ & H); [|eauto]. apply Hrange. lia.
    - destruct (Zero_ok zero h) as (h' & He & Hr & Ho & Hz & Hf). cbn zeta in *.
      exists (RPtr (Some (r_fresh h))), h'.
      assert (Hoth : other_rings (rabs h) (rabs h') [r_fresh h]).
      { intros l Hl. split; apply ring_ext.
        - intros x Hx. destruct (Ho x) as (? & ? & ?); [intros ->; apply (Hl _ Hx); by left|]. done.
        - intros x Hx. specialize (Hl x Hx). rewrite Hf. assert (x <> r_fresh h) by mem. lia.
        - intros x Hx. destruct (Ho x) as (? & ? & ?); [intros ->; apply (Hl _ Hx); by left|]. done.
        - intros x Hx. specialize (Hl x Hx). rewrite Hf. assert (x <> r_fresh h) by mem. lia. }
      split_and!; [by apply (rmap_ok RPtr)| |].
      + apply rd_Zero; try done.
        * cbn. lia.
        * intros x. cbn. rewrite Hf. lia.
        * intros x Hx. cbn in *. apply Ho. lia.
      + intros x Hx. destruct (decide (x = r_fresh h)) as [->|Hne]; [eauto|].
        destruct (Hc x) as [t Ht]; [lia|]. exists t. apply Hoth; [|done].
        intros y Hy. pose proof (ring_nodes _ _ _ Ht Hy). rewrite elem_of_list_singleton. lia.
    - eexists _, _. split_and!; [apply (rmap_ok RPtr), Next_ok| |eapply heq_covered; [apply inited_heq|done]].
      rewrite (ring_next _ _ _ Ht). apply rd_Next; [done|]. apply heq_unchanged, inited_heq.
    - eexists _, _. split_and!; [apply (rmap_ok RPtr), Prev_ok| |eapply heq_covered; [apply inited_heq|done]].
      rewrite (ring_prev _ _ _ Ht). apply rd_Prev; [done|]. apply heq_unchanged, inited_heq.
    - destruct (Move_ok h r t n Ht) as (h' & Hq & _ & He).
      eexists _, h'. split_and!; [by apply (rmap_ok RPtr)| |by eapply heq_covered].
      apply rd_Move; [done|]. by apply heq_unchanged.
    - apply step_link; [done| |]; apply Ha; [by left|right; by left].
    - eexists _, _. split_and!; [| |eapply heq_covered; [apply inited_heq|done]].
      + apply (rmap_ok RPtr). unfold r_Link. rewrite (bind_ok _ _ _ _ _ (Next_ok _ _)). reflexivity.
      + rewrite (ring_next _ _ _ Ht). apply rd_Link_nil; [done|]. apply heq_unchanged, inited_heq.
    - destruct (decide (n <= 0)%Z) as [Hn|Hn].
      + exists (RPtr None), h. split_and!; [| |done].
        * apply (rmap_ok RPtr). unfold r_Unlink. by destruct (n <=? 0)%Z eqn:E; [|lia].
        * apply rd_Unlink_nil; [done|]. apply heq_unchanged, heq_refl.
      + apply step_unlink; [done|apply Ha; by left|lia].
    - destruct (Len_ok h r t (S (r_fresh h)) Ht) as (h' & Hq & He).
      { pose proof (ring_length _ _ Ht) as Hl. cbn in Hl. lia. }
      eexists _, h'. split_and!; [by apply (rmap_ok RInt)| |by eapply heq_covered].
      apply rd_Len; [done|]. by apply heq_unchanged.
    - eexists _, h. split_and!; [by apply (rmap_ok RInt)| |done]. apply rd_Len_nil, heq_unchanged, heq_refl.
    - destruct (Do_ok h r t (S (r_fresh h)) (fun v l => l ++ [v]) [] Ht) as (h' & Hq & He).
      { pose proof (ring_length _ _ Ht) as Hl. cbn in Hl. lia. }
      assert (Hs : forall (l0 l : list T), foldl (fun b v => b ++ [v]) l0 l = l0 ++ l).
      { intros l0 l. revert l0. induction l as [|v l IH]; intros l0; cbn; [by rewrite app_nil_r|].
        by rewrite IH, <- app_assoc. }
      rewrite Hs in He. cbn [app] in He.
      eexists _, h'. split_and!; [by apply (rmap_ok RVals)| |by eapply heq_covered].
      apply (rd_Do zero (rabs h) (rabs h') r t); [done|]. by apply heq_unchanged.
    - eexists _, h. split_and!; [by apply (rmap_ok RVals)| |done]. apply rd_Do_nil, heq_unchanged, heq_refl.
    - eexists RUnit, _. split_and!; [reflexivity| |exact Hc].
      apply rd_Set; try done; cbn.
      + by rewrite fn_lookup_insert.
      + intros x Hx _. by rewrite fn_lookup_insert_ne.
  Qed.

  Lemma ring_history_spec h tr h' :
    covered h -> ring_history zero h tr h' -> ring_behaves zero (rabs h) tr (rabs h') /\ covered h'.
  Proof.
    intros Hc H. induction H as [h|h c r h1 tr h2 Ha He H IH]; [by split; [constructor|]|].
    destruct (ring_step h c Hc Ha) as (r' & h1' & He' & Hd & Hc').
    rewrite He in He'. injection He' as <- <-.
    destruct (IH Hc') as [Hb Hc2]. split; [|done].
    econstructor; [exact Hd|by apply covered_ok|exact Hb].
  Qed.

  Lemma empty_covered : covered (empty_heap zero).
  Proof. intros x Hx. cbn in Hx. lia. Qed.
End steps.

Section theorems.
  Context {T : Type} (zero : T).
  Implicit Types h : rheap T.

  Definition reachable h : Prop := exists tr, ring_history zero (empty_heap zero) tr h.
  Lemma reachable_covered h : reachable h -> covered h.
  Proof. intros [tr H]. eapply ring_history_spec; [apply empty_covered|exact H]. Qed.

  Lemma ring_run_history cs : forall h rs h',
    ring_run zero cs h = Some (rs, h') -> ring_history zero h (zip cs rs) h'.
  Proof.
    induction cs as [|c cs IH]; intros h rs h' H; cbn in H.
    - injection H as <- <-. constructor.
    - destruct (forallb _ _) eqn:Ha; [|done].
      destruct (ring_exec zero c h) as [[r h1]| |] eqn:He; [|done..].
      destruct (ring_run zero cs h1) as [[rs1 h2]|] eqn:Hr; [|done].
      injection H as <- <-. cbn. econstructor; [|exact He|by apply IH].
      intros x Hx. rewrite forallb_forall in Ha. apply elem_of_list_In, Ha in Hx. by apply Nat.ltb_lt.
  Qed.

  Lemma new_spec h n :
    reachable h ->
    ((n <= 0)%Z -> r_New zero n h = Ok (None, h)) /\
    ((0 < n)%Z -> exists r t h', r_New zero n h = Ok (Some r, h') /\
       heap_ring h' (r :: t) /\ Z.of_nat (length (r :: t)) = n /\
       (forall x, x ∈ r :: t -> ~ x < r_fresh h /\ r_val h' x = zero) /\
       (forall fuel, length t < fuel ->
          exists h2, r_Len fuel (Some r) h' = Ok (n, h2)) /\
       (forall A (f : T -> A -> A) a fuel, length t < fuel ->
          exists h2, r_Do fuel (Some r) f a h' = Ok (foldl (fun b v => f v b) a (map (r_val h') (r :: t)), h2))).
  Proof.
    intros _. split.
    - intros Hn. unfold r_New. by destruct (n <=? 0)%Z eqn:E; [|lia].
    - intros Hn. destruct (New_ok zero h n Hn) as (h' & He & Hr & Ho & Hz & Hf). cbn zeta in *.
      exists (r_fresh h), (seq (S (r_fresh h)) (Z.to_nat (n - 1))), h'.
      replace (Z.to_nat n) with (S (Z.to_nat (n - 1))) in * by lia. cbn [seq] in *.
      assert (Hl : Z.of_nat (length (r_fresh h :: seq (S (r_fresh h)) (Z.to_nat (n - 1)))) = n)
        by (cbn; rewrite seq_length; lia).
      split_and!; [done|done|done| | |].
      + intros x Hx. split; [|by apply Hz].
        change (x ∈ seq (r_fresh h) (S (Z.to_nat (n - 1)))) in Hx. apply elem_of_seq in Hx. lia.
      + intros fuel Hfu. destruct (Len_ok h' _ _ fuel Hr Hfu) as (h2 & _ & H). rewrite Hl in H. eauto.
      + intros A f a fuel Hfu. destruct (Do_ok h' _ _ fuel f a Hr Hfu) as (h2 & _ & H). eauto.
  Qed.

  (** Len and Do anywhere. *)
  Lemma len_do_spec h r :
    reachable h -> r < r_fresh h ->
    exists t, heap_ring h (r :: t) /\
      (forall fuel, length t < fuel ->
         exists h2, r_unchanged (rabs h) (rabs h2) /\
           r_Len fuel (Some r) h = Ok (Z.of_nat (length (r :: t)), h2)) /\
      (forall A (f : T -> A -> A) a fuel, length t < fuel ->
         exists h2, r_unchanged (rabs h) (rabs h2) /\
           r_Do fuel (Some r) f a h = Ok (foldl (fun b v => f v b) a (map (r_val h) (r :: t)), h2)).
  Proof.
    intros Hc%reachable_covered Hr. destruct (Hc r Hr) as [t Ht]. exists t. split_and!; [done| |].
    - intros fuel Hf. destruct (Len_ok h _ _ fuel Ht Hf) as (h2 & Hq & H). exists h2. split; [by apply heq_unchanged|done].
    - intros A f a fuel Hf. destruct (Do_ok h _ _ fuel f a Ht Hf) as (h2 & Hq & H). exists h2. split; [by apply heq_unchanged|done].
  Qed.

  Lemma move_spec h r n :
    reachable h -> r < r_fresh h ->
    exists t h', heap_ring h (r :: t) /\ r_unchanged (rabs h) (rabs h') /\
      r_Move (Some r) n h = Ok ((r :: t) !! Z.to_nat (n mod Z.of_nat (length (r :: t))), h').
  Proof.
    intros Hc%reachable_covered Hr. destruct (Hc r Hr) as [t Ht].
    destruct (Move_ok h r t n Ht) as (h' & Hq & _ & He). exists t, h'. split_and!; [done|by apply heq_unchanged|done].
  Qed.

  Lemma next_prev_spec h r :
    reachable h -> r < r_fresh h ->
    (exists x h1 h2, r_Next (Some r) h = Ok (Some x, h1) /\ r_Prev (Some x) h1 = Ok (Some r, h2) /\
       r_unchanged (rabs h) (rabs h2)) /\
    (exists x h1 h2, r_Prev (Some r) h = Ok (Some x, h1) /\ r_Next (Some x) h1 = Ok (Some r, h2) /\
       r_unchanged (rabs h) (rabs h2)).
  Proof.
    intros Hc%reachable_covered Hr. destruct (Hc r Hr) as [t Ht]. split.
    - destruct (ring_elem_next _ _ r Ht) as (x & Hx & _); [by left|].
      eexists x, _, _. rewrite Next_ok, Hx. split_and!; [reflexivity| |].
      + rewrite Prev_ok. do 2 f_equal.
        rewrite (proj1 (proj2 (inited_heq h r))). destruct Ht as (_ & _ & Ht).
        destruct t as [|y t]; cbn [app] in Ht; apply chain_cons in Ht as (H1 & H2 & _); congruence.
      + apply heq_unchanged. eapply heq_trans; apply inited_heq.
    - destruct (ring_elem_prev _ _ r Ht) as (x & Hx & _); [by left|].
      eexists x, _, _. rewrite Prev_ok, Hx. split_and!; [reflexivity| |].
      + rewrite Next_ok. do 2 f_equal. rewrite (proj1 (inited_heq h r)).
        rewrite (ring_prev _ _ _ Ht) in Hx. apply last_Some in Hx as [t' E].
        destruct Ht as (_ & _ & Ht). change (r :: t ++ [r]) with ((r :: t) ++ [r]) in Ht.
        rewrite E, <- app_assoc in Ht. by apply chain_nx in Ht.
      + apply heq_unchanged. eapply heq_trans; apply inited_heq.
  Qed.

  Lemma history_spec tr h :
    ring_history zero (empty_heap zero) tr h ->
    ring_behaves zero (rabs (empty_heap zero)) tr (rabs h) /\ rings_ok (rabs h).
  Proof.
    intros H. destruct (ring_history_spec zero _ _ _ (empty_covered zero) H). split; [done|by apply covered_ok].
  Qed.
  Lemma total_spec h c :
    reachable h -> (forall x, x ∈ ring_args c -> x < r_fresh h) ->
    exists r h', ring_exec zero c h = Ok (r, h') /\ ring_does zero (rabs h) (rabs h') c r /\ rings_ok (rabs h').
  Proof.
    intros Hc%reachable_covered Ha. destruct (ring_step zero h c Hc Ha) as (r & h' & H1 & H2 & H3).
    exists r, h'. split_and!; [done|done|by apply covered_ok].
  Qed.

  Lemma link_spec h r x :
    reachable h -> r < r_fresh h -> x < r_fresh h ->
    exists n t h',
      r_Link (Some r) (Some x) h = Ok (Some n, h') /\
      heap_ring h (r :: t) /\ head (t ++ [r]) = Some n /\ rings_ok (rabs h') /\
      (forall y, y < r_fresh h' <-> y < r_fresh h) /\ (forall y, r_val h' y = r_val h y) /\
      (forall t', heap_ring h (x :: t') -> x ∉ r :: t -> heap_ring h' (r :: (x :: t') ++ t)) /\
      (forall u v, t = u ++ x :: v -> heap_ring h' (r :: x :: v) /\ (u <> [] -> heap_ring h' u)) /\
      (x = r -> heap_ring h' [r] /\ (t <> [] -> heap_ring h' t)) /\
      (forall l, r ∉ l -> x ∉ l -> heap_ring h l -> heap_ring h' l).
  Proof.
    intros Hc%reachable_covered Hr Hx.
    destruct (Hc r Hr) as [t Ht]. destruct (Hc x Hx) as [t' Ht'].
    destruct (Link_ok h r x t t' Ht Ht') as (n & p & h' & Hn & Hp & Hnt & Hpt & Hl & He).
    destruct (step_link zero h r x Hc Hr Hx) as (res & h'' & He' & _ & Hc').
    pose proof (rmap_ok (RPtr (T:=T)) _ _ _ _ He) as He2.
    change (rmap RPtr (r_Link (Some r) (Some x)) h = Ok (res, h'')) in He'.
    rewrite He2 in He'. injection He' as <- <-.
    exists n, t, h'. split_and!.
    - done.
    - done.
    - by rewrite <- (ring_next _ _ _ Ht).
    - by apply covered_ok.
    - intros y. by rewrite (lk_fresh _ _ _ _ _ _ Hl).
    - apply Hl.
    - intros t0 H0 Hd. by eapply link_join.
    - intros u v ->. destruct (decide (u = [])) as [->|Hu].
      + assert (Hnx : lnx h r = Some x /\ lpv h x = Some r).
        { destruct Ht as (_ & _ & Hch). cbn [app] in Hch. apply chain_cons in Hch. tauto. }
        assert (Hq : heq h h') by (eapply linked_same; [exact Hl|tauto..| |]; destruct Hnx; congruence).
        split; [by apply (heq_ring _ _ _ Hq)|done].
      + destruct (link_split h h' r x n p u v); done.
    - intros ->. destruct (decide (t = [])) as [->|Hu].
      + assert (Hnx : lnx h r = Some r /\ lpv h r = Some r).
        { destruct Ht as (_ & _ & Hch). cbn [app] in Hch. apply chain_cons in Hch. tauto. }
        assert (Hq : heq h h') by (eapply linked_same; [exact Hl|tauto..| |]; destruct Hnx; congruence).
        split; [by apply (heq_ring _ _ _ Hq)|done].
      + destruct (link_self h h' r n p t); done.
    - intros l H1 H2 Hlr.
      assert (Hnl : forall y, y ∈ r :: t -> y ∉ l).
      { intros y Hy Hyl. apply H1. eapply (ring_meet h (r :: t) l y); try done. by left. }
      assert (Hpl : forall y, y ∈ x :: t' -> y ∉ l).
      { intros y Hy Hyl. apply H2. eapply (ring_meet h (x :: t') l y); try done. by left. }
      apply (linked_far h h' r x n p l Hl); [done|done|by apply Hnl|by apply Hpl|done].
  Qed.

  Lemma unlink_spec h r n :
    reachable h -> r < r_fresh h ->
    ((n <= 0)%Z -> r_Unlink (Some r) n h = Ok (None, h)) /\
    ((0 < n)%Z -> exists t k h',
       heap_ring h (r :: t) /\ k = Z.to_nat (n mod Z.of_nat (length (r :: t))) /\
       r_Unlink (Some r) n h = Ok (head (t ++ [r]), h') /\ rings_ok (rabs h') /\
       heap_ring h' (r :: drop k t) /\
       (k <> 0 -> heap_ring h' (take k t) /\ head (t ++ [r]) = head (take k t)) /\
       other_rings (rabs h) (rabs h') (r :: t) /\
       same_nodes (rabs h) (rabs h') /\ same_values (rabs h) (rabs h')).
  Proof.
    intros Hc%reachable_covered Hr. split.
    - intros Hn. unfold r_Unlink. by destruct (n <=? 0)%Z eqn:E; [|lia].
    - intros Hn. destruct (step_unlink zero h r n Hc Hr Hn) as (res & h' & He & Hd & Hc').
      inversion Hd as [ | | | | | | | | | | |r0 n0 t k Hn0 Ht Hk H1 H2 H3 H4 H5| | | | | ]; subst; [lia|].
      exists t, (Z.to_nat (n mod Z.of_nat (length (r :: t)))), h'. split_and!; try done.
      + change (rmap (RPtr (T:=T)) (r_Unlink (Some r) n) h = Ok (RPtr (head (t ++ [r])), h')) in He.
        unfold rmap, bind in He. destruct (r_Unlink (Some r) n h) as [[a h1]| |]; [|done|done].
        unfold ret in He. injection He as -> ->. done.
      + by apply covered_ok.
      + intros Hk. split; [by apply H2|]. destruct (Z.to_nat _); [done|].
        destruct t; [|done]. exfalso. apply H2 in Hk. by rewrite take_nil in Hk.
  Qed.
End theorems.
