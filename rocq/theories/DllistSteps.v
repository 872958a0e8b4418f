(** Every single call on doubly linked lists keeps the invariant and does what the
    specification says. *)
From Coq Require Import ZifyBool ZifyNat.
From Verif Require Import Base Chain DllistModel DllistSpec DllistProofs.

Section steps.
  Context {T : Type} (zero : T).
  Implicit Types (w : dworld T) (l e : nat).

  Lemma inv_elem w l e : Inv w -> l < n_lists w -> e ∈ seq_of w l -> e_list w e = Some l /\ e < n_elems w.
  Proof. intros HI Hl. by apply (i_repr _ HI l Hl). Qed.
  Lemma inv_nodup w l : Inv w -> l < n_lists w -> NoDup (seq_of w l).
  Proof. intros HI Hl. by apply (i_repr _ HI l Hl). Qed.
  Lemma inv_len w l : Inv w -> l < n_lists w -> l_len w l = Z.of_nat (length (seq_of w l)).
  Proof. intros HI Hl. by apply (i_repr _ HI l Hl). Qed.
  Lemma inv_notroot w l l' e : Inv w -> l < n_lists w -> l' < n_lists w -> e ∈ seq_of w l -> e <> l_root w l'.
  Proof. intros HI Hl Hl' He. eapply (repr_not_root w l); eauto. by apply i_repr. Qed.
  Lemma inv_bound w l : Inv w -> l < n_lists w -> length (seq_of w l) < n_elems w.
  Proof.
    intros HI Hl.
    assert (H : length (l_root w l :: seq_of w l) <= length (seq 0 (n_elems w))).
    { apply submseteq_length, NoDup_submseteq; [apply repr_nodup; [done|done|by apply i_repr]|].
      intros x Hx. apply elem_of_seq. split; [lia|].
      apply elem_of_cons in Hx as [->|Hx]; [by apply i_root|]. by eapply inv_elem. }
    rewrite seq_length in H. cbn in H. lia.
  Qed.

  Lemma seqs_ok_dabs w : Inv w -> seqs_ok (dabs w).
  Proof.
    intros HI. split; cbn.
    - intros l Hl. by apply inv_nodup.
    - intros l l' e Hl Hl' H1 H2. apply inv_elem in H1 as [H1 _], H2 as [H2 _]; [congruence|done..].
    - intros l e Hl He. destruct (inv_elem _ _ _ HI Hl He) as [H1 H2]. split_and!; [done| |].
      + intros (l' & Hl' & <-). by apply (inv_notroot w l l' _ HI Hl Hl' He).
      + intros l' Hl'. assert (l' = l) as -> by congruence. done.
    - intros e [H _]. done.
  Qed.

  (** A live handle of [l] is an element of [l]. *)
  Lemma live_in w l e : live (dabs w) e -> e_list w e = Some l -> e ∈ seq_of w l /\ l < n_lists w.
  Proof. intros (_ & _ & H) E. destruct (H _ E). done. Qed.
  Lemma live_owner w l e : Inv w -> l < n_lists w -> live (dabs w) e -> e_list w e = Some l <-> e ∈ seq_of w l.
  Proof.
    intros HI Hl Hv. split; [intros; by apply live_in|]. intros. by apply inv_elem.
  Qed.
  Lemma live_loose w e : Inv w -> e_list w e = None -> loose (dabs w) e.
  Proof. intros HI E l Hl He. apply inv_elem in He as [He _]; [congruence|done..]. Qed.

  (** Worlds that differ in nothing one can see. *)
  Record sameW w w' : Prop := {
    s_inv : Inv w';
    s_nl : n_lists w' = n_lists w;
    s_ne : n_elems w' = n_elems w;
    s_seq : forall l, l < n_lists w -> seq_of w' l = seq_of w l;
    s_val : forall e, e_val w' e = e_val w e;
    s_list : forall e, e_list w' e = e_list w e;
    s_root : forall l, l_root w' l = l_root w l }.
  Lemma sameW_refl w : Inv w -> sameW w w.
  Proof. by split. Qed.
  Lemma sameW_live w w' : sameW w w' -> forall e, live (dabs w') e <-> live (dabs w) e.
  Proof.
    intros [? N1 N2 S V L R] e. cbn. rewrite N1, N2, L. unfold is_root. rewrite N1.
    split; intros (A & B & C); (split_and!; [done| |]).
    - intros (l & ? & E). apply B. exists l. by rewrite R.
    - intros l Hl. destruct (C l Hl). split; [done|]. by rewrite <- S.
    - intros (l & ? & E). apply B. exists l. by rewrite <- R.
    - intros l Hl. destruct (C l Hl). split; [done|]. by rewrite S.
  Qed.
  Lemma sameW_same w w' : sameW w w' -> d_same (dabs w) (dabs w').
  Proof.
    intros H. split_and!.
    - intros l Hl. cbn in *. split; [by rewrite (s_nl _ _ H)|by apply (s_seq _ _ H)].
    - split_and!; intros e He; cbn in *; [by apply (s_val _ _ H)| |by rewrite (s_ne _ _ H)].
      by apply sameW_live.
  Qed.
  Lemma post_sameW_l w w1 w2 l ids : sameW w w1 -> post w1 w2 l ids -> post w w2 l ids.
  Proof.
    intros S [A B C D E F]. pose proof (s_nl _ _ S). pose proof (s_ne _ _ S). split; try done.
    - intros l' Hl' Hne. rewrite C by (done || lia). by apply (s_seq _ _ S).
    - lia.
    - lia.
    - intros x Hx. cbn in Hx. rewrite (F x) by (cbn; lia). by apply sameW_live.
  Qed.
  Lemma post_sameW_r w w1 w2 l ids : l < n_lists w -> post w w1 l ids -> sameW w1 w2 -> post w w2 l ids.
  Proof.
    intros Hl [A B C D E F] S. pose proof (s_nl _ _ S). pose proof (s_ne _ _ S). split; try done.
    - by apply S.
    - rewrite <- B. apply (s_seq _ _ S). lia.
    - intros l' Hl' Hne. rewrite (s_seq _ _ S) by lia. auto.
    - lia.
    - lia.
    - intros x Hx. rewrite (sameW_live _ _ S x). by apply F.
  Qed.
  Lemma post_trans w w1 w2 l ids ids' : post w w1 l ids -> post w1 w2 l ids' -> post w w2 l ids'.
  Proof.
    intros [A B C D E F] [A' B' C' D' E' F']. split; try done; try lia.
    - intros l' Hl' Hne. rewrite C' by (done || lia). auto.
    - intros x Hx. cbn in Hx. rewrite (F' x) by (cbn; lia). by apply F.
  Qed.
  Lemma post_same w l : Inv w -> l < n_lists w -> post w w l (seq_of w l).
  Proof. intros HI Hl. by split. Qed.
  Lemma post_rest w w' l ids :
    post w w' l ids -> (forall x, x < n_elems w -> e_val w' x = e_val w x) -> rest (dabs w) (dabs w').
  Proof.
    intros P H. split_and!; [done|apply P|]. intros x Hx. cbn in *. pose proof (p_ne _ _ _ _ P). lia.
  Qed.
  Lemma post_inserted w w' l pre ps v :
    l < n_lists w -> seq_of w l = pre ++ ps -> post w w' l (pre ++ n_elems w :: ps) ->
    (forall x, x < n_elems w -> e_val w' x = e_val w x) -> e_val w' (n_elems w) = v ->
    inserted (dabs w) (dabs w') l pre (n_elems w) ps v.
  Proof.
    intros Hl Hs P Hv Hve. split; [done|]. split; [|split; [by apply post_only|by apply (post_rest _ _ _ _ P Hv)]].
    split; [apply NoDup_singleton|]. split.
    - intros x ->%elem_of_list_singleton. pose proof (p_inv _ _ _ _ P) as HI.
      assert (Hin : n_elems w ∈ seq_of w' l) by (rewrite (p_seq _ _ _ _ P); mem).
      assert (Hl' : l < n_lists w') by by rewrite (p_nl _ _ _ _ P).
      pose proof (so_live _ (seqs_ok_dabs _ HI) l _ Hl' Hin) as Hlive.
      split_and!; cbn; [lia| |exact Hlive..]. apply Hlive.
    - cbn. by rewrite Hve.
  Qed.

  Lemma lazyInit_same w l :
    Inv w -> l < n_lists w ->
    exists w', dl_lazyInit l w = Ok (tt, w') /\ sameW w w' /\ l_init w' l = true.
  Proof.
    intros HI Hl. destruct (lazyInit_ok w l HI Hl) as (w' & H1 & H2 & F & H3 & H4 & H5 & H6 & H7).
    exists w'. split_and!; [done| |done]. split; try done; apply F.
  Qed.
  Lemma init_len w l : Inv w -> l < n_lists w -> seq_of w l <> [] -> l_init w l = true.
  Proof.
    intros HI Hl H. destruct (seq_of w l) as [|e s] eqn:E; [done|]. eapply init_of; [done|done|]. rewrite E. by left.
  Qed.
  Lemma lazyInit_noop w l : l_init w l = true -> dl_lazyInit l w = Ok (tt, w).
  Proof. intros H. unfold dl_lazyInit. prims. by rewrite H. Qed.

  (** The result of a call and what it did. *)
  Definition good w (c : dl_call (T := T)) : Prop :=
    exists r w', dl_exec zero c w = Ok (r, w') /\ Inv w' /\ dl_does (dabs w) (dabs w') c r.

  Lemma dmap_ok {A B} (f : A -> B) (m : M (dworld T) A) w a w' :
    m w = Ok (a, w') -> dmap f m w = Ok (f a, w').
  Proof. intros H. unfold dmap. by rewrite (bind_ok _ _ _ _ _ H). Qed.

  (** New and the zero value *)
  Lemma new_zero_ok w :
    Inv w -> exists w', new_zero zero w = Ok (n_lists w, w') /\ Inv w' /\ n_lists w' = S (n_lists w) /\
      n_elems w' = S (n_elems w) /\ l_root w' (n_lists w) = n_elems w /\
      (forall l, l < n_lists w -> seq_of w' l = seq_of w l /\ l_root w' l = l_root w l) /\ seq_of w' (n_lists w) = [] /\
      (forall x, x < n_elems w -> e_val w' x = e_val w x /\ e_list w' x = e_list w x).
  Proof.
    intros HI. eexists. split; [reflexivity|].
    match goal with |- Inv ?x /\ _ => set (w' := x) end.
    assert (Ho : forall l, l < n_lists w -> repr w' l (seq_of w l)).
    { intros l Hl. destruct (i_repr _ HI l Hl) as (A & B & C & D). assert (n_lists w <> l) by lia.
      destruct (i_root _ HI l Hl) as [R1 R2].
      split_and!; cbn; fsimp; try done.
      - destruct (l_init w l); [|done]. eapply cyc_frame; [exact C|].
        intros x Hx. assert (n_elems w <> x); [|by fsimp].
        apply elem_of_cons in Hx as [->|Hx]; [lia|]. destruct (D _ Hx). lia.
      - intros e He. destruct (D _ He). assert (n_elems w <> e) by lia. fsimp. split; [done|lia]. }
    assert (Hn : repr w' (n_lists w) []).
    { split_and!; cbn; fsimp; try done; [constructor|]. intros e He. by apply elem_of_nil in He. }
    split_and!; try done.
    - split; cbn.
      + intros l Hl. destruct (decide (n_lists w = l)) as [<-|Hne]; fsimp; [split; [lia|done]|].
        destruct (i_root _ HI l) as [R1 R2]; [lia|]. assert (n_elems w <> l_root w l) by lia. fsimp. split; [lia|done].
      + intros l l' Hl Hl'.
        destruct (decide (n_lists w = l)) as [<-|Hne], (decide (n_lists w = l')) as [<-|Hne']; fsimp; intros E; try done.
        * destruct (i_root _ HI l') as [R1 R2]; lia.
        * destruct (i_root _ HI l) as [R1 R2]; lia.
        * apply (i_inj _ HI); [lia|lia|done].
      + intros l Hl. destruct (decide (l = n_lists w)) as [->|Hne].
        * by rewrite (repr_seq _ _ _ Hn).
        * assert (l < n_lists w) by lia. by rewrite (repr_seq _ _ _ (Ho l ltac:(done))); apply Ho.
    - cbn. by fsimp.
    - intros l Hl. split; [apply repr_seq; auto|]. cbn. assert (n_lists w <> l) by lia. by fsimp.
    - by apply repr_seq.
    - intros x Hx. cbn. assert (n_elems w <> x) by lia. by fsimp.
  Qed.

  Lemma new_does w w' l :
    Inv w -> Inv w' -> l = n_lists w -> n_lists w' = S (n_lists w) -> n_elems w' = S (n_elems w) ->
    l_root w' l = n_elems w -> (forall l, l < n_lists w -> seq_of w' l = seq_of w l /\ l_root w' l = l_root w l) ->
    seq_of w' l = [] -> (forall x, x < n_elems w -> e_val w' x = e_val w x /\ e_list w' x = e_list w x) ->
    ~ dlists (dabs w) l /\ dlists (dabs w') l /\ dseq (dabs w') l = [] /\ d_same (dabs w) (dabs w').
  Proof.
    intros HI HI' -> N1 N2 HR HS HN HE. split; [cbn; lia|]. split; [cbn; lia|]. split; [done|]. split.
    - intros l Hl. cbn in *. split; [lia|]. by apply HS.
    - split_and!; cbn.
      + intros x Hx. by apply HE.
      + intros x Hx. cbn in *. destruct (HE x Hx) as [_ HE2]. rewrite HE2.
        split; intros (A & B & C); (split_and!; [lia| |]).
        * intros (l & Hl & E). apply B. exists l. split; [lia|]. by rewrite (proj2 (HS l Hl)).
        * intros l Hl. destruct (C l Hl) as [C1 C2]. destruct (decide (l = n_lists w)) as [->|Hne].
          -- rewrite HN in C2. by apply elem_of_nil in C2.
          -- assert (l < n_lists w) by lia. split; [done|]. by rewrite <- (proj1 (HS l ltac:(done))).
        * intros (l & Hl & E). destruct (decide (l = n_lists w)) as [->|Hne]; [lia|].
          apply B. exists l. assert (l < n_lists w) by lia. split; [done|]. by rewrite <- (proj2 (HS l ltac:(done))).
        * intros l Hl. destruct (C l Hl) as [C1 C2]. split; [lia|]. by rewrite (proj1 (HS l C1)).
      + intros x Hx. cbn in *. lia.
  Qed.

  Lemma step_Zero w : Inv w -> good w DZero.
  Proof.
    intros HI. destruct (new_zero_ok w HI) as (w' & H1 & H2 & H3 & H4 & H5 & H6 & H7 & H8).
    exists (DList (n_lists w)), w'. split; [by apply dmap_ok|]. split; [done|].
    destruct (new_does w w' _ HI H2 eq_refl H3 H4 H5 H6 H7 H8) as (A & B & C & D). by constructor.
  Qed.

  Lemma New_ok w :
    Inv w -> exists w', dl_New zero w = Ok (n_lists w, w') /\ Inv w' /\ n_lists w' = S (n_lists w) /\
      n_elems w' = S (n_elems w) /\ l_root w' (n_lists w) = n_elems w /\
      (forall l, l < n_lists w -> seq_of w' l = seq_of w l /\ l_root w' l = l_root w l) /\ seq_of w' (n_lists w) = [] /\
      (forall x, x < n_elems w -> e_val w' x = e_val w x /\ e_list w' x = e_list w x).
  Proof.
    intros HI. destruct (new_zero_ok w HI) as (w' & H1 & H2 & H3 & H4 & H5 & H6 & H7 & H8).
    destruct (Clear_ok w' (n_lists w) H2) as (w2 & G1 & G2 & F & G4 & G5 & G6 & G7 & G8 & G9); [lia|].
    exists w2. unfold dl_New. rewrite (bind_ok _ _ _ _ _ H1). split_and!; try done.
    - rewrite (f_nl _ _ _ _ F). done.
    - lia.
    - by rewrite (f_root _ _ _ _ F).
    - intros l Hl. destruct (H6 l Hl) as [<- <-]. split; [apply G6; lia|]. by rewrite (f_root _ _ _ _ F).
    - intros x Hx. rewrite G7, G8. auto.
  Qed.
  Lemma step_New w : Inv w -> good w DNew.
  Proof.
    intros HI. destruct (New_ok w HI) as (w' & H1 & H2 & H3 & H4 & H5 & H6 & H7 & H8).
    exists (DList (n_lists w)), w'. split; [by apply dmap_ok|]. split; [done|].
    destruct (new_does w w' _ HI H2 eq_refl H3 H4 H5 H6 H7 H8) as (A & B & C & D). by constructor.
  Qed.

  (** Clear *)
  Lemma step_Clear w l : Inv w -> l < n_lists w -> good w (DClear l).
  Proof.
    intros HI Hl. destruct (Clear_ok w l HI Hl) as (w2 & G1 & G2 & F & G4 & G5 & G6 & G7 & G8 & G9).
    exists (DList l), w2. split; [by apply dmap_ok|]. split; [done|]. constructor; cbn.
    - split_and!; cbn; try done. intros l'. by rewrite (f_nl _ _ _ _ F).
    - intros e He. cbn. by rewrite G7.
    - intros e He. cbn in *. by rewrite G9.
    - intros e He. cbn. rewrite G8, G9, (f_nl _ _ _ _ F).
      assert (Hr : is_root w2 e <-> is_root w e).
      { unfold is_root. rewrite (f_nl _ _ _ _ F). by setoid_rewrite (f_root _ _ _ _ F). }
      rewrite Hr. split.
      + intros (A & B & C). split_and!; [done|done| |].
        * intros l' Hl'. destruct (C l' Hl') as [C1 C2]. split; [done|].
          destruct (decide (l' = l)) as [->|Hne]; [|by rewrite <- G6]. rewrite G5 in C2. by apply elem_of_nil in C2.
        * intros Hin. destruct (inv_elem _ _ _ HI Hl Hin) as [E _]. destruct (C _ E) as [_ C2].
          rewrite G5 in C2. by apply elem_of_nil in C2.
      + intros ((A & B & C) & D). split_and!; [done|done|].
        intros l' Hl'. destruct (C l' Hl') as [C1 C2]. split; [done|].
        destruct (decide (l' = l)) as [->|Hne]; [done|]. by rewrite G6.
  Qed.

  (** Reading calls *)
  Lemma good_same w c r w' : dl_exec zero c w = Ok (r, w') -> sameW w w' ->
    (d_same (dabs w) (dabs w') -> dl_does (dabs w) (dabs w') c r) -> good w c.
  Proof. intros H S D. exists r, w'. split_and!; [done|apply S|]. by apply D, sameW_same. Qed.

  Lemma step_Len w l : Inv w -> l < n_lists w -> good w (DLen l).
  Proof.
    intros HI Hl. eapply good_same; [by apply dmap_ok|by apply sameW_refl|].
    intros D. rewrite inv_len by done. by apply dd_Len.
  Qed.

  Lemma root_next w l : Inv w -> l < n_lists w -> l_init w l = true ->
    e_next w (l_root w l) = head (seq_of w l ++ [l_root w l]).
  Proof. intros HI Hl Hi. eapply cyc_root_next. by apply cyc_of. Qed.
  Lemma root_prev w l : Inv w -> l < n_lists w -> l_init w l = true ->
    e_prev w (l_root w l) = last (l_root w l :: seq_of w l).
  Proof. intros HI Hl Hi. eapply cyc_root_prev. by apply cyc_of. Qed.

  Lemma Front_ok w l : Inv w -> l < n_lists w -> dl_Front l w = Ok (head (seq_of w l), w).
  Proof.
    intros HI Hl. unfold dl_Front, rd_l, bind at 1. rewrite inv_len by done.
    destruct (seq_of w l) as [|e s] eqn:E; [done|].
    rewrite (proj2 (Z.eqb_neq _ _)) by (cbn; lia).
    assert (Hi : l_init w l = true) by (apply init_len; [done|done|by rewrite E]).
    rewrite (bind_ok _ _ _ _ _ (lazyInit_noop _ _ Hi)). prims.
    by rewrite root_next, E by done.
  Qed.
  Lemma last_cons_ne {A} (x : A) s : s <> [] -> last (x :: s) = last s.
  Proof. by destruct s. Qed.
  Lemma Back_ok w l : Inv w -> l < n_lists w -> dl_Back l w = Ok (last (seq_of w l), w).
  Proof.
    intros HI Hl. unfold dl_Back, rd_l, bind at 1. rewrite inv_len by done.
    destruct (seq_of w l) as [|e s] eqn:E; [done|].
    rewrite (proj2 (Z.eqb_neq _ _)) by (cbn; lia).
    assert (Hi : l_init w l = true) by (apply init_len; [done|done|by rewrite E]).
    rewrite (bind_ok _ _ _ _ _ (lazyInit_noop _ _ Hi)). prims.
    by rewrite root_prev, E by done.
  Qed.
  Lemma step_Front w l : Inv w -> l < n_lists w -> good w (DFront l).
  Proof.
    intros HI Hl. eapply good_same; [by apply dmap_ok, Front_ok|by apply sameW_refl|].
    intros D. by apply dd_Front.
  Qed.
  Lemma step_Back w l : Inv w -> l < n_lists w -> good w (DBack l).
  Proof.
    intros HI Hl. eapply good_same; [by apply dmap_ok, Back_ok|by apply sameW_refl|].
    intros D. by apply dd_Back.
  Qed.

  Lemma el_Next_ok w l pre e ps :
    Inv w -> l < n_lists w -> seq_of w l = pre ++ e :: ps -> el_Next (Some e) w = Ok (head ps, w).
  Proof.
    intros HI Hl Hs. assert (He : e ∈ seq_of w l) by (rewrite Hs; mem).
    destruct (inv_elem _ _ _ HI Hl He) as [E1 E2].
    assert (Hi : l_init w l = true) by by eapply init_of.
    pose proof (cyc_of _ _ HI Hl Hi) as Hc. rewrite Hs in Hc.
    unfold el_Next. prims. rewrite E1, (cyc_next _ _ _ _ _ _ Hc).
    destruct ps as [|y ps]; cbn.
    - by rewrite bool_decide_eq_true_2.
    - rewrite bool_decide_eq_false_2; [done|]. intros [= E].
      apply (inv_notroot w l l y HI Hl Hl); [rewrite Hs; mem|done].
  Qed.
  Lemma el_Prev_ok w l pre e ps :
    Inv w -> l < n_lists w -> seq_of w l = pre ++ e :: ps -> el_Prev (Some e) w = Ok (last pre, w).
  Proof.
    intros HI Hl Hs. assert (He : e ∈ seq_of w l) by (rewrite Hs; mem).
    destruct (inv_elem _ _ _ HI Hl He) as [E1 E2].
    assert (Hi : l_init w l = true) by by eapply init_of.
    pose proof (cyc_of _ _ HI Hl Hi) as Hc. rewrite Hs in Hc.
    unfold el_Prev. prims. rewrite E1, (cyc_prev _ _ _ _ _ _ Hc).
    destruct pre as [|y pre _] using rev_ind.
    - cbn. by rewrite bool_decide_eq_true_2.
    - rewrite last_cons_ne by by destruct pre. rewrite last_snoc.
      rewrite bool_decide_eq_false_2; [done|]. intros [= E].
      apply (inv_notroot w l l y HI Hl Hl); [rewrite Hs; mem|done].
  Qed.
  Lemma el_Next_loose w e : e_list w e = None -> el_Next (Some e) w = Ok (None, w).
  Proof. intros E. unfold el_Next. prims. by rewrite E. Qed.
  Lemma el_Prev_loose w e : e_list w e = None -> el_Prev (Some e) w = Ok (None, w).
  Proof. intros E. unfold el_Prev. prims. by rewrite E. Qed.

  (** Where a live handle is. *)
  Lemma live_cases w e : Inv w -> live (dabs w) e ->
    (e_list w e = None /\ ~ is_root w e /\ loose (dabs w) e) \/
    (exists l pre ps, e_list w e = Some l /\ l < n_lists w /\ seq_of w l = pre ++ e :: ps).
  Proof.
    intros HI Hv. destruct (e_list w e) as [l|] eqn:E.
    - right. destruct (live_in _ _ _ Hv E) as [He Hl]. apply elem_of_list_split in He as (pre & ps & Hs). eauto 10.
    - left. split_and!; [done|apply Hv|by apply live_loose].
  Qed.

  Lemma step_Next w e : Inv w -> live (dabs w) e -> good w (DNext e).
  Proof.
    intros HI Hv. destruct (live_cases _ _ HI Hv) as [(E & _ & L)|(l & pre & ps & E & Hl & Hs)].
    - eapply good_same; [by apply dmap_ok, el_Next_loose|by apply sameW_refl|]. intros D. by apply dd_Next_loose.
    - eapply good_same; [by eapply dmap_ok, el_Next_ok|by apply sameW_refl|]. intros D. by apply (dd_Next _ _ e l pre ps).
  Qed.
  Lemma step_Prev w e : Inv w -> live (dabs w) e -> good w (DPrev e).
  Proof.
    intros HI Hv. destruct (live_cases _ _ HI Hv) as [(E & _ & L)|(l & pre & ps & E & Hl & Hs)].
    - eapply good_same; [by apply dmap_ok, el_Prev_loose|by apply sameW_refl|]. intros D. by apply dd_Prev_loose.
    - eapply good_same; [by eapply dmap_ok, el_Prev_ok|by apply sameW_refl|]. intros D. by apply (dd_Prev _ _ e l pre ps).
  Qed.

  (** Get: from the front or from the back *)
  Lemma go_next_ok w l pre ps k :
    Inv w -> l < n_lists w -> seq_of w l = pre ++ ps -> k < length ps ->
    go_next k (head ps) w = Ok (ps !! k, w).
  Proof.
    intros HI Hl. revert pre ps. induction k as [|k IH]; intros pre ps Hs Hk.
    - by destruct ps.
    - destruct ps as [|x ps]; [cbn in Hk; lia|]. cbn in Hk. cbn [go_next head].
      assert (Hi : l_init w l = true) by (eapply init_of; [done|done|]; rewrite Hs; mem).
      pose proof (cyc_of _ _ HI Hl Hi) as Hc. rewrite Hs in Hc.
      unfold bind at 1, rd at 1. rewrite (cyc_next _ _ _ _ _ _ Hc).
      destruct ps as [|y ps]; [cbn in Hk; lia|]. cbn [app head].
      change (Some y) with (head (y :: ps)). rewrite (IH (pre ++ [x])); [done| |cbn in *; lia].
      rewrite Hs. by rewrite <- app_assoc.
  Qed.
  Lemma go_prev_ok w l ids :
    Inv w -> l < n_lists w -> seq_of w l = ids -> forall k, k < length ids ->
    go_prev (S k) (Some (l_root w l)) w = Ok (ids !! (length ids - S k), w).
  Proof.
    intros HI Hl Hs.
    assert (Hstep : forall k pre x ps, ids = pre ++ x :: ps -> k <= length pre -> 
      go_prev k (Some x) w = Ok (ids !! (length pre - k), w)).
    { intros k. induction k as [|k IH]; intros pre x ps -> Hk.
      - cbn. rewrite Nat.sub_0_r. by rewrite list_lookup_middle.
      - assert (Hi : l_init w l = true) by (eapply init_of; [done|done|]; rewrite Hs; mem).
        pose proof (cyc_of _ _ HI Hl Hi) as Hc. rewrite Hs in Hc.
        cbn [go_prev]. unfold bind at 1, rd at 1. rewrite (cyc_prev _ _ _ _ _ _ Hc).
        destruct pre as [|y pre _] using rev_ind; [cbn in Hk; lia|].
        rewrite last_cons_ne by by destruct pre. rewrite last_snoc.
        rewrite app_length in *. cbn in Hk |- *.
        rewrite (IH pre y (x :: ps)); [|by rewrite <- app_assoc|lia]. do 3 f_equal. lia. }
    intros k Hk. destruct ids as [|x ids' _] eqn:Eids using rev_ind; [cbn in Hk; lia|].
    assert (Hi : l_init w l = true) by (eapply init_of; [done|done|]; rewrite Hs; mem).
    cbn [go_prev]. unfold bind at 1, rd at 1. rewrite root_prev by done. rewrite Hs, last_cons_ne by by destruct ids'.
    rewrite last_snoc. rewrite app_length in Hk |- *. cbn in Hk |- *.
    rewrite (Hstep k ids' x []); [do 3 f_equal; lia|done|lia].
  Qed.
  Lemma Get_ok w l i : Inv w -> l < n_lists w -> dl_Get l i w = Ok (getZ (seq_of w l) i, w).
  Proof.
    intros HI Hl. unfold dl_Get, getZ. unfold rd_l at 1, bind at 1. rewrite inv_len by done.
    set (ids := seq_of w l). set (n := length ids).
    destruct ((i <? 0)%Z || (i >=? Z.of_nat n)%Z) eqn:E.
    - case_bool_decide; [|done]. rewrite lookup_ge_None_2; [done|]. fold n. lia.
    - rewrite bool_decide_eq_true_2 by lia.
      assert (Hi : l_init w l = true).
      { apply init_len; [done|done|]. fold ids. intros H. unfold n in E. rewrite H in E. cbn in E. lia. }
      rewrite (bind_ok _ _ _ _ _ (lazyInit_noop _ _ Hi)). unfold rd_l, root_of, bind at 1 2. rewrite inv_len by done.
      fold ids n. destruct (i <? Z.quot (Z.of_nat n) 2)%Z eqn:E2.
      + unfold bind, rd. rewrite root_next by done. fold ids.
        assert (Hh : head (ids ++ [l_root w l]) = head ids).
        { unfold n in E. destruct ids; [cbn in E; lia|done]. }
        rewrite Hh. apply (go_next_ok w l []); [done|done|done|]. fold n. lia.
      + replace (Z.to_nat (Z.of_nat n - i)) with (S (n - Z.to_nat i - 1)) by lia.
        rewrite (go_prev_ok w l ids) by (done || (fold n; lia)). fold n. do 3 f_equal. lia.
  Qed.
  Lemma step_Get w l i : Inv w -> l < n_lists w -> good w (DGet l i).
  Proof.
    intros HI Hl. eapply good_same; [by apply dmap_ok, Get_ok|by apply sameW_refl|].
    intros D. by apply dd_Get.
  Qed.
End steps.
