From Coq Require Import ZifyBool ZifyNat.
From Verif Require Import Base Chain DllistModel DllistSpec DllistProofs DllistSteps.

Section steps.
  Context {T : Type} (zero : T).
  Implicit Types (w : dworld T) (l e : nat).
  Notation good := (good zero).

  Lemma PushBack_ok w l v :
    Inv w -> l < n_lists w ->
    exists w', dl_PushBack l v w = Ok (Some (n_elems w), w') /\ post w w' l (seq_of w l ++ [n_elems w]) /\
      (forall x, x < n_elems w -> e_val w' x = e_val w x /\ e_list w' x = e_list w x) /\
      e_val w' (n_elems w) = v /\ n_elems w' = S (n_elems w) /\ (forall l', l_root w' l' = l_root w l').
  Proof.
    intros HI Hl. destruct (lazyInit_same w l HI Hl) as (w1 & H1 & S1 & Hi).
    pose proof (s_nl _ _ S1) as N1. pose proof (s_ne _ _ S1) as N2. pose proof (s_inv _ _ S1) as HI1.
    pose proof (s_seq _ _ S1 l Hl) as Hs.
    unfold dl_PushBack. rewrite (bind_ok _ _ _ _ _ H1). unfold root_of, bind at 1, rd, bind at 1.
    rewrite root_prev by (done || lia). rewrite Hs.
    destruct (last_cons_some (l_root w1 l) (seq_of w l)) as (a & Ha & _). rewrite Ha.
    destruct (insertValue_ok w1 l v (seq_of w l) [] a) as (w2 & G1 & P & G2 & G3 & G4 & G5 & G6 & G7 & G8);
      [done|lia|done|by rewrite Hs, app_nil_r|done|].
    rewrite N2 in *. exists w2. split_and!; try done.
    - by eapply post_sameW_l.
    - intros x Hx. rewrite G3, G7 by done. split; [apply (s_val _ _ S1)|apply (s_list _ _ S1)].
    - intros l'. rewrite G6. apply (s_root _ _ S1).
  Qed.
  Lemma PushFront_ok w l v :
    Inv w -> l < n_lists w ->
    exists w', dl_PushFront l v w = Ok (Some (n_elems w), w') /\ post w w' l (n_elems w :: seq_of w l) /\
      (forall x, x < n_elems w -> e_val w' x = e_val w x) /\ e_val w' (n_elems w) = v /\ n_elems w' = S (n_elems w).
  Proof.
    intros HI Hl. destruct (lazyInit_same w l HI Hl) as (w1 & H1 & S1 & Hi).
    pose proof (s_nl _ _ S1) as N1. pose proof (s_ne _ _ S1) as N2. pose proof (s_inv _ _ S1) as HI1.
    pose proof (s_seq _ _ S1 l Hl) as Hs.
    unfold dl_PushFront. rewrite (bind_ok _ _ _ _ _ H1). unfold root_of, bind at 1.
    destruct (insertValue_ok w1 l v [] (seq_of w l) (l_root w1 l)) as (w2 & G1 & P & G2 & G3 & G4 & G5 & G6 & G7 & G8);
      [done|lia|done|by rewrite Hs|done|].
    rewrite N2 in *. exists w2. split_and!; try done.
    - by eapply post_sameW_l.
    - intros x Hx. rewrite G3 by done. apply (s_val _ _ S1).
  Qed.
  Lemma step_PushBack w l v : Inv w -> l < n_lists w -> good w (DPushBack l v).
  Proof.
    intros HI Hl. destruct (PushBack_ok w l v HI Hl) as (w' & H1 & P & H2 & H3 & H4 & H5).
    exists (DElem (Some (n_elems w))), w'. split; [by apply dmap_ok|]. split; [apply P|].
    constructor. apply post_inserted; try done; [cbn; by rewrite app_nil_r|]. intros x Hx. by apply H2.
  Qed.
  Lemma step_PushFront w l v : Inv w -> l < n_lists w -> good w (DPushFront l v).
  Proof.
    intros HI Hl. destruct (PushFront_ok w l v HI Hl) as (w' & H1 & P & H2 & H3 & H4).
    exists (DElem (Some (n_elems w))), w'. split; [by apply dmap_ok|]. split; [apply P|].
    constructor. by apply post_inserted.
  Qed.

  (** Insertion next to an element of the list *)
  Lemma insert_after_ok w l v pre m ps :
    Inv w -> l < n_lists w -> seq_of w l = pre ++ m :: ps ->
    exists w', dl_insertValue l v (Some m) w = Ok (Some (n_elems w), w') /\
      post w w' l ((pre ++ [m]) ++ n_elems w :: ps) /\
      (forall x, x < n_elems w -> e_val w' x = e_val w x /\ e_list w' x = e_list w x) /\
      e_val w' (n_elems w) = v /\ n_elems w' = S (n_elems w).
  Proof.
    intros HI Hl Hs.
    destruct (insertValue_ok w l v (pre ++ [m]) ps m) as (w2 & G1 & P & G2 & G3 & G4 & G5 & G6 & G7 & G8);
      [done|done| | | |].
    - eapply init_of; [done|done|]. rewrite Hs. mem.
    - by rewrite <- app_assoc.
    - by rewrite app_comm_cons, last_snoc.
    - exists w2. split_and!; try done. intros x Hx. auto.
  Qed.
  Lemma insert_before_ok w l v pre m ps :
    Inv w -> l < n_lists w -> seq_of w l = pre ++ m :: ps ->
    exists w', (p <- rd (Some m) e_prev ;; dl_insertValue l v p) w = Ok (Some (n_elems w), w') /\
      post w w' l (pre ++ n_elems w :: m :: ps) /\
      (forall x, x < n_elems w -> e_val w' x = e_val w x) /\ e_val w' (n_elems w) = v.
  Proof.
    intros HI Hl Hs.
    assert (Hi : l_init w l = true) by (eapply init_of; [done|done|]; rewrite Hs; mem).
    pose proof (cyc_of _ _ HI Hl Hi) as Hc. rewrite Hs in Hc.
    unfold rd, bind. rewrite (cyc_prev _ _ _ _ _ _ Hc).
    destruct (last_cons_some (l_root w l) pre) as (a & Ha & _). rewrite Ha.
    destruct (insertValue_ok w l v pre (m :: ps) a) as (w2 & G1 & P & G2 & G3 & G4 & G5 & G6 & G7 & G8); try done.
    exists w2. split_and!; done.
  Qed.

  (** Deciding whether a live handle belongs to the list. *)
  Lemma owner_cases w l e : Inv w -> l < n_lists w -> live (dabs w) e ->
    (bool_decide (e_list w e = Some l) = true /\ exists pre ps, seq_of w l = pre ++ e :: ps) \/
    (bool_decide (e_list w e = Some l) = false /\ e ∉ seq_of w l).
  Proof.
    intros HI Hl Hv. case_bool_decide as E; [left|right]; (split; [done|]).
    - by apply elem_of_list_split, (live_owner w l e HI Hl Hv).
    - by rewrite <- (live_owner w l e HI Hl Hv).
  Qed.

  Lemma step_InsertAfter w l v m : Inv w -> l < n_lists w -> live (dabs w) m -> good w (DInsertAfter l v m).
  Proof.
    intros HI Hl Hv. destruct (owner_cases w l m HI Hl Hv) as [(E & pre & ps & Hs)|(E & Hn)].
    - destruct (insert_after_ok w l v pre m ps HI Hl Hs) as (w' & H1 & P & H2 & H3 & H4).
      exists (DElem (Some (n_elems w))), w'. split; [apply dmap_ok; unfold dl_InsertAfter, rd, bind at 1; by rewrite E|].
      split; [apply P|]. apply (dd_InsertAfter _ _ l v m pre ps). apply post_inserted; try done.
      + by rewrite <- app_assoc. + intros x Hx. by apply H2.
    - eapply good_same; [apply dmap_ok; unfold dl_InsertAfter, rd, bind; by rewrite E|by apply sameW_refl|].
      intros D. by apply dd_InsertAfter_foreign.
  Qed.
  Lemma step_InsertBefore w l v m : Inv w -> l < n_lists w -> live (dabs w) m -> good w (DInsertBefore l v m).
  Proof.
    intros HI Hl Hv. destruct (owner_cases w l m HI Hl Hv) as [(E & pre & ps & Hs)|(E & Hn)].
    - destruct (insert_before_ok w l v pre m ps HI Hl Hs) as (w' & H1 & P & H2 & H3).
      exists (DElem (Some (n_elems w))), w'. split; [apply dmap_ok; unfold dl_InsertBefore, rd at 1, bind at 1; by rewrite E|].
      split; [apply P|]. apply (dd_InsertBefore _ _ l v m pre ps). by apply post_inserted.
    - eapply good_same; [apply dmap_ok; unfold dl_InsertBefore, rd at 1, bind at 1; by rewrite E|by apply sameW_refl|].
      intros D. by apply dd_InsertBefore_foreign.
  Qed.
  Lemma step_EInsertAfter w e v : Inv w -> live (dabs w) e -> good w (DEInsertAfter e v).
  Proof.
    intros HI Hv. destruct (live_cases _ _ HI Hv) as [(E & _ & L)|(l & pre & ps & E & Hl & Hs)].
    - eapply good_same; [apply dmap_ok; unfold el_InsertAfter, rd, bind; by rewrite E|by apply sameW_refl|].
      intros D. by apply dd_EInsertAfter_loose.
    - destruct (insert_after_ok w l v pre e ps HI Hl Hs) as (w' & H1 & P & H2 & H3 & H4).
      exists (DElem (Some (n_elems w))), w'. split; [apply dmap_ok; unfold el_InsertAfter, rd, bind at 1; by rewrite E|].
      split; [apply P|]. apply (dd_EInsertAfter _ _ e v l pre ps); [done|]. apply post_inserted; try done.
      + by rewrite <- app_assoc. + intros x Hx. by apply H2.
  Qed.
  Lemma step_EInsertBefore w e v : Inv w -> live (dabs w) e -> good w (DEInsertBefore e v).
  Proof.
    intros HI Hv. destruct (live_cases _ _ HI Hv) as [(E & _ & L)|(l & pre & ps & E & Hl & Hs)].
    - eapply good_same; [apply dmap_ok; unfold el_InsertBefore, rd, bind; by rewrite E|by apply sameW_refl|].
      intros D. by apply dd_EInsertBefore_loose.
    - destruct (insert_before_ok w l v pre e ps HI Hl Hs) as (w' & H1 & P & H2 & H3).
      exists (DElem (Some (n_elems w))), w'. split; [apply dmap_ok; unfold el_InsertBefore, rd at 1, bind at 1; by rewrite E|].
      split; [apply P|]. apply (dd_EInsertBefore _ _ e v l pre ps); [done|]. by apply post_inserted.
  Qed.

  (** Removal *)
  Lemma step_Remove w l e : Inv w -> l < n_lists w -> live (dabs w) e -> good w (DRemove l e).
  Proof.
    intros HI Hl Hv. destruct (owner_cases w l e HI Hl Hv) as [(E & pre & ps & Hs)|(E & Hn)].
    - destruct (remove_ok w l pre e ps HI Hl Hs) as (w' & H1 & P & H2 & H3 & _).
      exists (DVal (e_val w e)), w'. split.
      { rewrite <- H2. apply dmap_ok. unfold dl_Remove, rd, bind at 1. rewrite E. by rewrite (bind_ok _ _ _ _ _ H1). }
      split; [apply P|]. apply (dd_Remove (dabs w) (dabs w') l e pre ps); [done|by apply post_only|].
      apply (post_rest _ _ _ _ P). intros; apply H2.
    - eapply good_same; [apply dmap_ok; unfold dl_Remove, rd, bind; by rewrite E|by apply sameW_refl|].
      intros D. by apply (dd_Remove_foreign (dabs w)).
  Qed.

  (** Changing the links of an element outside all lists changes nothing. *)
  Lemma loose_write w w' e :
    Inv w -> e_list w e = None -> ~ is_root w e ->
    (forall x, x <> e -> e_next w' x = e_next w x /\ e_prev w' x = e_prev w x) ->
    (forall x, e_list w' x = e_list w x) -> (forall x, e_val w' x = e_val w x) ->
    (forall l, l_root w' l = l_root w l) -> (forall l, l_len w' l = l_len w l) ->
    (forall l, l_init w' l = l_init w l) -> n_elems w' = n_elems w -> n_lists w' = n_lists w ->
    sameW w w'.
  Proof.
    intros HI He Hr Hx Hl Hv Hro Hle Hin Hne Hnl.
    assert (Ho : forall l, l < n_lists w -> repr w' l (seq_of w l)).
    { intros l Hll. destruct (i_repr _ HI l Hll) as (A & B & C & D). split_and!; [by rewrite Hle|done| |].
      - rewrite Hin, Hro. destruct (l_init w l); [|done]. eapply cyc_frame; [exact C|].
        intros x Hxx. apply Hx. intros ->. apply elem_of_cons in Hxx as [->|Hxx].
        + apply Hr. by exists l.
        + destruct (D _ Hxx). congruence.
      - intros x Hxx. rewrite Hl, Hne. auto. }
    assert (HI' : Inv w').
    { split.
      - intros l. rewrite Hnl, Hro, Hne, Hl. apply HI.
      - intros l l'. rewrite Hnl, !Hro. apply HI.
      - intros l. rewrite Hnl. intros Hll. rewrite (repr_seq _ _ _ (Ho l Hll)). auto. }
    split; try done. intros l Hll. apply repr_seq. auto.
  Qed.

  Lemma step_ERemove w e : Inv w -> live (dabs w) e -> good w (DERemove e).
  Proof.
    intros HI Hv. destruct (live_cases _ _ HI Hv) as [(E & Hr & L)|(l & pre & ps & E & Hl & Hs)].
    - eapply good_same; [apply dmap_ok; unfold el_Remove, rd at 1, bind at 1; rewrite E; prims; reflexivity| |].
      + apply (loose_write w _ e); try done. intros x Hx. cbn. by fsimp.
      + intros D. by apply (dd_ERemove_loose (dabs w)).
    - destruct (remove_ok w l pre e ps HI Hl Hs) as (w1 & H1 & P & H2 & H3 & H4 & H5 & H6).
      exists (DVal (e_val w e)). eexists. split.
      { rewrite <- H2. apply dmap_ok. unfold el_Remove, rd, bind at 1. rewrite E. rewrite (bind_ok _ _ _ _ _ H1). prims. reflexivity. }
      match goal with |- Inv ?x /\ _ => set (w2 := x) end.
      assert (S : sameW w1 w2).
      { apply (loose_write w1 _ e); try done; [apply P| |].
        - intros (l' & Hl' & Er). assert (Hlive : live (dabs w1) e).
          { apply (p_live _ _ _ _ P); [|done]. apply Hv. }
          apply Hlive. by exists l'.
        - intros x Hx. cbn. by fsimp. }
      assert (P2 : post w w2 l (pre ++ ps)) by by eapply post_sameW_r.
      split; [apply P2|]. apply (dd_ERemove (dabs w) (dabs w2) e l pre ps); [done|done|by apply post_only|].
      apply (post_rest _ _ _ _ P2). intros x Hx. rewrite (s_val _ _ S). apply H2.
  Qed.

  (** Moves *)
  Lemma step_moved w w' l ids c :
    dl_exec zero c w = Ok (DUnit, w') -> post w w' l ids -> (forall x, e_val w' x = e_val w x) ->
    (moved (dabs w) (dabs w') l ids -> dl_does (dabs w) (dabs w') c DUnit) -> good w c.
  Proof.
    intros H P Hv D. exists DUnit, w'. split_and!; [done|apply P|]. apply D. split; [by apply post_only|].
    apply (post_rest _ _ _ _ P). intros; apply Hv.
  Qed.

  Lemma nodup_pos {A} (l1 l2 m1 m2 : list A) x : NoDup (l1 ++ x :: l2) -> l1 ++ x :: l2 = m1 ++ x :: m2 -> l1 = m1 /\ l2 = m2.
  Proof.
    revert m1. induction l1 as [|y l1 IH]; intros m1 Hn E; destruct m1 as [|z m1]; cbn in *.
    - by injection E.
    - injection E as -> ->. apply NoDup_cons in Hn as [Hn _]. exfalso. apply Hn. apply elem_of_app. right. by left.
    - injection E as <- _. apply NoDup_cons in Hn as [Hn _]. exfalso. apply Hn. apply elem_of_app. right. by left.
    - injection E as <- E. apply NoDup_cons in Hn as [_ Hn]. destruct (IH m1 Hn E) as [-> ->]. done.
  Qed.

  Lemma step_MoveToFront w l e : Inv w -> l < n_lists w -> live (dabs w) e -> good w (DMoveToFront l e).
  Proof.
    intros HI Hl Hv. destruct (owner_cases w l e HI Hl Hv) as [(E & pre & ps & Hs)|(E & Hn)].
    - assert (Hi : l_init w l = true) by (eapply init_of; [done|done|]; rewrite Hs; mem).
      destruct (decide (e_next w (l_root w l) = Some e)) as [En|En].
      + assert (pre = []) as ->.
        { rewrite root_next, Hs in En by done. destruct pre as [|y pre]; [done|]. cbn in En. injection En as ->.
          pose proof (inv_nodup w l HI Hl) as Hn. rewrite Hs in Hn. cbn in Hn. apply NoDup_cons in Hn as [Hn _].
          exfalso. apply Hn. mem. }
        apply (step_moved w w l (seq_of w l)); [|by apply post_same|done|].
        * apply (dmap_ok (fun _ => DUnit)) with (a := tt). unfold dl_MoveToFront, rd at 1, bind at 1. rewrite E. prims. by rewrite En, bool_decide_eq_true_2.
        * intros D. apply (dd_MoveToFront _ _ l e [] ps); [done|]. by rewrite Hs in D.
      + destruct (move_ok w l pre e ps [] (pre ++ ps) (l_root w l)) as (w' & H1 & P & H2 & _); try done.
        apply (step_moved w w' l (e :: pre ++ ps)); [|done|done|].
        * apply (dmap_ok (fun _ => DUnit)) with (a := tt). unfold dl_MoveToFront, rd at 1, bind at 1. rewrite E. unfold root_of, bind at 1, rd at 1, bind at 1.
          rewrite bool_decide_eq_false_2 by done. by rewrite (bind_ok _ _ _ _ _ (lazyInit_noop _ _ Hi)).
        * intros D. by apply (dd_MoveToFront _ _ l e pre ps).
    - eapply good_same; [apply dmap_ok; unfold dl_MoveToFront, rd at 1, bind at 1; by rewrite E|by apply sameW_refl|].
      intros D. by apply dd_MoveToFront_foreign.
  Qed.
  Lemma step_MoveToBack w l e : Inv w -> l < n_lists w -> live (dabs w) e -> good w (DMoveToBack l e).
  Proof.
    intros HI Hl Hv. destruct (owner_cases w l e HI Hl Hv) as [(E & pre & ps & Hs)|(E & Hn)].
    - assert (Hi : l_init w l = true) by (eapply init_of; [done|done|]; rewrite Hs; mem).
      pose proof (inv_nodup w l HI Hl) as Hnd. rewrite Hs in Hnd.
      destruct (decide (e_prev w (l_root w l) = Some e)) as [En|En].
      + assert (ps = []) as ->.
        { rewrite root_prev, Hs in En by done. destruct ps as [|y ps _] using rev_ind; [done|].
          replace (l_root w l :: pre ++ e :: ps ++ [y]) with ((l_root w l :: pre ++ e :: ps) ++ [y]) in En by (cbn; by rewrite <- app_assoc).
          rewrite last_snoc in En.
          injection En as ->. apply NoDup_app in Hnd as (_ & _ & Hnd). apply NoDup_cons in Hnd as [Hnd _].
          exfalso. apply Hnd. mem. }
        apply (step_moved w w l (seq_of w l)); [|by apply post_same|done|].
        * apply (dmap_ok (fun _ => DUnit)) with (a := tt). unfold dl_MoveToBack, rd at 1, bind at 1. rewrite E. prims. by rewrite En, bool_decide_eq_true_2.
        * intros D. apply (dd_MoveToBack _ _ l e pre []); [done|]. by rewrite Hs in D.
      + assert (Hps : ps <> []).
        { intros ->. apply En. rewrite root_prev, Hs by done. rewrite last_cons_ne by by destruct pre. by rewrite last_snoc. }
        destruct (last_cons_some (l_root w l) (pre ++ ps)) as (a & Ha & _).
        destruct (move_ok w l pre e ps (pre ++ ps) [] a) as (w' & H1 & P & H2 & _); try done.
        { by rewrite app_nil_r. }
        apply (step_moved w w' l ((pre ++ ps) ++ [e])); [|done|done|].
        * apply (dmap_ok (fun _ => DUnit)) with (a := tt). unfold dl_MoveToBack, rd at 1, bind at 1. rewrite E. unfold root_of, bind at 1, rd at 1, bind at 1.
          rewrite bool_decide_eq_false_2 by done. rewrite (bind_ok _ _ _ _ _ (lazyInit_noop _ _ Hi)).
          unfold rd, bind. rewrite root_prev, Hs by done.
          replace (last (l_root w l :: pre ++ e :: ps)) with (last (l_root w l :: pre ++ ps)); [by rewrite Ha|].
          destruct ps as [|y ps _] using rev_ind; [done|].
          replace (l_root w l :: pre ++ ps ++ [y]) with ((l_root w l :: pre ++ ps) ++ [y]) by (cbn; by rewrite <- app_assoc).
          replace (l_root w l :: pre ++ e :: ps ++ [y]) with ((l_root w l :: pre ++ e :: ps) ++ [y]) by (cbn; by rewrite <- app_assoc).
          by rewrite !last_snoc.
        * intros D. rewrite <- app_assoc in D. by apply (dd_MoveToBack _ _ l e pre ps).
    - eapply good_same; [apply dmap_ok; unfold dl_MoveToBack, rd at 1, bind at 1; by rewrite E|by apply sameW_refl|].
      intros D. by apply dd_MoveToBack_foreign.
  Qed.

  Lemma step_MoveAfter w l e m :
    Inv w -> l < n_lists w -> live (dabs w) e -> live (dabs w) m -> good w (DMoveAfter l e m).
  Proof.
    intros HI Hl Hv Hvm. destruct (owner_cases w l e HI Hl Hv) as [(E & pre & ps & Hs)|(E & Hn)].
    2: { eapply good_same; [apply dmap_ok; unfold dl_MoveAfter, rd at 1, bind at 1; by rewrite E|by apply sameW_refl|].
         intros D. apply dd_MoveAfter_none; [by left|done]. }
    destruct (decide (e = m)) as [->|Hne].
    { eapply good_same; [|by apply sameW_refl|intros D; apply dd_MoveAfter_none; [by right; right|done]].
      apply (dmap_ok (fun _ => DUnit)) with (a := tt). unfold dl_MoveAfter, rd at 1, bind at 1. by rewrite E, bool_decide_eq_true_2. }
    destruct (owner_cases w l m HI Hl Hvm) as [(Em & pm & pom & Hsm)|(Em & Hn)].
    2: { eapply good_same; [|by apply sameW_refl|intros D; apply dd_MoveAfter_none; [by right; left|done]].
      apply (dmap_ok (fun _ => DUnit)) with (a := tt). unfold dl_MoveAfter, rd at 1, bind at 1. rewrite E, bool_decide_eq_false_2 by (by intros [=]).
      unfold rd, bind. by rewrite Em. }
    assert (Hm : m ∈ pre ++ ps).
    { assert (Hx : m ∈ seq_of w l) by (rewrite Hsm; mem). rewrite Hs in Hx. mem. }
    apply elem_of_list_split in Hm as (a & b & Hab).
    destruct (move_ok w l pre e ps (a ++ [m]) b m) as (w' & H1 & P & H2 & _); try done.
    { by rewrite <- app_assoc. } { by rewrite app_comm_cons, last_snoc. }
    apply (step_moved w w' l ((a ++ [m]) ++ e :: b)); [|done|done|].
    - apply (dmap_ok (fun _ => DUnit)) with (a := tt). unfold dl_MoveAfter, rd at 1, bind at 1. rewrite E, bool_decide_eq_false_2 by (by intros [=]).
      unfold rd, bind at 1. by rewrite Em.
    - intros D. rewrite <- app_assoc in D. by apply (dd_MoveAfter _ _ l e m pre ps a b).
  Qed.

  Lemma step_MoveBefore w l e m :
    Inv w -> l < n_lists w -> live (dabs w) e -> live (dabs w) m -> good w (DMoveBefore l e m).
  Proof.
    intros HI Hl Hv Hvm. destruct (owner_cases w l e HI Hl Hv) as [(E & pre & ps & Hs)|(E & Hn)].
    2: { eapply good_same; [apply dmap_ok; unfold dl_MoveBefore, rd at 1, bind at 1; by rewrite E|by apply sameW_refl|].
         intros D. apply dd_MoveBefore_none; [by left|done]. }
    destruct (decide (e = m)) as [->|Hne].
    { eapply good_same; [|by apply sameW_refl|intros D; apply dd_MoveBefore_none; [by right; right|done]].
      apply (dmap_ok (fun _ => DUnit)) with (a := tt). unfold dl_MoveBefore, rd at 1, bind at 1. by rewrite E, bool_decide_eq_true_2. }
    destruct (owner_cases w l m HI Hl Hvm) as [(Em & pm & pom & Hsm)|(Em & Hn)].
    2: { eapply good_same; [|by apply sameW_refl|intros D; apply dd_MoveBefore_none; [by right; left|done]].
      apply (dmap_ok (fun _ => DUnit)) with (a := tt). unfold dl_MoveBefore, rd at 1, bind at 1. rewrite E, bool_decide_eq_false_2 by (by intros [=]).
      unfold rd, bind. by rewrite Em. }
    assert (Hi : l_init w l = true) by (eapply init_of; [done|done|]; rewrite Hs; mem).
    pose proof (cyc_of _ _ HI Hl Hi) as Hc. pose proof (inv_nodup w l HI Hl) as Hnd.
    assert (Hpm : e_prev w m = last (l_root w l :: pm)).
    { rewrite Hsm in Hc. by apply cyc_prev in Hc. }
    assert (Hex : forall w', dl_move l (Some e) (last (l_root w l :: pm)) w = Ok (tt, w') ->
      dl_exec zero (DMoveBefore l e m) w = Ok (DUnit, w')).
    { intros w' H. apply (dmap_ok (fun _ => DUnit)) with (a := tt). unfold dl_MoveBefore, rd at 1, bind at 1.
      rewrite E, bool_decide_eq_false_2 by (by intros [=]). unfold rd, bind at 1. rewrite Em. unfold bind. by rewrite Hpm. }
    (* where the mark stands relative to e *)
    assert (Hm : m ∈ pre ++ ps).
    { assert (Hx : m ∈ seq_of w l) by (rewrite Hsm; mem). rewrite Hs in Hx. mem. }
    apply elem_of_list_split in Hm as (a & b & Hab).
    destruct (decide (last (l_root w l :: pm) = Some e)) as [El|El].
    - (* e is directly before the mark *)
      assert (exists pm', pm = pm' ++ [e]) as (pm' & ->).
      { destruct pm as [|y pm _] using rev_ind.
        - cbn in El. injection El as El. exfalso. apply (inv_notroot w l l e HI Hl Hl); [rewrite Hs; mem|done].
        - rewrite last_cons_ne in El by by destruct pm. rewrite last_snoc in El. injection El as ->. by exists pm. }
      rewrite <- app_assoc in Hsm. cbn in Hsm.
      apply (step_moved w w l (seq_of w l)); [|by apply post_same|done|].
      + apply Hex. rewrite El. unfold dl_move. by rewrite bool_decide_eq_true_2.
      + intros D. apply (dd_MoveBefore _ _ l e m pm' (m :: pom) pm' pom); [done|done|]. by rewrite Hsm in D.
    - assert (Hlast : last (l_root w l :: a) = last (l_root w l :: pm)).
      { rewrite Hs in Hsm, Hnd. clear -Hsm Hab Hnd El Hne.
        assert (Hcase : (exists b', ps = b' ++ m :: b /\ a = pre ++ b') \/ (exists c, pre = a ++ m :: c /\ b = c ++ ps)).
        { apply app_eq_app in Hab as (k & [[-> Hk]|[-> Hk]]).
          - destruct k as [|z k]; cbn in Hk.
            + left. exists []. by rewrite !app_nil_r.
            + injection Hk as -> ->. right. by exists k.
          - left. by exists k. }
        destruct Hcase as [(b' & -> & ->)|(c & -> & ->)].
        - rewrite app_comm_cons, app_assoc in Hsm, Hnd.
          destruct (nodup_pos _ _ _ _ _ Hnd Hsm) as [<- <-].
          destruct b' as [|y b' _] using rev_ind.
          + exfalso. apply El. rewrite last_cons_ne by by destruct pre. by rewrite last_snoc.
          + replace (l_root w l :: pre ++ b' ++ [y]) with ((l_root w l :: pre ++ b') ++ [y]) by (cbn; by rewrite <- app_assoc).
            replace (l_root w l :: pre ++ e :: b' ++ [y]) with ((l_root w l :: pre ++ e :: b') ++ [y]) by (cbn; by rewrite <- app_assoc).
            by rewrite !last_snoc.
        - rewrite <- app_assoc in Hsm, Hnd. cbn in Hsm, Hnd. destruct (nodup_pos _ _ _ _ _ Hnd Hsm) as [<- _]. done. }
      destruct (last_cons_some (l_root w l) a) as (at_ & Hat & _).
      destruct (move_ok w l pre e ps a (m :: b) at_) as (w' & H1 & P & H2 & _); try done.
      apply (step_moved w w' l (a ++ e :: m :: b)); [|done|done|].
      + apply Hex. by rewrite <- Hlast, Hat.
      + intros D. by apply (dd_MoveBefore _ _ l e m pre ps a b).
  Qed.

  Lemma two_split (x y : nat) (ids : list nat) : x <> y -> x ∈ ids -> y ∈ ids ->
    exists a b pre mid post, ((x = a /\ y = b) \/ (x = b /\ y = a)) /\ ids = pre ++ a :: mid ++ b :: post.
  Proof.
    intros Hne Hx Hy. apply elem_of_list_split in Hx as (l1 & l2 & ->).
    assert (Hy' : y ∈ l1 \/ y ∈ l2) by mem. destruct Hy' as [H|H]; apply elem_of_list_split in H as (k1 & k2 & ->).
    - exists y, x, k1, k2, l2. split; [by right|]. by rewrite <- app_assoc.
    - exists x, y, l1, k1, k2. split; [by left|]. done.
  Qed.

  Lemma step_Swap w l x y :
    Inv w -> l < n_lists w -> live (dabs w) x -> live (dabs w) y -> good w (DSwap l x y).
  Proof.
    intros HI Hl Hv Hvm. destruct (owner_cases w l x HI Hl Hv) as [(E & pre & ps & Hs)|(E & Hn)].
    2: { eapply good_same; [apply dmap_ok; unfold dl_Swap, rd at 1, bind at 1; by rewrite E|by apply sameW_refl|].
         intros D. apply dd_Swap_none; [by left|done]. }
    destruct (owner_cases w l y HI Hl Hvm) as [(Em & pm & pom & Hsm)|(Em & Hn)].
    2: { eapply good_same; [|by apply sameW_refl|intros D; apply dd_Swap_none; [by right; left|done]].
      apply (dmap_ok (fun _ => DUnit)) with (a := tt). unfold dl_Swap, rd at 1, bind at 1. rewrite E. cbn. unfold rd, bind. by rewrite Em. }
    destruct (decide (x = y)) as [->|Hne].
    { eapply good_same; [|by apply sameW_refl|intros D; apply dd_Swap_none; [by right; right|done]].
      apply (dmap_ok (fun _ => DUnit)) with (a := tt). unfold dl_Swap, rd at 1, bind at 1. rewrite E. cbn. unfold rd, bind. rewrite Em.
      by rewrite bool_decide_eq_true_2. }
    destruct (two_split x y (seq_of w l) Hne) as (a & b & p & mid & q & Hxy & Hsq); [rewrite Hs; mem|rewrite Hsm; mem|].
    assert (Hi : l_init w l = true) by (eapply init_of; [done|done|]; rewrite Hs; mem).
    pose proof (cyc_of _ _ HI Hl Hi) as Hc. pose proof (inv_nodup w l HI Hl) as Hnd. rewrite Hsq in Hc, Hnd.
    pose proof (repr_nodup _ _ _ HI Hl (i_repr _ HI l Hl)) as Hndr. rewrite Hsq in Hndr.
    assert (Han : e_next w a = head ((mid ++ b :: q) ++ [l_root w l])) by (by apply cyc_next in Hc).
    assert (Hbn : e_next w b = head (q ++ [l_root w l])).
    { replace (p ++ a :: mid ++ b :: q) with ((p ++ a :: mid) ++ b :: q) in Hc by by rewrite <- app_assoc.
      by apply cyc_next in Hc. }
    assert (Hba : e_next w b <> Some a).
    { rewrite Hbn. destruct (head_snoc_some' (l_root w l) q) as (z & Hz & Hzin). rewrite Hz. intros [= ->].
      clear -Hzin Hnd Hndr. apply elem_of_app in Hzin as [Hq|Hq%elem_of_list_singleton].
      - apply NoDup_app in Hnd as (_ & _ & Hnd). apply NoDup_cons in Hnd as [Hnd _]. apply Hnd. mem.
      - apply NoDup_cons in Hndr as [Hndr _]. apply Hndr. rewrite <- Hq. mem. }
    assert (Hpre : forall w', (if bool_decide (e_next w x = Some y) then
          p <- rd (Some x) e_prev ;; wr_next p (Some y) ;;;
          n <- rd (Some y) e_next ;; wr_prev n (Some x) ;;;
          n <- rd (Some y) e_next ;; wr_next (Some x) n ;;;
          p <- rd (Some x) e_prev ;; wr_prev (Some y) p ;;;
          wr_prev (Some x) (Some y) ;;; wr_next (Some y) (Some x)
        else if bool_decide (e_next w y = Some x) then
          p <- rd (Some y) e_prev ;; wr_next p (Some x) ;;;
          n <- rd (Some x) e_next ;; wr_prev n (Some y) ;;;
          n <- rd (Some x) e_next ;; wr_next (Some y) n ;;;
          p <- rd (Some y) e_prev ;; wr_prev (Some x) p ;;;
          wr_prev (Some y) (Some x) ;;; wr_next (Some x) (Some y)
        else swap_far (Some x) (Some y)) w = Ok (tt, w') -> dl_exec zero (DSwap l x y) w = Ok (DUnit, w')).
    { intros w' H. apply (dmap_ok (fun _ => DUnit)) with (a := tt). unfold dl_Swap, rd at 1, bind at 1.
      rewrite E. cbn [negb]. unfold rd at 1, bind at 1. rewrite Em. rewrite bool_decide_eq_false_2 by (by intros [=]). cbn [negb orb].
      unfold rd at 1, bind at 1. destruct (bool_decide (e_next w x = Some y)); [exact H|].
      unfold rd at 1, bind at 1. exact H. }
    assert (Hfin : forall w', dl_exec zero (DSwap l x y) w = Ok (DUnit, w') ->
      post w w' l (p ++ b :: mid ++ a :: q) -> (forall x, e_val w' x = e_val w x) -> good w (DSwap l x y)).
    { intros w' H P H2. eapply step_moved; [done|exact P|done|]. intros D. by apply (dd_Swap _ _ l x y a b p mid q). }
    destruct mid as [|m mid].
    - cbn in Hsq, Han.
      destruct (swap_adj_ok w l p a b q HI Hl Hsq) as (w' & H1 & P & H2 & _). apply (Hfin w'); [|done|done]. apply Hpre.
      destruct Hxy as [[-> ->]|[-> ->]].
      + by rewrite bool_decide_eq_true_2.
      + rewrite bool_decide_eq_false_2 by done. by rewrite bool_decide_eq_true_2.
    - assert (Hab : e_next w a <> Some b).
      { rewrite Han. cbn. intros [= ->]. apply NoDup_app in Hnd as (_ & _ & Hnd). cbn in Hnd.
        rewrite !NoDup_cons in Hnd. destruct Hnd as (_ & Hnd & _). apply Hnd. mem. }
      destruct (swap_far_ok w l p a (m :: mid) b q x y HI Hl Hsq) as (w' & H1 & P & H2 & _); [done|done|].
      apply (Hfin w'); [|done|done]. apply Hpre.
      destruct Hxy as [[-> ->]|[-> ->]]; rewrite !bool_decide_eq_false_2 by done; done.
  Qed.

  (** The exported field *)
  Lemma step_Value w e : Inv w -> good w (DValue e).
  Proof. intros HI. eapply good_same; [by apply dmap_ok|by apply sameW_refl|]. intros D. by apply (dd_Value (dabs w)). Qed.
  Lemma step_SetValue w e v : Inv w -> good w (DSetValue e v).
  Proof.
    intros HI. exists DUnit. eexists. split; [by apply (dmap_ok (fun _ => DUnit)) with (a := tt)|]. cbn.
    match goal with |- Inv ?x /\ _ => set (w' := x) end.
    assert (HI' : Inv w') by (split; apply HI).
    split; [done|]. constructor.
    - intros l Hl. done.
    - cbn. by fsimp.
    - intros x Hx Hne. cbn. by fsimp.
    - intros x Hx. done.
    - intros x Hx. done.
  Qed.
End steps.
