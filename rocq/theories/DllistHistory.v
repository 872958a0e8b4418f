(** All calls together: histories of calls on doubly linked lists. *)
From Coq Require Import ZifyBool ZifyNat.
From Verif Require Import Base Chain DllistModel DllistSpec DllistProofs DllistSteps DllistSteps2 DllistSteps3 DllistSelf DllistSort.

Section history.
  Context {T : Type} (zero : T).
  Implicit Types (w : dworld T) (l : nat).

  Lemma Inv_empty : Inv (empty_dworld zero).
  Proof. split; cbn; intros; lia. Qed.

  Lemma dl_step w c : Inv w -> call_ok (dabs w) c -> good zero w c.
  Proof.
    intros HI (HL & HE).
    assert (L1 : forall l, l ∈ call_lists c -> l < n_lists w) by (intros l Hl; by apply HL in Hl).
    destruct c; cbn in L1, HE.
    - by apply step_New.
    - by apply step_Zero.
    - apply step_Clear; [done|]. apply L1. by left.
    - apply step_Get; [done|]. apply L1. by left.
    - apply step_Len; [done|]. apply L1. by left.
    - apply step_Front; [done|]. apply L1. by left.
    - apply step_Back; [done|]. apply L1. by left.
    - apply step_Remove; [done|apply L1; by left|apply HE; by left].
    - apply step_PushFront; [done|apply L1; by left].
    - apply step_PushBack; [done|apply L1; by left].
    - apply step_InsertBefore; [done|apply L1; by left|apply HE; by left].
    - apply step_InsertAfter; [done|apply L1; by left|apply HE; by left].
    - apply step_MoveToFront; [done|apply L1; by left|apply HE; by left].
    - apply step_MoveToBack; [done|apply L1; by left|apply HE; by left].
    - apply step_MoveBefore; [done|apply L1; by left|apply HE; by left|apply HE; by right; left].
    - apply step_MoveAfter; [done|apply L1; by left|apply HE; by left|apply HE; by right; left].
    - apply step_PushBackList; [done|apply L1; by left|apply L1; by right; left].
    - apply step_PushFrontList; [done|apply L1; by left|apply L1; by right; left].
    - match goal with |- good _ _ (_ ?a ?b _) => destruct (decide (a = b)) as [<-|] end.
      + apply step_PushBackListTo_self; [done|apply L1; by left|apply HE; by left].
      + apply step_PushBackListTo; [done|apply L1; by left|apply L1; by right; left|apply HE; by left|done].
    - match goal with |- good _ _ (_ ?a ?b _) => destruct (decide (a = b)) as [<-|] end.
      + apply step_PushFrontListTo_self; [done|apply L1; by left|apply HE; by left].
      + apply step_PushFrontListTo; [done|apply L1; by left|apply L1; by right; left|apply HE; by left|done].
    - apply step_Swap; [done|apply L1; by left|apply HE; by left|apply HE; by right; left].
    - apply step_Range; [done|apply L1; by left].
    - apply step_Slice; [done|apply L1; by left].
    - apply step_Sort; [done|apply L1; by left].
    - apply step_Next; [done|apply HE; by left].
    - apply step_Prev; [done|apply HE; by left].
    - apply step_ERemove; [done|apply HE; by left].
    - apply step_EInsertAfter; [done|apply HE; by left].
    - apply step_EInsertBefore; [done|apply HE; by left].
    - apply step_ERange; [done|apply HE; by left].
    - by apply step_Value.
    - by apply step_SetValue.
  Qed.

  Lemma step_does w c r w' :
    Inv w -> call_ok (dabs w) c -> dl_exec zero c w = Ok (r, w') -> Inv w' /\ dl_does (dabs w) (dabs w') c r.
  Proof.
    intros HI Hc H. destruct (dl_step w c HI Hc) as (r1 & w1 & H1 & HI1 & D1).
    rewrite H1 in H. by injection H as <- <-.
  Qed.

  Lemma history_from w tr w' : Inv w -> dl_history zero w tr w' -> Inv w' /\ dl_behaves (dabs w) tr (dabs w').
  Proof.
    intros HI H. induction H as [w|w c r w1 tr w2 Hc He Hh IH]; [split; [done|constructor]|].
    destruct (step_does w c r w1 HI Hc He) as [HI1 D]. destruct (IH HI1) as [HI2 B].
    split; [done|]. econstructor; [done|exact D|by apply seqs_ok_dabs|done].
  Qed.
  Lemma history_spec tr w :
    dl_history zero (empty_dworld zero) tr w -> dl_behaves (dabs (empty_dworld zero)) tr (dabs w) /\ seqs_ok (dabs w).
  Proof. intros H. destruct (history_from _ _ _ Inv_empty H). split; [done|by apply seqs_ok_dabs]. Qed.
  Lemma reached_inv w : reached zero w -> Inv w.
  Proof. intros [tr H]. by apply (history_from _ _ _ Inv_empty H). Qed.
  Lemma total_spec w c :
    reached zero w -> call_ok (dabs w) c ->
    exists r w', dl_exec zero c w = Ok (r, w') /\ dl_does (dabs w) (dabs w') c r /\ seqs_ok (dabs w') /\ reached zero w'.
  Proof.
    intros HR Hc. destruct (dl_step w c (reached_inv w HR) Hc) as (r & w' & H & HI & D).
    exists r, w'. split_and!; [done|done|by apply seqs_ok_dabs|].
    destruct HR as [tr Htr]. exists (tr ++ [(c, r)]).
    clear -Htr H Hc. induction Htr as [w|w0 c0 r0 w1 tr w2 Hc0 He Hh IH]; cbn.
    - econstructor; [done|done|constructor].
    - econstructor; [done|done|by apply IH].
  Qed.

  (** Running with checks gives a history. *)
  Lemma liveb_live w e : liveb w e = true -> live (dabs w) e.
  Proof.
    unfold liveb. rewrite !andb_true_iff. intros [[H1 H2] H3]. apply Nat.ltb_lt in H1. split_and!; [done| |].
    - intros (l & Hl & Er). apply negb_true_iff in H2. revert H2. apply not_false_iff_true, existsb_exists.
      exists l. split; [apply in_seq; lia|]. by apply Nat.eqb_eq.
    - intros l Hl. rewrite Hl in H3. apply andb_true_iff in H3 as [H3 H4]. apply Nat.ltb_lt in H3. split; [done|].
      apply existsb_exists in H4 as (x & Hx & E). apply Nat.eqb_eq in E as ->. by apply elem_of_list_In.
  Qed.
  Lemma call_okb_ok w c : call_okb w c = true -> call_ok (dabs w) c.
  Proof.
    unfold call_okb. rewrite !andb_true_iff. intros [H1 H2].
    rewrite forallb_forall in H1, H2. split.
    - intros l Hl. apply elem_of_list_In, H1, Nat.ltb_lt in Hl. done.
    - intros e He. apply elem_of_list_In, H2 in He. by apply liveb_live.
  Qed.
  Lemma run_history cs : forall w rs w', dl_run zero true cs w = Some (rs, w') -> dl_history zero w (zip cs rs) w'.
  Proof.
    induction cs as [|c cs IH]; intros w rs w' H; cbn in H.
    - injection H as <- <-. constructor.
    - destruct (call_okb w c) eqn:Ec; [|done]. destruct (dl_exec zero c w) as [[r w1]| |] eqn:Ee; [|done..].
      destruct (dl_run zero true cs w1) as [[rs' w2]|] eqn:Er; [|done]. injection H as <- <-. cbn.
      econstructor; [by apply call_okb_ok|done|by apply IH].
  Qed.

  (** Individual properties, on reached states *)
  Lemma insert_spec w l v :
    reached zero w -> dlists (dabs w) l ->
    (exists e w', dl_exec zero (DPushFront l v) w = Ok (DElem (Some e), w') /\
       inserted (dabs w) (dabs w') l [] e (dseq (dabs w) l) v) /\
    (exists e w', dl_exec zero (DPushBack l v) w = Ok (DElem (Some e), w') /\
       inserted (dabs w) (dabs w') l (dseq (dabs w) l) e [] v) /\
    (forall m pre post, dseq (dabs w) l = pre ++ m :: post ->
       (exists e w', dl_exec zero (DInsertBefore l v m) w = Ok (DElem (Some e), w') /\
          inserted (dabs w) (dabs w') l pre e (m :: post) v) /\
       (exists e w', dl_exec zero (DEInsertBefore m v) w = Ok (DElem (Some e), w') /\
          inserted (dabs w) (dabs w') l pre e (m :: post) v) /\
       (exists e w', dl_exec zero (DInsertAfter l v m) w = Ok (DElem (Some e), w') /\
          inserted (dabs w) (dabs w') l (pre ++ [m]) e post v) /\
       (exists e w', dl_exec zero (DEInsertAfter m v) w = Ok (DElem (Some e), w') /\
          inserted (dabs w) (dabs w') l (pre ++ [m]) e post v)) /\
    (forall m, live (dabs w) m -> m ∉ dseq (dabs w) l ->
       dl_exec zero (DInsertBefore l v m) w = Ok (DElem None, w) /\
       dl_exec zero (DInsertAfter l v m) w = Ok (DElem None, w)) /\
    (forall m, live (dabs w) m -> loose (dabs w) m ->
       dl_exec zero (DEInsertBefore m v) w = Ok (DElem None, w) /\
       dl_exec zero (DEInsertAfter m v) w = Ok (DElem None, w)).
  Proof.
    intros HR Hl. pose proof (reached_inv _ HR) as HI. cbn in Hl.
    split; [|split; [|split; [|split]]].
    - destruct (PushFront_ok w l v HI Hl) as (w' & H1 & P & H2 & H3 & H4).
      exists (n_elems w), w'. split; [by apply dmap_ok|]. by apply post_inserted.
    - destruct (PushBack_ok w l v HI Hl) as (w' & H1 & P & H2 & H3 & H4 & H5).
      exists (n_elems w), w'. split; [by apply dmap_ok|]. apply post_inserted; try done; [cbn; by rewrite app_nil_r|]. intros x Hx. by apply H2.
    - intros m pre post Hs. cbn in Hs.
      assert (Em : e_list w m = Some l) by (apply (inv_elem w l m HI Hl); rewrite Hs; mem).
      destruct (insert_before_ok w l v pre m post HI Hl Hs) as (w1 & H1 & P1 & V1 & V1').
      destruct (insert_after_ok w l v pre m post HI Hl Hs) as (w2 & H2 & P2 & V2 & V2' & _).
      assert (I1 : inserted (dabs w) (dabs w1) l pre (n_elems w) (m :: post) v) by by apply post_inserted.
      assert (I2 : inserted (dabs w) (dabs w2) l (pre ++ [m]) (n_elems w) post v).
      { apply post_inserted; try done; [by rewrite <- app_assoc|]. intros; by apply V2. }
      split; [|split; [|split]].
      + exists (n_elems w), w1. split; [|done]. apply dmap_ok. unfold dl_InsertBefore, rd at 1, bind at 1. by rewrite Em, bool_decide_eq_true_2.
      + exists (n_elems w), w1. split; [|done]. apply dmap_ok. unfold el_InsertBefore, rd at 1, bind at 1. by rewrite Em.
      + exists (n_elems w), w2. split; [|done]. apply dmap_ok. unfold dl_InsertAfter, rd at 1, bind at 1. by rewrite Em, bool_decide_eq_true_2.
      + exists (n_elems w), w2. split; [|done]. apply dmap_ok. unfold el_InsertAfter, rd at 1, bind at 1. by rewrite Em.
    - intros m Hv Hn. assert (Em : e_list w m <> Some l) by by rewrite (live_owner w l m HI Hl Hv).
      split; apply dmap_ok; unfold dl_InsertBefore, dl_InsertAfter, rd at 1, bind at 1; by rewrite bool_decide_eq_false_2.
    - intros m Hv Hn. assert (Em : e_list w m = None).
      { destruct (e_list w m) as [l'|] eqn:E; [|done]. destruct (live_in _ _ _ Hv E). by destruct (Hn l'). }
      split; apply dmap_ok; unfold el_InsertBefore, el_InsertAfter, rd at 1, bind at 1; by rewrite Em.
  Qed.

  Lemma remove_spec w l e :
    reached zero w -> dlists (dabs w) l -> live (dabs w) e ->
    (forall pre post, dseq (dabs w) l = pre ++ e :: post ->
       exists w', dl_exec zero (DRemove l e) w = Ok (DVal (dval (dabs w) e), w') /\
         only_list (dabs w) (dabs w') l (pre ++ post) /\ rest (dabs w) (dabs w') /\
         (* a second time nothing happens, through this or any other list *)
         forall l', dlists (dabs w') l' -> dl_exec zero (DRemove l' e) w' = Ok (DVal (dval (dabs w) e), w')) /\
    (e ∉ dseq (dabs w) l -> dl_exec zero (DRemove l e) w = Ok (DVal (dval (dabs w) e), w)).
  Proof.
    intros HR Hl Hv. pose proof (reached_inv _ HR) as HI. cbn in Hl. split.
    - intros pre post Hs. destruct (remove_ok w l pre e post HI Hl Hs) as (w' & H1 & P & H2 & H3 & H4 & H5 & H6).
      assert (Em : e_list w e = Some l) by (apply (inv_elem w l e HI Hl); cbn in Hs; rewrite Hs; mem).
      exists w'. split; [|split; [by apply post_only|split]].
      + cbn. rewrite <- H2. apply dmap_ok. unfold dl_Remove, rd, bind at 1. rewrite Em, bool_decide_eq_true_2 by done.
        by rewrite (bind_ok _ _ _ _ _ H1).
      + apply (post_rest _ _ _ _ P). intros; apply H2.
      + intros l' Hl'. cbn. rewrite <- H2. apply dmap_ok. unfold dl_Remove, rd, bind. rewrite H6.
        by rewrite bool_decide_eq_false_2.
    - intros Hn. assert (Em : e_list w e <> Some l) by by rewrite (live_owner w l e HI Hl Hv).
      apply dmap_ok. unfold dl_Remove, rd, bind. by rewrite bool_decide_eq_false_2.
  Qed.

  Lemma moved_by w w' l c r ids ids' : dl_exec zero c w = Ok (r, w') -> moved (dabs w) (dabs w') l ids -> ids = ids' ->
    dl_exec zero c w = Ok (r, w') /\ moved (dabs w) (dabs w') l ids'.
  Proof. by intros ? ? ->. Qed.

  Lemma moves_spec w l e :
    reached zero w -> dlists (dabs w) l ->
    (forall pre post, dseq (dabs w) l = pre ++ e :: post ->
       (exists w', dl_exec zero (DMoveToFront l e) w = Ok (DUnit, w') /\ moved (dabs w) (dabs w') l (e :: pre ++ post)) /\
       (exists w', dl_exec zero (DMoveToBack l e) w = Ok (DUnit, w') /\ moved (dabs w) (dabs w') l (pre ++ post ++ [e])) /\
       (forall m a b, pre ++ post = a ++ m :: b ->
          (exists w', dl_exec zero (DMoveBefore l e m) w = Ok (DUnit, w') /\ moved (dabs w) (dabs w') l (a ++ e :: m :: b)) /\
          (exists w', dl_exec zero (DMoveAfter l e m) w = Ok (DUnit, w') /\ moved (dabs w) (dabs w') l (a ++ m :: e :: b)))) /\
    (live (dabs w) e -> e ∉ dseq (dabs w) l ->
       dl_exec zero (DMoveToFront l e) w = Ok (DUnit, w) /\ dl_exec zero (DMoveToBack l e) w = Ok (DUnit, w)) /\
    (forall m, live (dabs w) e -> live (dabs w) m -> e ∉ dseq (dabs w) l \/ m ∉ dseq (dabs w) l \/ e = m ->
       dl_exec zero (DMoveBefore l e m) w = Ok (DUnit, w) /\ dl_exec zero (DMoveAfter l e m) w = Ok (DUnit, w)).
  Proof.
    intros HR Hl. pose proof (reached_inv _ HR) as HI. cbn in Hl.
    pose proof (seqs_ok_dabs _ HI) as HS.
    assert (Hnd : NoDup (seq_of w l)) by by apply inv_nodup.
    split; [|split].
    - intros pre post Hs. assert (He : live (dabs w) e) by (apply (so_live _ HS l); [done|]; rewrite Hs; mem).
      cbn in Hs. rewrite Hs in Hnd. split; [|split].
      + destruct (step_MoveToFront zero w l e HI Hl He) as (r & w' & H & _ & D). inversion D; subst.
        * exists w'. eapply moved_by; [done|done|]. cbn in *. rewrite Hs in H2. by destruct (nodup_pos _ _ _ _ _ Hnd H2) as [-> ->].
        * exfalso. cbn in *. match goal with X : _ ∉ _ |- _ => rewrite Hs in X; apply X end. mem.
      + destruct (step_MoveToBack zero w l e HI Hl He) as (r & w' & H & _ & D). inversion D; subst.
        * exists w'. eapply moved_by; [done|done|]. cbn in *. rewrite Hs in H2. by destruct (nodup_pos _ _ _ _ _ Hnd H2) as [-> ->].
        * exfalso. cbn in *. match goal with X : _ ∉ _ |- _ => rewrite Hs in X; apply X end. mem.
      + intros m a b Hab.
        assert (Hm : m ∈ seq_of w l).
        { rewrite Hs. assert (m ∈ pre ++ post) by (rewrite Hab; mem). mem. }
        assert (Hme : m <> e).
        { intros ->. assert (Hx : e ∈ pre ++ post) by (rewrite Hab; mem).
          rewrite <- Permutation_middle in Hnd. apply NoDup_cons in Hnd as [Hnd _]. done. }
        assert (Hmv : live (dabs w) m) by (by apply (so_live _ HS l)).
        assert (Hnd2 : NoDup (pre ++ post)).
        { rewrite <- Permutation_middle in Hnd. by apply NoDup_cons in Hnd as [_ Hnd]. }
        split.
        * destruct (step_MoveBefore zero w l e m HI Hl He Hmv) as (r & w' & H & _ & D). inversion D; subst.
          -- exists w'. eapply moved_by; [done|done|]. cbn in *. rewrite Hs in H3.
             destruct (nodup_pos _ _ _ _ _ Hnd H3) as [<- <-]. rewrite Hab in H5, Hnd2. by destruct (nodup_pos _ _ _ _ _ Hnd2 H5) as [-> ->].
          -- exfalso. cbn in *. match goal with X : _ ∉ _ \/ _ |- _ => rename X into HX end. rewrite Hs in HX, Hm. destruct HX as [HX|[HX|HX]]; [apply HX; mem|done|by subst].
        * destruct (step_MoveAfter zero w l e m HI Hl He Hmv) as (r & w' & H & _ & D). inversion D; subst.
          -- exists w'. eapply moved_by; [done|done|]. cbn in *. rewrite Hs in H3.
             destruct (nodup_pos _ _ _ _ _ Hnd H3) as [<- <-]. rewrite Hab in H5, Hnd2. by destruct (nodup_pos _ _ _ _ _ Hnd2 H5) as [-> ->].
          -- exfalso. cbn in *. match goal with X : _ ∉ _ \/ _ |- _ => rename X into HX end. rewrite Hs in HX, Hm. destruct HX as [HX|[HX|HX]]; [apply HX; mem|done|by subst].
    - intros Hv Hn. assert (Em : e_list w e <> Some l) by by rewrite (live_owner w l e HI Hl Hv).
      split; apply (dmap_ok (fun _ => DUnit)) with (a := tt); unfold dl_MoveToFront, dl_MoveToBack, rd at 1, bind at 1; by rewrite bool_decide_eq_false_2.
    - intros m Hv Hvm Hc.
      split; apply (dmap_ok (fun _ => DUnit)) with (a := tt); unfold dl_MoveBefore, dl_MoveAfter, rd at 1, bind at 1;
        (destruct (decide (e_list w e = Some l)) as [E|E]; [rewrite bool_decide_eq_true_2 by done|by rewrite bool_decide_eq_false_2]);
        (destruct (decide (e = m)) as [->|Hne]; [by rewrite bool_decide_eq_true_2|rewrite bool_decide_eq_false_2 by (by intros [=])]);
        unfold rd at 1, bind at 1; rewrite bool_decide_eq_false_2; try done;
        apply (live_owner w l e HI Hl Hv) in E; rewrite (live_owner w l m HI Hl Hvm); cbn in Hc; tauto.
  Qed.

  Lemma swap_spec w l a b :
    reached zero w -> dlists (dabs w) l ->
    (forall pre mid post, dseq (dabs w) l = pre ++ a :: mid ++ b :: post ->
       (exists w', dl_exec zero (DSwap l a b) w = Ok (DUnit, w') /\ moved (dabs w) (dabs w') l (pre ++ b :: mid ++ a :: post)) /\
       (exists w', dl_exec zero (DSwap l b a) w = Ok (DUnit, w') /\ moved (dabs w) (dabs w') l (pre ++ b :: mid ++ a :: post))) /\
    (live (dabs w) a -> live (dabs w) b -> a ∉ dseq (dabs w) l \/ b ∉ dseq (dabs w) l \/ a = b ->
       dl_exec zero (DSwap l a b) w = Ok (DUnit, w)).
  Proof.
    intros HR Hl. pose proof (reached_inv _ HR) as HI. cbn in Hl.
    pose proof (seqs_ok_dabs _ HI) as HS.
    assert (Hnd : NoDup (seq_of w l)) by by apply inv_nodup.
    split.
    - intros pre mid post Hs. cbn in Hs. rewrite Hs in Hnd.
      assert (Ha : live (dabs w) a) by (apply (so_live _ HS l); [done|]; cbn; rewrite Hs; mem).
      assert (Hb : live (dabs w) b) by (apply (so_live _ HS l); [done|]; cbn; rewrite Hs; mem).
      assert (Hne : a <> b).
      { intros ->. apply NoDup_app in Hnd as (_ & _ & Hnd). apply NoDup_cons in Hnd as [Hnd _]. apply Hnd. mem. }
      assert (Hu : forall x y pre' mid' post', (a = x /\ b = y) \/ (a = y /\ b = x) ->
        seq_of w l = pre' ++ x :: mid' ++ y :: post' -> pre' ++ y :: mid' ++ x :: post' = pre ++ b :: mid ++ a :: post).
      { intros x y pre' mid' post' Hxy E. rewrite Hs in E.
        destruct Hxy as [[<- <-]|[<- <-]].
        - destruct (nodup_pos _ _ _ _ _ Hnd E) as [<- E2].
          apply NoDup_app in Hnd as (_ & _ & Hnd). apply NoDup_cons in Hnd as [_ Hnd].
          destruct (nodup_pos _ _ _ _ _ Hnd E2) as [<- <-]. done.
        - exfalso. replace (pre' ++ b :: mid' ++ a :: post') with ((pre' ++ b :: mid') ++ a :: post') in E by (by rewrite <- app_assoc).
          destruct (nodup_pos _ _ _ _ _ Hnd E) as [-> E2]. clear -Hnd.
          apply NoDup_app in Hnd as (_ & Hnd & _). apply (Hnd b); mem. }
      split.
      + destruct (step_Swap zero w l a b HI Hl Ha Hb) as (r & w' & H & _ & D). inversion D; subst.
        * exists w'. eapply moved_by; [done|done|]. cbn in *. eapply Hu; [|done]. tauto.
        * exfalso. cbn in *. match goal with X : _ ∉ _ \/ _ |- _ => rename X into HX end. rewrite Hs in HX. destruct HX as [HX|[HX|HX]]; [apply HX; mem|apply HX; mem|by subst].
      + destruct (step_Swap zero w l b a HI Hl Hb Ha) as (r & w' & H & _ & D). inversion D; subst.
        * exists w'. eapply moved_by; [done|done|]. cbn in *. eapply Hu; [|done]. tauto.
        * exfalso. cbn in *. match goal with X : _ ∉ _ \/ _ |- _ => rename X into HX end. rewrite Hs in HX. destruct HX as [HX|[HX|HX]]; [apply HX; mem|apply HX; mem|by subst].
    - intros Hv Hvm Hc. apply (dmap_ok (fun _ => DUnit)) with (a := tt). unfold dl_Swap, rd at 1, bind at 1.
      destruct (decide (e_list w a = Some l)) as [E|E]; [rewrite bool_decide_eq_true_2 by done|by rewrite bool_decide_eq_false_2].
      cbn [negb]. unfold rd at 1, bind at 1.
      destruct (decide (e_list w b = Some l)) as [E'|E']; [rewrite bool_decide_eq_true_2 by done|by rewrite bool_decide_eq_false_2].
      apply (live_owner w l a HI Hl Hv) in E. apply (live_owner w l b HI Hl Hvm) in E'. cbn in Hc.
      destruct Hc as [Hc|[Hc| ->]]; [done|done|]. by rewrite bool_decide_eq_true_2.
  Qed.

  Lemma copy_spec w l o :
    reached zero w -> dlists (dabs w) l -> dlists (dabs w) o ->
    (exists es w', dl_exec zero (DPushBackList l o) w = Ok (DUnit, w') /\
       fresh_elems (dabs w) (dabs w') es (map (dval (dabs w)) (dseq (dabs w) o)) /\
       only_list (dabs w) (dabs w') l (dseq (dabs w) l ++ es) /\ rest (dabs w) (dabs w')) /\
    (exists es w', dl_exec zero (DPushFrontList l o) w = Ok (DUnit, w') /\
       fresh_elems (dabs w) (dabs w') es (map (dval (dabs w)) (dseq (dabs w) o)) /\
       only_list (dabs w) (dabs w') l (es ++ dseq (dabs w) l) /\ rest (dabs w) (dabs w')).
  Proof.
    intros HR Hl Ho. pose proof (reached_inv _ HR) as HI. cbn in Hl, Ho. split.
    - destruct (step_PushBackList zero w l o HI Hl Ho) as (r & w' & H & _ & D). inversion D; subst. exists es, w'. done.
    - destruct (step_PushFrontList zero w l o HI Hl Ho) as (r & w' & H & _ & D). inversion D; subst. exists es, w'. done.
  Qed.

  Lemma copy_to_spec w l o m pre post :
    reached zero w -> dlists (dabs w) l -> dlists (dabs w) o -> l <> o -> dseq (dabs w) l = pre ++ m :: post ->
    (exists es w', dl_exec zero (DPushFrontListTo l o m) w = Ok (DUnit, w') /\
       fresh_elems (dabs w) (dabs w') es (map (dval (dabs w)) (dseq (dabs w) o)) /\
       only_list (dabs w) (dabs w') l (pre ++ m :: es ++ post) /\ rest (dabs w) (dabs w')) /\
    (exists es w', dl_exec zero (DPushBackListTo l o m) w = Ok (DUnit, w') /\
       fresh_elems (dabs w) (dabs w') es (rev (map (dval (dabs w)) (dseq (dabs w) o))) /\
       only_list (dabs w) (dabs w') l (pre ++ m :: es ++ post) /\ rest (dabs w) (dabs w')).
  Proof.
    intros HR Hl Ho Hlo Hs. pose proof (reached_inv _ HR) as HI. cbn in Hl, Ho, Hs.
    assert (Hnd : NoDup (seq_of w l)) by by apply inv_nodup.
    assert (Hm : m ∈ seq_of w l) by (rewrite Hs; mem).
    assert (Hv : live (dabs w) m) by (by apply (so_live _ (seqs_ok_dabs _ HI) l)). split.
    - destruct (step_PushFrontListTo zero w l o m HI Hl Ho Hv Hlo) as (r & w' & H & _ & D). inversion D; subst; [|done|done].
      match goal with X : dseq _ _ = _ |- _ => rename X into Hs3 end.
      exists es, w'. cbn in *. rewrite Hs in *. destruct (nodup_pos _ _ _ _ _ Hnd Hs3) as [<- <-]. done.
    - destruct (step_PushBackListTo zero w l o m HI Hl Ho Hv Hlo) as (r & w' & H & _ & D). inversion D; subst; [|done|done].
      match goal with X : dseq _ _ = _ |- _ => rename X into Hs3 end.
      exists es, w'. cbn in *. rewrite Hs in *. destruct (nodup_pos _ _ _ _ _ Hnd Hs3) as [<- <-]. done.
  Qed.

  Lemma copy_to_self_spec w l m pre post :
    reached zero w -> dlists (dabs w) l -> dseq (dabs w) l = pre ++ m :: post ->
    let val := dval (dabs w) in
    (exists es w', dl_exec zero (DPushFrontListTo l l m) w = Ok (DUnit, w') /\
       fresh_elems (dabs w) (dabs w') es (self_front (map val pre) (val m) (map val post)) /\
       only_list (dabs w) (dabs w') l (pre ++ m :: es ++ post) /\ rest (dabs w) (dabs w')) /\
    (exists es w', dl_exec zero (DPushBackListTo l l m) w = Ok (DUnit, w') /\
       fresh_elems (dabs w) (dabs w') es (self_back (map val pre) (val m) (map val post)) /\
       only_list (dabs w) (dabs w') l (pre ++ m :: es ++ post) /\ rest (dabs w) (dabs w')).
  Proof.
    intros HR Hl Hs val. pose proof (reached_inv _ HR) as HI. cbn in Hl, Hs.
    assert (Hnd : NoDup (seq_of w l)) by by apply inv_nodup.
    assert (Hm : m ∈ seq_of w l) by (rewrite Hs; mem).
    assert (Hv : live (dabs w) m) by (by apply (so_live _ (seqs_ok_dabs _ HI) l)). split.
    - destruct (step_PushFrontListTo_self zero w l m HI Hl Hv) as (r & w' & H & _ & D). inversion D; subst; [done| |done].
      match goal with X : dseq _ _ = _ |- _ => rename X into Hs3 end.
      exists es, w'. cbn in *. rewrite Hs in *. destruct (nodup_pos _ _ _ _ _ Hnd Hs3) as [<- <-]. done.
    - destruct (step_PushBackListTo_self zero w l m HI Hl Hv) as (r & w' & H & _ & D). inversion D; subst; [done| |done].
      match goal with X : dseq _ _ = _ |- _ => rename X into Hs3 end.
      exists es, w'. cbn in *. rewrite Hs in *. destruct (nodup_pos _ _ _ _ _ Hnd Hs3) as [<- <-]. done.
  Qed.

  Lemma sort_spec w l less :
    reached zero w -> dlists (dabs w) l -> strict_weak less ->
    exists w', dl_exec zero (DSort l less) w = Ok (DUnit, w') /\
      stably_sorted less (map (dval (dabs w)) (dseq (dabs w) l)) (map (dval (dabs w')) (dseq (dabs w') l)) /\
      (forall l', dlists (dabs w) l' -> l' <> l -> dlists (dabs w') l' /\ dseq (dabs w') l' = dseq (dabs w) l') /\
      same_vals (dabs w) (dabs w').
  Proof.
    intros HR Hl Hsw. pose proof (reached_inv _ HR) as HI. cbn in Hl.
    destruct (step_Sort zero w l less HI Hl) as (r & w' & H & HI' & D). inversion D; subst.
    - exists w'. split; [done|]. destruct H5 as (F1 & F2 & F3). destruct H6 as (O1 & O2 & O3). split; [|split].
      + rewrite O1, F3. apply H3, Hsw.
      + intros l' Hl' Hne. split; [by apply O2|by apply O3].
      + done.
    - match goal with X : d_same _ _ |- _ => destruct X as [N (V & X)] end. match goal with X : (_ <= 1)%nat |- _ => rename X into Hsh end. destruct (N l Hl) as [_ E]. exists w'. split; [done|].
      assert (Em : map (dval (dabs w')) (dseq (dabs w') l) = map (dval (dabs w)) (dseq (dabs w) l)).
      { rewrite E. apply map_ext_elem. intros x Hx. apply V. by apply (inv_elem w l). }
      rewrite Em. split; [|split; [by intros l' Hl' _; apply N|done]]. split; [done|split; [|done]].
      intros i j x y Hij Hi Hj. apply lookup_lt_Some in Hi, Hj. rewrite map_length in *. cbn in *. lia.
  Qed.

  Lemma stale_remove_spec w l e :
    reached zero w -> dlists (dabs w) l -> e ∈ dseq (dabs w) l ->
    exists v w', dl_run zero false [DClear l; DRemove l e; DLen l] w = Some ([DList l; DVal v; DInt (-1)], w').
  Proof.
    intros HR Hl He. pose proof (reached_inv _ HR) as HI. cbn in Hl, He.
    pose proof (inv_notroot w l l e HI Hl Hl He) as Hnr.
    destruct (inv_elem _ _ _ HI Hl He) as [El _].
    assert (Hi : l_init w l = true) by by eapply init_of.
    pose proof (cyc_of _ _ HI Hl Hi) as Hc. apply elem_of_list_split in He as (pre & post & Hs). rewrite Hs in Hc.
    destruct (head_snoc_some' (l_root w l) post) as (b & Hb & _).
    destruct (last_cons_some (l_root w l) pre) as (a & Ha & _).
    pose proof (cyc_next _ _ _ _ _ _ Hc) as Hnx. rewrite Hb in Hnx.
    pose proof (cyc_prev _ _ _ _ _ _ Hc) as Hpv. rewrite Ha in Hpv.
    cbn [dl_run negb orb dl_exec]. unfold dmap, dl_Clear. exec.
    unfold dl_Remove. exec. rewrite El, bool_decide_eq_true_2 by done. cbn.
    unfold dl_remove. exec. 
    (* the links of e may point to e's neighbours only, which are other cells *)
    assert (Hae : a <> e /\ b <> e).
    { pose proof (repr_nodup _ _ _ HI Hl (i_repr _ HI l Hl)) as Hnd. rewrite Hs in Hnd. split; intros ->.
      - apply last_Some_elem_of in Ha. clear -Hnd Ha. rewrite app_comm_cons in Hnd. apply NoDup_app in Hnd as (_ & Hnd & _). apply (Hnd e); [done|]. by left.
      - assert (Hx : e ∈ post ++ [l_root w l]) by (destruct post; cbn in Hb; injection Hb as ->; by left).
        apply elem_of_app in Hx as [Hx|Hx%elem_of_list_singleton]; [|congruence].
        clear -Hnd Hx. apply NoDup_cons in Hnd as [_ Hnd]. apply NoDup_app in Hnd as (_ & _ & Hnd). apply NoDup_cons in Hnd as [Hnd _]. done. }
    destruct Hae as [Hae Hbe].
    match goal with |- context [match ?x with Some _ => _ | None => Panic end] =>
      replace x with (Some b) by (rewrite !fn_lookup_insert_ne by done; done) end.
    cbn. rewrite !fn_lookup_insert. eauto.
  Qed.

  Lemma range_spec {A} w l (f : option nat -> A -> M (dworld T) (bool * A)) a fuel :
    reached zero w -> dlists (dabs w) l ->
    (forall x a r w1 w2, reached zero w1 -> dlists (dabs w1) l -> dseq (dabs w1) l = dseq (dabs w) l ->
       x ∈ dseq (dabs w) l -> f (Some x) a w1 = Ok (r, w2) ->
       reached zero w2 /\ dlists (dabs w2) l /\ dseq (dabs w2) l = dseq (dabs w) l) ->
    length (dseq (dabs w) l) < fuel ->
    dl_Range fuel l f a w = fold_until f a (dseq (dabs w) l) w.
  Proof.
    intros HR Hl Hf Hlen. pose proof (reached_inv _ HR) as HI. cbn in *.
    apply (Range_fold (reached zero)); [done|done|done| |done].
    intros x b r w1 w2 HJ HI1 Hl1 Hs1 Hx H. destruct (Hf x b r w1 w2 HJ Hl1 Hs1 Hx H) as (R2 & L2 & S2).
    split_and!; [done|by apply reached_inv|done|done].
  Qed.

  (** The zero value *)
  Lemma zero_spec w :
    reached zero w -> exists l w1 w2,
      dl_exec zero DZero w = Ok (DList l, w1) /\ dl_exec zero DNew w = Ok (DList l, w2) /\ dstate_eq (dabs w1) (dabs w2).
  Proof.
    intros HR. pose proof (reached_inv _ HR) as HI.
    destruct (new_zero_ok zero w HI) as (w1 & H1 & H2 & H3 & H4 & H5 & H6 & H7 & H8).
    destruct (Clear_ok w1 (n_lists w) H2) as (w2 & G1 & G2 & F & G4 & G5 & G6 & G7 & G8 & G9); [lia|].
    exists (n_lists w), w1, w2. split; [by apply dmap_ok|]. split.
    { apply dmap_ok. unfold dl_New. by rewrite (bind_ok _ _ _ _ _ H1). }
    assert (HS : forall l, l < n_lists w1 -> seq_of w1 l = seq_of w2 l).
    { intros l Hl. destruct (decide (l = n_lists w)) as [->|Hne]; [by rewrite G5, H7|]. by rewrite G6. }
    pose proof (f_nl _ _ _ _ F) as N. pose proof (f_root _ _ _ _ F) as R.
    split; [cbn; by rewrite N|]. split; [done|]. split; [intros; cbn; by rewrite G7|]. split; [cbn; by rewrite G9|].
    intros e. cbn. rewrite G9, G8, N. unfold is_root. rewrite N. setoid_rewrite R.
    split; intros (A & B & C); (split_and!; [done|done|]); intros l Hl; destruct (C l Hl) as [C1 C2]; (split; [done|]);
      [by rewrite <- HS|by rewrite HS].
  Qed.

  Lemma same_answer_spec (s s' s1 s1' : dstate T) c r r' :
    seqs_ok s -> seqs_ok s' -> dstate_eq s s' -> call_ok s c -> dl_does s s1 c r -> dl_does s' s1' c r' -> same_answer s r r'.
  Proof.
    intros HS HS' (Q1 & Q2 & Q3 & Q4 & Q5) (CL & CE) D D'.
    assert (Qm : forall l, dlists s l -> map (dval s) (dseq s l) = map (dval s') (dseq s' l)).
    { intros l Hl. rewrite (Q2 l Hl). by apply map_ext. }
    assert (Qseen : forall f ids, seen f (dval s) ids = seen f (dval s') ids).
    { intros f ids. induction ids as [|x ids IH]; [done|]. cbn. rewrite Q3, IH. done. }
    assert (Qe : forall l e pre post l' pre' post', dlists s l -> dlists s' l' -> dseq s l = pre ++ e :: post ->
       dseq s' l' = pre' ++ e :: post' -> pre = pre' /\ post = post').
    { intros l e pre post l' pre' post' Hl Hl' E E'. apply Q1 in Hl'. rewrite <- (Q2 l' Hl') in E'.
      assert (l' = l) as ->.
      { apply (so_disjoint _ HS l' l e); [done|done|rewrite E'; mem|rewrite E; mem]. }
      pose proof (so_nodup _ HS l Hl) as Hnd. rewrite E in E', Hnd. by apply nodup_pos in E'. }
    assert (Ql : forall l e pre post, dlists s l -> dseq s l = pre ++ e :: post -> loose s' e -> False).
    { intros l e pre post Hl E L. apply (L l); [by apply Q1|]. rewrite <- (Q2 l Hl), E. mem. }
    assert (Ql' : forall l e pre post, dlists s' l -> dseq s' l = pre ++ e :: post -> loose s e -> False).
    { intros l e pre post Hl E L. apply Q1 in Hl. apply (L l); [done|]. rewrite (Q2 l Hl), E. mem. }
    assert (Hhere : forall (x : nat) xs, x ∈ x :: xs) by (intros; by left).
    destruct D; inversion D'; subst; cbn in CL, CE;
      try (by left);
      try (left; rewrite ?Q3, ?Qseen, ?Qm, ?Q2 by (apply CL; by left); done);
    try match goal with |- same_answer _ (DList ?l) (DList ?l') => right; right; exists l, l'; (split_and!; [done|done|done|by rewrite Q1]) end;
    try match goal with I1 : inserted s _ _ _ ?e _ _, I2 : inserted s' _ _ _ ?e' _ _ |- _ =>
        right; left; exists e, e'; destruct I1 as (_ & (_ & F1 & _) & _); destruct I2 as (_ & (_ & F2 & _) & _);
        split_and!; [done|done|by apply F1; left|rewrite Q4; by apply F2; left] end;
    try match goal with H1 : dseq s ?l = _ ++ ?e :: _, H2 : dseq s' ?l' = _ ++ ?e :: _, L1 : dlists s ?l, L2 : dlists s' ?l' |- _ =>
        destruct (Qe _ _ _ _ _ _ _ L1 L2 H1 H2) as [-> ->]; left; rewrite ?Q3, ?Qseen; done end;
    try (exfalso; by eapply Ql); try (exfalso; by eapply Ql');
    try match goal with I1 : inserted s _ ?l _ _ _ _ |- _ => exfalso; destruct I1 as (I1 & _);
       try match goal with N : _ ∉ dseq s' l |- _ => apply N; rewrite <- Q2, I1 by (apply CL; by left); mem end;
       try match goal with N : loose s' _, L : dlists s l |- _ => apply (N l); [by apply Q1|rewrite <- Q2, I1 by done; mem] end end;
    try match goal with I1 : inserted s' _ ?l _ _ _ _ |- _ => exfalso; destruct I1 as (I1 & _);
       try match goal with N : _ ∉ dseq s l |- _ => apply N; rewrite Q2, I1 by (apply CL; by left); mem end;
       try match goal with N : loose s _, L : dlists s' l |- _ => apply (N l); [by apply Q1|rewrite Q2, I1 by (by apply Q1); mem] end end.
  Qed.

  Lemma back_to_refuted w l o m pre post x y :
    reached zero w -> dlists (dabs w) l -> dlists (dabs w) o -> l <> o -> dseq (dabs w) l = pre ++ m :: post ->
    map (dval (dabs w)) (dseq (dabs w) o) = [x; y] -> x <> y ->
    exists w', dl_exec zero (DPushBackListTo l o m) w = Ok (DUnit, w') /\
      map (dval (dabs w')) (dseq (dabs w') l) =
        map (dval (dabs w)) pre ++ dval (dabs w) m :: [y; x] ++ map (dval (dabs w)) post.
  Proof.
    intros HR Hl Ho Hlo Hs Hv _. destruct (copy_to_spec w l o m pre post HR Hl Ho Hlo Hs) as [_ (es & w' & H & F & O & R)].
    exists w'. split; [done|]. destruct F as (_ & _ & F). rewrite Hv in F. cbn [rev app] in F.
    destruct O as (O & _). destruct R as (V & _). rewrite O.
    assert (K : forall z, z ∈ dseq (dabs w) l -> dval (dabs w') z = dval (dabs w) z).
    { intros z Hz. apply V. by apply (inv_elem w l z (reached_inv w HR) Hl). }
    rewrite map_app. cbn [map]. rewrite map_app, F.
    rewrite (K m) by (rewrite Hs; mem). f_equal; [|f_equal; f_equal]; apply map_ext_elem; intros z Hz; apply K; rewrite Hs; mem.
  Qed.

  Lemma other_handles_spec w l e c :
    reached zero w -> dlists (dabs w) l -> live (dabs w) e -> e ∉ dseq (dabs w) l ->
    c = DClear l \/ (exists less, c = DSort l less) ->
    exists r w', dl_exec zero c w = Ok (r, w') /\ reached zero w' /\ live (dabs w') e /\ dval (dabs w') e = dval (dabs w) e.
  Proof.
    intros HR Hl Hv Hn Hc.
    assert (Hok : call_ok (dabs w) c).
    { destruct Hc as [->|[less ->]]; (split; [intros z Hz; cbn in Hz; case_in Hz; done|intros z Hz; by apply elem_of_nil in Hz]). }
    destruct (total_spec w c HR Hok) as (r & w' & H & D & _ & HR'). exists r, w'. split; [done|]. split; [done|].
    assert (Kn : known (dabs w) e) by by destruct Hv.
    destruct Hc as [->|[less ->]]; inversion D; subst.
    - match goal with X : forall e, known _ e -> _ <-> _, V : same_vals _ _ |- _ => split; [by apply X|by apply V] end.
    - match goal with X : forall e, known _ e -> _ <-> _, V : same_vals _ _ |- _ => split; [by apply X|by apply V] end.
    - match goal with X : d_same _ _ |- _ => destruct X as (_ & V & L & _) end. split; [by apply L|by apply V].
  Qed.

  Lemma range_pure_spec w l f :
    reached zero w -> dlists (dabs w) l ->
    exists w', dl_exec zero (DRange l f) w =
        Ok (DElems (fst (seen f (dval (dabs w)) (dseq (dabs w) l))) (snd (seen f (dval (dabs w)) (dseq (dabs w) l))), w') /\
      d_same (dabs w) (dabs w').
  Proof.
    intros HR Hl. destruct (step_Range zero w l f (reached_inv w HR) Hl) as (r & w' & H & _ & D).
    inversion D; subst. exists w'. done.
  Qed.

  Lemma zero_usable_spec w :
    reached zero w -> exists l w1 w2,
    dl_exec zero DZero w = Ok (DList l, w1) /\ dl_exec zero DNew w = Ok (DList l, w2) /\
    reached zero w1 /\ reached zero w2 /\ dstate_eq (dabs w1) (dabs w2) /\
    forall c, call_ok (dabs w1) c ->
      exists r1 w1' r2 w2', dl_exec zero c w1 = Ok (r1, w1') /\ dl_exec zero c w2 = Ok (r2, w2') /\ same_answer (dabs w1) r1 r2.
  Proof.
    intros HR. destruct (zero_spec w HR) as (l & w1 & w2 & H1 & H2 & Q).
    assert (Ok0 : forall c, call_lists c = [] -> call_elems c = [] -> call_ok (dabs w) c).
    { intros c E1 E2. split; [rewrite E1; intros z Hz; by apply elem_of_nil in Hz|].
      rewrite E2; intros z Hz; by apply elem_of_nil in Hz. }
    destruct (total_spec w DZero HR) as (r1 & w1' & H1' & _ & S1 & R1); [by apply Ok0|]. rewrite H1 in H1'. injection H1' as <- <-.
    destruct (total_spec w DNew HR) as (r2 & w2' & H2' & _ & S2 & R2); [by apply Ok0|]. rewrite H2 in H2'. injection H2' as <- <-.
    exists l, w1, w2. split; [done|]. split; [done|]. split; [done|]. split; [done|]. split; [done|].
    intros c Hc. destruct (total_spec w1 c R1 Hc) as (a1 & u1 & E1 & D1 & _).
    assert (Hc2 : call_ok (dabs w2) c).
    { destruct Q as (Q1 & _ & _ & _ & Q5). destruct Hc as (C1 & C2).
      split; [intros z Hz; by apply Q1, C1|]. intros z Hz; by apply Q5, C2. }
    destruct (total_spec w2 c R2 Hc2) as (a2 & u2 & E2 & D2 & _).
    exists a1, u1, a2, u2. split; [done|]. split; [done|]. by eapply same_answer_spec.
  Qed.
End history.
