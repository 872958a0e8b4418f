From Coq Require Import ZifyBool ZifyNat.
From Verif Require Import Base Chain GoMap GoMapSpec DllistModel DllistSpec DllistProofs DllistSteps DllistSteps2 DllistSteps3 DllistHistory.
From Verif Require Import LHashMapModel LHashMapSpec LHashMapProofs DllistKeepSpec DllistUnused.

Section keep.
  Context {T : Type} (zero : T).
  Implicit Types (w : dworld T) (c : cell).

  (** The pointers of a list whose root has been set up, and of its elements, stay in it. *)
  Definition rooted w l : Prop :=
    l_init w l = true \/ (e_next w (l_root w l) = None /\ e_prev w (l_root w l) = None).
  Lemma head_in {A} (s : list A) x y : head (s ++ [x]) = Some y -> y = x \/ y ∈ s.
  Proof. destruct s as [|z s]; cbn; intros [= <-]; [by left|right; by left]. Qed.
  Lemma last_in {A} (s : list A) x y : last (x :: s) = Some y -> y = x \/ y ∈ s.
  Proof. intros H. apply last_Some_elem_of in H. by apply elem_of_cons in H. Qed.
  Lemma ptr_in w l e p : Inv w -> l < n_lists w -> rooted w l -> e = l_root w l \/ e ∈ seq_of w l ->
    e_next w e = Some p \/ e_prev w e = Some p -> p = l_root w l \/ p ∈ seq_of w l.
  Proof.
    intros HI Hl Hr He Hp. destruct (i_repr _ HI l Hl) as (_ & _ & C & _). destruct He as [->|He].
    - destruct Hr as [Hi|[H1 H2]]; [|rewrite H1, H2 in Hp; by destruct Hp]. rewrite Hi in C.
      destruct Hp as [Hp|Hp].
      + rewrite (cyc_root_next _ _ _ _ C) in Hp. by apply head_in.
      + rewrite (cyc_root_prev _ _ _ _ C) in Hp. by apply last_in.
    - assert (Hi : l_init w l = true) by (apply init_len; [done|done|]; intros E; rewrite E in He; by apply elem_of_nil in He).
      rewrite Hi in C. apply elem_of_list_split in He as (pre & post & E). rewrite E in C |- *.
      destruct Hp as [Hp|Hp].
      + rewrite (cyc_next _ _ _ _ _ _ C) in Hp. apply head_in in Hp as [->|?]; [by left|right; set_solver].
      + rewrite (cyc_prev _ _ _ _ _ _ C) in Hp. apply last_in in Hp as [->|?]; [by left|right; set_solver].
  Qed.
  Lemma points_in w l c c' : Inv w -> l < n_lists w -> rooted w l -> of_list w l c -> points w c c' -> of_list w l c'.
  Proof.
    intros HI Hl Hr Hc Hp.
    assert (Hin : forall e, c = Elem e -> e = l_root w l \/ e ∈ seq_of w l).
    { intros e ->. destruct Hc as [?|[[= ->]|(e' & [= <-] & He)]]; [done|by left|by right]. }
    assert (Hout : forall p, p = l_root w l \/ p ∈ seq_of w l -> of_list w l (Elem p)).
    { intros p [->|H]; [right; by left|right; right; by exists p]. }
    destruct Hp as [l'|l' Hl'|e e' He|e e' He|e l' He].
    - destruct Hc as [[= ->]|[?|(? & ? & _)]]; [|done|done]. right. by left.
    - destruct (Hin _ eq_refl) as [E|E].
      + apply (i_inj _ HI) in E; [|done|done]. subst. by left.
      + by destruct (inv_notroot w l l' _ HI Hl Hl' E).
    - apply Hout. eapply ptr_in; [done|done|done|by apply Hin|by left].
    - apply Hout. eapply ptr_in; [done|done|done|by apply Hin|by right].
    - destruct (Hin _ eq_refl) as [E|E].
      + subst. destruct (i_root _ HI l Hl) as [_ E]. congruence.
      + destruct (inv_elem w l e HI Hl E) as [E' _]. assert (l' = l) as -> by congruence. by left.
  Qed.
  Lemma keeps_in w l c c' : Inv w -> l < n_lists w -> rooted w l -> of_list w l c -> keeps w c c' -> of_list w l c'.
  Proof. intros HI Hl Hr Hc H. induction H as [|x y z Hxy _ IH]; [done|]. apply IH. by eapply points_in. Qed.

  Lemma root_keeps w l : Inv w -> l < n_lists w -> forall n e, seq_of w l !! n = Some e -> keeps w (Elem (l_root w l)) (Elem e).
  Proof.
    intros HI Hl. destruct (i_repr _ HI l Hl) as (_ & _ & C & _).
    induction n as [|n IH]; intros e He.
    - assert (Hi : l_init w l = true) by (apply init_len; [done|done|]; intros E; by rewrite E in He).
      rewrite Hi in C. apply rtc_once, po_next. rewrite (cyc_root_next _ _ _ _ C).
      destruct (seq_of w l); [done|]. by injection He as ->.
    - assert (Hi : l_init w l = true) by (apply init_len; [done|done|]; intros E; by rewrite E in He).
      rewrite Hi in C. destruct (lookup_lt_is_Some_2 (seq_of w l) n) as [x Hx]; [apply lookup_lt_Some in He; lia|].
      eapply rtc_r; [by apply IH|]. apply po_next.
      assert (Hx' := Hx). apply elem_of_list_split_length in Hx' as (pre & post & E & En).
      rewrite E in C. rewrite (cyc_next _ _ _ _ _ _ C). rewrite E, lookup_app_r in He by lia.
      replace (Datatypes.S n - length pre) with 1 in He by lia. destruct post; [done|]. by injection He as ->.
  Qed.
  Lemma list_keeps_all w l c : Inv w -> l < n_lists w -> of_list w l c -> keeps w (List l) c.
  Proof.
    intros HI Hl [->|[->|(e & -> & He)]]; [apply rtc_refl|apply rtc_once; constructor|].
    apply elem_of_list_lookup in He as [n Hn]. eapply rtc_l; [constructor|by eapply root_keeps].
  Qed.
  Lemma list_keeps w l c : Inv w -> l < n_lists w -> rooted w l -> (keeps w (List l) c <-> of_list w l c).
  Proof. intros HI Hl Hr. split; [apply keeps_in; [done..|by left]|by apply list_keeps_all]. Qed.
  Lemma elem_keeps w l e c : Inv w -> l < n_lists w -> rooted w l -> e ∈ seq_of w l -> (keeps w (Elem e) c <-> of_list w l c).
  Proof.
    intros HI Hl Hr He. split; [apply keeps_in; [done..|]; right; right; by exists e|].
    intros Hc. eapply rtc_l; [|by apply (list_keeps_all w l)]. apply po_list. by apply inv_elem.
  Qed.
  Lemma reached_rooted w l : reached zero w -> l < n_lists w -> rooted w l.
  Proof. intros R Hl. unfold rooted. destruct (l_init w l) eqn:E; [by left|right]. by apply (unused_root zero). Qed.

  Lemma alone w e c : e_next w e = None -> e_prev w e = None -> e_list w e = None -> ~ is_root w e -> (keeps w (Elem e) c <-> c = Elem e).
  Proof.
    intros H1 H2 H3 H4. split; [|intros ->; apply rtc_refl]. intros H. apply rtc_inv in H as [<-|(d & Hd & _)]; [done|].
    exfalso. inversion Hd; subst; try congruence. apply H4. by eexists.
  Qed.
  Definition cut w e : Prop := e_next w e = None /\ e_prev w e = None /\ e_list w e = None.
  Lemma remove_alone l e w w' b : dl_remove l (Some e) w = Ok (b, w') -> cut w' e.
  Proof.
    unfold dl_remove. intros H. do 6 (apply bind_inv in H as (? & ? & _ & H)).
    apply bind_inv in H as (? & w1 & H1 & H). apply bind_inv in H as (? & w2 & H2 & H).
    apply bind_inv in H as (? & w3 & H3 & H). apply bind_inv in H as (? & w4 & H4 & H).
    injection H1 as _ <-. injection H2 as _ <-. injection H3 as _ <-. injection H4 as _ <-. injection H as _ <-.
    unfold cut. cbn. by rewrite !fn_lookup_insert.
  Qed.
  Lemma Remove_alone w l e r w' : e_list w e = Some l -> dl_exec zero (DRemove l e) w = Ok (r, w') -> cut w' e.
  Proof.
    intros He H. cbn [dl_exec] in H. apply bind_inv in H as (v & w1 & H1 & H2). injection H2 as _ <-.
    unfold dl_Remove in H1. apply bind_inv in H1 as (o & w2 & H1 & H2). injection H1 as <- <-. rewrite He in H2.
    rewrite bool_decide_eq_true_2 in H2 by done. apply bind_inv in H2 as (u & w3 & H3 & H4). injection H4 as _ <-.
    by eapply remove_alone.
  Qed.
  Lemma ERemove_alone w l e r w' : e_list w e = Some l -> dl_exec zero (DERemove e) w = Ok (r, w') -> cut w' e.
  Proof.
    intros He H. cbn [dl_exec] in H. apply bind_inv in H as (v & w1 & H1 & H2). injection H2 as _ <-.
    unfold el_Remove in H1. apply bind_inv in H1 as (o & w2 & H1 & H2). injection H1 as <- <-. rewrite He in H2.
    apply bind_inv in H2 as (u & w3 & H3 & H). apply remove_alone in H3 as (_ & _ & H3).
    apply bind_inv in H as (? & w4 & H4 & H). apply bind_inv in H as (? & w5 & H5 & H).
    injection H4 as _ <-. injection H5 as _ <-. injection H as _ <-. unfold cut. cbn. by rewrite !fn_lookup_insert.
  Qed.

  (** The theorems *)
  Lemma list_keeps_spec w l c : reached zero w -> dlists (dabs w) l -> (keeps w (List l) c <-> of_list w l c).
  Proof. intros R Hl. apply list_keeps; [by eapply reached_inv|done|by apply reached_rooted]. Qed.
  Lemma elem_keeps_spec w l e c : reached zero w -> dlists (dabs w) l -> e ∈ dseq (dabs w) l -> (keeps w (Elem e) c <-> of_list w l c).
  Proof. intros R Hl He. apply elem_keeps; [by eapply reached_inv|done|by apply reached_rooted|done]. Qed.
  Lemma removed_keeps_spec w l e call r w' : reached zero w -> dlists (dabs w) l -> e ∈ dseq (dabs w) l ->
    call = DRemove l e \/ call = DERemove e -> dl_exec zero call w = Ok (r, w') ->
    (forall c, keeps w' (Elem e) c <-> c = Elem e) /\ forall l', dlists (dabs w') l' -> ~ keeps w' (List l') (Elem e).
  Proof.
    intros R Hl He Hc H. assert (HI := reached_inv _ _ R). destruct (inv_elem w l e HI Hl He) as [He1 He2].
    assert (Hlive : live (dabs w) e).
    { cbn. split_and!; [done| |].
      - intros (l' & Hl' & E). by destruct (inv_notroot w l l' e HI Hl Hl' He).
      - intros l' E. assert (l' = l) as -> by congruence. done. }
    assert (Hok : call_ok (dabs w) call).
    { destruct Hc as [->| ->]; (split; cbn; [intros l' Hl'|intros e' He']).
      - by apply elem_of_list_singleton in Hl' as ->.
      - by apply elem_of_list_singleton in He' as ->.
      - by apply elem_of_nil in Hl'.
      - by apply elem_of_list_singleton in He' as ->. }
    destruct (total_spec zero w call R Hok) as (r' & w1 & H' & D & _ & R').
    rewrite H in H'. injection H' as <- <-. assert (HI' := reached_inv _ _ R').
    assert (Hcut : cut w' e) by (destruct Hc as [->| ->]; [by eapply Remove_alone|by eapply ERemove_alone]).
    assert (Hrest : rest (dabs w) (dabs w')).
    { destruct Hc as [->| ->]; inversion D; subst; try done; match goal with H : d_same _ _ |- _ => by destruct H end. }
    destruct Hrest as (_ & Hsl & _). apply Hsl in Hlive as (_ & Hnr & _); [|done].
    destruct Hcut as (C1 & C2 & C3). split; [intros c; by apply alone|].
    intros l' Hl' Hk. apply list_keeps_spec in Hk as [?|[[= E]|(e' & [= <-] & He')]]; [done| | |done|done].
    - apply Hnr. by exists l'.
    - destruct (inv_elem w' l' e HI' Hl' He'). congruence.
  Qed.

  Lemma list_field_keeps w l e c : reached zero w -> dlists (dabs w) l -> e_list w e = Some l -> of_list w l c -> keeps w (Elem e) c.
  Proof. intros R Hl He Hc. eapply rtc_l; [by apply po_list|]. apply list_keeps_all; [by eapply reached_inv|done|done]. Qed.
  Lemma cleared_keeps_spec w l e r w' : reached zero w -> dlists (dabs w) l -> e ∈ dseq (dabs w) l ->
    dl_exec zero (DClear l) w = Ok (r, w') -> no_list_has w' e /\ forall c, of_list w' l c -> keeps w' (Elem e) c.
  Proof.
    intros R Hl He H. assert (HI := reached_inv _ _ R). destruct (inv_elem w l e HI Hl He) as [He1 He2].
    destruct (Clear_ok w l HI Hl) as (w1 & H1 & HI1 & F & _ & Hs & _ & _ & He' & _).
    cbn [dl_exec] in H. unfold dmap, bind in H. rewrite H1 in H. injection H as _ <-.
    pose proof (f_nl _ _ _ _ F) as Hn. split.
    - intros l' Hl' Hin. cbn in Hl', Hin. destruct (inv_elem w1 l' e HI1 Hl' Hin) as [E _]. rewrite He' in E.
      assert (l' = l) as -> by congruence. rewrite Hs in Hin. by apply elem_of_nil in Hin.
    - intros c Hc. eapply rtc_l; [apply po_list; by rewrite He'|]. apply list_keeps_all; [done|by rewrite Hn|done].
  Qed.
End keep.

(** lhashmap: the root of its list is set up and holds no entry. *)
Section lkeep.
  Context {K V : Type} (eqb : K -> K -> bool) (upd : bool) (zero_k : K) (zero : V).
  Context (P : per eqb).
  Implicit Types (w : lhm K V) (d : dworld (option nat)).

  Record steady d d' : Prop := {
    s_elems : n_elems d <= n_elems d';
    s_init : forall l, l_init d l = true -> l_init d' l = true;
    s_root : l_root d' = l_root d;
    s_val : forall e, e < n_elems d -> e_val d' e = e_val d e }.
  Lemma steady_refl d : steady d d. Proof. by split. Qed.
  Lemma steady_trans d d1 d2 : steady d d1 -> steady d1 d2 -> steady d d2.
  Proof.
    intros [A B C D] [A' B' C' D']. split; [lia|auto|congruence|]. intros e He. rewrite D' by lia. auto.
  Qed.
  Definition still {A} (m : M (dworld (option nat)) A) : Prop := forall d a d', m d = Ok (a, d') -> steady d d'.
  Lemma still_bind {A B} (m : M (dworld (option nat)) A) (f : A -> M (dworld (option nat)) B) :
    still m -> (forall a, still (f a)) -> still (bind m f).
  Proof.
    intros Hm Hf d b d' H. apply bind_inv in H as (a & d1 & H1 & H2). eapply steady_trans; [by eapply Hm|by eapply Hf].
  Qed.
  Ltac prim p := intros d b d' H; destruct p; [|discriminate H]; injection H as <- <-; by split.
  Ltac prim0 := intros d b d' H; injection H as <- <-; by split.
  Lemma still_ret {A} (a : A) : still (ret a). Proof. prim0. Qed.
  Lemma still_rd {A} p (f : dworld (option nat) -> nat -> A) : still (rd p f). Proof. prim p. Qed.
  Lemma still_rd_l {A} l (f : dworld (option nat) -> nat -> A) : still (rd_l l f). Proof. prim0. Qed.
  Lemma still_root l : still (root_of l). Proof. prim0. Qed.
  Lemma still_next p v : still (wr_next p v). Proof. prim p. Qed.
  Lemma still_prev p v : still (wr_prev p v). Proof. prim p. Qed.
  Lemma still_list p v : still (wr_list p v). Proof. prim p. Qed.
  Lemma still_len l v : still (wr_len l v). Proof. prim0. Qed.
  Lemma still_init l : still (wr_init l true).
  Proof.
    intros d b d' H. injection H as <- <-. split; cbn; try done. intros l' H2. destruct (decide (l = l')) as [->|].
    - by rewrite fn_lookup_insert.
    - by rewrite fn_lookup_insert_ne.
  Qed.
  Lemma still_elem v : still (new_elem v).
  Proof. intros d b d' H. injection H as <- <-. split; cbn; [lia|done|done|]. intros e He. by rewrite fn_lookup_insert_ne by lia. Qed.
  Ltac st := repeat first
    [ simple apply still_ret | simple apply still_rd | simple apply still_rd_l | simple apply still_root | simple apply still_next
    | simple apply still_prev | simple apply still_list | simple apply still_len | simple apply still_init | simple apply still_elem
    | simple apply still_bind; [|intros ?] | case_match ].
  Lemma still_Front l : still (dl_Front l). Proof. unfold dl_Front, dl_lazyInit, dl_Clear. st. Qed.
  Lemma still_Next e : still (el_Next e). Proof. unfold el_Next. st. Qed.
  Lemma still_MoveToFront l e : still (dl_MoveToFront l e). Proof. unfold dl_MoveToFront, dl_lazyInit, dl_Clear, dl_move. st. Qed.
  Lemma still_PushFront l v : still (dl_PushFront l v). Proof. unfold dl_PushFront, dl_insertValue, dl_insert, dl_lazyInit, dl_Clear. st. Qed.
  Lemma still_Remove l e : still (dl_Remove l e). Proof. unfold dl_Remove, dl_remove. st. Qed.
  Lemma still_Clear l : still (dl_Clear l). Proof. unfold dl_Clear. st. Qed.

  Definition lstill {A} (m : M (lhm K V) A) : Prop := forall w a w', m w = Ok (a, w') -> steady (lh_d w) (lh_d w') /\ lh_l w' = lh_l w.
  Lemma lbind_inv {A B} (m : M (lhm K V) A) (f : A -> M (lhm K V) B) w r : bind m f w = Ok r ->
    exists a w1, m w = Ok (a, w1) /\ f a w1 = Ok r.
  Proof. unfold bind. destruct (m w) as [[a w1]| |]; try done. intros H. by exists a, w1. Qed.
  Lemma lstill_bind {A B} (m : M (lhm K V) A) (f : A -> M (lhm K V) B) : lstill m -> (forall a, lstill (f a)) -> lstill (bind m f).
  Proof.
    intros Hm Hf d b d' H. apply lbind_inv in H as (a & d1 & H1 & H2). destruct (Hm _ _ _ H1) as [A1 A2]. destruct (Hf _ _ _ _ H2) as [B1 B2].
    split; [by eapply steady_trans|congruence].
  Qed.
  Lemma lstill_ld {A} (m : M (dworld (option nat)) A) : still m -> lstill (ld m).
  Proof.
    intros Hm w a w'. unfold ld. destruct (m (lh_d w)) as [[b d]| |] eqn:E; try done. intros H. injection H as <- <-. cbn. split; [|done]. by eapply Hm.
  Qed.
  Lemma lstill_ret {A} (a : A) : lstill (ret a). Proof. intros w b w' H. injection H as <- <-. split; [apply steady_refl|done]. Qed.
  Lemma lstill_nofuel {A} : lstill (nofuel (A := A)). Proof. by intros w b w' H. Qed.
  Lemma lstill_panic {A} : lstill (panic (A := A)). Proof. by intros w b w' H. Qed.
  Lemma lstill_the_list : lstill the_list. Proof. intros w b w' H. injection H as <- <-. split; [apply steady_refl|done]. Qed.
  Lemma lstill_tab k : lstill (tab_get eqb k). Proof. intros w b w' H. injection H as <- <-. split; [apply steady_refl|done]. Qed.
  Lemma lstill_set m : lstill (set_tab m). Proof. intros w b w' H. injection H as <- <-. split; [apply steady_refl|done]. Qed.
  Lemma lstill_the_tab : lstill the_tab. Proof. intros w b w' H. injection H as <- <-. split; [apply steady_refl|done]. Qed.
  Lemma lstill_new k v : lstill (new_ent k v). Proof. intros w b w' H. injection H as <- <-. split; [apply steady_refl|done]. Qed.
  Lemma lstill_rd p : lstill (rd_ent p). Proof. intros w b w' H. destruct p; [|done]. injection H as <- <-. split; [apply steady_refl|done]. Qed.
  Lemma lstill_wr p v : lstill (wr_ent_v p v). Proof. intros w b w' H. destruct p; [|done]. injection H as <- <-. split; [apply steady_refl|done]. Qed.
  Ltac lst := repeat first
    [ simple apply lstill_ret | simple apply lstill_the_list | simple apply lstill_tab | simple apply lstill_set | simple apply lstill_the_tab
    | simple apply lstill_new | simple apply lstill_rd | simple apply lstill_wr | simple apply lstill_nofuel | simple apply lstill_panic
    | simple apply lstill_ld; first [simple apply still_rd|simple apply still_Front|simple apply still_Next|simple apply still_MoveToFront
        |simple apply still_PushFront|simple apply still_Remove|simple apply still_Clear]
    | simple apply lstill_bind; [|intros ?] | case_match ].
  Lemma lstill_loop (f : K -> V -> bool) fuel : forall e a, lstill (lh_range_loop fuel e (note f) a).
  Proof.
    induction fuel; intros; cbn [lh_range_loop]; [lst|]. case_match; [|lst].
    simple apply lstill_bind; [lst|intros ?]. simple apply lstill_bind; [lst|intros ?].
    simple apply lstill_bind; [unfold note; lst|intros ?]. case_match; [|lst].
    simple apply lstill_bind; [lst|intros ?]. apply IHfuel.
  Qed.
  Lemma exec_still c w r w' : lh_exec eqb upd zero c w = Ok (r, w') -> steady (lh_d w) (lh_d w') /\ lh_l w' = lh_l w.
  Proof.
    intros H. destruct c; cbn [lh_exec] in H; revert H; apply lstill_bind; try (intros; apply lstill_ret).
    - unfold lh_Load. lst.
    - unfold lh_Store. lst.
    - unfold lh_Remove. lst.
    - unfold lh_Len. lst.
    - unfold lh_Range. simple apply lstill_bind; [lst|intros ?]. simple apply lstill_bind; [lst|intros ?]. apply lstill_loop.
    - unfold lh_Clear. lst.
  Qed.
  Definition plain w : Prop := l_init (lh_d w) (lh_l w) = true /\ l_root (lh_d w) (lh_l w) < n_elems (lh_d w) /\
    e_val (lh_d w) (l_root (lh_d w) (lh_l w)) = None.
  Lemma reached_plain w : lh_reached eqb upd zero_k zero w -> plain w.
  Proof.
    intros (h & w0 & H0 & H). assert (P0 : plain w0).
    { unfold lh_New in H0. apply lbind_inv in H0 as (l & w1 & H1 & H2). injection H2 as <-. cbn.
      vm_compute in H1. injection H1 as <- <-. unfold plain. cbn. split_and!; [done|lia|done]. }
    clear H0. induction H as [|w1 c r w2 h w3 He Hh IH]; [done|]. apply IH. destruct (exec_still _ _ _ _ He) as [[A B C D] E].
    destruct P0 as (P1 & P2 & P3). unfold plain. rewrite E, C. split_and!; [auto|lia|]. by rewrite D.
  Qed.

  (** What a map keeps. *)
  Definition of_map w (c : lcell) : Prop :=
    c = Map \/ (exists d : cell, c = Cell d /\ of_list (lh_d w) (lh_l w) d) \/
    exists e p, c = Entry p /\ e ∈ lh_ids w /\ e_val (lh_d w) e = Some p.
  Lemma lpoints_in w c c' : LInv eqb zero_k zero w -> plain w -> of_map w c -> lpoints w c c' -> of_map w c'.
  Proof.
    intros L (P1 & P2 & P3) Hc Hp. destruct Hp as [|k e He|e p He|d d' Hd].
    - right; left. eexists. split; [done|by left].
    - right; left. eexists. split; [done|]. right; right. exists e. split; [done|]. cbn.
      rewrite (li_tab _ _ _ _ L) in He. apply elem_of_list_fmap in He as (e' & [= _ ->] & ?). done.
    - destruct Hc as [?|[(d & [= <-] & Hd)|(? & ? & ? & _)]]; [done| |done].
      destruct Hd as [?|[[= ->]|(e' & [= <-] & He')]]; [done|congruence|].
      right; right. by exists e, p.
    - destruct Hc as [?|[(d0 & [= <-] & Hd0)|(? & ? & ? & _)]]; [done| |done].
      right; left. exists d'. split; [done|].
      apply (points_in (lh_d w) (lh_l w) d d'); [by apply (li_inv _ _ _ _ L)|by apply (li_l _ _ _ _ L)|by left|done|done].
  Qed.
  Lemma map_keeps w c : LInv eqb zero_k zero w -> plain w -> (lkeeps w Map c <-> of_map w c).
  Proof.
    intros L Pl. split.
    - assert (H0 : of_map w Map) by (by left). revert H0. generalize Map. intros c0 H0 H.
      induction H as [|x y z Hxy _ IH]; [done|]. apply IH. by eapply lpoints_in.
    - assert (Hcell : forall d : cell, of_list (lh_d w) (lh_l w) d -> lkeeps w Map (Cell d)).
      { intros d Hd. eapply rtc_l; [constructor|].
        assert (Hk : keeps (lh_d w) (List (lh_l w)) d)
          by (apply list_keeps_all; [by apply (li_inv _ _ _ _ L)|by apply (li_l _ _ _ _ L)|done]).
        clear Hd; revert Hk. generalize (List (lh_l w)). intros d0 Hk. induction Hk as [|x y z Hxy _ IH]; [apply rtc_refl|].
        apply (rtc_l _ _ (Cell y)); [by constructor|]. exact IH. }
      intros [->|[(d & -> & Hd)|(e & p & -> & He & Hv)]]; [apply rtc_refl|auto|].
      eapply rtc_r; [apply (Hcell (Elem e))|by constructor]. right; right. by exists e.
  Qed.
  Lemma map_keeps_spec w : lh_reached eqb upd zero_k zero w ->
    (forall kv, kv ∈ labs zero_k zero w <-> exists p, lkeeps w Map (Entry p) /\ lh_ent w p = kv) /\
    (forall k, k ∈ (lh_m w).*1 <-> k ∈ (labs zero_k zero w).*1) /\
    (exists ps, NoDup ps /\ length ps = length (labs zero_k zero w) /\ forall p, lkeeps w Map (Entry p) <-> p ∈ ps) /\
    (exists es, NoDup es /\ length es = Datatypes.S (length (labs zero_k zero w)) /\ forall e, lkeeps w Map (Cell (Elem e)) <-> e ∈ es).
  Proof.
    intros R. pose proof (reached_plain _ R) as Pl. pose proof (lh_reached_inv eqb upd zero_k zero P _ R) as L.
    assert (HE : forall p, lkeeps w Map (Entry p) <-> exists e, e ∈ lh_ids w /\ e_val (lh_d w) e = Some p).
    { intros p. rewrite map_keeps by done. split.
      - intros [?|[(? & ? & _)|(e & p' & [= <-] & ? & ?)]]; [done|done|by exists e].
      - intros (e & ? & ?). right; right. by exists e, p. }
    split_and!.
    - intros kv. unfold labs. rewrite elem_of_list_fmap. split.
      + intros (e & -> & He). destruct (li_ptr _ _ _ _ L e He) as (p & Hp & _). exists p. split; [apply HE; by exists e|].
        unfold kv_of. by rewrite Hp.
      + intros (p & Hp & <-). apply HE in Hp as (e & He & Hp). exists e. split; [|done]. unfold kv_of. by rewrite Hp.
    - intros k. rewrite (li_tab _ _ _ _ L). unfold labs. rewrite <- !list_fmap_compose. rewrite !elem_of_list_fmap. done.
    - exists (omap (fun e => e_val (lh_d w) e) (lh_ids w)).
      assert (Hin : forall p (s : list nat), p ∈ omap (fun e => e_val (lh_d w) e) s <-> exists e, e ∈ s /\ e_val (lh_d w) e = Some p).
      { intros p s. apply elem_of_list_omap. }
      split_and!; [| |intros p; by rewrite HE, Hin].
      + pose proof (li_inj _ _ _ _ L) as Hinj. assert (Hnd : NoDup (lh_ids w)) by (apply inv_nodup; apply L).
        revert Hinj Hnd. generalize (lh_ids w). induction l as [|e s IH]; intros Hinj Hnd; [constructor|].
        apply NoDup_cons in Hnd as [Hn Hnd]. cbn. destruct (e_val (lh_d w) e) as [p|] eqn:E; [|apply IH; [intros; apply Hinj; [by right..|done]|done]].
        apply NoDup_cons. split; [|apply IH; [intros; apply Hinj; [by right..|done]|done]].
        rewrite Hin. intros (e' & He' & E'). apply Hn. replace e with e'; [done|]. apply Hinj; [by right|by left|congruence].
      + unfold labs. rewrite map_length. pose proof (li_ptr _ _ _ _ L) as Hp. revert Hp. generalize (lh_ids w).
        induction l as [|e s IH]; intros Hp; [done|]. cbn. destruct (Hp e) as (p & -> & _); [by left|]. cbn. f_equal. apply IH.
        intros e' He'. apply Hp. by right.
    - exists (l_root (lh_d w) (lh_l w) :: lh_ids w). split_and!.
      + apply (repr_nodup (lh_d w) (lh_l w)); [apply L|apply L|]. apply (i_repr _ (li_inv _ _ _ _ L)), L.
      + unfold labs. cbn. by rewrite map_length.
      + intros e. rewrite map_keeps by done. rewrite elem_of_cons. split.
        * intros [?|[(d & [= <-] & [?|[[= ->]|(e' & [= <-] & He)]])|(? & ? & ? & _)]]; [done|done|by left|by right|done].
        * intros H. right; left. eexists. split; [done|]. destruct H as [->|H]; [right; by left|right; right; by exists e].
  Qed.
End lkeep.
