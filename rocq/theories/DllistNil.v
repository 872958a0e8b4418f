(** Calls on a nil list do what DllistNilSpec.v says. *)
From Coq Require Import ZifyBool ZifyNat.
From Verif Require Import Base Chain DllistModel DllistSpec DllistProofs DllistSteps DllistHistory DllistNilModel DllistNilSpec.

Section proofs.
  Context {T : Type} (zero : T).
  Implicit Types (w : dworld T) (l : nat).
  Local Notation agree := (DllistNilSpec.agree (T := T)).

  (** * Agreement with DllistModel.v *)
  Lemma agree_ret {A} (a : A) : agree (ret a) (nret a). Proof. by intros w. Qed.
  Lemma agree_bind {A B} m n (f : A -> M _ B) g : agree m n -> (forall a, agree (f a) (g a)) -> agree (bind m f) (nbind n g).
  Proof.
    intros H1 H2 w. unfold bind, nbind. specialize (H1 w). destruct (m w) as [[a w1]| |]; [|destruct (n w) as [[]]; done|done].
    rewrite H1. apply H2.
  Qed.
  Lemma agree_one {A} (m : M (dworld T) A) : (forall w, m w <> NoFuel) -> agree m (one m).
  Proof. intros H w. specialize (H w). unfold one. by destruct (m w) as [[]| |]. Qed.
  Lemma agree_rd {A} p (f : dworld T -> nat -> A) : agree (rd p f) (one (rd p f)). Proof. apply agree_one. by destruct p. Qed.
  Lemma agree_next p v : agree (wr_next p v) (one (wr_next p v)). Proof. apply agree_one. by destruct p. Qed.
  Lemma agree_prev p v : agree (wr_prev p v) (one (wr_prev p v)). Proof. apply agree_one. by destruct p. Qed.
  Lemma agree_list p v : agree (wr_list p v) (one (wr_list p v)). Proof. apply agree_one. by destruct p. Qed.
  Lemma agree_new v : agree (new_elem v) (one (new_elem v)). Proof. by apply agree_one. Qed.
  Lemma agree_of_list {A} l (f : nat -> M (dworld T) A) : (forall w, f l w <> NoFuel) -> agree (f l) (of_list (Some l) f).
  Proof. apply agree_one. Qed.
  Ltac ag := repeat first
    [ solve [eauto 2] | simple apply agree_ret | simple apply agree_rd | simple apply agree_next | simple apply agree_prev | simple apply agree_list | simple apply agree_new
    | simple apply agree_bind; [|intros] | by apply (agree_of_list _ root_of)
    | by apply (agree_of_list _ (fun l => rd_l l l_len)) | by apply (agree_of_list _ (fun l => rd_l l l_init))
    | by apply (agree_of_list _ (fun l => wr_len l _)) | by apply (agree_of_list _ (fun l => wr_init l _))
    | match goal with |- agree (if ?b then _ else _) (if ?b then _ else _) => destruct b end ].
  Lemma agree_Clear l : agree (dmap Some (dl_Clear l)) (n_Clear (Some l)).
  Proof. by intros w. Qed.
  Lemma agree_lazyInit l : agree (dl_lazyInit l) (n_lazyInit (Some l)).
  Proof. intros w. unfold dl_lazyInit, n_lazyInit, bind at 1, nbind at 1, inited. cbn. by destruct (l_init w l). Qed.
  Local Hint Resolve agree_lazyInit : core.
  Lemma agree_go_next k : forall e, agree (go_next k e) (n_next k e).
  Proof. induction k as [|k IH]; intros e; cbn [go_next n_next]; ag. Qed.
  Lemma agree_go_prev k : forall e, agree (go_prev k e) (n_prev k e).
  Proof. induction k as [|k IH]; intros e; cbn [go_prev n_prev]; ag. Qed.
  Local Hint Resolve agree_go_next agree_go_prev : core.
  Lemma agree_Get l i : agree (dl_Get l i) (n_Get (Some l) i).
  Proof.
    unfold dl_Get, n_Get, len_of, root. destruct (i <? 0)%Z; cbn [orb].
    - by intros w.
    - ag.
  Qed.
  Lemma agree_Front l : agree (dl_Front l) (n_Front (Some l)). Proof. unfold dl_Front, n_Front, len_of, root. ag. Qed.
  Lemma agree_Back l : agree (dl_Back l) (n_Back (Some l)). Proof. unfold dl_Back, n_Back, len_of, root. ag. Qed.
  Lemma agree_insertValue l v p : agree (dl_insertValue l v p) (n_insertValue (Some l) v p).
  Proof. unfold dl_insertValue, n_insertValue, dl_insert, n_insert, len_of, set_len. ag. Qed.
  Lemma agree_remove l e : agree (dl_remove l e) (n_remove (Some l) e).
  Proof. unfold dl_remove, n_remove, len_of, set_len. ag. Qed.
  Lemma agree_move l e p : agree (dl_move l e p) (n_move (Some l) e p).
  Proof. unfold dl_move, n_move. ag. Qed.
  Local Hint Resolve agree_Front agree_Back agree_insertValue agree_remove agree_move : core.
  Lemma agree_Remove l e : agree (dl_Remove l e) (n_Remove (Some l) e). Proof. unfold dl_Remove, n_Remove. ag. Qed.
  Lemma agree_PushFront l v : agree (dl_PushFront l v) (n_PushFront (Some l) v). Proof. unfold dl_PushFront, n_PushFront, root. ag. Qed.
  Lemma agree_PushBack l v : agree (dl_PushBack l v) (n_PushBack (Some l) v). Proof. unfold dl_PushBack, n_PushBack, root. ag. Qed.
  Lemma agree_InsertBefore l v m : agree (dl_InsertBefore l v m) (n_InsertBefore (Some l) v m). Proof. unfold dl_InsertBefore, n_InsertBefore. ag. Qed.
  Lemma agree_InsertAfter l v m : agree (dl_InsertAfter l v m) (n_InsertAfter (Some l) v m). Proof. unfold dl_InsertAfter, n_InsertAfter. ag. Qed.
  Lemma agree_MoveToFront l e : agree (dl_MoveToFront l e) (n_MoveToFront (Some l) e). Proof. unfold dl_MoveToFront, n_MoveToFront, root. ag. Qed.
  Lemma agree_MoveToBack l e : agree (dl_MoveToBack l e) (n_MoveToBack (Some l) e). Proof. unfold dl_MoveToBack, n_MoveToBack, root. ag. Qed.
  Lemma agree_MoveBefore l e m : agree (dl_MoveBefore l e m) (n_MoveBefore (Some l) e m). Proof. unfold dl_MoveBefore, n_MoveBefore. ag. Qed.
  Lemma agree_MoveAfter l e m : agree (dl_MoveAfter l e m) (n_MoveAfter (Some l) e m). Proof. unfold dl_MoveAfter, n_MoveAfter. ag. Qed.
  Lemma agree_Next e : agree (el_Next e) (n_ElNext e).
  Proof. unfold el_Next, n_ElNext, root. do 2 (apply agree_bind; [apply agree_rd|intros]). case_match; ag. Qed.
  Lemma agree_Prev e : agree (el_Prev e) (n_ElPrev e).
  Proof. unfold el_Prev, n_ElPrev, root. do 2 (apply agree_bind; [apply agree_rd|intros]). case_match; ag. Qed.
  Local Hint Resolve agree_Next agree_Prev : core.
  Lemma agree_pbl l i : forall e, agree (pbl_loop i l e) (n_pbl i (Some l) e).
  Proof. induction i as [|i IH]; intros e; cbn [pbl_loop n_pbl]; unfold root; ag. Qed.
  Lemma agree_pfl l i : forall e, agree (pfl_loop i l e) (n_pfl i (Some l) e).
  Proof. induction i as [|i IH]; intros e; cbn [pfl_loop n_pfl]; unfold root; ag. Qed.
  Lemma agree_pblt l m i : forall e, agree (pblt_loop i l e m) (n_pblt i (Some l) e m).
  Proof. induction i as [|i IH]; intros e; cbn [pblt_loop n_pblt]; ag. Qed.
  Lemma agree_pflt l m i : forall e, agree (pflt_loop i l e m) (n_pflt i (Some l) e m).
  Proof. induction i as [|i IH]; intros e; cbn [pflt_loop n_pflt]; ag. Qed.
  Local Hint Resolve agree_pbl agree_pfl agree_pblt agree_pflt : core.
  Lemma agree_PushBackList l o : agree (dl_PushBackList l o) (n_PushBackList (Some l) (Some o)). Proof. unfold dl_PushBackList, n_PushBackList, len_of. ag. Qed.
  Lemma agree_PushFrontList l o : agree (dl_PushFrontList l o) (n_PushFrontList (Some l) (Some o)). Proof. unfold dl_PushFrontList, n_PushFrontList, len_of. ag. Qed.
  Lemma agree_PushBackListTo l o m : agree (dl_PushBackListTo l o m) (n_PushBackListTo (Some l) (Some o) m). Proof. unfold dl_PushBackListTo, n_PushBackListTo, len_of. ag. Qed.
  Lemma agree_PushFrontListTo l o m : agree (dl_PushFrontListTo l o m) (n_PushFrontListTo (Some l) (Some o) m). Proof. unfold dl_PushFrontListTo, n_PushFrontListTo, len_of. ag. Qed.
  Lemma agree_Swap l a b : agree (dl_Swap l a b) (n_Swap (Some l) a b). Proof. unfold dl_Swap, n_Swap. ag. Qed.

  (** * Calls on nil *)
  Lemma untouched_refl w : untouched w w. Proof. by split. Qed.
  Lemma nothing w (o : option (n_ret T)) : exists w', (o, w) = (o, w') /\ untouched w w'.
  Proof. exists w. split; [done|apply untouched_refl]. Qed.
  (** The element made by insertValue and the mark are all that it changes before it panics. *)
  Lemma insert_nil w v p : (forall e, p = Some e -> e < n_elems w /\ ~ is_root w e /\ e_list w e = None /\ e_next w e = None) ->
    exists w', n_insertValue None v p w = (None, w') /\ untouched w w'.
  Proof.
    intros H. unfold n_insertValue, n_insert, nbind, one, new_elem, wr_prev, wr_next, rd. cbn. destruct p as [e|].
    - destruct (H e eq_refl) as (He & Hr & Hl & Hn). assert (Hne : n_elems w <> e) by lia. cbn.
      assert (E1 : (<[n_elems w:=None]> (e_next w) : nat -> option nat) e = None) by (by rewrite fn_lookup_insert_ne). rewrite E1.
      rewrite fn_lookup_insert. cbn. rewrite fn_lookup_insert_ne by done. rewrite fn_lookup_insert. cbn.
      eexists. split; [reflexivity|].
      split; cbn; try done; try lia; intros e' He'; try (by rewrite !fn_lookup_insert_ne by lia).
      intros Hx. rewrite fn_lookup_insert_ne; [by rewrite !fn_lookup_insert_ne by lia|]. intros <-. by destruct Hx.
    - eexists. split; [reflexivity|]. split; cbn; intros; try done; try lia; by rewrite !fn_lookup_insert_ne by lia.
  Qed.
  Lemma loose_ok w c e : n_ok w c -> e ∈ n_elems_of c -> e_list w e = None ->
    e < n_elems w /\ ~ is_root w e /\ e_next w e = None /\ e_prev w e = None.
  Proof. intros [H _] He Hl. destruct (H e He) as (H1 & H2 & H3). destruct (H3 Hl). done. Qed.
  Lemma map_panic {A} (f : A -> n_ret T) (n : N (T := T) A) w : (exists w', n w = (None, w') /\ untouched w w') ->
    exists w', n_map f n w = (None, w') /\ untouched w w'.
  Proof. intros (w' & E & U). exists w'. unfold n_map, nbind. by rewrite E. Qed.
  Lemma map_fine {A} (f : A -> n_ret T) (n : N (T := T) A) w a : n w = (Some a, w) -> exists w', n_map f n w = (Some (f a), w') /\ untouched w w'.
  Proof. intros E. exists w. unfold n_map, nbind. rewrite E. split; [done|apply untouched_refl]. Qed.
  Lemma here {A} (n : N (T := T) A) w : n w = (None, w) -> exists w', n w = (None, w') /\ untouched w w'.
  Proof. intros ->. exists w. split; [done|apply untouched_refl]. Qed.

  Lemma seq_len w l : Inv w -> l < n_lists w -> l_len w l = Z.of_nat (length (dseq (dabs w) l)).
  Proof. intros HI Hl. destruct (i_repr _ HI l Hl) as (H & _). exact H. Qed.
  Lemma front_of w l : Inv w -> l < n_lists w -> dseq (dabs w) l <> [] -> exists e, n_Front (Some l) w = (Some (Some e), w).
  Proof.
    intros HI Hl Hn. pose proof (seq_len w l HI Hl) as Hlen. destruct (i_repr _ HI l Hl) as (_ & _ & C & _).
    assert (Hi : l_init w l = true). { destruct (l_init w l); [done|]. by destruct Hn. } rewrite Hi in C.
    cbn [dabs dseq] in *. destruct (seq_of w l) as [|e s] eqn:Es; [done|].
    assert (He : e_next w (l_root w l) = Some e). { apply cyc_root_next in C. by rewrite C. }
    exists e. unfold n_Front, nbind, len_of, of_list, one, rd_l. rewrite Hlen.
    replace (Z.of_nat (length (e :: s)) =? 0)%Z with false by (cbn; lia).
    unfold n_lazyInit, nbind, inited, of_list, one, rd_l. rewrite Hi. unfold nret, root, of_list, one, root_of, rd. by rewrite He.
  Qed.
  Lemma back_of w l : Inv w -> l < n_lists w -> dseq (dabs w) l <> [] -> exists e, n_Back (Some l) w = (Some (Some e), w).
  Proof.
    intros HI Hl Hn. pose proof (seq_len w l HI Hl) as Hlen. destruct (i_repr _ HI l Hl) as (_ & _ & C & _).
    assert (Hi : l_init w l = true). { destruct (l_init w l); [done|]. by destruct Hn. } rewrite Hi in C.
    cbn [dabs dseq] in *. destruct (seq_of w l) as [|x s _] eqn:Es using rev_ind; [done|].
    assert (He : e_prev w (l_root w l) = Some x). { apply cyc_root_prev in C. rewrite C. apply (last_snoc x (l_root w l :: s)). }
    exists x. unfold n_Back, nbind, len_of, of_list, one, rd_l. rewrite Hlen.
    replace (Z.of_nat (length (s ++ [x])) =? 0)%Z with false by (rewrite app_length; cbn; lia).
    unfold n_lazyInit, nbind, inited, of_list, one, rd_l. rewrite Hi. unfold nret, root, of_list, one, root_of, rd. by rewrite He.
  Qed.

  Ltac bd := repeat match goal with |- context [bool_decide ?P] =>
    first [rewrite (bool_decide_eq_true_2 P) by done | rewrite (bool_decide_eq_false_2 P) by congruence] end.
  Ltac go := repeat first [done | progress bd | match goal with H : ?f ?w ?e = _ |- context [?f ?w ?e] => rewrite H end | progress cbn].
  Lemma nil_ok w c : Inv w -> n_ok w c -> exists w', n_exec None c w = (n_answer w c, w') /\ untouched w w'.
  Proof.
    intros HI Hok. destruct c as [|i| | | |e|v|v|v m|v m|e|e|e m|e m|o|o|o m|o m|a b| | |]; cbn [n_exec n_answer].
    1,3,4,5: by apply map_panic, here.
    - unfold n_Get. destruct (i <? 0)%Z; [by apply map_fine|by apply map_panic, here].
    - (* Remove *)
      destruct e as [e|]; [|by apply map_panic, here]. cbn [held]. destruct (e_list w e) as [l|] eqn:El.
      + apply (map_fine NVal). unfold n_Remove, nbind, one, rd. go.
      + destruct (loose_ok w _ e Hok (elem_of_list_here _ _) El) as (_ & _ & H1 & H2). apply map_panic, here.
        unfold n_Remove, n_remove, nbind, one, rd. go.
    - by apply map_panic, here.
    - by apply map_panic, here.
    - (* InsertBefore *)
      destruct m as [m|]; [|by apply map_panic, here]. cbn [held]. destruct (e_list w m) as [l|] eqn:El.
      + apply (map_fine NElem). unfold n_InsertBefore, nbind, one, rd. go.
      + destruct (loose_ok w _ m Hok (elem_of_list_here _ _) El) as (_ & _ & H1 & H2). apply map_panic.
        unfold n_InsertBefore. unfold nbind, one, rd. rewrite El. bd. cbn -[n_insertValue n_pblt n_pflt n_Front n_Back]. rewrite H2. by apply insert_nil.
    - (* InsertAfter *)
      destruct m as [m|]; [|by apply map_panic, here]. cbn [held]. destruct (e_list w m) as [l|] eqn:El.
      + apply (map_fine NElem). unfold n_InsertAfter, nbind, one, rd. go.
      + destruct (loose_ok w _ m Hok (elem_of_list_here _ _) El) as (H3 & H4 & H1 & H2). apply map_panic.
        unfold n_InsertAfter. unfold nbind, one, rd. rewrite El. bd. cbn -[n_insertValue n_pblt n_pflt n_Front n_Back]. apply insert_nil. by intros e [= <-].
    - (* MoveToFront *)
      destruct e as [e|]; [|by apply map_panic, here]. cbn [held]. destruct (e_list w e) as [l|] eqn:El.
      + apply (map_fine (fun _ => NUnit) _ w tt). unfold n_MoveToFront, nbind, one, rd. go.
      + apply map_panic, here. unfold n_MoveToFront, nbind, one, rd. go.
    - (* MoveToBack *)
      destruct e as [e|]; [|by apply map_panic, here]. cbn [held]. destruct (e_list w e) as [l|] eqn:El.
      + apply (map_fine (fun _ => NUnit) _ w tt). unfold n_MoveToBack, nbind, one, rd. go.
      + apply map_panic, here. unfold n_MoveToBack, nbind, one, rd. go.
    - (* MoveBefore *)
      destruct e as [e|]; [|by apply map_panic, here]. cbn [held]. destruct (e_list w e) as [l|] eqn:El.
      { apply (map_fine (fun _ => NUnit) _ w tt). unfold n_MoveBefore, nbind, one, rd. go. }
      destruct (loose_ok w _ e Hok (elem_of_list_here _ _) El) as (_ & _ & H1 & H2). cbn [orb].
      destruct (decide (m = Some e)) as [->|Hne].
      { rewrite bool_decide_eq_true_2 by done. rewrite orb_true_r. apply (map_fine (fun _ => NUnit) _ w tt). unfold n_MoveBefore, nbind, one, rd. go. }
      rewrite (bool_decide_eq_false_2 (m = Some e)) by done. rewrite orb_false_r.
      assert (Hne' : bool_decide (Some e = m) = false) by (apply bool_decide_eq_false_2; congruence).
      destruct m as [m|]; [|apply map_panic, here; unfold n_MoveBefore, nbind, one, rd; go].
      cbn [held]. destruct (e_list w m) as [l|] eqn:Em.
      + apply (map_fine (fun _ => NUnit) _ w tt). unfold n_MoveBefore, nbind, one, rd. go.
      + destruct (loose_ok w _ m Hok (elem_of_list_further _ _ _ (elem_of_list_here _ _)) Em) as (_ & _ & H3 & H4).
        apply map_panic, here. unfold n_MoveBefore, n_move, nbind, one, rd. go.
    - (* MoveAfter *)
      destruct e as [e|]; [|by apply map_panic, here]. cbn [held]. destruct (e_list w e) as [l|] eqn:El.
      { apply (map_fine (fun _ => NUnit) _ w tt). unfold n_MoveAfter, nbind, one, rd. go. }
      destruct (loose_ok w _ e Hok (elem_of_list_here _ _) El) as (_ & _ & H1 & H2). cbn [orb].
      destruct (decide (m = Some e)) as [->|Hne].
      { rewrite bool_decide_eq_true_2 by done. rewrite orb_true_r. apply (map_fine (fun _ => NUnit) _ w tt). unfold n_MoveAfter, nbind, one, rd. go. }
      rewrite (bool_decide_eq_false_2 (m = Some e)) by done. rewrite orb_false_r.
      assert (Hne' : bool_decide (Some e = m) = false) by (apply bool_decide_eq_false_2; congruence).
      destruct m as [m|]; [|apply map_panic, here; unfold n_MoveAfter, nbind, one, rd; go].
      cbn [held]. destruct (e_list w m) as [l|] eqn:Em.
      + apply (map_fine (fun _ => NUnit) _ w tt). unfold n_MoveAfter, nbind, one, rd. go.
      + apply map_panic, here. unfold n_MoveAfter, n_move, nbind, one, rd. go.
    - by apply map_panic, here.
    - by apply map_panic, here.
    - (* PushBackListTo *)
      destruct m as [m|]; [|by apply map_panic, here]. cbn [held]. destruct (e_list w m) as [l|] eqn:El.
      { apply (map_fine (fun _ => NUnit) _ w tt). unfold n_PushBackListTo, nbind, one, rd. go. }
      destruct (loose_ok w _ m Hok) as (H3 & H4 & H1 & H2); [destruct o; left|done|].
      destruct o as [l|]; [|apply map_panic, here; unfold n_PushBackListTo, nbind, one, rd; go].
      assert (Hl : l < n_lists w) by (apply (proj2 Hok); left). pose proof (seq_len w l HI Hl) as Hlen.
      destruct (decide (dseq (dabs w) l = [])) as [E|E].
      + rewrite bool_decide_eq_true_2 by done. rewrite E in Hlen. apply (map_fine (fun _ => NUnit) _ w tt).
        unfold n_PushBackListTo, nbind, one, rd. unfold n_Front, nbind, len_of, of_list, one, rd_l. go.
      + rewrite bool_decide_eq_false_2 by done. destruct (front_of w l HI Hl E) as [e He]. apply map_panic.
        unfold n_PushBackListTo. unfold nbind, one, rd. rewrite El. bd. cbn -[n_insertValue n_pblt n_pflt n_Front n_Back]. rewrite He, Hlen.
        rewrite Nat2Z.id. cbn [dabs dseq] in *. destruct (seq_of w l) as [|x s]; [done|]. cbn [length n_pblt]. unfold nbind, one, rd.
        destruct (insert_nil w (e_val w e) (Some m)) as (w' & E' & U); [by intros e' [= <-]|]. rewrite E'. by exists w'.
    - (* PushFrontListTo *)
      destruct m as [m|]; [|by apply map_panic, here]. cbn [held]. destruct (e_list w m) as [l|] eqn:El.
      { apply (map_fine (fun _ => NUnit) _ w tt). unfold n_PushFrontListTo, nbind, one, rd. go. }
      destruct (loose_ok w _ m Hok) as (H3 & H4 & H1 & H2); [destruct o; left|done|].
      destruct o as [l|]; [|apply map_panic, here; unfold n_PushFrontListTo, nbind, one, rd; go].
      assert (Hl : l < n_lists w) by (apply (proj2 Hok); left). pose proof (seq_len w l HI Hl) as Hlen.
      destruct (decide (dseq (dabs w) l = [])) as [E|E].
      + rewrite bool_decide_eq_true_2 by done. rewrite E in Hlen. apply (map_fine (fun _ => NUnit) _ w tt).
        unfold n_PushFrontListTo, nbind, one, rd. unfold n_Back, nbind, len_of, of_list, one, rd_l. go.
      + rewrite bool_decide_eq_false_2 by done. destruct (back_of w l HI Hl E) as [e He]. apply map_panic.
        unfold n_PushFrontListTo. unfold nbind, one, rd. rewrite El. bd. cbn -[n_insertValue n_pblt n_pflt n_Front n_Back]. rewrite He, Hlen.
        rewrite Nat2Z.id. cbn [dabs dseq] in *. destruct (seq_of w l) as [|x s]; [done|]. cbn [length n_pflt]. unfold nbind, one, rd.
        destruct (insert_nil w (e_val w e) (Some m)) as (w' & E' & U); [by intros e' [= <-]|]. rewrite E'. by exists w'.
    - (* Swap *)
      destruct a as [e|]; [|by apply map_panic, here]. cbn [held]. destruct (e_list w e) as [l|] eqn:El.
      { apply (map_fine (fun _ => NUnit) _ w tt). unfold n_Swap, nbind, one, rd. go. }
      destruct (loose_ok w _ e Hok (elem_of_list_here _ _) El) as (_ & _ & H1 & H2). cbn [orb].
      destruct b as [m|]; [|apply map_panic, here; unfold n_Swap, nbind, one, rd; go].
      cbn [held]. destruct (e_list w m) as [l|] eqn:Em.
      { apply (map_fine (fun _ => NUnit) _ w tt). unfold n_Swap, nbind, one, rd. go. }
      cbn [orb]. destruct (decide (m = e)) as [->|Hne].
      { rewrite bool_decide_eq_true_2 by done. apply (map_fine (fun _ => NUnit) _ w tt). unfold n_Swap, nbind, one, rd. go. }
      rewrite (bool_decide_eq_false_2 (Some m = Some e)) by congruence.
      destruct (loose_ok w _ m Hok (elem_of_list_further _ _ _ (elem_of_list_here _ _)) Em) as (_ & _ & H3 & H4).
      apply map_panic, here. unfold n_Swap, nbind, one, rd. go.
    - by apply map_panic, here.
    - by apply map_panic, here.
    - by apply map_panic, here.
  Qed.

  Lemma untouched_same w w' : Inv w -> untouched w w' -> Inv w' /\ d_same (dabs w) (dabs w').
  Proof.
    intros HI U. destruct U as [U1 U2 U3 U4 U5 U6 U7 U8 U9].
    assert (Hrepr : forall l, l < n_lists w -> repr w' l (seq_of w l)).
    { intros l Hl. destruct (i_repr _ HI l Hl) as (A & B & C & D). destruct (i_root _ HI l Hl) as [R1 R2].
      split_and!; [by rewrite U2|done| |].
      - rewrite U3, U1. destruct (l_init w l); [|done]. eapply cyc_frame; [exact C|]. intros x [->|Hx]%elem_of_cons.
        + split; [apply U9; [done|]; right; by exists l|by apply U8].
        + destruct (D x Hx) as [D1 D2]. split; [apply U9; [done|]; left; congruence|by apply U8].
      - intros e He. destruct (D e He) as [D1 D2]. rewrite U7 by done. split; [done|lia]. }
    assert (Hseq : forall l, l < n_lists w -> seq_of w' l = seq_of w l) by (intros l Hl; by apply repr_seq, Hrepr).
    split.
    - split.
      + intros l. rewrite U4, U1. intros Hl. destruct (i_root _ HI l Hl) as [R1 R2]. rewrite U7 by done. split; [lia|done].
      + intros l l'. rewrite U4, !U1. apply (i_inj _ HI).
      + intros l. rewrite U4. intros Hl. rewrite (Hseq l Hl). by apply Hrepr.
    - split; [|split; [|split]].
      + intros l Hl. cbn in *. rewrite U4. split; [done|by apply Hseq].
      + intros e He. cbn in *. by apply U6.
      + intros e He. cbn in *. assert (Hroot : is_root w' e <-> is_root w e). { unfold is_root. rewrite U4. by setoid_rewrite U1. }
        rewrite Hroot, (U7 e He), U4. split; intros (H1 & H2 & H3); (split; [lia|]; split; [done|]; intros l El; specialize (H3 l El) as [H3 H4]; split; [done|]);
          [by rewrite <- Hseq|by rewrite Hseq].
      + intros e He. cbn in *. lia.
  Qed.

  (** * Histories with calls on nil between the others *)
  Lemma mixed_from w tr w' : Inv w -> mixed zero w tr w' -> Inv w' /\ behaves_mixed (dabs w) tr (dabs w').
  Proof.
    intros HI H. induction H as [w|w c r w1 tr w2 Hc He Hh IH|w c o w1 tr w2 Hc He Hh IH]; [split; [done|constructor]| |].
    - destruct (step_does zero w c r w1 HI Hc He) as [HI1 D]. destruct (IH HI1) as [HI2 B].
      split; [done|]. eapply bm_call; eauto. by apply seqs_ok_dabs.
    - destruct (nil_ok w c HI Hc) as (w1' & E1 & U). rewrite E1 in He. injection He as <- <-.
      destruct (untouched_same w w1' HI U) as [HI1 D]. destruct (IH HI1) as [HI2 B]. split; [done|]. by eapply bm_none.
  Qed.
  Lemma mixed_spec tr w : mixed zero (empty_dworld zero) tr w -> behaves_mixed (dabs (empty_dworld zero)) tr (dabs w) /\ seqs_ok (dabs w).
  Proof. intros H. destruct (mixed_from _ _ _ (Inv_empty zero) H). split; [done|by apply seqs_ok_dabs]. Qed.
  Lemma mixed_total tr w c : mixed zero (empty_dworld zero) tr w -> call_ok (dabs w) c ->
    exists r w', dl_exec zero c w = Ok (r, w') /\ dl_does (dabs w) (dabs w') c r /\ seqs_ok (dabs w').
  Proof.
    intros H Hc. destruct (mixed_from _ _ _ (Inv_empty zero) H) as [HI _].
    destruct (dl_step zero w c HI Hc) as (r & w' & E & HI' & D). exists r, w'. split_and!; [done..|by apply seqs_ok_dabs].
  Qed.
  Lemma answer_spec tr w c : mixed zero (empty_dworld zero) tr w -> n_ok w c ->
    exists w', n_exec None c w = (n_answer w c, w') /\ untouched w w' /\ d_same (dabs w) (dabs w').
  Proof.
    intros H Hc. destruct (mixed_from _ _ _ (Inv_empty zero) H) as [HI _]. destruct (nil_ok w c HI Hc) as (w' & E1 & U).
    exists w'. split_and!; [done..|]. by apply untouched_same.
  Qed.
End proofs.
