(** Proofs about Range of dllist with callbacks that change lists. *)
From Coq Require Import ZifyBool ZifyNat.
From Verif Require Import Base Chain DllistModel DllistSpec DllistProofs DllistSteps DllistSteps2 DllistSteps3 DllistHistory DllistIterSpec.

Section after.
  Lemma after_split e pre post : e ∉ pre -> after e (pre ++ e :: post) = post.
  Proof.
    induction pre as [|x pre IH]; cbn; [by rewrite decide_True|]. intros H. apply not_elem_of_cons in H as [H1 H2].
    rewrite decide_False by congruence. auto.
  Qed.
  Lemma after_none e s : e ∉ s -> after e s = [].
  Proof.
    induction s as [|x s IH]; cbn; [done|]. intros H. apply not_elem_of_cons in H as [H1 H2]. rewrite decide_False by congruence. auto.
  Qed.
  Lemma after_in e s : after e s `sublist_of` s.
  Proof. induction s as [|x s IH]; cbn; [done|]. case_decide; by apply sublist_cons. Qed.
  Lemma after_next e s x t : NoDup s -> after e s = x :: t -> after x s = t.
  Proof.
    intros Hn. induction s as [|y s IH]; cbn; [done|]. apply NoDup_cons in Hn as [Hy Hn]. case_decide as E.
    - intros ->. rewrite decide_False; [|intros ->; apply Hy; by left]. cbn. by rewrite decide_True.
    - intros H. rewrite decide_False; [by apply IH|]. intros ->. apply Hy. eapply elem_of_submseteq; [|apply sublist_submseteq, (after_in e)]. rewrite H. by left.
  Qed.
  Lemma after_before e s x : NoDup s -> e ∈ s -> x ∈ s -> x <> e -> x ∈ after e s \/ e ∈ after x s.
  Proof.
    intros Hn. induction s as [|y s IH]; cbn; [intros H; by apply elem_of_nil in H|]. apply NoDup_cons in Hn as [Hy Hn].
    intros He Hx Hne. apply elem_of_cons in He as [->|He], Hx as [->|Hx]; try done.
    - left. by rewrite decide_True.
    - right. by rewrite decide_True.
    - assert (y <> e) by (intros ->; done). assert (y <> x) by (intros ->; done). rewrite !decide_False by done. auto.
  Qed.
End after.

Section footprint.
  Context {T : Type} (zero : T).
  (** An element that there is already gets into no list. *)
  Definition tame {A} (m : M (dworld T) A) : Prop := forall w a w', m w = Ok (a, w') ->
    n_elems w <= n_elems w' /\ forall e, e < n_elems w -> e_list w' e = e_list w e \/ e_list w' e = None.
  Lemma tame_bind {A B} (m : M (dworld T) A) (f : A -> M (dworld T) B) : tame m -> (forall a, tame (f a)) -> tame (bind m f).
  Proof.
    intros Hm Hf w b w'. unfold bind. destruct (m w) as [[a w1]| |] eqn:E; [|done..]. intros H.
    destruct (Hm _ _ _ E) as [H1 H2], (Hf _ _ _ _ H) as [H3 H4]. split; [lia|]. intros e He.
    destruct (H2 e He) as [H5|H5], (H4 e) as [H6|H6]; try lia; rewrite ?H6, ?H5; auto.
  Qed.
  Lemma tame_ret {A} (a : A) : tame (ret a).
  Proof. intros w b w' [= <- <-]. auto. Qed.
  Lemma tame_rd {A} p (f : dworld T -> nat -> A) : tame (rd p f).
  Proof. intros w b w'. destruct p; [|done]. intros [= <- <-]. auto. Qed.
  Lemma tame_rd_l {A} l (f : dworld T -> nat -> A) : tame (rd_l l f).
  Proof. intros w b w' [= <- <-]. auto. Qed.
  Lemma tame_root l : tame (root_of (T := T) l).
  Proof. intros w b w' [= <- <-]. auto. Qed.
  Lemma tame_wr_next p v : tame (wr_next (T := T) p v).
  Proof. intros w b w'. destruct p; [|done]. intros [= <- <-]. auto. Qed.
  Lemma tame_wr_prev p v : tame (wr_prev (T := T) p v).
  Proof. intros w b w'. destruct p; [|done]. intros [= <- <-]. auto. Qed.
  Lemma tame_wr_val p v : tame (wr_val (T := T) p v).
  Proof. intros w b w'. destruct p; [|done]. intros [= <- <-]. auto. Qed.
  Lemma tame_unlist p : tame (wr_list (T := T) p None).
  Proof.
    intros w b w'. destruct p as [x|]; [|done]. intros [= <- <-]. cbn. split; [done|]. intros e _.
    destruct (decide (e = x)) as [->|]; fsimp; auto.
  Qed.
  Lemma tame_wr_len l n : tame (wr_len (T := T) l n).
  Proof. intros w b w' [= <- <-]. auto. Qed.
  Lemma tame_wr_init l n : tame (wr_init (T := T) l n).
  Proof. intros w b w' [= <- <-]. auto. Qed.
  Lemma tame_panic {A} : tame (A := A) panic.
  Proof. by intros w b w'. Qed.
  Lemma tame_nofuel {A} : tame (A := A) nofuel.
  Proof. by intros w b w'. Qed.
  Lemma tame_zero : tame (new_zero zero).
  Proof. intros w b w' [= <- <-]. cbn. split; [lia|]. intros e He. fsimp. auto. Qed.
  Lemma tame_insertValue l v p : tame (dl_insertValue (T := T) l v p).
  Proof.
    intros w b w'. unfold dl_insertValue, dl_insert. prims. destruct p as [x|]; [|done]. cbn. fsimp. cbn.
    repeat match goal with |- context [match ?x with Some _ => _ | None => _ end] => destruct x; cbn; try done end;
      intros [= <- <-]; cbn; (split; [lia|]); intros e He; fsimp; auto.
  Qed.
  Lemma tame_dmap {A B} (f : A -> B) (m : M (dworld T) A) : tame m -> tame (dmap f m).
  Proof. intros H. apply tame_bind; [done|]. intros a. apply tame_ret. Qed.

  Ltac tame := repeat first
    [ progress intros | apply tame_insertValue | match goal with H : context [tame] |- _ => apply H end | apply tame_bind | apply tame_ret | apply tame_rd | apply tame_rd_l | apply tame_root | apply tame_wr_next | apply tame_wr_prev
    | apply tame_wr_val | apply tame_unlist | apply tame_wr_len | apply tame_wr_init | apply tame_panic | apply tame_nofuel | apply tame_zero
    | apply tame_dmap
    | match goal with |- tame (if ?b then _ else _) => destruct b end
    | match goal with |- tame (match ?b with Some _ => _ | None => _ end) => destruct b end ].
  Lemma tame_Clear l : tame (dl_Clear (T := T) l).
  Proof. unfold dl_Clear. tame. Qed.
  Lemma tame_New : tame (dl_New zero).
  Proof. unfold dl_New, dl_Clear. tame. Qed.
  Lemma tame_lazyInit l : tame (dl_lazyInit (T := T) l).
  Proof. unfold dl_lazyInit, dl_Clear. tame. Qed.
  Lemma tame_go_next k : forall e, tame (go_next (T := T) k e).
  Proof. induction k; cbn; tame. Qed.
  Lemma tame_go_prev k : forall e, tame (go_prev (T := T) k e).
  Proof. induction k; cbn; tame. Qed.
  Lemma tame_Get l i : tame (dl_Get (T := T) l i).
  Proof. pose proof tame_go_next. pose proof tame_go_prev. unfold dl_Get, dl_lazyInit, dl_Clear. tame. Qed.
  Lemma tame_Front l : tame (dl_Front (T := T) l).
  Proof. unfold dl_Front, dl_lazyInit, dl_Clear. tame. Qed.
  Lemma tame_Back l : tame (dl_Back (T := T) l).
  Proof. unfold dl_Back, dl_lazyInit, dl_Clear. tame. Qed.
  Lemma tame_remove l e : tame (dl_remove (T := T) l e).
  Proof. unfold dl_remove. tame. Qed.
  Lemma tame_move l e p : tame (dl_move (T := T) l e p).
  Proof. unfold dl_move. tame. Qed.
  Lemma tame_PushBack l v : tame (dl_PushBack (T := T) l v).
  Proof. unfold dl_PushBack, dl_lazyInit, dl_Clear. tame. Qed.
  Lemma tame_Next e : tame (el_Next (T := T) e).
  Proof. unfold el_Next. tame. Qed.
  Lemma tame_Prev e : tame (el_Prev (T := T) e).
  Proof. unfold el_Prev. tame. Qed.
  Lemma tame_pbl k l : forall e, tame (pbl_loop (T := T) k l e).
  Proof. pose proof tame_Next. induction k; cbn; tame. Qed.
  Lemma tame_pfl k l : forall e, tame (pfl_loop (T := T) k l e).
  Proof. pose proof tame_Prev. induction k; cbn; tame. Qed.
  Lemma tame_pblt k l m : forall e, tame (pblt_loop (T := T) k l e m).
  Proof. pose proof tame_Next. induction k; cbn; tame. Qed.
  Lemma tame_pflt k l m : forall e, tame (pflt_loop (T := T) k l e m).
  Proof. pose proof tame_Prev. induction k; cbn; tame. Qed.
  Lemma tame_loop {A} (f : option nat -> A -> M (dworld T) (bool * A)) : (forall e a, tame (f e a)) -> forall fuel e a, tame (range_loop fuel e f a).
  Proof. intros Hf. pose proof tame_Next. induction fuel; intros e a; cbn; [tame|]. destruct e; tame. Qed.
  Lemma tame_Range {A} (f : option nat -> A -> M (dworld T) (bool * A)) fuel l a : (forall e a, tame (f e a)) -> tame (dl_Range fuel l f a).
  Proof. intros Hf. pose proof (tame_loop f Hf). pose proof tame_Front. unfold dl_Range. tame. Qed.
  Lemma tame_ERange {A} (f : option nat -> A -> M (dworld T) (bool * A)) fuel e a : (forall e a, tame (f e a)) -> tame (el_Range fuel e f a).
  Proof. intros Hf. pose proof (tame_loop f Hf). unfold el_Range. tame. Qed.
  Ltac tames := repeat (intros; match goal with
    | |- tame (bind _ _) => apply tame_bind | |- tame (ret _) => apply tame_ret | |- tame (rd _ _) => apply tame_rd
    | |- tame (rd_l _ _) => apply tame_rd_l | |- tame (root_of _) => apply tame_root | |- tame (wr_next _ _) => apply tame_wr_next
    | |- tame (wr_prev _ _) => apply tame_wr_prev | |- tame (wr_val _ _) => apply tame_wr_val | |- tame (dmap _ _) => apply tame_dmap
    | |- tame (dl_insertValue _ _ _) => apply tame_insertValue | |- tame (dl_Clear _) => apply tame_Clear | |- tame (dl_New _) => apply tame_New
    | |- tame (new_zero _) => apply tame_zero | |- tame (dl_lazyInit _) => apply tame_lazyInit | |- tame (dl_Get _ _) => apply tame_Get
    | |- tame (dl_Front _) => apply tame_Front | |- tame (dl_Back _) => apply tame_Back | |- tame (dl_remove _ _) => apply tame_remove
    | |- tame (dl_move _ _ _) => apply tame_move | |- tame (dl_PushBack _ _) => apply tame_PushBack | |- tame (el_Next _) => apply tame_Next
    | |- tame (el_Prev _) => apply tame_Prev | |- tame (pbl_loop _ _ _) => apply tame_pbl | |- tame (pfl_loop _ _ _) => apply tame_pfl
    | |- tame (pblt_loop _ _ _ _) => apply tame_pblt | |- tame (pflt_loop _ _ _ _) => apply tame_pflt | |- tame (dl_Range _ _ _ _) => apply tame_Range
    | |- tame (el_Range _ _ _ _) => apply tame_ERange
    | |- tame (if ?b then _ else _) => destruct b | |- tame (match ?b with Some _ => _ | None => _ end) => destruct b end).
  Lemma tame_Sort rf less : forall fuel l, tame (dl_Sort zero rf fuel less l).
  Proof.
    induction fuel as [|fuel IH]; intros l; cbn; [apply tame_nofuel|]. repeat (tames; try apply IH).
  Qed.
  Lemma tame_visit f e s : tame (visit (T := T) f e s).
  Proof. unfold visit. tame. Qed.
  Lemma exec_tame c w r w' : dl_exec zero c w = Ok (r, w') ->
    n_elems w <= n_elems w' /\ forall e, e < n_elems w -> e_list w' e = e_list w e \/ e_list w' e = None.
  Proof.
    destruct c; cbn [dl_exec]; match goal with |- ?m w = _ -> _ => apply (fun H : tame m => H w r w') end;
      unfold dl_Len, dl_Remove, dl_PushFront, dl_InsertBefore, dl_InsertAfter, dl_MoveToFront, dl_MoveToBack, dl_MoveBefore, dl_MoveAfter,
        dl_PushBackList, dl_PushFrontList, dl_PushBackListTo, dl_PushFrontListTo, dl_Slice, dl_Swap, el_Remove, el_InsertAfter, el_InsertBefore; tames; first [apply tame_Sort | apply tame_visit].
  Qed.
End footprint.

Section proofs.
  Context {T : Type} (zero : T).
  Implicit Types (w : dworld T).
  Notation reached := (reached zero).
  Notation history := (dl_history zero).

  Lemma history_app w h w1 h' w2 : history w h w1 -> history w1 h' w2 -> history w (h ++ h') w2.
  Proof. intros H. induction H; cbn; [done|]. intros H'. econstructor; [done|done|auto]. Qed.
  Lemma reached_history w h w' : reached w -> history w h w' -> reached w'.
  Proof. intros [h0 H0] H. exists (h0 ++ h). by eapply history_app. Qed.
  Lemma history_tame w h w' : history w h w' ->
    n_elems w <= n_elems w' /\ forall e, e < n_elems w -> e_list w' e = e_list w e \/ e_list w' e = None.
  Proof.
    intros H. induction H as [w|w c r w1 h w2 Hc He Hh [IH1 IH2]]; [auto|]. destruct (exec_tame zero c w r w1 He) as [H1 H2]. split; [lia|].
    intros e Hl. destruct (H2 e Hl) as [H3|H3], (IH2 e) as [H4|H4]; try lia; rewrite ?H4, ?H3; auto.
  Qed.
  Lemma history_lists w h w' l : Inv w -> history w h w' -> dlists (dabs w) l -> dlists (dabs w') l.
  Proof.
    intros HI H. induction H as [w|w c r w1 h w2 Hc He Hh IH]; [done|]. intros Hl. destruct (step_does zero w c r w1 HI Hc He) as [HI1 D]. apply IH; [done|].
    destruct D; unfold d_same, inserted, moved, only_list, no_list in *; naive_solver.
  Qed.

  (** Where an element is if it is in any list. *)
  Definition of_list w l (e : nat) : Prop := live (dabs w) e /\ forall l', e_list w e = Some l' -> l' = l.
  Lemma of_list_in w l e : Inv w -> dlists (dabs w) l -> e ∈ dseq (dabs w) l -> of_list w l e.
  Proof.
    intros HI Hl He. split; [by apply (so_live _ (seqs_ok_dabs _ HI) l)|]. intros l' E.
    destruct (i_repr _ HI l Hl) as (_ & _ & _ & H). destruct (H e He) as [H' _]. congruence.
  Qed.
  Lemma of_list_history w h w' l e : Inv w -> history w h w' -> of_list w l e -> live (dabs w') e -> of_list w' l e.
  Proof.
    intros HI Hh [H1 H2] Hv. split; [done|]. intros l' E. apply H2.
    pose proof (so_known _ (seqs_ok_dabs _ HI) _ H1) as Hk. destruct (history_tame _ _ _ Hh) as [_ H3]. destruct (H3 e Hk); congruence.
  Qed.
  Lemma Next_after w l e : Inv w -> dlists (dabs w) l -> of_list w l e -> el_Next (Some e) w = Ok (head (after e (dseq (dabs w) l)), w).
  Proof.
    intros HI Hl [Hv Ho]. destruct (live_cases _ _ HI Hv) as [(E & _ & L)|(l' & pre & ps & E & Hl' & Hs)].
    - rewrite (el_Next_loose w e E), after_none; [done|]. by apply L.
    - rewrite (Ho l' E) in *. rewrite (el_Next_ok w l pre e ps HI Hl Hs). cbn. rewrite Hs, after_split; [done|].
      pose proof (so_nodup _ (seqs_ok_dabs _ HI) l Hl) as Hn. cbn in Hn. rewrite Hs in Hn. apply NoDup_app in Hn as (_ & Hn & _).
      intros Hin. eapply Hn; [done|]. by left.
  Qed.
  Lemma after_of_list w l e e' s : Inv w -> dlists (dabs w) l -> after e (dseq (dabs w) l) = e' :: s -> e' ∈ dseq (dabs w) l /\ of_list w l e'.
  Proof.
    intros HI Hl H. assert (He : e' ∈ dseq (dabs w) l).
    { eapply elem_of_submseteq; [|apply sublist_submseteq, (after_in e)]. rewrite H. by left. }
    split; [done|]. by apply of_list_in.
  Qed.

  Lemma loop_turns {A} (f : option nat -> A -> M (dworld T) (bool * A)) l : good_callback zero f -> forall fuel w e a b a' w',
    reached w -> dlists (dabs w) l -> of_list w l e -> range_loop fuel (Some e) f a w = Ok ((b, a'), w') ->
    (exists h, history w h w') /\ exists ts, turns l f w e a ts b a' w'.
  Proof.
    intros Hf. induction fuel as [|fuel IH]; intros w e a b a' w' Hr Hl Ho; cbn [range_loop]; [done|].
    unfold bind at 1. destruct (f (Some e) a w) as [[[c a1] w1]| |] eqn:E; [|done..]. cbn [fst snd].
    destruct (Hf e a (c, a1) w w1 Hr (proj1 Ho) E) as [[h Hh] Hv]. pose proof (reached_inv zero w Hr) as HI.
    pose proof (reached_history _ _ _ Hr Hh) as Hr1. pose proof (reached_inv zero w1 Hr1) as HI1.
    pose proof (history_lists _ _ _ _ HI Hh Hl) as Hl1. pose proof (of_list_history _ _ _ _ _ HI Hh Ho Hv) as Ho1.
    destruct c.
    - rewrite (bind_ok _ _ _ _ _ (Next_after w1 l e HI1 Hl1 Ho1)). destruct (after e (dseq (dabs w1) l)) as [|e' s] eqn:Ea; cbn [head].
      + destruct fuel; [done|]. cbn. intros [= <- <- <-]. split; [by exists h|]. eexists. by apply t_end.
      + destruct (after_of_list w1 l e e' s HI1 Hl1 Ea) as [_ Ho']. intros H. destruct (IH w1 e' a1 b a' w' Hr1 Hl1 Ho' H) as [[h' Hh'] [ts Ht]].
        split; [exists (h ++ h'); by eapply history_app|]. eexists. by eapply t_go.
    - intros [= <- <- <-]. split; [by exists h|]. eexists. by apply t_stop.
  Qed.
  Lemma Range_turns {A} (f : option nat -> A -> M (dworld T) (bool * A)) l fuel w a b a' w' : good_callback zero f -> reached w -> dlists (dabs w) l ->
    dl_Range fuel l f a w = Ok ((b, a'), w') ->
    (exists h, history w h w') /\
    match dseq (dabs w) l with [] => b = true /\ a' = a /\ w' = w | e :: _ => exists ts, turns l f w e a ts b a' w' end.
  Proof.
    intros Hf Hr Hl. pose proof (reached_inv zero w Hr) as HI. unfold dl_Range. rewrite (bind_ok _ _ _ _ _ (Front_ok w l HI Hl)). cbn.
    destruct (seq_of w l) as [|e s] eqn:E; cbn [head].
    - destruct fuel; [done|]. cbn. intros [= <- <- <-]. split; [|done]. exists []. constructor.
    - apply loop_turns; [done..|]. apply of_list_in; [done|done|]. cbn. rewrite E. by left.
  Qed.
  Lemma ERange_turns {A} (f : option nat -> A -> M (dworld T) (bool * A)) l fuel w e a a' w' : good_callback zero f -> reached w -> dlists (dabs w) l ->
    e ∈ dseq (dabs w) l -> el_Range fuel (Some e) f a w = Ok (a', w') ->
    (exists h, history w h w') /\ exists ts b, turns l f w e a ts b a' w'.
  Proof.
    intros Hf Hr Hl He. pose proof (reached_inv zero w Hr) as HI. unfold el_Range, bind.
    destruct (range_loop fuel (Some e) f a w) as [[[b a1] w1]| |] eqn:E; [|done..]. intros [= <- <-].
    destruct (loop_turns f l Hf fuel w e a b a1 w1 Hr Hl (of_list_in w l e HI Hl He) E) as [H1 [ts H2]]. split; [done|]. by exists ts, b.
  Qed.
  Lemma loop_no_panic {A} (f : option nat -> A -> M (dworld T) (bool * A)) l : good_callback zero f ->
    (forall x a w, reached w -> live (dabs w) x -> f (Some x) a w <> Panic) -> forall fuel w e a,
    reached w -> dlists (dabs w) l -> of_list w l e -> range_loop fuel (Some e) f a w <> Panic.
  Proof.
    intros Hf Hp. induction fuel as [|fuel IH]; intros w e a Hr Hl Ho; cbn [range_loop]; [done|].
    unfold bind at 1. destruct (f (Some e) a w) as [[[c a1] w1]| |] eqn:E; [|by apply Hp in E; [|done|apply Ho]|done]. cbn [fst snd].
    destruct (Hf e a (c, a1) w w1 Hr (proj1 Ho) E) as [[h Hh] Hv]. pose proof (reached_inv zero w Hr) as HI.
    pose proof (reached_history _ _ _ Hr Hh) as Hr1. pose proof (reached_inv zero w1 Hr1) as HI1.
    pose proof (history_lists _ _ _ _ HI Hh Hl) as Hl1. pose proof (of_list_history _ _ _ _ _ HI Hh Ho Hv) as Ho1.
    destruct c; [|done]. rewrite (bind_ok _ _ _ _ _ (Next_after w1 l e HI1 Hl1 Ho1)).
    destruct (after e (dseq (dabs w1) l)) as [|e' s] eqn:Ea; cbn [head]; [by destruct fuel|].
    destruct (after_of_list w1 l e e' s HI1 Hl1 Ea) as [_ Ho']. by apply IH.
  Qed.
  Lemma loop_ends {A} (f : option nat -> A -> M (dworld T) (bool * A)) l : good_callback zero f ->
    (forall x a w, reached w -> live (dabs w) x -> exists r w', f (Some x) a w = Ok (r, w')) ->
    (forall x a r w w', reached w -> x ∈ dseq (dabs w) l -> f (Some x) a w = Ok (r, w') -> after x (dseq (dabs w') l) `sublist_of` after x (dseq (dabs w) l)) ->
    forall fuel w e a, reached w -> dlists (dabs w) l -> e ∈ dseq (dabs w) l -> length (after e (dseq (dabs w) l)) + 2 <= fuel ->
    exists b a' w', range_loop fuel (Some e) f a w = Ok ((b, a'), w').
  Proof.
    intros Hf Hd Hs. induction fuel as [|fuel IH]; intros w e a Hr Hl He Hlen; cbn [range_loop]; [lia|].
    pose proof (reached_inv zero w Hr) as HI. pose proof (of_list_in w l e HI Hl He) as Ho.
    destruct (Hd e a w Hr (proj1 Ho)) as ([c a1] & w1 & E). rewrite (bind_ok _ _ _ _ _ E). cbn [fst snd].
    destruct (Hf e a (c, a1) w w1 Hr (proj1 Ho) E) as [[h Hh] Hv].
    pose proof (reached_history _ _ _ Hr Hh) as Hr1. pose proof (reached_inv zero w1 Hr1) as HI1.
    pose proof (history_lists _ _ _ _ HI Hh Hl) as Hl1. pose proof (of_list_history _ _ _ _ _ HI Hh Ho Hv) as Ho1.
    destruct c; [|by eexists _, _, _]. rewrite (bind_ok _ _ _ _ _ (Next_after w1 l e HI1 Hl1 Ho1)).
    pose proof (sublist_length _ _ (Hs _ _ _ _ _ Hr He E)) as Hle.
    destruct (after e (dseq (dabs w1) l)) as [|e' s] eqn:Ea; cbn [head].
    - destruct fuel; [lia|]. cbn. by eexists _, _, _.
    - destruct (after_of_list w1 l e e' s HI1 Hl1 Ea) as [He' _]. apply IH; [done..|].
      rewrite (after_next e _ e' s (so_nodup _ (seqs_ok_dabs _ HI1) l Hl1) Ea). cbn [length] in Hle. lia.
  Qed.
  Lemma turns_in_list {A} (f : option nat -> A -> M (dworld T) (bool * A)) l w e a ts b a' w' : good_callback zero f -> turns l f w e a ts b a' w' ->
    reached w -> dlists (dabs w) l -> e ∈ dseq (dabs w) l -> forall t, t ∈ ts -> reached (t_before t) /\ dlists (dabs (t_before t)) l /\ t_elem t ∈ dseq (dabs (t_before t)) l.
  Proof.
    intros Hf H. induction H as [w e a a1 w1 E|w e a a1 w1 E Ea|w e a a1 w1 e' s ts b a2 w2 E Ea Ht IH]; intros Hr Hl He t Hi;
      [apply elem_of_list_singleton in Hi as ->; done..|].
    apply elem_of_cons in Hi as [->|Hi]; [done|].
    pose proof (reached_inv zero w Hr) as HI. pose proof (of_list_in w l e HI Hl He) as Ho.
    destruct (Hf e a _ w w1 Hr (proj1 Ho) E) as [[h Hh] Hv].
    pose proof (reached_history _ _ _ Hr Hh) as Hr1. pose proof (reached_inv zero w1 Hr1) as HI1.
    pose proof (history_lists _ _ _ _ HI Hh Hl) as Hl1. apply IH; [done|done| |done]. exact (proj1 (after_of_list w1 l e e' s HI1 Hl1 Ea)).
  Qed.
  Lemma turns_sublist {A} (f : option nat -> A -> M (dworld T) (bool * A)) l w e a ts b a' w' : good_callback zero f -> turns l f w e a ts b a' w' ->
    reached w -> dlists (dabs w) l -> e ∈ dseq (dabs w) l ->
    (forall t, t ∈ ts -> after (t_elem t) (dseq (dabs (t_after t)) l) `sublist_of` after (t_elem t) (dseq (dabs (t_before t)) l)) ->
    (t_elem <$> ts) `sublist_of` e :: after e (dseq (dabs w) l).
  Proof.
    intros Hf H. induction H as [w e a a1 w1 E|w e a a1 w1 E Ea|w e a a1 w1 e' s ts b a2 w2 E Ea Ht IH]; intros Hr Hl He Hs; cbn;
      [apply sublist_skip, sublist_nil_l..|]. apply sublist_skip.
    pose proof (reached_inv zero w Hr) as HI. pose proof (of_list_in w l e HI Hl He) as Ho.
    destruct (Hf e a _ w w1 Hr (proj1 Ho) E) as [[h Hh] Hv].
    pose proof (reached_history _ _ _ Hr Hh) as Hr1. pose proof (reached_inv zero w1 Hr1) as HI1.
    pose proof (history_lists _ _ _ _ HI Hh Hl) as Hl1. pose proof (after_of_list w1 l e e' s HI1 Hl1 Ea) as [He' _].
    etrans; [apply IH; [done|done|done|intros t Hi; apply Hs; by right]|].
    rewrite (after_next e _ e' s (so_nodup _ (seqs_ok_dabs _ HI1) l Hl1) Ea). pose proof (Hs (mk_turn w e w1) ltac:(by left)) as Hs1. cbn in Hs1. by cbn in Ea; rewrite Ea in Hs1.
  Qed.
  Lemma turns_all {A} (f : option nat -> A -> M (dworld T) (bool * A)) l y w e a ts a' w' : good_callback zero f -> turns l f w e a ts true a' w' ->
    reached w -> dlists (dabs w) l -> e ∈ dseq (dabs w) l ->
    (forall t, t ∈ ts -> y ∈ after (t_elem t) (dseq (dabs (t_before t)) l) -> y ∈ after (t_elem t) (dseq (dabs (t_after t)) l)) ->
    y ∈ e :: after e (dseq (dabs w) l) -> y ∈ t_elem <$> ts.
  Proof.
    intros Hf H. remember true as b eqn:Hb. induction H as [w e a a1 w1 E|w e a a1 w1 E Ea|w e a a1 w1 e' s ts b a2 w2 E Ea Ht IH]; [done| |];
      intros Hr Hl He Hs Hy; (apply elem_of_cons in Hy as [->|Hy]; [by left|]).
    - apply (Hs (mk_turn w e w1)) in Hy; [|by left]. cbn in *. rewrite Ea in Hy. by apply elem_of_nil in Hy.
    - pose proof (reached_inv zero w Hr) as HI. pose proof (of_list_in w l e HI Hl He) as Ho.
      destruct (Hf e a _ w w1 Hr (proj1 Ho) E) as [[h Hh] Hv].
      pose proof (reached_history _ _ _ Hr Hh) as Hr1. pose proof (reached_inv zero w1 Hr1) as HI1.
      pose proof (history_lists _ _ _ _ HI Hh Hl) as Hl1. pose proof (after_of_list w1 l e e' s HI1 Hl1 Ea) as [He' _].
      cbn. right. apply IH; [done..|intros t Hi; apply Hs; by right|].
      apply (Hs (mk_turn w e w1)) in Hy; [|by left]. cbn [t_elem t_after] in Hy. rewrite (after_next e _ e' s (so_nodup _ (seqs_ok_dabs _ HI1) l Hl1) Ea).
      by rewrite Ea in Hy.
  Qed.

  (** * Particular callbacks *)
  Lemma remove_stops w l e s fuel (m : option nat -> M (dworld T) T) :
    m = el_Remove \/ m = dl_Remove l -> reached w -> dlists (dabs w) l -> dseq (dabs w) l = e :: s ->
    exists w', dl_Range (S (S fuel)) l (fun x a => m x ;;; ret (true, a ++ [x])) [] w = Ok ((true, [Some e]), w') /\ dseq (dabs w') l = s /\ reached w'.
  Proof.
    intros Hm Hr Hl Hs. pose proof (reached_inv zero w Hr) as HI. assert (He : e ∈ dseq (dabs w) l) by (rewrite Hs; by left).
    destruct (of_list_in w l e HI Hl He) as [Hv Ho].
    assert (H : exists c, call_ok (dabs w) c /\ dl_exec zero c w = dmap DVal (m (Some e)) w /\ forall s' r, dl_does (dabs w) s' c r ->
      dseq s' l = s /\ (live s' e)).
    { assert (Hk : known (dabs w) e) by by apply (so_known _ (seqs_ok_dabs _ HI)).
      assert (Hq : forall s' pre post, only_list (dabs w) s' l (pre ++ post) -> dseq (dabs w) l = pre ++ e :: post -> dseq s' l = s).
      { intros s' pre post [H _] E. rewrite Hs in E. pose proof (so_nodup _ (seqs_ok_dabs _ HI) l Hl) as Hn. rewrite Hs in Hn. apply NoDup_cons in Hn as [Hn _].
        destruct pre as [|x pre]; cbn in E; [injection E as E2; by rewrite H, E2|]. injection E as E1 E2. exfalso. apply Hn. rewrite E2. apply elem_of_app. right. by left. }
      destruct Hm as [->| ->].
      - exists (DERemove e). split; [split; cbn; intros z Hz; [by apply elem_of_nil in Hz|by apply elem_of_list_singleton in Hz as ->]|]. split; [done|].
        intros s' r D. inversion D; subst.
        + match goal with H1 : dlists (dabs w) ?l', H2 : dseq (dabs w) ?l' = _ ++ e :: _, O : only_list _ _ _ _, R : rest _ _ |- _ =>
            assert (l' = l) as -> by (apply (so_disjoint _ (seqs_ok_dabs _ HI) l' l e H1 Hl); [rewrite H2; mem|done]);
            split; [exact (Hq _ _ _ O H2)|by apply R] end.
        + match goal with L : loose _ _ |- _ => by destruct (L l Hl) end.
      - exists (DRemove l e). split; [split; cbn; intros z Hz; by apply elem_of_list_singleton in Hz as ->|]. split; [done|].
        intros s' r D. inversion D; subst; [|done].
        match goal with H2 : dseq (dabs w) l = _ ++ e :: _, O : only_list _ _ _ _, R : rest _ _ |- _ => split; [exact (Hq _ _ _ O H2)|by apply R] end. }
    destruct H as (c & Hc & Hx & Hd). destruct (total_spec zero w c Hr Hc) as (r & w' & E & D & _ & Hr'). destruct (Hd _ _ D) as [Hs' Hv'].
    pose proof (reached_inv zero w' Hr') as HI'.
    assert (Hh : history w [(c, r)] w') by (econstructor; [done|done|constructor]).
    pose proof (history_lists _ _ _ _ HI Hh Hl) as Hl'. pose proof (of_list_history _ _ _ l e HI Hh (conj Hv Ho) Hv') as Ho'.
    exists w'. split; [|done]. unfold dl_Range. rewrite (bind_ok _ _ _ _ _ (Front_ok w l HI Hl)). cbn in Hs. rewrite Hs. cbn [head range_loop].
    rewrite Hx in E. unfold dmap in E. destruct (m (Some e) w) as [[v w1]| |] eqn:Em; unfold bind in E; rewrite Em in E; [|done..]. injection E as <- <-.
    erewrite bind_ok; [|rewrite (bind_ok _ _ _ _ _ Em); reflexivity]. cbn [fst snd].
    rewrite (bind_ok _ _ _ _ _ (Next_after w1 l e HI' Hl' Ho')). rewrite Hs', after_none; [done|].
    pose proof (so_nodup _ (seqs_ok_dabs _ HI) l Hl) as Hn. cbn in Hn. rewrite Hs in Hn. by apply NoDup_cons in Hn as [Hn _].
  Qed.

  Lemma push_endless {A} l v fuel : forall w (a : A), reached w -> dlists (dabs w) l -> dseq (dabs w) l <> [] ->
    dl_Range fuel l (fun _ a => dl_PushBack l v ;;; ret (true, a)) a w = NoFuel.
  Proof.
    intros w a Hr Hl Hs. pose proof (reached_inv zero w Hr) as HI. unfold dl_Range. rewrite (bind_ok _ _ _ _ _ (Front_ok w l HI Hl)). cbn in Hs.
    destruct (seq_of w l) as [|e s] eqn:E; [done|]. cbn [head]. assert (He : e ∈ dseq (dabs w) l) by (cbn; rewrite E; by left). clear E Hs s.
    revert w e Hr Hl He HI. induction fuel as [|fuel IH]; intros w e Hr Hl He HI; [done|]. cbn [range_loop].
    assert (Hc : call_ok (dabs w) (DPushBack l v)).
    { split; cbn; intros z Hz; [by apply elem_of_list_singleton in Hz as ->|by apply elem_of_nil in Hz]. }
    destruct (total_spec zero w _ Hr Hc) as (r & w' & Ex & D & _ & Hr').
    assert (Hh : history w [(DPushBack l v, r)] w') by (econstructor; [done|done|constructor]). pose proof (reached_inv zero w' Hr') as HI'.
    pose proof (history_lists _ _ _ _ HI Hh Hl) as Hl'. pose proof (of_list_in w l e HI Hl He) as Ho.
    assert (Hs' : exists x, dseq (dabs w') l = dseq (dabs w) l ++ [x] /\ live (dabs w') e).
    { inversion D; subst.
      match goal with Hi : inserted _ _ _ _ ?x _ _ |- _ => destruct Hi as (_ & _ & [Hi _] & R); exists x; split; [done|] end.
      apply R; [|apply Ho]. apply (so_known _ (seqs_ok_dabs _ HI)), Ho. }
    destruct Hs' as (x & Hs' & Hv'). pose proof (of_list_history _ _ _ l e HI Hh Ho Hv') as Ho'.
    cbn [dl_exec] in Ex. unfold dmap in Ex. destruct (dl_PushBack l v w) as [[p w1]| |] eqn:Em; unfold bind in Ex; rewrite Em in Ex; [|done..]. injection Ex as <- <-.
    erewrite bind_ok; [|rewrite (bind_ok _ _ _ _ _ Em); reflexivity]. cbn [fst snd].
    rewrite (bind_ok _ _ _ _ _ (Next_after w1 l e HI' Hl' Ho')).
    destruct (after e (dseq (dabs w1) l)) as [|e' s] eqn:Ea.
    - exfalso. rewrite Hs' in Ea. apply elem_of_list_split in He as (pre & post & He).
      pose proof (so_nodup _ (seqs_ok_dabs _ HI) l Hl) as Hn. rewrite He in Hn, Ea. apply NoDup_app in Hn as (_ & Hn & _).
      rewrite <- app_assoc in Ea. cbn in Ea. rewrite after_split in Ea; [by destruct post|]. intros Hi. eapply Hn; [done|]. by left.
    - apply IH; [done|done| |done]. exact (proj1 (after_of_list w1 l e e' s HI' Hl' Ea)).
  Qed.

  Lemma Clear_next w l x p r w' : x <> l_root w l -> el_Next (Some x) w = Ok (p, w) -> dl_Clear l w = Ok (r, w') -> el_Next (Some x) w' = Ok (p, w').
  Proof.
    intros Hx Hn. unfold dl_Clear. prims. intros [= <- <-]. revert Hn. unfold el_Next. prims. fsimp. destruct (e_list w x) as [l'|]; [|intros [= <-]; done].
    cbn. destruct (bool_decide (e_next w x = Some (l_root w l'))); intros [= <-]; done.
  Qed.
  Lemma clear_goes_on w l fuel : reached w -> dlists (dabs w) l -> length (dseq (dabs w) l) < fuel ->
    exists w', dl_Range fuel l (fun x a => dl_Clear l ;;; ret (true, a ++ [x])) [] w = Ok ((true, Some <$> dseq (dabs w) l), w') /\ dseq (dabs w') l = [].
  Proof.
    intros Hr Hl Hf. pose proof (reached_inv zero w Hr) as HI. unfold dl_Range. rewrite (bind_ok _ _ _ _ _ (Front_ok w l HI Hl)). cbn [dabs dseq] in *.
    assert (Hn : forall x pre post, seq_of w l = pre ++ x :: post -> el_Next (Some x) w = Ok (head post, w) /\ x <> l_root w l).
    { intros x pre post E. split; [by apply (el_Next_ok w l pre x post HI Hl)|]. apply (inv_notroot w l l x HI Hl Hl). rewrite E. mem. }
    destruct (seq_of w l) as [|e s] eqn:Es; [destruct fuel; cbn in *; [lia|]; by exists w|].
    assert (G : forall s e fuel a w, Inv w -> l < n_lists w -> length s + 1 < fuel ->
      (forall x pre post, e :: s = pre ++ x :: post -> el_Next (Some x) w = Ok (head post, w) /\ x <> l_root w l) ->
      exists w', range_loop fuel (Some e) (fun x a => dl_Clear l ;;; ret (true, a ++ [x])) a w = Ok ((true, a ++ (Some <$> e :: s)), w') /\ seq_of w' l = []).
    { clear. intros s. induction s as [|e' s IH]; intros e fuel a w HI Hl Hf Hn; (destruct fuel as [|fuel]; [lia|]); cbn [range_loop];
        destruct (Clear_ok w l HI Hl) as (w1 & E & HI1 & F & _ & Hs1 & _ & _ & _ & _);
        (erewrite bind_ok; [|rewrite (bind_ok _ _ _ _ _ E); reflexivity]); cbn [fst snd];
        (destruct (Hn e [] _ eq_refl) as [Hn1 Hn2]); rewrite (bind_ok _ _ _ _ _ (Clear_next _ _ _ _ _ _ Hn2 Hn1 E)); cbn [head].
      - destruct fuel as [|fuel]; [cbn in Hf; lia|]. exists w1. done.
      - destruct (IH e' fuel (a ++ [Some e]) w1) as (w' & H1 & H2); [done|by rewrite (f_nl _ _ _ _ F)|cbn in Hf; lia| |].
        + intros x pre post Ex. destruct (Hn x (e :: pre) post) as [Hx1 Hx2]; [cbn; by rewrite Ex|].
          split; [by eapply Clear_next|]. by rewrite (f_root _ _ _ _ F).
        + exists w'. split; [|done]. rewrite H1. by rewrite <- app_assoc. }
    destruct (G s e fuel [] w HI Hl) as (w' & H1 & H2); [cbn in Hf; lia|done|]. exists w'. done.
  Qed.
End proofs.
