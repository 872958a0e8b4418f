From Coq Require Import ZifyBool ZifyNat.
From Verif Require Import Base DllistModel DllistSpec.

(** The root of a list that was never used has no pointers in or out ([mode = true]), and nor has
    what is not allocated yet ([mode = false]). *)
Section unused.
  Context {T : Type} (zero : T) (mode : bool) (l0 r0 : nat).
  Implicit Types (w : dworld T) (p : option nat).

  Definition other (l : nat) : Prop := mode = true -> l <> l0.
  Record iso w : Prop := {
    is_l : if mode then l0 < n_lists w /\ l_root w l0 = r0 /\ r0 < n_elems w else n_elems w <= r0;
    is_inj : forall l, l < n_lists w -> other l -> l_root w l <> r0;
    is_out : e_next w r0 = None /\ e_prev w r0 = None;
    is_in : forall x, e_next w x <> Some r0 /\ e_prev w x <> Some r0 }.
  Definition over w : Prop := if mode then l0 < n_lists w /\ l_init w l0 = true else r0 < n_elems w.

  Record grows w w' : Prop := {
    g_lists : n_lists w <= n_lists w';
    g_elems : n_elems w <= n_elems w';
    g_init : forall l, l < n_lists w -> l_init w l = true -> l_init w' l = true;
    g_root : forall l, l < n_lists w -> l_root w' l = l_root w l }.
  Definition mono {A} (m : M (dworld T) A) : Prop := forall w a w', m w = Ok (a, w') ->
    grows w w' /\ forall l, n_lists w <= l -> l < n_lists w' -> l_init w' l = true.
  Definition safe {A} (N : nat) (m : M (dworld T) A) (G : A -> Prop) : Prop := forall w a w',
    iso w -> N <= n_lists w -> m w = Ok (a, w') -> over w' \/ (iso w' /\ G a).
  Definition ok p : Prop := p <> Some r0.
  Definition any {A} (_ : A) : Prop := True.

  Lemma bind_inv {A B} (m : M (dworld T) A) (f : A -> M (dworld T) B) w r : bind m f w = Ok r ->
    exists a w1, m w = Ok (a, w1) /\ f a w1 = Ok r.
  Proof. unfold bind. destruct (m w) as [[a w1]| |]; try done. intros H. by exists a, w1. Qed.
  Lemma grows_refl w : grows w w. Proof. by split. Qed.
  Lemma grows_trans w w1 w2 : grows w w1 -> grows w1 w2 -> grows w w2.
  Proof.
    intros [A B C D] [A' B' C' D']. split; [lia|lia| |].
    - intros l Hl Hi. apply C'; [lia|auto].
    - intros l Hl. rewrite D' by lia. auto.
  Qed.
  Lemma over_grows w w' : grows w w' -> over w -> over w'.
  Proof. unfold over. intros [A B C D]. destruct mode; [|lia]. intros [H1 H2]. split; [lia|auto]. Qed.

  Lemma mono_bind {A B} (m : M (dworld T) A) (f : A -> M (dworld T) B) : mono m -> (forall a, mono (f a)) -> mono (bind m f).
  Proof.
    intros Hm Hf w b w' H. apply bind_inv in H as (a & w1 & H1 & H2).
    destruct (Hm _ _ _ H1) as [A1 A2]. destruct (Hf a w1 b w' H2) as [B1 B2]. split; [by eapply grows_trans|].
    intros l Hl Hl'. destruct (decide (l < n_lists w1)); [|apply B2; lia]. apply (g_init _ _ B1); [done|]. apply A2; lia.
  Qed.
  Lemma safe_bind {A B} N (m : M (dworld T) A) (f : A -> M (dworld T) B) G G' :
    safe N m G -> mono m -> (forall a, mono (f a)) -> (forall a, G a -> safe N (f a) G') -> safe N (bind m f) G'.
  Proof.
    intros Hm Hmm Hf Hs w b w' HI HN H. apply bind_inv in H as (a & w1 & H1 & H2).
    destruct (Hmm _ _ _ H1) as [A1 A2]. pose proof (g_lists _ _ A1).
    destruct (Hm _ _ _ HI HN H1) as [Hi|[HI1 Ha]].
    - left. eapply over_grows; [|exact Hi]. by apply (Hf a w1 b w').
    - apply (Hs a Ha w1 b w'); [done|lia|done].
  Qed.
  Lemma safe_weak {A} N (m : M (dworld T) A) (G G' : A -> Prop) : safe N m G -> (forall a, G a -> G' a) -> safe N m G'.
  Proof. intros H HG w a w' HI HN E. destruct (H w a w' HI HN E) as [?|[? ?]]; [by left|right; auto]. Qed.

  Lemma simple w w' : n_lists w' = n_lists w -> n_elems w <= n_elems w' -> l_init w' = l_init w -> l_root w' = l_root w ->
    grows w w' /\ forall l, n_lists w <= l -> l < n_lists w' -> l_init w' l = true.
  Proof. intros E1 E2 E3 E4. split; [split; [lia|lia|by rewrite E3|by rewrite E4]|]. intros l ? ?. lia. Qed.
  Ltac prim p := intros w b w' H; destruct p; [|discriminate H]; injection H as <- <-; by apply simple.
  Ltac prim0 := intros w b w' H; injection H as <- <-; by apply simple.
  Lemma mono_ret {A} (a : A) : mono (ret a). Proof. prim0. Qed.
  Lemma mono_rd {A} p (f : dworld T -> nat -> A) : mono (rd p f). Proof. prim p. Qed.
  Lemma mono_rd_l {A} l (f : dworld T -> nat -> A) : mono (rd_l l f). Proof. prim0. Qed.
  Lemma mono_root l : mono (root_of l). Proof. prim0. Qed.
  Lemma mono_next p v : mono (wr_next p v). Proof. prim p. Qed.
  Lemma mono_prev p v : mono (wr_prev p v). Proof. prim p. Qed.
  Lemma mono_list p v : mono (wr_list p v). Proof. prim p. Qed.
  Lemma mono_val p v : mono (wr_val p v). Proof. prim p. Qed.
  Lemma mono_len l v : mono (wr_len l v). Proof. prim0. Qed.
  Lemma mono_init l : mono (wr_init l true).
  Proof.
    intros w b w' H. injection H as <- <-. split; [|cbn; intros; lia]. split; cbn; try done.
    intros l' H1 H2. destruct (decide (l = l')) as [->|].
    - by rewrite fn_lookup_insert.
    - by rewrite fn_lookup_insert_ne.
  Qed.
  Lemma mono_elem v : mono (new_elem v). Proof. intros w b w' H. injection H as <- <-. apply simple; cbn; [done|lia|done|done]. Qed.
  Lemma mono_nofuel {A} : mono (nofuel (A := A)). Proof. by intros w b w' H. Qed.
  Lemma mono_panic {A} : mono (panic (A := A)). Proof. by intros w b w' H. Qed.

  (** Reads and writes of one field. *)
  Lemma safe_ret {A} N (a : A) (G : A -> Prop) : G a -> safe N (ret a) G.
  Proof. intros Ha w b w' HI _ [= <- <-]. by right. Qed.
  Lemma safe_next N p : safe N (rd p e_next) ok.
  Proof. intros w b w' HI _ H. destruct p; [|done]. injection H as <- <-. right. split; [done|]. apply (is_in _ HI). Qed.
  Lemma safe_prev N p : safe N (rd p e_prev) ok.
  Proof. intros w b w' HI _ H. destruct p; [|done]. injection H as <- <-. right. split; [done|]. apply (is_in _ HI). Qed.
  Lemma safe_rd {A} N p (f : dworld T -> nat -> A) : safe N (rd p f) any.
  Proof. intros w b w' HI _ H. destruct p; [|done]. injection H as <- <-. by right. Qed.
  Lemma safe_rd_l {A} N l (f : dworld T -> nat -> A) : safe N (rd_l l f) any.
  Proof. intros w b w' HI _ [= <- <-]. by right. Qed.
  Lemma safe_root N l : l < N -> other l -> safe N (root_of l) ok.
  Proof. intros Hl Hn w b w' HI HN [= <- <-]. right. split; [done|]. intros [= H]. by apply (is_inj _ HI l); [lia|..]. Qed.
  Lemma safe_root_any N l : safe N (root_of l) any.
  Proof. intros w b w' HI HN [= <- <-]. by right. Qed.
  Lemma safe_wnext N p v : ok p -> ok v -> safe N (wr_next p v) any.
  Proof.
    intros Hp Hv w b w' HI _ H. destruct p as [x|]; [|done]. injection H as <- <-. right. split; [|done].
    assert (x <> r0) by (intros ->; by apply Hp).
    destruct HI as [A D [E1 E2] F]. split; cbn; try done.
    - by rewrite fn_lookup_insert_ne.
    - intros y. split; [|apply F]. destruct (decide (y = x)) as [->|]; [by rewrite fn_lookup_insert|].
      rewrite fn_lookup_insert_ne by done. apply F.
  Qed.
  Lemma safe_wprev N p v : ok p -> ok v -> safe N (wr_prev p v) any.
  Proof.
    intros Hp Hv w b w' HI _ H. destruct p as [x|]; [|done]. injection H as <- <-. right. split; [|done].
    assert (x <> r0) by (intros ->; by apply Hp).
    destruct HI as [A D [E1 E2] F]. split; cbn; try done.
    - by rewrite fn_lookup_insert_ne.
    - intros y. split; [apply F|]. destruct (decide (y = x)) as [->|]; [by rewrite fn_lookup_insert|].
      rewrite fn_lookup_insert_ne by done. apply F.
  Qed.
  Lemma safe_wlist N p v : safe N (wr_list p v) any.
  Proof. intros w b w' HI _ H. destruct p as [x|]; [|done]. injection H as <- <-. right. split; [|done]. by destruct HI. Qed.
  Lemma safe_wval N p v : safe N (wr_val p v) any.
  Proof. intros w b w' HI _ H. destruct p as [x|]; [|done]. injection H as <- <-. right. split; [|done]. by destruct HI. Qed.
  Lemma safe_wlen N l v : safe N (wr_len l v) any.
  Proof. intros w b w' HI _ [= <- <-]. right. split; [|done]. by destruct HI. Qed.
  Lemma safe_elem N v : safe N (new_elem v) ok.
  Proof.
    intros w b w' HI _ H. injection H as <- <-. destruct HI as [A D [E1 E2] F]. unfold over, ok. cbn.
    destruct (decide (n_elems w = r0)) as [Hr|Hr].
    { left. destruct mode; [|lia]. destruct A as (? & ? & ?). lia. }
    right. split; [|by intros [= ?]].
    split; cbn; [destruct mode; [|lia]; destruct A as (? & ? & ?); split_and!; [done|done|lia]|done|rewrite !fn_lookup_insert_ne by done; done|].
    intros y. destruct (decide (y = n_elems w)) as [->|]; [by rewrite !fn_lookup_insert|].
    rewrite !fn_lookup_insert_ne by done. apply F.
  Qed.
  Lemma safe_zero N : safe N (new_zero zero) any.
  Proof.
    intros w b w' HI _ H. injection H as <- <-. destruct HI as [A D [E1 E2] F]. unfold over. cbn.
    destruct (decide (n_elems w = r0)) as [Hr|Hr].
    { left. destruct mode; [|lia]. destruct A as (? & ? & ?). lia. }
    right. split; [|done].
    split; cbn; [| |rewrite !fn_lookup_insert_ne by done; done|].
    - destruct mode; [|lia]. destruct A as (? & ? & ?). rewrite fn_lookup_insert_ne by lia. split_and!; [lia|done|lia].
    - intros l Hl Hn. destruct (decide (l = n_lists w)) as [->|]; [by rewrite fn_lookup_insert|].
      rewrite fn_lookup_insert_ne by done. apply D; [lia|done].
    - intros y. destruct (decide (y = n_elems w)) as [->|]; [by rewrite !fn_lookup_insert|].
      rewrite !fn_lookup_insert_ne by done. apply F.
  Qed.
  Lemma other_dec l : {mode = true /\ l = l0} + {other l}.
  Proof. unfold other. destruct mode; [|by right]. destruct (decide (l = l0)); [by left|by right]. Qed.
  Lemma safe_Clear N l : l < N -> safe N (dl_Clear l) any.
  Proof.
    intros Hl w b w' HI HN H. unfold dl_Clear, bind, root_of, wr_next, wr_prev, wr_len, wr_init, ret in H.
    injection H as <- <-. destruct HI as [A D [E1 E2] F]. destruct (other_dec l) as [[Em ->]|Hn].
    { left. unfold over. rewrite Em in *. destruct A as (? & ? & ?). cbn. by rewrite fn_lookup_insert. }
    right. split; [|done].
    assert (l_root w l <> r0) by (apply D; [lia|done]).
    split; cbn; try done; [rewrite !fn_lookup_insert_ne by done; done|].
    intros y. destruct (decide (y = l_root w l)) as [->|]; [rewrite !fn_lookup_insert; by split; intros [= ?]|].
    rewrite !fn_lookup_insert_ne by done. apply F.
  Qed.
  Lemma mono_Clear l : mono (dl_Clear (T := T) l).
  Proof.
    unfold dl_Clear. repeat (apply mono_bind; [first [apply mono_root|apply mono_next|apply mono_prev|apply mono_len|apply mono_init]|intros ?]).
    apply mono_ret.
  Qed.
  Ltac mo0 := first
    [ assumption | simple apply mono_ret | simple apply mono_rd | simple apply mono_rd_l | simple apply mono_root | simple apply mono_next | simple apply mono_prev
    | simple apply mono_list | simple apply mono_val | simple apply mono_len | simple apply mono_elem  | simple apply mono_nofuel
    | simple apply mono_panic | simple apply mono_Clear ].
  Ltac mo := repeat first [ mo0 | simple apply mono_bind; [|intros ?] | case_match ].
  Lemma mono_lazy l : mono (dl_lazyInit (T := T) l). Proof. unfold dl_lazyInit. mo. Qed.
  Lemma Clear_num l w l' w' : dl_Clear l w = Ok (l', w') -> l' = l /\ n_lists w' = n_lists w /\ l_init w' l = true.
  Proof.
    unfold dl_Clear, bind, root_of, wr_next, wr_prev, wr_len, wr_init, ret. intros H. injection H as <- <-.
    split_and!; [done|done|]. cbn. by rewrite fn_lookup_insert.
  Qed.
  Lemma zero_num w l w' : new_zero zero w = Ok (l, w') -> grows w w' /\ l = n_lists w /\ n_lists w' = Datatypes.S l.
  Proof.
    intros H. unfold new_zero in H. injection H as <- <-. split; [|done]. split; cbn; [lia|lia| |].
    - intros l Hl Hi. by rewrite fn_lookup_insert_ne by lia.
    - intros l Hl. by rewrite fn_lookup_insert_ne by lia.
  Qed.
  Lemma mono_New : mono (dl_New zero).
  Proof.
    intros w l w' H. apply bind_inv in H as (l1 & w1 & H1 & H2). apply zero_num in H1 as (G & -> & E).
    destruct (mono_Clear _ _ _ _ H2) as [G' _]. apply Clear_num in H2 as (_ & E' & Hi).
    split; [by eapply grows_trans|]. intros l' Hl Hl'. assert (l' = n_lists w) as -> by lia. done.
  Qed.
  Lemma mono_insert l e at_ : mono (dl_insert (T := T) l e at_). Proof. unfold dl_insert. mo. Qed.
  Lemma mono_insertValue l v at_ : mono (dl_insertValue l v at_).
  Proof. unfold dl_insertValue. apply mono_bind; [mo|intros]. apply mono_insert. Qed.
  Lemma mono_remove l e : mono (dl_remove (T := T) l e). Proof. unfold dl_remove. mo. Qed.
  Lemma mono_move l e at_ : mono (dl_move (T := T) l e at_). Proof. unfold dl_move. mo. Qed.
  Lemma mono_elNext e : mono (el_Next (T := T) e). Proof. unfold el_Next. mo. Qed.
  Lemma mono_elPrev e : mono (el_Prev (T := T) e). Proof. unfold el_Prev. mo. Qed.
  Lemma mono_Front l : mono (dl_Front (T := T) l).
  Proof. unfold dl_Front. repeat first [apply mono_lazy|mo0|apply mono_bind; [|intros ?]|case_match]. Qed.
  Lemma mono_Back l : mono (dl_Back (T := T) l).
  Proof. unfold dl_Back. repeat first [apply mono_lazy|mo0|apply mono_bind; [|intros ?]|case_match]. Qed.
  Ltac mo1 := first [ mo0 | simple apply mono_lazy | simple apply mono_New | simple apply mono_insertValue | simple apply mono_remove | simple apply mono_move
    | simple apply mono_elNext | simple apply mono_elPrev | simple apply mono_Front | simple apply mono_Back ].
  Ltac mos := repeat first [ mo1 | simple apply mono_bind; [|intros ?] | case_match ].
  Lemma mono_go_next k : forall e, mono (go_next (T := T) k e). Proof. induction k; intros; cbn [go_next]; mos. apply IHk. Qed.
  Lemma mono_go_prev k : forall e, mono (go_prev (T := T) k e). Proof. induction k; intros; cbn [go_prev]; mos. apply IHk. Qed.
  Lemma mono_Get l i : mono (dl_Get (T := T) l i).
  Proof. unfold dl_Get. mos; [apply mono_go_next|apply mono_go_prev]. Qed.
  Lemma mono_PushBack l v : mono (dl_PushBack l v). Proof. unfold dl_PushBack. mos. Qed.
  Lemma mono_PushFront l v : mono (dl_PushFront l v). Proof. unfold dl_PushFront. mos. Qed.
  Lemma mono_pbl i : forall l e, mono (pbl_loop (T := T) i l e). Proof. induction i; intros; cbn [pbl_loop]; mos. apply IHi. Qed.
  Lemma mono_pfl i : forall l e, mono (pfl_loop (T := T) i l e). Proof. induction i; intros; cbn [pfl_loop]; mos. apply IHi. Qed.
  Lemma mono_pblt i : forall l e m, mono (pblt_loop (T := T) i l e m). Proof. induction i; intros; cbn [pblt_loop]; mos. apply IHi. Qed.
  Lemma mono_pflt i : forall l e m, mono (pflt_loop (T := T) i l e m). Proof. induction i; intros; cbn [pflt_loop]; mos. apply IHi. Qed.
  Lemma mono_loop {A} fuel (f : option nat -> A -> M (dworld T) (bool * A)) : (forall e a, mono (f e a)) ->
    forall e a, mono (range_loop fuel e f a).
  Proof. intros Hf. induction fuel; intros; cbn [range_loop]; mos; [apply Hf|apply IHfuel]. Qed.
  Lemma mono_Range {A} fuel l (f : option nat -> A -> M (dworld T) (bool * A)) a : (forall e a, mono (f e a)) ->
    mono (dl_Range fuel l f a).
  Proof. intros Hf. unfold dl_Range. mos. by apply mono_loop. Qed.
  Lemma mono_ERange {A} fuel e (f : option nat -> A -> M (dworld T) (bool * A)) a : (forall e a, mono (f e a)) ->
    mono (el_Range fuel e f a).
  Proof. intros Hf. unfold el_Range. mos. by apply mono_loop. Qed.
  Lemma mono_Sort rf fuel less : forall l, mono (dl_Sort zero rf fuel less l).
  Proof.
    induction fuel; intros; cbn [dl_Sort]; mos; try apply IHfuel; try apply mono_PushBack;
      try (apply mono_Range; intros; mos; apply mono_PushBack).
    apply mono_ERange. intros. mos; apply mono_PushBack.
  Qed.

  Ltac moz := repeat first
    [ mo1 | simple apply mono_PushBack | simple apply mono_PushFront | simple apply mono_Sort | simple apply mono_pbl | simple apply mono_pfl | simple apply mono_pblt
    | simple apply mono_pflt | simple apply mono_go_next | simple apply mono_go_prev | simple apply mono_Range; intros | simple apply mono_ERange; intros
    | simple apply mono_loop; intros | simple apply mono_bind; [|intros ?] | case_match ].

  (** The calls *)
  Ltac sa0 := first
    [ assumption | simple apply safe_next | simple apply safe_prev | simple apply safe_rd | simple apply safe_rd_l | simple apply safe_root; assumption | simple apply safe_root_any
    | simple apply safe_wnext; (assumption || done) | simple apply safe_wprev; (assumption || done) | simple apply safe_wlist | simple apply safe_wval | simple apply safe_wlen | simple apply safe_elem
    | simple apply safe_Clear; assumption | (simple apply safe_ret; done) | simple apply (safe_ret _ _ any I) | by (intros ? ? ? ? ? H; discriminate H) ].
  Ltac sb := eapply safe_bind; [sa0|moz|intros; moz|intros ? ?].
  Ltac sa := repeat first [ progress sa0 | sb | case_match ].

  Lemma safe_lazy N l : l < N -> safe N (dl_lazyInit (T := T) l) any.
  Proof. intros Hl. unfold dl_lazyInit. sa. Qed.
  Lemma lazy_init w l b w' : dl_lazyInit l w = Ok (b, w') -> l_init w' l = true.
  Proof.
    unfold dl_lazyInit, rd_l, bind at 1. destruct (l_init w l) eqn:E; [by intros [= _ <-]|].
    unfold dl_Clear, bind, root_of, wr_next, wr_prev, wr_len, wr_init, ret. intros [= _ <-]. cbn. by rewrite fn_lookup_insert.
  Qed.
  Lemma safe_after {A} N l (f : unit -> M (dworld T) A) G : l < N -> (forall b, mono (f b)) -> (other l -> forall b, safe N (f b) G) ->
    safe N (bind (dl_lazyInit l) f) G.
  Proof.
    intros Hl Hf Hs. destruct (other_dec l) as [[Em ->]|Hn].
    - intros w a w' HI HN H. apply bind_inv in H as (b & w1 & H1 & H2). left.
      eapply over_grows; [by apply (Hf b w1 a w')|]. pose proof (is_l _ HI) as HA. unfold over. rewrite Em in *.
      destruct (mono_lazy l0 w b w1 H1) as [[? ? ? ?] _]. destruct HA as (? & ? & ?). split; [lia|]. by eapply lazy_init.
    - eapply safe_bind; [by apply safe_lazy|apply mono_lazy|done|]. intros b _. auto.
  Qed.
  Ltac sl := apply safe_after; [assumption|intros; moz|intros ? ?].
  Lemma safe_insertValue N l v at_ : ok at_ -> safe N (dl_insertValue l v at_) any.
  Proof. intros H. unfold dl_insertValue, dl_insert. sa. Qed.
  Lemma safe_remove N l e : ok e -> safe N (dl_remove l e) any.
  Proof. intros H. unfold dl_remove. sa. Qed.
  Lemma safe_move N l e at_ : ok e -> ok at_ -> safe N (dl_move l e at_) any.
  Proof. intros H H1. unfold dl_move. sa. Qed.
  Lemma safe_elNext N e : safe N (el_Next e) any. Proof. unfold el_Next. sa. Qed.
  Lemma safe_elPrev N e : safe N (el_Prev e) any. Proof. unfold el_Prev. sa. Qed.
  Lemma safe_Front N l : l < N -> safe N (dl_Front l) any.
  Proof. intros H. unfold dl_Front. sb. case_match; [sa|]. sl. sb. eapply safe_weak; [apply safe_next|done]. Qed.
  Lemma safe_Back N l : l < N -> safe N (dl_Back l) any.
  Proof. intros H. unfold dl_Back. sb. case_match; [sa|]. sl. sb. eapply safe_weak; [apply safe_prev|done]. Qed.
  Ltac sa1 := first [ sa0 | simple apply safe_insertValue; assumption | simple apply safe_remove; assumption | simple apply safe_move; assumption
    | simple apply safe_elNext | simple apply safe_elPrev | simple apply safe_Front; assumption | simple apply safe_Back; assumption ].
  Ltac sc := eapply safe_bind; [sa1|moz|intros; moz|intros ? ?].
  Ltac sas := repeat first [ progress sa1 | sl | sc | case_match ].
  Lemma safe_go_next N k : forall e, safe N (go_next k e) any. Proof. induction k; intros; cbn [go_next]; sas. apply IHk. Qed.
  Lemma safe_go_prev N k : forall e, safe N (go_prev k e) any. Proof. induction k; intros; cbn [go_prev]; sas. apply IHk. Qed.
  Lemma safe_Get N l i : l < N -> safe N (dl_Get l i) any.
  Proof. intros H. unfold dl_Get. sas; [apply safe_go_next|apply safe_go_prev]. Qed.
  Lemma safe_PushBack N l v : l < N -> safe N (dl_PushBack l v) any. Proof. intros H. unfold dl_PushBack. sas. Qed.
  Lemma safe_PushFront N l v : l < N -> safe N (dl_PushFront l v) any. Proof. intros H. unfold dl_PushFront. sas. Qed.
  Lemma safe_pbl N l : l < N -> other l -> forall i e, safe N (pbl_loop i l e) any.
  Proof. intros H H1. induction i; intros; cbn [pbl_loop]; sas. apply IHi. Qed.
  Lemma safe_pfl N l : l < N -> other l -> forall i e, safe N (pfl_loop i l e) any.
  Proof. intros H H1. induction i; intros; cbn [pfl_loop]; sas. apply IHi. Qed.
  Lemma safe_pblt N l m : ok m -> forall i e, safe N (pblt_loop i l e m) any.
  Proof. intros H. induction i; intros; cbn [pblt_loop]; sas. apply IHi. Qed.
  Lemma safe_pflt N l m : ok m -> forall i e, safe N (pflt_loop i l e m) any.
  Proof. intros H. induction i; intros; cbn [pflt_loop]; sas. apply IHi. Qed.
  Lemma safe_loop {A} N fuel (f : option nat -> A -> M (dworld T) (bool * A)) : (forall e a, mono (f e a)) ->
    (forall e a, safe N (f e a) any) -> forall e a, safe N (range_loop fuel e f a) any.
  Proof.
    intros Hm Hf. induction fuel; intros; cbn [range_loop]; [sas|]. case_match; [|sas].
    eapply safe_bind; [apply Hf|apply Hm|intros; moz; apply Hm|intros ? ?]. case_match; [|sas].
    eapply safe_bind; [sa1|moz|intros; moz; apply Hm|intros ? ?]. apply IHfuel.
  Qed.
  Lemma safe_Range {A} N fuel l (f : option nat -> A -> M (dworld T) (bool * A)) a : l < N -> (forall e a, mono (f e a)) ->
    (forall e a, safe N (f e a) any) -> safe N (dl_Range fuel l f a) any.
  Proof.
    intros Hl Hm Hf. unfold dl_Range. eapply safe_bind; [sa1|moz|intros; moz; apply Hm|intros ? ?]. by apply safe_loop.
  Qed.
  Lemma safe_ERange {A} N fuel e (f : option nat -> A -> M (dworld T) (bool * A)) a : (forall e a, mono (f e a)) ->
    (forall e a, safe N (f e a) any) -> safe N (el_Range fuel e f a) any.
  Proof.
    intros Hm Hf. unfold el_Range. eapply safe_bind; [by apply safe_loop|moz; apply Hm|intros; moz|intros ? ?]. sas.
  Qed.
  Lemma New_num w l w' : dl_New zero w = Ok (l, w') -> l = n_lists w /\ n_lists w' = Datatypes.S l.
  Proof.
    intros H. apply bind_inv in H as (l1 & w1 & H1 & H2). apply Clear_num in H2 as (-> & -> & _).
    by apply zero_num in H1 as (_ & -> & ->).
  Qed.
  Lemma safe_New N : safe N (dl_New zero) any.
  Proof.
    intros w a w' HI HN H. assert (H0 := H). apply bind_inv in H as (l1 & w1 & H1 & H2).
    destruct (zero_num _ _ _ H1) as (_ & -> & El).
    destruct (safe_zero 0 w _ _ HI ltac:(lia) H1) as [Hi|[HI1 _]].
    - left. eapply over_grows; [|exact Hi]. by apply (mono_Clear _ _ _ _ H2).
    - apply (safe_Clear (Datatypes.S (n_lists w)) (n_lists w) ltac:(lia) _ a w' HI1); [lia|exact H2].
  Qed.
  Lemma safe_New_bind {A} N (f : nat -> M (dworld T) A) G : (forall l, mono (f l)) ->
    (forall l, N <= l -> safe (Datatypes.S l) (f l) G) -> safe N (bind (dl_New zero) f) G.
  Proof.
    intros Hm Hs w a w' HI HN H. apply bind_inv in H as (l & w1 & H1 & H2).
    destruct (New_num _ _ _ H1) as [El En].
    destruct (safe_New N _ _ _ HI HN H1) as [Hi|[HI1 _]].
    - left. eapply over_grows; [|exact Hi]. by apply (Hm l w1 a w').
    - apply (Hs l ltac:(lia) w1 a w' HI1); [lia|done].
  Qed.
  Lemma safe_Sort rf fuel less : forall N l, l < N -> safe N (dl_Sort zero rf fuel less l) any.
  Proof.
    induction fuel; intros N l Hl; cbn [dl_Sort]; [sas|].
    sc. case_match; [sas|]. sc. sc.
    apply safe_New_bind; [intros; moz|intros sm Hsm]. apply safe_New_bind; [intros; moz|intros la Hla].
    assert (l < S la) by lia. assert (sm < S la) by lia. assert (la < S la) by lia.
    assert (HP : forall x, x < S la -> forall e (u : unit), safe (S la) (v <- rd e e_val ;; dl_PushBack x v ;;; ret (true, tt)) any).
    { intros x Hx e u. sc. eapply safe_bind; [by apply safe_PushBack|moz|intros; moz|intros; sas]. }
    sc. sc.
    eapply safe_bind; [apply safe_ERange; intros|moz|intros; moz|intros ? ?].
    { moz. }
    { sc. eapply safe_bind; [|moz|intros; moz|intros; sas]. case_match; (sc; by apply safe_PushBack). }
    eapply safe_bind; [by apply IHfuel|moz|intros; moz|intros ? ?].
    eapply safe_bind; [by apply IHfuel|moz|intros; moz|intros ? ?].
    sc.
    eapply safe_bind; [apply safe_Range; [done|intros; moz|by apply HP]|moz|intros; moz|intros ? ?].
    eapply safe_bind; [by apply safe_PushBack|moz|intros; moz|intros ? ?].
    eapply safe_bind; [apply safe_Range; [done|intros; moz|by apply HP]|moz|intros; moz|intros ? ?].
    sas.
  Qed.

  Lemma mono_dmap {A B} (f : A -> B) (m : M (dworld T) A) : mono m -> mono (dmap f m).
  Proof. intros H. unfold dmap. apply mono_bind; [done|intros; apply mono_ret]. Qed.
  Lemma safe_dmap {A B} N (f : A -> B) (m : M (dworld T) A) : mono m -> safe N m any -> safe N (dmap f m) any.
  Proof. intros H Hs. unfold dmap. eapply safe_bind; [done|done|intros; apply mono_ret|intros; by apply safe_ret]. Qed.
  Lemma mono_visit f e (a : list nat) : mono (visit (T := T) f e a).
  Proof. unfold visit. moz. Qed.
  Lemma safe_visit N f e (a : list nat) : safe N (visit (T := T) f e a) any.
  Proof. unfold visit. destruct e; [|by intros w b w' HI HN H]. sc. by apply safe_ret. Qed.
  Lemma safe_MoveToFront N l e : l < N -> ok e -> safe N (dl_MoveToFront l e) any.
  Proof.
    intros Hl He. unfold dl_MoveToFront. sc. case_match; [|sas].
    destruct (other_dec l) as [[Em ->]|Hn]; [|sas].
    sc. sc. case_match; [sas|]. apply safe_after; [done|intros; moz|]. intros Ho. by apply Ho in Em.
  Qed.
  Lemma mono_Slice fuel l : mono (dl_Slice (T := T) fuel l).
  Proof. unfold dl_Slice. moz. Qed.
  Lemma safe_Slice N fuel l : l < N -> safe N (dl_Slice (T := T) fuel l) any.
  Proof.
    intros Hl. unfold dl_Slice. eapply safe_bind; [apply safe_Range; [done|intros; moz|intros; sas]|moz|intros; moz|intros; sas].
  Qed.

  Lemma is_zero (c : dl_call (T := T)) : {c = DZero} + {c <> DZero}.
  Proof. destruct c; (by left) || (by right). Qed.
  Lemma exec_mono c w r w' : dl_exec zero c w = Ok (r, w') ->
    grows w w' /\ (c <> DZero -> forall l, n_lists w <= l -> l < n_lists w' -> l_init w' l = true).
  Proof.
    intros H. cut (c = DZero \/ (grows w w' /\ forall l, n_lists w <= l -> l < n_lists w' -> l_init w' l = true)).
    { intros [->|[? ?]]; [|done]. split; [|done]. apply bind_inv in H as (l & w1 & H1 & H2). injection H2 as _ <-.
      by apply zero_num in H1 as (? & _). }
    destruct c; cbn [dl_exec] in H; try (by left); right; revert H; apply mono_dmap.
    all: first [simple apply mono_New|simple apply mono_Clear|simple apply mono_Get|simple apply mono_rd_l|simple apply mono_Front|simple apply mono_Back|simple apply mono_PushBack|simple apply mono_PushFront
      |simple apply mono_Sort|simple apply mono_elNext|simple apply mono_elPrev|simple apply mono_Slice|simple apply mono_rd|simple apply mono_val|idtac].
    all: unfold dl_Remove, dl_InsertBefore, dl_InsertAfter, dl_MoveToFront, dl_MoveToBack, dl_MoveBefore, dl_MoveAfter, dl_PushBackList,
      dl_PushFrontList, dl_PushBackListTo, dl_PushFrontListTo, dl_Swap, el_Remove, el_InsertAfter, el_InsertBefore, dl_Len.
    all: try (simple apply mono_Range; intros; simple apply mono_visit).
    all: try (simple apply mono_ERange; intros; simple apply mono_visit).
    all: moz.
  Qed.
  Lemma exec_safe c w r w' : iso w -> (forall l, l ∈ call_lists c -> l < n_lists w) -> (forall e, e ∈ call_elems c -> e <> r0) ->
    dl_exec zero c w = Ok (r, w') -> over w' \/ iso w'.
  Proof.
    intros HI HL HE H. cut (over w' \/ (iso w' /\ any r)); [intros [?|[? _]]; [by left|by right]|].
    assert (HE' : forall e, e ∈ call_elems c -> ok (Some e)) by (intros e He [= E]; by apply (HE e)). clear HE.
    destruct (is_zero c) as [->|Hz].
    { apply bind_inv in H as (l & w1 & H1 & H2). injection H2 as <- <-.
      destruct (safe_zero 0 w _ _ HI ltac:(lia) H1) as [?|[? _]]; [by left|by right]. }
    revert H. destruct c; cbn [dl_exec call_lists call_elems] in *; try done;
    repeat match goal with
    | HL : forall l, l ∈ ?a :: ?s -> l < _ |- _ =>
        assert (a < n_lists w) by (apply HL; by left); assert (forall l, l ∈ s -> l < n_lists w) by (intros ? ?; apply HL; by right); clear HL
    | HL : forall l, l ∈ ?a :: ?s -> ok _ |- _ =>
        assert (ok (Some a)) by (apply HL; by left); assert (forall l, l ∈ s -> ok (Some l)) by (intros ? ?; apply HL; by right); clear HL
    | HL : forall l, l ∈ [] -> _ |- _ => clear HL
    end;
    (apply (safe_dmap (n_lists w)); [|  |done|done]).
    all: unfold dl_Remove, dl_InsertBefore, dl_InsertAfter, dl_MoveToBack, dl_MoveBefore, dl_MoveAfter, dl_PushBackList,
      dl_PushFrontList, dl_PushBackListTo, dl_PushFrontListTo, dl_Swap, el_Remove, el_InsertAfter, el_InsertBefore, dl_Len.
    all: try (simple apply mono_Range; intros; simple apply mono_visit).
    all: try (simple apply mono_ERange; intros; simple apply mono_visit).
    all: try (simple apply safe_Range; [done|intros; simple apply mono_visit|intros; simple apply safe_visit]).
    all: try (simple apply safe_ERange; [intros; simple apply mono_visit|intros; simple apply safe_visit]).
    all: try first [simple apply mono_Slice|simple apply mono_Get|simple apply mono_Sort|simple apply safe_New|simple apply safe_zero|by simple apply safe_Get|by simple apply safe_PushBack|by simple apply safe_PushFront|by simple apply safe_Sort|by simple apply safe_Slice].
    all: match goal with |- mono (dl_MoveToFront _ _) => unfold dl_MoveToFront; moz | |- mono _ => moz | _ => idtac end.
    all: try (by apply safe_MoveToFront).
    all: sas; try first [by apply safe_pbl|by apply safe_pfl|by apply safe_pblt|by apply safe_pflt].
  Qed.
End unused.

Section unused.
  Context {T : Type} (zero : T).
  Implicit Types (w : dworld T).

  Record untouched w : Prop := {
    un_new : forall r, n_elems w <= r -> iso false 0 r w;
    un_list : forall l, l < n_lists w -> l_init w l = false -> iso true l (l_root w l) w }.
  Lemma untouched_empty : untouched (empty_dworld zero).
  Proof. split; [|cbn; intros; lia]. intros r _. split; cbn; [lia|intros; lia|done|done]. Qed.
  Lemma untouched_step w c r w' : untouched w -> call_ok (dabs w) c -> dl_exec zero c w = Ok (r, w') -> untouched w'.
  Proof.
    intros [A B] [HL HE] H. destruct (exec_mono zero 0 c w r w' H) as [G Hn].
    assert (Hnew : forall x, n_elems w' <= x -> iso false 0 x w').
    { intros x Hx. destruct (exec_safe zero false 0 x c w r w') as [Ho|Ho]; [|done|intros e He ->|done|cbn in Ho; lia|done].
      - apply A. pose proof (g_elems _ _ G). lia.
      - apply HE in He as [He _]. pose proof (g_elems _ _ G). lia. }
    split; [done|]. intros l Hl Hi. destruct (decide (l < n_lists w)) as [Hl0|Hl0].
    - assert (Hi0 : l_init w l = false).
      { destruct (l_init w l) eqn:E; [|done]. apply (g_init _ _ G) in E; [congruence|done]. }
      rewrite (g_root _ _ G l Hl0).
      destruct (exec_safe zero true l (l_root w l) c w r w') as [Ho|Ho]; [by apply B|done|intros e He ->|done|destruct Ho; congruence|done].
      apply HE in He as (_ & He & _). apply He. by exists l.
    - destruct (is_zero c) as [->|Hz]; [|rewrite (Hn Hz) in Hi; [done|lia|done]].
      apply bind_inv in H as (l1 & w1 & H1 & H2). injection H2 as _ <-. unfold new_zero in H1. injection H1 as _ <-.
      cbn in Hl. assert (l = n_lists w) as -> by lia. cbn. rewrite fn_lookup_insert.
      destruct (A (n_elems w) ltac:(lia)) as [I1 I2 I3 I4]. split; cbn.
      + rewrite fn_lookup_insert. lia.
      + intros l Hl1 Ho. assert (l <> n_lists w) by (by apply Ho). rewrite fn_lookup_insert_ne by done. apply I2; [lia|done].
      + by rewrite !fn_lookup_insert.
      + intros x. destruct (decide (x = n_elems w)) as [->|]; [by rewrite !fn_lookup_insert|].
        rewrite !fn_lookup_insert_ne by done. apply I4.
  Qed.
  Lemma reached_untouched w : reached zero w -> untouched w.
  Proof.
    intros [tr H]. revert H. generalize untouched_empty. generalize (empty_dworld zero). intros w0 H0 H.
    induction H as [|w1 c r w2 tr w3 Hc He Hh IH]; [done|]. apply IH. by eapply untouched_step.
  Qed.
  (** The pointers of the root of an unused list are nil. *)
  Lemma unused_root w l : reached zero w -> l < n_lists w -> l_init w l = false ->
    e_next w (l_root w l) = None /\ e_prev w (l_root w l) = None.
  Proof. intros R Hl Hi. apply (is_out _ _ _ _ (un_list _ (reached_untouched w R) l Hl Hi)). Qed.
End unused.
