(** Proofs about Do of ring with a callback that uses rings, and Unlink with 64-bit [int]. *)
From Coq Require Import ZifyBool ZifyNat.
From Verif Require Import Base Int64 RingModel Chain RingSpec RingProofs RingIterSpec.

Section keeps.
  Context {T : Type} (zero : T).
  Notation heap := (rheap T).
  Implicit Types h : heap.

  (** An element whose next is set keeps it set; elements do not disappear. *)
  Definition grows h h' : Prop :=
    r_fresh h <= r_fresh h' /\ forall x, x < r_fresh h -> is_Some (r_next h x) -> is_Some (r_next h' x).
  Lemma grows_refl h : grows h h.
  Proof. by split. Qed.
  Lemma grows_trans h1 h2 h3 : grows h1 h2 -> grows h2 h3 -> grows h1 h3.
  Proof. intros [H1 H2] [H3 H4]. split; [lia|]. intros x Hx Hs. apply H4; [lia|]. by apply H2. Qed.
  Definition keeps {A} (m : M heap A) : Prop := forall h a h', m h = Ok (a, h') -> grows h h'.
  Lemma keeps_ret {A} (a : A) : keeps (ret a).
  Proof. intros h b h' E. injection E as <- <-. apply grows_refl. Qed.
  Lemma keeps_bind {A B} (m : M heap A) (k : A -> M heap B) :
    keeps m -> (forall a, keeps (k a)) -> keeps (bind m k).
  Proof.
    intros Hm Hk h b h' E. unfold bind in E. destruct (m h) as [[a h1]| |] eqn:Em; [|done|done].
    eapply grows_trans; [by eapply Hm|by eapply Hk].
  Qed.
  (** With what is known about the value. *)
  Lemma keeps_bind_with {A B} (P : A -> Prop) (m : M heap A) (k : A -> M heap B) :
    keeps m -> (forall h a h', m h = Ok (a, h') -> P a) -> (forall a, P a -> keeps (k a)) -> keeps (bind m k).
  Proof.
    intros Hm HP Hk h b h' E. unfold bind in E. destruct (m h) as [[a h1]| |] eqn:Em; [|done|done].
    eapply grows_trans; [by eapply Hm|]. eapply Hk; [by eapply HP|done].
  Qed.
  Lemma keeps_get_next p : keeps (get_next p).
  Proof. intros h a h' E. destruct p; [|done]. injection E as <- <-. apply grows_refl. Qed.
  Lemma keeps_get_prev p : keeps (get_prev p).
  Proof. intros h a h' E. destruct p; [|done]. injection E as <- <-. apply grows_refl. Qed.
  Lemma keeps_get_val p : keeps (get_val p).
  Proof. intros h a h' E. destruct p; [|done]. injection E as <- <-. apply grows_refl. Qed.
  Lemma keeps_set_val p v : keeps (set_val p v).
  Proof. intros h a h' E. destruct p; [|done]. injection E as <- <-. by split. Qed.
  Lemma keeps_set_prev p v : keeps (set_prev p v).
  Proof. intros h a h' E. destruct p; [|done]. injection E as <- <-. by split. Qed.
  Lemma keeps_set_next p y : keeps (set_next p (Some y)).
  Proof.
    intros h a h' E. destruct p; [|done]. injection E as <- <-. split; [done|]. cbn. intros x _ Hx.
    destruct (decide (x = n)) as [->|Hn]; [by rewrite fn_lookup_insert|by rewrite fn_lookup_insert_ne].
  Qed.
  Lemma keeps_alloc : keeps (alloc zero).
  Proof.
    intros h a h' E. injection E as <- <-. split; cbn; [lia|]. intros x Hx Hs. rewrite fn_lookup_insert_ne by lia. done.
  Qed.
  Lemma keeps_init y : keeps (r_init (Some y)).
  Proof. apply keeps_bind; [apply keeps_set_next|]. intros []. apply keeps_bind; [apply keeps_set_prev|]. intros []. apply keeps_ret. Qed.
  Lemma keeps_Next y : keeps (r_Next (Some y)).
  Proof. apply keeps_bind; [apply keeps_get_next|]. intros [z|]; [apply keeps_ret|apply keeps_init]. Qed.
  Lemma keeps_Prev y : keeps (r_Prev (Some y)).
  Proof. apply keeps_bind; [apply keeps_get_next|]. intros [z|]; [apply keeps_get_prev|apply keeps_init]. Qed.
  Lemma keeps_back k : forall p, keeps (r_back k p).
  Proof. induction k; intros p; cbn; [apply keeps_ret|]. apply keeps_bind; [apply keeps_get_prev|done]. Qed.
  Lemma keeps_forw k : forall p, keeps (r_forw k p).
  Proof. induction k; intros p; cbn; [apply keeps_ret|]. apply keeps_bind; [apply keeps_get_next|done]. Qed.
  Lemma keeps_Move y n : keeps (r_Move (Some y) n).
  Proof.
    apply keeps_bind; [apply keeps_get_next|]. intros [z|]; [|apply keeps_init].
    destruct (n <? 0)%Z; [apply keeps_back|]. destruct (n >? 0)%Z; [apply keeps_forw|apply keeps_ret].
  Qed.
  Lemma keeps_grow k : forall p, keeps (r_grow zero k p).
  Proof.
    induction k as [|k IH]; intros p; cbn; [apply keeps_ret|].
    apply (keeps_bind_with is_Some); [apply keeps_alloc|intros h a h' E; injection E as <- <-; by eexists|].
    intros q [y ->]. apply keeps_bind; [apply keeps_set_prev|]. intros []. apply keeps_bind; [apply keeps_set_next|]. intros [].
    apply keeps_bind; [apply keeps_get_next|done].
  Qed.
  Lemma keeps_New n : keeps (r_New zero n).
  Proof.
    unfold r_New. destruct (n <=? 0)%Z; [apply keeps_ret|].
    apply (keeps_bind_with is_Some); [apply keeps_alloc|intros h a h' E; injection E as <- <-; by eexists|].
    intros q [y ->]. apply keeps_bind; [apply keeps_grow|]. intros p. apply keeps_bind; [apply keeps_set_next|]. intros [].
    apply keeps_bind; [apply keeps_set_prev|]. intros []. apply keeps_ret.
  Qed.
  Lemma keeps_Link y s : keeps (r_Link (Some y) s).
  Proof.
    apply (keeps_bind_with is_Some); [apply keeps_Next| |].
    - intros h a h'. rewrite Next_ok. intros E. injection E as <- <-. unfold lnx. destruct (r_next h y); by eexists.
    - intros n [z ->]. destruct s as [s|]; [|apply keeps_ret]. apply keeps_bind; [apply keeps_Prev|]. intros p.
      apply keeps_bind; [apply keeps_set_next|]. intros []. apply keeps_bind; [apply keeps_set_prev|]. intros [].
      apply keeps_bind; [apply keeps_set_prev|]. intros []. apply keeps_bind; [apply keeps_set_next|]. intros []. apply keeps_ret.
  Qed.
  Lemma keeps_Unlink y n : keeps (r_Unlink (Some y) n).
  Proof. unfold r_Unlink. destruct (n <=? 0)%Z; [apply keeps_ret|]. apply keeps_bind; [apply keeps_Move|]. intros s. apply keeps_Link. Qed.
  Lemma keeps_loop {A} (body : option nat -> A -> M heap A) r fuel : (forall q a, keeps (body q a)) ->
    forall p a, keeps (r_loop fuel r p body a).
  Proof.
    intros Hb. induction fuel as [|fuel IH]; intros p a; cbn; [by intros h b h'|].
    destruct (bool_decide _); [apply keeps_ret|]. apply keeps_bind; [apply Hb|]. intros b. apply keeps_bind; [apply keeps_get_next|]. intros p'. apply IH.
  Qed.
  Lemma keeps_Len fuel r : keeps (r_Len fuel r).
  Proof.
    destruct r; [|apply keeps_ret]. apply keeps_bind; [apply keeps_Next|]. intros p. apply keeps_loop. intros q a. apply keeps_ret.
  Qed.
  Lemma keeps_Do {A} fuel r (f : T -> A -> A) a : keeps (r_Do fuel r f a).
  Proof.
    destruct r; [|apply keeps_ret]. apply keeps_bind; [apply keeps_get_val|]. intros v. apply keeps_bind; [apply keeps_Next|]. intros p.
    apply keeps_loop. intros q b. apply keeps_bind; [apply keeps_get_val|]. intros u. apply keeps_ret.
  Qed.
  Lemma keeps_rmap {A B} (g : A -> B) (m : M heap A) : keeps m -> keeps (rmap g m).
  Proof. intros H. apply keeps_bind; [done|]. intros a. apply keeps_ret. Qed.
  Lemma keeps_exec h c r h' : ring_exec zero c h = Ok (r, h') -> grows h h'.
  Proof.
    destruct c; cbn [ring_exec]; apply keeps_rmap; auto using keeps_New, keeps_alloc, keeps_Next, keeps_Prev, keeps_Move, keeps_Link,
      keeps_Unlink, keeps_Len, keeps_Do, keeps_set_val.
  Qed.
  Lemma keeps_history h tr h' : ring_history zero h tr h' -> grows h h'.
  Proof. induction 1; [apply grows_refl|]. eapply grows_trans; [by eapply keeps_exec|done]. Qed.

  Lemma reachable_app h tr h' : reachable zero h -> ring_history zero h tr h' -> reachable zero h'.
  Proof.
    intros [tr0 H0] H. exists (tr0 ++ tr). induction H0; cbn; [done|]. econstructor; [done|done|]. by apply IHring_history.
  Qed.
End keeps.

Section loop.
  Context {T : Type} (zero : T).
  Notation heap := (rheap T).
  Implicit Types h : heap.

  Lemma follows_lnx h x y : follows h x y -> lnx h x = Some y.
  Proof. intros (t & Ht & Hy). by rewrite (ring_next _ _ _ Ht). Qed.
  Lemma lnx_follows h x y : reachable zero h -> x < r_fresh h -> lnx h x = Some y -> follows h x y.
  Proof.
    intros Hr Hx Hy. destruct (reachable_covered _ _ Hr x Hx) as [t Ht]. exists t. split; [done|].
    by rewrite <- (ring_next _ _ _ Ht).
  Qed.
  Lemma follows_in h x y : follows h x y -> y < r_fresh h.
  Proof.
    intros (t & Ht & Hy). eapply ring_nodes; [exact Ht|]. destruct t as [|z t]; cbn in Hy; injection Hy as <-; [by left|by right; left].
  Qed.
  Lemma follows_init h x y : follows h x y -> is_Some (r_next h x) -> is_Some (r_next h y).
  Proof.
    intros (t & Ht & Hy) Hi. destruct t as [|z t]; cbn in Hy; injection Hy as <-; [done|].
    eapply ring_inited_all; [exact Ht|by cbn|by right; left].
  Qed.
  Lemma follows_init_ne h x y : follows h x y -> x <> y -> is_Some (r_next h y).
  Proof.
    intros (t & Ht & Hy) Hi. destruct t as [|z t]; cbn in Hy; injection Hy as <-; [done|].
    eapply ring_inited_all; [exact Ht|by cbn|by right; left].
  Qed.
  Lemma next_some h x : is_Some (r_next h x) -> r_next h x = lnx h x.
  Proof. intros [y E]. unfold lnx. by rewrite E. Qed.
  Lemma unchanged_refl h : r_unchanged (rabs h) (rabs h).
  Proof. apply heq_unchanged, heq_refl. Qed.

  Section callback.
    Context {A : Type} (f : T -> A -> M heap A) (Hf : ring_callback zero f).
    Notation body := (fun (q : option nat) (a : A) => v <- get_val q ;; f v a).

    Lemma body_ok e a h : (v <- get_val (Some e) ;; f v a) h = f (r_val h e) a h.
    Proof. done. Qed.

    (** What one turn does, when the callback returns. *)
    Lemma turn_step e a h a1 h1 : reachable zero h -> e < r_fresh h -> f (r_val h e) a h = Ok (a1, h1) ->
      (exists tr, ring_history zero h tr h1) /\ reachable zero h1 /\ r_fresh h <= r_fresh h1 /\ (is_Some (r_next h e) -> is_Some (r_next h1 e)) /\
      exists e', lnx h1 e = Some e' /\ follows h1 e e' /\ e' < r_fresh h1.
    Proof.
      intros Hr He E. destruct (Hf _ _ _ _ _ Hr E) as [tr Htr]. pose proof (reachable_app _ _ _ _ Hr Htr) as Hr1.
      destruct (keeps_history _ _ _ _ Htr) as [Hg1 Hg2]. split_and!; [by eexists|done|done|by apply Hg2|].
      assert (exists e', lnx h1 e = Some e') as [e' Hn] by (unfold lnx; destruct (r_next h1 e); by eexists).
      exists e'. assert (follows h1 e e') by (apply lnx_follows; [done|lia|done]). split_and!; [done|done|by eapply follows_in].
    Qed.

    Lemma loop_step fuel r e a h a1 h1 e' : e <> r -> f (r_val h e) a h = Ok (a1, h1) -> is_Some (r_next h1 e) -> lnx h1 e = Some e' ->
      r_loop (S fuel) (Some r) (Some e) body a h = r_loop fuel (Some r) (Some e') body a1 h1.
    Proof.
      intros Hn E Hi Hl. cbn [r_loop]. rewrite bool_decide_eq_false_2 by congruence.
      rewrite (bind_ok _ _ _ a1 h1) by done. unfold bind at 1. cbn [get_next]. by rewrite (next_some _ _ Hi), Hl.
    Qed.
    Lemma loop_at_r fuel r a h : r_loop (S fuel) (Some r) (Some r) body a h = Ok (a, h).
    Proof. cbn [r_loop]. by rewrite bool_decide_eq_true_2. Qed.

    Lemma loop_turns r fuel : forall e a h a' h', reachable zero h -> e < r_fresh h -> is_Some (r_next h e) -> e <> r ->
      r_loop fuel (Some r) (Some e) body a h = Ok (a', h') ->
      (exists ts, turns r f h e a ts a' h') /\ exists tr, ring_history zero h tr h'.
    Proof.
      induction fuel as [|fuel IH]; intros e a h a' h' Hr He Hi Hn E; [done|].
      destruct (f (r_val h e) a h) as [[a1 h1]| |] eqn:Ef.
      - destruct (turn_step e a h a1 h1 Hr He Ef) as ([tr Htr] & Hr1 & Hg & Hi1 & e' & Hl & Hw & He').
        rewrite (loop_step fuel r e a h a1 h1 e' Hn Ef (Hi1 Hi) Hl) in E.
        destruct (decide (e' = r)) as [->|Hn'].
        + destruct fuel; [done|]. rewrite loop_at_r in E. injection E as <- <-. split; [|by eexists].
          eexists. eapply t_end; [done|done|apply unchanged_refl].
        + destruct (IH e' a1 h1 a' h' Hr1 He' (follows_init _ _ _ Hw (Hi1 Hi)) Hn' E) as [[ts Hts] [tr' Htr']].
          split; [eexists; eapply t_go; [done|done|done|apply unchanged_refl|done]|].
          exists (tr ++ tr'). clear -Htr Htr'. induction Htr; cbn; [done|]. econstructor; [done|done|]. by apply IHHtr.
      - cbn [r_loop] in E. rewrite bool_decide_eq_false_2 in E by congruence. unfold bind in E. cbn [get_val] in E. by rewrite Ef in E.
      - cbn [r_loop] in E. rewrite bool_decide_eq_false_2 in E by congruence. unfold bind in E. cbn [get_val] in E. by rewrite Ef in E.
    Qed.

    Lemma inited_history h r : r < r_fresh h -> exists tr, ring_history zero h tr (inited h r).
    Proof.
      intros Hr. exists [(RNext r, RPtr (lnx h r))]. econstructor; [|cbn [ring_exec]; unfold rmap; rewrite (bind_ok _ _ _ _ _ (Next_ok h r)); done|constructor].
      intros x Hx. by apply elem_of_list_singleton in Hx as ->.
    Qed.
    Lemma history_trans h1 tr1 h2 tr2 h3 : ring_history zero h1 tr1 h2 -> ring_history zero h2 tr2 h3 -> ring_history zero h1 (tr1 ++ tr2) h3.
    Proof. intros H. induction H; cbn; [done|]. intros. econstructor; [done|done|]. by apply IHring_history. Qed.

    Lemma DoM_step fuel r a h a1 h1 : f (r_val h r) a h = Ok (a1, h1) ->
      r_DoM fuel (Some r) f a h = r_loop fuel (Some r) (lnx h1 r) body a1 (inited h1 r).
    Proof.
      intros E. unfold r_DoM. rewrite (bind_ok _ _ _ (r_val h r) h eq_refl), (bind_ok _ _ _ _ _ E), (bind_ok _ _ _ _ _ (Next_ok h1 r)). done.
    Qed.
    Lemma follows_inited h r x y : follows h x y -> follows (inited h r) x y.
    Proof. intros (t & Ht & Hy). exists t. split; [|done]. by apply (heq_ring _ _ _ (inited_heq h r)). Qed.

    Lemma Do_turns r fuel a h a' h' : reachable zero h -> r < r_fresh h -> r_DoM fuel (Some r) f a h = Ok (a', h') ->
      (exists ts, turns r f h r a ts a' h') /\ exists tr, ring_history zero h tr h'.
    Proof.
      intros Hr He E. destruct (f (r_val h r) a h) as [[a1 h1]| |] eqn:Ef.
      - destruct (turn_step r a h a1 h1 Hr He Ef) as ([tr Htr] & Hr1 & Hg & Hi1 & e' & Hl & Hw & He').
        rewrite (DoM_step fuel r a h a1 h1 Ef), Hl in E. destruct (inited_history h1 r ltac:(lia)) as [tr1 Htr1].
        destruct (decide (e' = r)) as [->|Hn'].
        + destruct fuel; [done|]. rewrite loop_at_r in E. injection E as <- <-.
          split; [|eexists; eapply history_trans; done]. eexists. eapply t_end; [done|done|apply heq_unchanged, inited_heq].
        + assert (Hr2 : reachable zero (inited h1 r)) by (eapply reachable_app; done).
          assert (Hw2 := follows_inited _ r _ _ Hw).
          destruct (loop_turns r fuel e' a1 (inited h1 r) a' h' Hr2 (follows_in _ _ _ Hw2) (follows_init_ne _ _ _ Hw2 (not_eq_sym Hn')) Hn' E) as [[ts Hts] [tr' Htr']].
          split; [eexists; eapply t_go; [done|done|done|apply heq_unchanged, inited_heq|done]|].
          eexists. eapply history_trans; [done|]. eapply history_trans; done.
      - unfold r_DoM, bind in E. cbn [get_val] in E. by rewrite Ef in E.
      - unfold r_DoM, bind in E. cbn [get_val] in E. by rewrite Ef in E.
    Qed.

    (** No panic *)
    Context (Hp : forall v a h, reachable zero h -> f v a h <> Panic).
    Lemma loop_no_panic r fuel : forall e a h, reachable zero h -> e < r_fresh h -> is_Some (r_next h e) ->
      r_loop fuel (Some r) (Some e) body a h <> Panic.
    Proof.
      induction fuel as [|fuel IH]; intros e a h Hr He Hi; [done|]. destruct (decide (e = r)) as [->|Hn]; [by rewrite loop_at_r|].
      destruct (f (r_val h e) a h) as [[a1 h1]| |] eqn:Ef.
      - destruct (turn_step e a h a1 h1 Hr He Ef) as (_ & Hr1 & Hg & Hi1 & e' & Hl & Hw & He').
        rewrite (loop_step fuel r e a h a1 h1 e' Hn Ef (Hi1 Hi) Hl). apply IH; [done|done|]. by eapply follows_init, Hi1.
      - by apply Hp in Ef.
      - cbn [r_loop]. rewrite bool_decide_eq_false_2 by congruence. unfold bind. cbn [get_val]. by rewrite Ef.
    Qed.
    Lemma Do_no_panic r fuel a h : reachable zero h -> r < r_fresh h -> r_DoM fuel (Some r) f a h <> Panic.
    Proof.
      intros Hr He. destruct (f (r_val h r) a h) as [[a1 h1]| |] eqn:Ef.
      - destruct (turn_step r a h a1 h1 Hr He Ef) as ([tr Htr] & Hr1 & Hg & Hi1 & e' & Hl & Hw & He').
        rewrite (DoM_step fuel r a h a1 h1 Ef), Hl. destruct (inited_history h1 r ltac:(lia)) as [tr1 Htr1].
        assert (Hr2 : reachable zero (inited h1 r)) by (eapply reachable_app; done). assert (Hw2 := follows_inited _ r _ _ Hw).
        destruct (decide (e' = r)) as [->|Hn']; [destruct fuel; [done|by rewrite loop_at_r]|].
        apply loop_no_panic; [done|by eapply follows_in|]. by eapply (follows_init_ne _ _ _ Hw2).
      - by apply Hp in Ef.
      - unfold r_DoM, bind. cbn [get_val]. by rewrite Ef.
    Qed.
  End callback.

  (** ** Where the loop is on the ring of r *)
  Lemma ahead_follows h r e v : ahead h r e v -> follows h e (match v with [] => r | y :: _ => y end).
  Proof.
    intros [[-> H]|[Hn [u H]]]; destruct v as [|y v]; (eexists; split; [exact H|done]).
  Qed.
  Lemma ahead_fun h r e v v' : ahead h r e v -> ahead h r e v' -> v = v'.
  Proof.
    intros [[-> H]|[Hn [u H]]] [[? H']|[Hn' [u' H']]]; try done.
    - by apply (ring_unique h r).
    - assert (E : v ++ r :: u = v' ++ r :: u') by by apply (ring_unique h e). clear H'.
      apply ring_nodup in H. apply NoDup_cons in H as [_ H]. revert v' E. induction v as [|x v IH]; intros [|x' v'] E; cbn in *; [done| | |].
      + injection E as -> E. apply NoDup_cons in H as [H _]. destruct H. rewrite E. set_solver.
      + injection E as -> E. apply NoDup_cons in H as [H _]. destruct H. set_solver.
      + injection E as -> E. f_equal. apply IH; [|done]. by apply NoDup_cons in H as [_ H].
  Qed.
  Lemma ahead_next h r e y v : ahead h r e (y :: v) -> y <> r /\ ahead h r y v.
  Proof.
    intros [[-> H]|[Hn [u H]]].
    - assert (y <> r) by (intros ->; apply ring_nodup, NoDup_cons in H as [H _]; destruct H; by left). split; [done|]. right. split; [done|].
      exists []. apply (ring_rotate h [r] (y :: v)) in H. done.
    - assert (y <> r).
      { intros ->. apply ring_nodup, NoDup_cons in H as [_ H]. apply NoDup_cons in H as [H _]. destruct H. set_solver. }
      split; [done|]. right. split; [done|]. exists (u ++ [e]). apply (ring_rotate h [e] (y :: v ++ r :: u)) in H. cbn in H. by rewrite <- app_assoc in H.
  Qed.
  Lemma ahead_in h r e v : ahead h r e v -> e < r_fresh h.
  Proof. intros [[-> H]|[Hn [u H]]]; (eapply ring_nodes; [exact H|by left]). Qed.
  Lemma ahead_unchanged h h' r e v : r_unchanged (rabs h) (rabs h') -> ahead h r e v -> ahead h' r e v.
  Proof.
    intros (_ & Hu & _) [[-> H]|[Hn [u H]]]; [left; split; [done|]; by apply Hu|right; split; [done|]; exists u; by apply Hu].
  Qed.

  Section order.
    Context {A : Type} (f : T -> A -> M heap A) (r : nat).
    Lemma turns_order h e a ts a' h' : turns r f h e a ts a' h' ->
      (forall t v, t ∈ ts -> ahead (t_before t) r (t_elem t) v -> exists v', ahead (t_after t) r (t_elem t) v' /\ v' `sublist_of` v) ->
      forall v, ahead h r e v -> (t_elem <$> ts) `sublist_of` e :: v.
    Proof.
      induction 1 as [h e a a1 h1 h2 E Hw Hu|h e a a1 h1 h2 e' ts a3 h3 E Hw Hn Hu Hts IH]; intros Hc v Hv; cbn.
      - apply sublist_skip. apply sublist_nil_l.
      - apply sublist_skip. destruct (Hc (mk_turn h e h1) v) as (v' & Hv' & Hs); [by left|done|]. cbn in Hv'.
        assert (Hy := ahead_follows _ _ _ _ Hv'). assert (Hz := follows_lnx _ _ _ Hw). rewrite (follows_lnx _ _ _ Hy) in Hz.
        destruct v' as [|y v']; [congruence|]. injection Hz as ->. apply ahead_next in Hv' as [_ Hv'].
        etrans; [|exact Hs]. apply IH; [|by eapply ahead_unchanged]. intros t w Ht. apply Hc. by right.
    Qed.
    Lemma turns_complete h e a ts a' h' y : turns r f h e a ts a' h' ->
      (forall t v, t ∈ ts -> ahead (t_before t) r (t_elem t) v -> y ∈ v -> exists v', ahead (t_after t) r (t_elem t) v' /\ y ∈ v') ->
      forall v, ahead h r e v -> y ∈ e :: v -> y ∈ t_elem <$> ts.
    Proof.
      induction 1 as [h e a a1 h1 h2 E Hw Hu|h e a a1 h1 h2 e' ts a3 h3 E Hw Hn Hu Hts IH]; intros Hc v Hv Hy; cbn.
      - apply elem_of_cons in Hy as [->|Hy]; [by left|]. destruct (Hc (mk_turn h e h1) v) as (v' & Hv' & Hy'); [by left|done|done|]. cbn in Hv'.
        assert (Hf := ahead_follows _ _ _ _ Hv'). assert (Hz := follows_lnx _ _ _ Hw). rewrite (follows_lnx _ _ _ Hf) in Hz.
        destruct v' as [|z v']; [by apply elem_of_nil in Hy'|]. injection Hz as ->. by apply ahead_next in Hv' as [? _].
      - apply elem_of_cons in Hy as [->|Hy]; [by left|]. right. destruct (Hc (mk_turn h e h1) v) as (v' & Hv' & Hy'); [by left|done|done|]. cbn in Hv'.
        assert (Hf := ahead_follows _ _ _ _ Hv'). assert (Hz := follows_lnx _ _ _ Hw). rewrite (follows_lnx _ _ _ Hf) in Hz.
        destruct v' as [|z v']; [by apply elem_of_nil in Hy'|]. injection Hz as ->. apply ahead_next in Hv' as [_ Hv'].
        eapply IH; [|by eapply ahead_unchanged|done]. intros t w Ht. apply Hc. by right.
    Qed.

    Context (Hf : ring_callback zero f) (Hd : forall v a h, reachable zero h -> exists a' h', f v a h = Ok (a', h')).
    Context (Hs : forall e a v h a' h', reachable zero h -> ahead h r e v -> f (r_val h e) a h = Ok (a', h') ->
      exists v', ahead h' r e v' /\ v' `sublist_of` v).
    Lemma loop_ends fuel : forall e a v h, reachable zero h -> e <> r -> is_Some (r_next h e) -> ahead h r e v -> S (length v) < fuel ->
      exists a' h', r_loop fuel (Some r) (Some e) (fun q a => v <- get_val q ;; f v a) a h = Ok (a', h').
    Proof.
      induction fuel as [|fuel IH]; intros e a v h Hr Hn Hi Hv Hl; [lia|].
      destruct (Hd (r_val h e) a h Hr) as (a1 & h1 & Ef). destruct (Hs e a v h a1 h1 Hr Hv Ef) as (v' & Hv' & Hsub).
      apply sublist_length in Hsub.
      destruct (turn_step f Hf e a h a1 h1 Hr (ahead_in _ _ _ _ Hv) Ef) as (_ & Hr1 & Hg & Hi1 & e' & Hx & Hw & He').
      rewrite (loop_step f fuel r e a h a1 h1 e' Hn Ef (Hi1 Hi) Hx).
      assert (Hy := follows_lnx _ _ _ (ahead_follows _ _ _ _ Hv')). rewrite Hx in Hy. destruct v' as [|z v'].
      - injection Hy as ->. destruct fuel as [|fuel]; [lia|]. rewrite loop_at_r. by eexists _, _.
      - injection Hy as ->. apply ahead_next in Hv' as [Hnz Hvz]. apply (IH z a1 v'); [done|done|by eapply follows_init, Hi1|done|]. cbn in Hsub. lia.
    Qed.
    Lemma Do_ends fuel a t h : reachable zero h -> heap_ring h (r :: t) -> length t < fuel ->
      exists a' h', r_DoM fuel (Some r) f a h = Ok (a', h').
    Proof.
      intros Hr Ht Hl. assert (He : r < r_fresh h) by (eapply ring_nodes; [exact Ht|by left]).
      destruct (Hd (r_val h r) a h Hr) as (a1 & h1 & Ef). assert (Hv : ahead h r r t) by by left.
      destruct (Hs r a t h a1 h1 Hr Hv Ef) as (v' & Hv' & Hsub). apply sublist_length in Hsub.
      destruct (turn_step f Hf r a h a1 h1 Hr He Ef) as ([tr Htr] & Hr1 & Hg & Hi1 & e' & Hx & Hw & He').
      rewrite (DoM_step f fuel r a h a1 h1 Ef), Hx.
      destruct (inited_history h1 r ltac:(lia)) as [tr1 Htr1].
      assert (Hr2 : reachable zero (inited h1 r)) by (eapply reachable_app; done).
      assert (Hy := follows_lnx _ _ _ (ahead_follows _ _ _ _ Hv')). rewrite Hx in Hy. destruct v' as [|z v'].
      - injection Hy as ->. destruct fuel as [|fuel]; [lia|]. rewrite loop_at_r. by eexists _, _.
      - injection Hy as ->. apply ahead_next in Hv' as [Hnz Hvz]. apply (loop_ends fuel z a1 v'); [done|done| | |cbn in Hsub; lia].
        + by eapply (follows_init_ne _ _ _ (follows_inited _ r _ _ Hw)).
        + eapply ahead_unchanged; [apply heq_unchanged, inited_heq|done].
    Qed.
  End order.

  (** ** Removing the element whose turn it is *)
  Lemma endless_loop r x k fuel : forall h, heap_ring h [x] -> is_Some (r_next h x) -> x <> r -> 2 <= k ->
    r_loop fuel (Some r) (Some x) (fun q a => v <- get_val q ;; unlink_second r v a) k h = NoFuel.
  Proof.
    revert k. induction fuel as [|fuel IH]; intros k h Hx Hi Hn Hk; [done|].
    rewrite (loop_step (unlink_second r) fuel r x k h (S k) h x Hn); [|unfold unlink_second|done|].
    - apply IH; [done..|lia].
    - destruct (Nat.eqb_spec k 1); [lia|]. done.
    - rewrite (ring_next _ _ _ Hx). done.
  Qed.
  Lemma unlink_endless h r x t fuel : reachable zero h -> heap_ring h (r :: x :: t) ->
    r_DoM fuel (Some r) (unlink_second r) 0 h = NoFuel.
  Proof.
    intros Hr Ht. assert (He : r < r_fresh h) by (eapply ring_nodes; [exact Ht|by left]).
    assert (Hn : x <> r). { intros ->. apply ring_nodup, NoDup_cons in Ht as [H _]. destruct H. by left. }
    rewrite (DoM_step (unlink_second r) fuel r 0 h 1 h) by done. rewrite (ring_next _ _ _ Ht). cbn [app head].
    destruct fuel as [|fuel]; [done|]. set (h0 := inited h r).
    destruct (inited_history h r He) as [tr1 Htr1]. assert (Hr0 : reachable zero h0) by (eapply reachable_app; done).
    assert (Ht0 : heap_ring h0 (r :: x :: t)) by by apply (heq_ring _ _ _ (inited_heq h r)).
    assert (He0 : r < r_fresh h0) by (eapply ring_nodes; [exact Ht0|by left]).
    destruct (unlink_spec zero h0 r 1 Hr0 He0) as [_ Hu]. destruct (Hu eq_refl) as (t' & k & h' & Ht' & Hk & E & Hok & _ & H1 & _).
    assert (t' = x :: t) as -> by by apply (ring_unique h0 r).
    assert (k = 1) as ->.
    { rewrite Hk, Z.mod_small; [done|]. cbn [length]. lia. }
    destruct (H1 ltac:(done)) as [H2 _]. cbn [take] in H2.
    assert (Hi : is_Some (r_next h0 x)) by (eapply ring_inited_all; [exact Ht0|by cbn|by right; left]).
    assert (Hi' : is_Some (r_next h' x)).
    { apply (keeps_Unlink r 1 h0 _ h' E); [|done]. eapply ring_nodes; [exact Ht0|by right; left]. }
    rewrite (loop_step (unlink_second r) fuel r x 1 h0 2 h' x Hn); [|unfold unlink_second|done|].
    - apply endless_loop; [by rewrite take_0 in H2|done|done|lia].
    - cbn [Nat.eqb]. unfold bind. rewrite E. done.
    - rewrite take_0 in H2. by rewrite (ring_next _ _ _ H2).
  Qed.
End loop.

(** ** Unlink with 64-bit [int] *)
Section wrap.
  Context {T : Type} (zero : T).
  Notation heap := (rheap T).
  Implicit Types h : heap.

  Lemma wrap64_small n : is_int64 n -> wrap64 n = n.
  Proof. unfold is_int64, wrap64. intros H. rewrite Z.mod_small; lia. Qed.
  Lemma wrap64_max : wrap64 (2^63 - 1 + 1) = (- 2^63)%Z.
  Proof. reflexivity. Qed.

  Lemma back_state k : forall p h a h', r_back (T:=T) k p h = Ok (a, h') -> h' = h.
  Proof.
    induction k as [|k IH]; intros p h a h' E; cbn in E; [by injection E as <- <-|].
    unfold bind in E. destruct p as [p|]; cbn in E; [|done]. by apply IH in E.
  Qed.
  Lemma forw_state k : forall p h a h', r_forw (T:=T) k p h = Ok (a, h') -> h' = h.
  Proof.
    induction k as [|k IH]; intros p h a h' E; cbn in E; [by injection E as <- <-|].
    unfold bind in E. destruct p as [p|]; cbn in E; [|done]. by apply IH in E.
  Qed.
  Lemma Move_state r n h a h' : r_Move (Some r) n h = Ok (a, h') -> h' = inited h r.
  Proof.
    unfold r_Move, bind. cbn [get_next]. destruct (r_next h r) as [y|] eqn:E; unfold inited; rewrite E.
    - destruct (n <? 0)%Z; [apply back_state|]. destruct (n >? 0)%Z; [apply forw_state|]. intros H. by injection H as <- <-.
    - intros H. injection H as <- <-. done.
  Qed.
  (** Move depends only on the number modulo the length. *)
  Lemma Move_mod h r t n m : heap_ring h (r :: t) ->
    (n mod Z.of_nat (length (r :: t)) = m mod Z.of_nat (length (r :: t)))%Z -> r_Move (Some r) n h = r_Move (Some r) m h.
  Proof.
    intros Ht E. destruct (Move_ok h r t n Ht) as (h1 & _ & _ & E1). destruct (Move_ok h r t m Ht) as (h2 & _ & _ & E2).
    rewrite E1, E2, E. do 2 f_equal. by rewrite (Move_state _ _ _ _ _ E1), (Move_state _ _ _ _ _ E2).
  Qed.

  Lemma Unlink64_small h r n : is_int64 n -> n <> (2^63 - 1)%Z -> r_Unlink64 (Some r) n h = r_Unlink (Some r) n h.
  Proof.
    intros Hn Hm. unfold r_Unlink64, r_Unlink. destruct (n <=? 0)%Z eqn:E; [done|].
    rewrite wrap64_small; [done|]. unfold is_int64 in *. lia.
  Qed.
  (** It is an Unlink of another number in any case. *)
  Lemma Unlink64_max h r t (m : Z) : heap_ring h (r :: t) -> (0 < m)%Z ->
    ((m + 1) mod Z.of_nat (length (r :: t)) = (- 2^63) mod Z.of_nat (length (r :: t)))%Z ->
    r_Unlink64 (Some r) (2^63 - 1) h = r_Unlink (Some r) m h.
  Proof.
    intros Ht Hm E. unfold r_Unlink64, r_Unlink. destruct (m <=? 0)%Z eqn:E1; [lia|]. destruct (2^63 - 1 <=? 0)%Z eqn:E2; [lia|].
    rewrite wrap64_max. unfold bind. by rewrite (Move_mod h r t _ _ Ht E).
  Qed.

  Lemma mod_eq_divide a b L : (0 < L)%Z -> (a mod L = b mod L)%Z <-> (L | a - b)%Z.
  Proof.
    intros HL. split.
    - intros E. apply Z.mod_divide; [lia|]. rewrite Zminus_mod, E, Z.sub_diag. by rewrite Z.mod_0_l by lia.
    - intros [k Hk]. replace a with (b + k * L)%Z by lia. by rewrite Z.mod_add by lia.
  Qed.

  Lemma unlink64_spec h r n : is_int64 n -> reachable zero h -> r < r_fresh h ->
    ((n <= 0)%Z -> r_Unlink64 (Some r) n h = Ok (None, h)) /\
    ((0 < n)%Z -> exists t k h',
       heap_ring h (r :: t) /\ k = Z.to_nat (unlinked n (Z.of_nat (length (r :: t)))) /\
       r_Unlink64 (Some r) n h = Ok (head (t ++ [r]), h') /\ rings_ok (rabs h') /\
       heap_ring h' (r :: drop k t) /\
       (k <> 0 -> heap_ring h' (take k t) /\ head (t ++ [r]) = head (take k t)) /\
       other_rings (rabs h) (rabs h') (r :: t) /\
       same_nodes (rabs h) (rabs h') /\ same_values (rabs h) (rabs h')).
  Proof.
    intros Hn Hr He. unfold unlinked. destruct (decide (n = 2^63 - 1)%Z) as [->|Hm].
    - split; [lia|]. intros _. destruct (reachable_covered _ _ Hr r He) as [t Ht].
      set (L := Z.of_nat (length (r :: t))). assert (HL : (0 < L)%Z) by (unfold L; cbn; lia).
      set (m := ((- 2^63 - 1) mod L + L)%Z). pose proof (Z.mod_pos_bound (- 2^63 - 1) L HL) as Hb.
      rewrite (Unlink64_max h r t m Ht); [|lia|].
      + destruct (unlink_spec zero h r m Hr He) as [_ H]. destruct (H ltac:(lia)) as (t' & k & h' & Ht' & Hk & Hrest).
        assert (t' = t) as -> by by apply (ring_unique h r). exists t, k, h'. split; [done|]. split; [|done].
        rewrite Hk. fold L. f_equal. unfold m. rewrite <- (Z.mul_1_l L) at 2. rewrite Z.mod_add by lia. rewrite Z.mod_mod by lia. done.
      + fold L. unfold m. apply mod_eq_divide; [done|]. assert (L | (- 2^63 - 1) mod L - (- 2^63 - 1))%Z as [q Hq].
        { apply mod_eq_divide; [done|]. by rewrite Z.mod_mod by lia. }
        exists (q + 1)%Z. lia.
    - rewrite Unlink64_small by done. exact (unlink_spec zero h r n Hr He).
  Qed.
  (** The largest number is right exactly for the lengths that divide 2^64. *)
  Lemma unlinked_right L : (0 < L)%Z -> unlinked (2^63 - 1) L = ((2^63 - 1) mod L)%Z <-> (L | 2^64)%Z.
  Proof.
    intros HL. unfold unlinked. rewrite decide_True by done. rewrite (mod_eq_divide _ _ L HL).
    replace (- 2 ^ 63 - 1 - (2 ^ 63 - 1))%Z with (- 2^64)%Z by lia. apply Z.divide_opp_r.
  Qed.
End wrap.
