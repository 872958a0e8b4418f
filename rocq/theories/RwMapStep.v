(** Every step of rwmap preserves the invariant. *)
From Verif Require Import Base RwMapModel RwMapSpec RwMapInv RwMapFrame RwMapMoves RwMapMoves2.

Section steps.
Context {K : Type} `{Countable K} {V : Type}.
Context (deref : nat -> V) (zero : V) (veq : V -> V -> option bool).
Local Notation call := (call K V).
Local Notation result := (result V).
Local Notation pc := (pc K V).
Local Notation shared := (shared K).
Local Notation hitem := (hitem (K := K) (V := V)).
Local Notation hstep := (hstep deref veq).
Local Notation core := (core deref veq).
Local Notation good := (good deref veq).
Local Notation slot_val := (slot_val deref).
Local Notation pcinv := (pcinv deref veq).
Local Notation seq_res := (seq_res deref veq).
Local Notation seq_next := (seq_next deref veq).
Local Notation op_ok := (op_ok deref veq).

Implicit Types (s : shared) (thr : gmap nat (call * pc)) (h : list hitem) (c : call) (p : pc).

(** A goroutine moves on and nothing else happens. *)
Lemma good_move s thr h kof m t c p s' p' :
  core s thr h kof m -> thr !! t = Some (c, p) ->
  soft s s' -> (forall e, s_ent s' e = s_ent s e) -> lockrel t p p' s s' ->
  phase_of p' = phase_of p -> stat (c, p') = stat (c, p) -> pcinv c p' s kof ->
  (forall e, holds p' e -> holds p e \/ emap s !! kof e = Some e) ->
  (forall e, rholds p' e -> rholds p e \/ emap s !! kof e = Some e) ->
  (forall e, deleting c -> holds p e -> holds p' e \/ emap s !! kof e = Some e) ->
  good s' (<[t := (c, p')]> thr) (h ≫= hvis).
Proof.
  intros Hc Ht Hsoft Hent Hlr Hph Hst Hpc Hh Hrh Hd.
  exists (h ++ []), kof, m. split; [|by rewrite app_nil_r].
  eapply core_item; try done.
  - by left.
  - by left.
  - intros e Hp. destruct (Hh e Hp); auto.
  - intros e Hp. destruct (Hrh e Hp); [left|by right]. split; [|done]. intros y Hy. by apply elem_of_nil in Hy.
  - intros e Hdc Hp. destruct (Hd e Hdc Hp); auto.
Qed.

Lemma good_goto s thr h kof m t c p p' :
  core s thr h kof m -> thr !! t = Some (c, p) -> locked p' = locked p ->
  phase_of p' = phase_of p -> stat (c, p') = stat (c, p) -> pcinv c p' s kof ->
  (forall e, holds p' e -> holds p e \/ emap s !! kof e = Some e) ->
  (forall e, rholds p' e -> rholds p e \/ emap s !! kof e = Some e) ->
  (forall e, deleting c -> holds p e -> holds p' e \/ emap s !! kof e = Some e) ->
  good s (<[t := (c, p')]> thr) (h ≫= hvis).
Proof.
  intros Hc Ht Hl. intros. eapply good_move; try done; by left.
Qed.

(** A goroutine moves on with one item of its own. *)
Lemma good_item s thr h kof m t c p p' j :
  core s thr h kof m -> thr !! t = Some (c, p) -> locked p' = locked p ->
  phase_of p' = phase_of p \/ (locked p = true /\ sinv (phase_of p') s kof) ->
  item_thr j = t ->
  (forall st, st !! t = Some (stat (c, p)) ->
     hstep (mk_astate m st) (HI j) (mk_astate m (<[t := stat (c, p')]> st))) ->
  pcinv c p' s kof ->
  (forall e, holds p' e -> emap s !! kof e = Some e) ->
  (forall e, rholds p' e -> (rquiet t (kof e) [HI j] /\ rholds p e) \/ emap s !! kof e = Some e) ->
  (forall e, deleting c -> holds p e -> emap s !! kof e = Some e) ->
  good s (<[t := (c, p')]> thr) ((h ≫= hvis) ++ visible j).
Proof.
  intros Hc Ht Hl Hph Hj Hstep Hpc Hh Hrh Hd.
  exists (h ++ [HI j]), kof, m. split; [|rewrite bind_app; cbn; by rewrite app_nil_r].
  eapply core_item; try done.
  - by left.
  - destruct Hph as [?|[? ?]]; [by left|right]. by rewrite Hl.
  - right. eauto.
  - intros e Hp. right. auto.
  - intros e Hp. right. auto.
Qed.

Lemma rd_emap s k e : s_rd s !! k = Some e -> emap s !! k = Some e.
Proof.
  intros Hr. unfold emap. destruct (s_am s); [|done]. by apply lookup_union_Some_l.
Qed.

Lemma core_rd s thr h kof m k e :
  core s thr h kof m -> s_rd s !! k = Some e -> kof e = k /\ e < s_next s /\ emap s !! kof e = Some e.
Proof.
  intros Hc Hr. apply rd_emap in Hr. destruct (emap_ok _ _ _ _ _ (i_s _ _ _ _ _ _ _ Hc) Hr) as [<- ?].
  done.
Qed.

(** A call that does not find its key. *)
Lemma lin_none m t c k :
  call_key c = Some k -> m !! k = None -> ~ storing c ->
  forall st, st !! t = Some (AInv_ c) ->
    hstep (mk_astate m st) (HI (ILin t)) (mk_astate m (<[t := ADone c (ret_of c (absent c))]> st)).
Proof.
  intros Hk Hm Hns st Hst. cbn. exists c. split; [done|]. split; [by destruct c|].
  destruct c; cbn in *; try done; injection Hk as ->; rewrite ?Hm; try done.
  - by rewrite delete_notin.
  - by rewrite delete_notin.
Qed.

Lemma miss_none s thr h kof m k :
  core s thr h kof m -> s_rd s !! k = None -> s_am s = false \/ dirty_map s !! k = None -> m !! k = None.
Proof.
  intros Hc Hr Hd. rewrite (i_map _ _ _ _ _ _ _ Hc). unfold emap.
  destruct (s_am s); [|by rewrite Hr]. destruct Hd as [?|Hd]; [done|].
  by rewrite lookup_union, Hr, Hd.
Qed.

Lemma emap_empty s thr h kof m :
  core s thr h kof m -> s_rd s = ∅ -> s_am s = false -> m = ∅.
Proof.
  intros Hc Hr Ha. apply map_eq. intros k. rewrite (i_map _ _ _ _ _ _ _ Hc). unfold emap.
  by rewrite Ha, Hr.
Qed.

Lemma snap_ok s thr h kof m t c (n : gmap K nat) :
  core s thr h kof m -> range_call c ->
  (forall k e, emap s !! k = Some e -> s_ent s e <> SExp -> n !! k = Some e) ->
  forall st, st !! t = Some (AInv_ c) ->
    hstep (mk_astate m st) (HI (ISnap t (dom n))) (mk_astate m (<[t := AIter c (dom n) ∅ 0]> st)).
Proof.
  intros Hc Hr Hn st Hst. cbn. exists c. split; [done|]. split; [done|]. split; [|done].
  intros k [v Hv]%elem_of_dom. apply elem_of_dom. rewrite (i_map _ _ _ _ _ _ _ Hc) in Hv.
  destruct (emap s !! k) as [e|] eqn:Ee; [|done]. cbn in Hv.
  exists e. apply Hn; [done|]. intros Hx. by rewrite Hx in Hv.
Qed.

Lemma rd_mapok s thr h kof m : core s thr h kof m -> mapok kof (s_next s) (s_rd s).
Proof. intros Hc k e Hk. destruct (core_rd _ _ _ _ _ _ _ Hc Hk) as (? & ? & _). done. Qed.

Lemma step_P_read s thr h kof m t c op s' ev :
  core s thr h kof m -> thr !! t = Some (c, P_read) ->
  step_read c s = Some (op, s', ev) ->
  exists p', op = Some p' /\ ev = [] /\ good s' (<[t := (c, p')]> thr) (h ≫= hvis).
Proof.
  intros Hc Ht Hstep.
  assert (Hgo : forall p', locked p' = false -> stat (c, p') = AInv_ c -> pcinv c p' s kof ->
    (forall e, holds p' e -> emap s !! kof e = Some e) ->
    (forall e, ~ rholds p' e) -> good s (<[t := (c, p')]> thr) (h ≫= hvis)).
  { intros p' Hl Hst Hpc Hh Hrh. eapply good_goto; try done.
    - by apply unlocked_normal.
    - intros e Hp. right. by apply Hh.
    - intros e Hp. by apply Hrh in Hp. }
  assert (Hlock : c <> CLen -> good s (<[t := (c, P_lock)]> thr) (h ≫= hvis)).
  { intros Hcl. apply Hgo; try done. intros e []. }
  assert (Hfast : forall k e, call_key c = Some k -> s_rd s !! k = Some e ->
    good s (<[t := (c, E_load e Fast)]> thr) (h ≫= hvis)).
  { intros k e Hk He. destruct (core_rd _ _ _ _ _ _ _ Hc He) as (<- & Hlt & Hcur). apply Hgo; try done.
    - split; [done|]. split; [done|]. intros _ _. done.
    - intros e' <-. done.
    - intros e' []. }
  assert (Habs : forall k, call_key c = Some k -> ~ storing c -> s_rd s !! k = None -> s_am s = false ->
    good s (<[t := (c, X_ret (absent c))]> thr) (h ≫= hvis)).
  { intros k Hk Hns Hr Ha. rewrite <- (app_nil_r (h ≫= hvis)).
    eapply (good_item _ _ _ _ _ _ _ _ _ (ILin t)); try done.
    - by left.
    - intros st Hst. assert (stat (c, X_ret (absent c)) = ADone c (ret_of c (absent c))) as -> by by destruct c.
      eapply (lin_none m t c k); try done. eapply miss_none; eauto.
    - cbn. intros ->. done. }
  assert (Hnsn : ~ storing c -> c <> CClear -> c <> CRange -> c <> CSlowLen -> c <> CLen -> forall k, call_key c = Some k ->
    match s_rd s !! k with
      | Some e => goto (E_load e Fast) s
      | None => if s_am s then goto P_lock s else goto (X_ret (absent c)) s
      end = Some (op, s', ev) ->
   exists p', op = Some p' /\ ev = [] /\ good s' (<[t := (c, p')]> thr) (h ≫= hvis)).
  { intros Hns ? ? ? Hnl k Hk Hq. destruct (s_rd s !! k) as [e|] eqn:Er.
    - injection Hq as <- <- <-. eexists. split; [done|]. split; [done|]. by eapply Hfast.
    - destruct (s_am s) eqn:Ha; injection Hq as <- <- <-; eexists; (split; [done|]; split; [done|]);
        [by apply Hlock|by eapply Habs]. }
  assert (Hstn : storing c -> forall k, call_key c = Some k ->
    match s_rd s !! k with
      | Some e => goto (E_load e Fast) s
      | None => goto P_lock s
      end = Some (op, s', ev) ->
   exists p', op = Some p' /\ ev = [] /\ good s' (<[t := (c, p')]> thr) (h ≫= hvis)).
  { intros Hns k Hk Hq. destruct (s_rd s !! k) as [e|] eqn:Er.
    - injection Hq as <- <- <-. eexists. split; [done|]. split; [done|]. by eapply Hfast.
    - injection Hq as <- <- <-; eexists; (split; [done|]; split; [done|]). apply Hlock. by destruct c. }
  destruct c; cbn in Hstep; try (eapply Hnsn; [..|exact Hstep]; try done; intros []);
    try (eapply Hstn; [..|exact Hstep]; done).
  - case_decide as Hd; injection Hstep as <- <- <-; eexists; (split; [done|]; split; [done|]); [|by apply Hlock].
    destruct Hd as [Hr Ha]. pose proof (emap_empty _ _ _ _ _ Hc Hr Ha) as ->.
    rewrite <- (app_nil_r (h ≫= hvis)).
    eapply (good_item _ _ _ _ _ _ _ _ _ (ILin t)); try done; [by left|].
    intros st Hst. cbn. exists CClear. done.
  - destruct (s_am s) eqn:Ha; injection Hstep as <- <- <-; eexists; (split; [done|]; split; [done|]); [by apply Hlock|].
    rewrite <- (app_nil_r (h ≫= hvis)).
    eapply (good_item _ _ _ _ _ _ _ _ _ (ISnap t (dom (s_rd s)))); try done.
    + by left.
    + cbn [stat]. eapply snap_ok; [exact Hc|done|]. unfold emap. by rewrite Ha.
    + cbn. split; [done|]. by eapply rd_mapok.
    + intros e [k Hk]. right. by destruct (core_rd _ _ _ _ _ _ _ Hc Hk) as (_ & _ & ?).
  - destruct (s_am s) eqn:Ha; injection Hstep as <- <- <-; eexists; (split; [done|]; split; [done|]); [by apply Hlock|].
    rewrite <- (app_nil_r (h ≫= hvis)).
    eapply (good_item _ _ _ _ _ _ _ _ _ (ISnap t (dom (s_rd s)))); try done.
    + by left.
    + cbn [stat]. eapply snap_ok; [exact Hc|done|]. unfold emap. by rewrite Ha.
    + cbn. split; [done|]. by eapply rd_mapok.
    + intros e [k Hk]. right. by destruct (core_rd _ _ _ _ _ _ _ Hc Hk) as (_ & _ & ?).
  - done.
Qed.

End steps.
