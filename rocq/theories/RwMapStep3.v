(** The remaining steps of rwmap, and whole executions. *)
From Verif Require Import Base RwMapModel RwMapSpec RwMapInv RwMapFrame RwMapMoves RwMapMoves2 RwMapStep RwMapStep2.

Section steps3.
Context {K : Type} `{Countable K} {V : Type}.
Context (deref : nat -> V) (zero : V) (veq : V -> V -> option bool).
Local Notation call := (call K V).
Local Notation result := (result V).
Local Notation pc := (pc K V).
Local Notation shared := (shared K).
Local Notation hitem := (hitem (K := K) (V := V)).
Local Notation hstep := (hstep deref veq).
Local Notation core := (core deref veq).
Local Notation good := (good deref veq).
Local Notation slot_val := (slot_val deref).
Local Notation pcinv := (pcinv deref veq).
Local Notation seq_res := (seq_res deref veq).
Local Notation seq_next := (seq_next deref veq).
Local Notation op_ok := (op_ok deref veq).

Implicit Types (s : shared) (thr : gmap nat (call * pc)) (h : list hitem) (c : call) (p : pc).

(** What a step of [t] has to yield. *)
Notation fine op s' ev thr h t c :=
  (exists p', op = Some p' /\ ev = [] /\ good s' (<[t := (c, p')]> thr) (h ≫= hvis)) (only parsing).

Lemma step_P_swap s thr h kof m t c e op s' ev :
  core s thr h kof m -> thr !! t = Some (c, P_swap e) ->
  step deref zero veq t c (P_swap e) s LTick = Some (op, s', ev) ->
  fine op s' ev thr h t c.
Proof.
  intros Hc Ht Hstep.
  destruct (i_pc _ _ _ _ _ _ _ Hc _ _ _ Ht) as (Hst & Hk & Hlt & Hcur & Hx).
  assert (exists q, call_ptr c = Some q) as [q Hq] by (destruct c; cbn in *; try done; eauto).
  assert (Hstep' : Some (Some (P_un (RVal (slot_val (s_ent s e)))), set_ent e (SPtr q) s, @nil (event K V)) = Some (op, s', ev)).
  { rewrite <- Hstep. cbn. rewrite Hq. by destruct (s_ent s e). }
  injection Hstep' as <- <- <-. apply ret1.
  edestruct (core_lin deref veq s thr h kof m t c (P_swap e) e (set_ent e (SPtr q) s) (P_un (RVal (slot_val (s_ent s e)))))
    as (h' & m' & Hc' & Hv'); [exact Hc|exact Ht|done|by destruct c|done|done|done|..].
  - repeat split; try done.
    + cbn. destruct (decide (e0 = e)) as [->|Hne]; [by rewrite fn_lookup_insert|by rewrite fn_lookup_insert_ne].
    + cbn. destruct (decide (e0 = e)) as [->|Hne]; [done|by rewrite fn_lookup_insert_ne].
  - done.
  - intros e' Hne. cbn. by rewrite fn_lookup_insert_ne.
  - cbn. by destruct c.
  - done.
  - done.
  - intros e'. split; by intros [].
  - by intros e' [].
  - intros m0 Hm0. cbn. rewrite fn_lookup_insert.
    destruct c; cbn in *; try done; simplify_eq; (split; [by rewrite ?Hm0|]; split; [by rewrite lookup_insert|]);
      intros k' Hne; by rewrite lookup_insert_ne.
  - by left.
  - by exists h', kof, m'.
Qed.

Lemma step_P_dl s thr h kof m t c todo lab op s' ev :
  core s thr h kof m -> thr !! t = Some (c, P_dl todo) ->
  step deref zero veq t c (P_dl todo) s lab = Some (op, s', ev) ->
  fine op s' ev thr h t c.
Proof.
  intros Hc Ht Hstep.
  destruct (holder_phase _ _ _ _ _ _ _ _ _ _ Hc Ht eq_refl) as [Hl Hs].
  destruct (i_pc _ _ _ _ _ _ _ Hc _ _ _ Ht) as (Hst & k0 & Hk & Hr).
  destruct lab as [|k|b]; cbn in Hstep; [|destruct (todo !! k) as [e|] eqn:Ek|]; try done.
  - case_decide as Hd; [|done]. injection Hstep as <- <- <-. apply ret1. subst todo.
    eapply good_goto; try done; [cbn; eauto|by intros e []..].
  - injection Hstep as <- <- <-. apply ret1.
    eapply good_goto; try done; [|by cbn; rewrite lookup_delete; eauto 10|by intros e' []..].
    cbn. by rewrite insert_delete.
Qed.

Lemma step_P_dlx s thr h kof m t c k e todo op s' ev :
  core s thr h kof m -> thr !! t = Some (c, P_dlx k e todo) ->
  step deref zero veq t c (P_dlx k e todo) s LTick = Some (op, s', ev) ->
  fine op s' ev thr h t c.
Proof.
  intros Hc Ht Hstep.
  destruct (holder_phase _ _ _ _ _ _ _ _ _ _ Hc Ht eq_refl) as [Hl Hs].
  destruct (i_pc _ _ _ _ _ _ _ Hc _ _ _ Ht) as (Hst & Htk & k0 & Hk & Hr).
  destruct Hs as (Hrd & Hdd & Ha & d & Ed & Hs1 & Hs2 & Hs3).
  destruct (Hs1 k e ltac:(by rewrite lookup_insert)) as (Hrk & Hx & Hdk).
  cbn in Hstep. destruct (s_ent s e) as [| |q] eqn:Ee; [| done |].
  - injection Hstep as <- <- <-. apply ret1.
    eapply good_goto; try done; [cbn; eauto 10|by intros e' []..].
  - rewrite (dirty_store_ok _ d) in Hstep by done. injection Hstep as <- <- <-. apply ret1.
    exists h, kof, m. split; [|done]. eapply core_shape; try done.
    + intros k'. unfold emap. cbn. by rewrite Ha.
    + assert (Edm : dirty_map s = d) by (unfold dirty_map; by rewrite Ed). rewrite Edm in Hdd.
      split; [done|]. split. { intros k' e'. cbn. intros [[<- <-]|[_ ?]]%lookup_insert_Some; [by apply Hrd|by apply Hdd]. }
      split; [done|]. eexists. split; [done|]. cbn. split; [|split].
      * intros k' e' He'. assert (k <> k') by congruence. rewrite lookup_insert_ne by done.
        apply Hs1. by rewrite lookup_insert_ne.
      * intros k' e'. intros [[<- <-]|[_ ?]]%lookup_insert_Some; [by rewrite Ee|by apply Hs2].
      * intros k' e' He' Ht'. destruct (decide (k = k')) as [<-|Hne].
        -- rewrite lookup_insert. right. rewrite Hrk in He'. injection He' as <-. by rewrite Ee.
        -- rewrite lookup_insert_ne by done. apply Hs3; [done|]. by rewrite lookup_insert_ne.
    + cbn. eauto.
    + by intros e' [[]|[]].
Qed.

Lemma step_P_dlc s thr h kof m t c k e todo op s' ev :
  core s thr h kof m -> thr !! t = Some (c, P_dlc k e todo) ->
  step deref zero veq t c (P_dlc k e todo) s LTick = Some (op, s', ev) ->
  fine op s' ev thr h t c.
Proof.
  intros Hc Ht Hstep.
  destruct (holder_phase _ _ _ _ _ _ _ _ _ _ Hc Ht eq_refl) as [Hl Hs].
  destruct (i_pc _ _ _ _ _ _ _ Hc _ _ _ Ht) as (Hst & Htk & k0 & Hk & Hr).
  destruct Hs as (Hrd & Hdd & Ha & d & Ed & Hs1 & Hs2 & Hs3).
  destruct (Hs1 k e ltac:(by rewrite lookup_insert)) as (Hrk & Hx & Hdk).
  destruct (core_rd _ _ _ _ _ _ _ _ _ Hc Hrk) as (Hke & Hlt & Hcur).
  cbn in Hstep. destruct (decide (s_ent s e = SNil)) as [Ee|Ee].
  - rewrite Ee in Hstep. injection Hstep as <- <- <-. apply ret1.
    exists h, kof, m. split; [|done]. eapply core_shape; try done.
    + intros e' He'. cbn. rewrite fn_lookup_insert_ne; [done|]. by intros ->.
    + intros e'. cbn. destruct (decide (e' = e)) as [->|Hne]; [by rewrite fn_lookup_insert, Ee|by rewrite fn_lookup_insert_ne].
    + assert (Hinj : forall k' e', s_rd s !! k' = Some e' -> k' <> k -> e' <> e).
      { intros k' e' He' Hne ->. destruct (Hrd _ _ He'). congruence. }
      split; [done|]. split; [done|].
      split; [done|]. eexists. split; [done|]. cbn. split; [|split].
      * intros k' e' He'. assert (Hkk : k' <> k) by congruence.
        destruct (Hs1 k' e' ltac:(by rewrite lookup_insert_ne)) as (H1 & H2 & H3).
        rewrite fn_lookup_insert_ne; [done|]. apply not_eq_sym. by eapply Hinj.
      * intros k' e' He'. assert (Hkk : k' <> k) by congruence. destruct (Hs2 _ _ He') as [H1 H2].
        rewrite fn_lookup_insert_ne; [done|]. apply not_eq_sym. by eapply Hinj.
      * intros k' e' He' Ht'. destruct (decide (k = k')) as [<-|Hne].
        -- left. rewrite Hrk in He'. injection He' as <-. by rewrite fn_lookup_insert.
        -- rewrite fn_lookup_insert_ne; [|apply not_eq_sym; by eapply Hinj; eauto].
           apply Hs3; [done|]. by rewrite lookup_insert_ne.
    + cbn. eauto.
    + by intros e' [[]|[]].
  - assert (Hq : Some (Some (P_dlx k e todo), s, @nil (event K V)) = Some (op, s', ev)).
    { rewrite <- Hstep. by destruct (s_ent s e). }
    injection Hq as <- <- <-. apply ret1.
    eapply good_goto; try done; [cbn; eauto 10|by intros e' []..].
Qed.

Lemma step_P_amend s thr h kof m t c :
  core s thr h kof m -> thr !! t = Some (c, P_amend) ->
  good (set_read (s_rd s) true s) (<[t := (c, P_new)]> thr) (h ≫= hvis).
Proof.
  intros Hc Ht.
  destruct (holder_phase _ _ _ _ _ _ _ _ _ _ Hc Ht eq_refl) as [Hl Hs].
  destruct (i_pc _ _ _ _ _ _ _ Hc _ _ _ Ht) as (Hst & k0 & Hk & Hr).
  destruct Hs as (Hrd & Hdd & Ha & d & Ed & Hs1 & Hs2 & Hs3).
  exists h, kof, m. split; [|done]. eapply core_shape; try done.
  - intros k. unfold emap, dirty_map. cbn. rewrite Ha, Ed, lookup_union.
    destruct (s_rd s !! k) as [e|] eqn:Er; [by destruct (d !! k)|].
    destruct (d !! k) as [e|] eqn:Edk; [|done]. destruct (Hs2 _ _ Edk). congruence.
  - split; [done|]. split; [done|]. cbn. eexists. split; [done|]. split.
    + intros k e He. by apply Hs3.
    + intros k e He. by apply (Hs2 k e).
  - cbn. split; [done|]. split; [done|]. exists k0. split; [done|]. split; [done|].
    unfold dirty_map. cbn. rewrite Ed. destruct (d !! k0) as [e|] eqn:Edk; [|done]. destruct (Hs2 _ _ Edk). congruence.
  - by intros e' [[]|[]].
Qed.

Lemma step_P_new s thr h kof m t c op s' ev :
  core s thr h kof m -> thr !! t = Some (c, P_new) ->
  step deref zero veq t c P_new s LTick = Some (op, s', ev) ->
  fine op s' ev thr h t c.
Proof.
  intros Hc Ht Hstep.
  destruct (holder_phase _ _ _ _ _ _ _ _ _ _ Hc Ht eq_refl) as [Hl Hs].
  destruct (i_pc _ _ _ _ _ _ _ Hc _ _ _ Ht) as (Hst & Ha & k & Hk & Hr & _).
  destruct Hs as (_ & _ & Hs). cbn in Hs. rewrite Ha in Hs. destruct Hs as (d & Ed & _).
  assert (exists q, call_ptr c = Some q) as [q Hq] by (destruct c; cbn in *; try done; eauto).
  cbn in Hstep. rewrite Hk, Hq in Hstep.
  rewrite (dirty_store_ok _ d) in Hstep by done. injection Hstep as <- <- <-. apply ret1.
  edestruct (core_new deref veq s thr h kof m t c k q d) as (h' & kof' & m' & Hc' & Hv'); try done.
  by exists h', kof', m'.
Qed.

Lemma finish_stat c r : c <> CLen -> stat (c, finish c r) = ADone c (ret_of c r).
Proof. intros Hc. unfold finish. case_decide; [|done]. cbn. by destruct c. Qed.
Lemma finish_locked c r : locked (finish c r) = false.
Proof. unfold finish. by case_decide. Qed.
Lemma finish_phase c r : phase_of (finish c r) = Normal.
Proof. unfold finish. by case_decide. Qed.
Lemma finish_nohold c r : nohold (finish c r).
Proof. unfold finish. case_decide; intros e; split; by intros []. Qed.
Lemma finish_pcinv c r s kof : c <> CLen -> pcinv c (finish c r) s kof.
Proof. intros Hc. unfold finish. case_decide; [|done]. by intros ->. Qed.

Lemma step_P_lock s thr h kof m t c :
  core s thr h kof m -> thr !! t = Some (c, P_lock) -> s_lock s = None ->
  good (set_lock (Some t) s) (<[t := (c, P_read2)]> thr) (h ≫= hvis).
Proof.
  intros Hc Ht Hl. pose proof (i_pc _ _ _ _ _ _ _ Hc _ _ _ Ht) as Hp.
  eapply good_move; try done; [by right; right|by intros e []..].
Qed.

Lemma step_P_miss s thr h kof m t c r :
  core s thr h kof m -> thr !! t = Some (c, P_miss r) ->
  good (missLocked s) (<[t := (c, P_un r)]> thr) (h ≫= hvis).
Proof.
  intros Hc Ht. destruct (i_pc _ _ _ _ _ _ _ Hc _ _ _ Ht) as [Ha Hcl].
  eapply (good_miss _ _ s _ (h ++ []) kof m t c (P_un r)); try done; [|by rewrite app_nil_r|by rewrite lookup_insert].
  eapply core_item; [exact Hc|exact Ht|apply soft_refl|done|by left|by left|by left|done|by intros e' []|by intros e' []|by intros e' _ []].
Qed.

Lemma step_P_un s thr h kof m t c r :
  core s thr h kof m -> thr !! t = Some (c, P_un r) ->
  good (set_lock None s) (<[t := (c, finish c r)]> thr) (h ≫= hvis).
Proof.
  intros Hc Ht. pose proof (i_pc _ _ _ _ _ _ _ Hc _ _ _ Ht) as Hp. cbn in Hp.
  eapply good_move; try done.
  - right; left. by rewrite finish_locked.
  - by rewrite finish_phase.
  - by rewrite finish_stat.
  - by apply finish_pcinv.
  - intros e Hh. by destruct (finish_nohold c r e).
  - intros e Hh. by destruct (finish_nohold c r e).
Qed.

Lemma step_P_une s thr h kof m t c e :
  core s thr h kof m -> thr !! t = Some (c, P_une (Some e)) ->
  good (set_lock None s) (<[t := (c, E_load e Fast)]> thr) (h ≫= hvis).
Proof.
  intros Hc Ht. destruct (i_pc _ _ _ _ _ _ _ Hc _ _ _ Ht) as (Hf & Hk & He). cbn in Hf.
  eapply good_move; try done.
  - by right; left.
  - split; [done|]. split; [done|]. cbn. intros Hw. by destruct c.
  - intros e' <-. by left.
  - intros e' _ <-. by left.
Qed.

Lemma step_P_une0 s thr h kof m t c :
  core s thr h kof m -> thr !! t = Some (c, P_une None) ->
  good (set_lock None s) (<[t := (c, X_ret (absent c))]> thr) (h ≫= hvis).
Proof.
  intros Hc Ht. pose proof (i_pc _ _ _ _ _ _ _ Hc _ _ _ Ht) as Hf. cbn in Hf.
  eapply good_move; try done.
  - by right; left.
  - by destruct c.
  - cbn. intros ->. done.
Qed.

Lemma step_P_prom s thr h kof m t c :
  core s thr h kof m -> thr !! t = Some (c, P_prom) ->
  good (promote s) (<[t := (c, P_unr (dirty_map s))]> thr) (h ≫= hvis).
Proof.
  intros Hc Ht. destruct (i_pc _ _ _ _ _ _ _ Hc _ _ _ Ht) as (Hrc & Ha).
  destruct (holder_phase _ _ _ _ _ _ _ _ _ _ Hc Ht eq_refl) as [Hl Hs]. cbn [phase_of] in Hs.
  pose proof (fun k => emap_normal s kof k Hs Ha) as Em.
  pose proof Hs as (Hrd & Hdd & Hn). rewrite Ha in Hn. destruct Hn as (d & Ed & Hn1 & Hn2).
  assert (Edm : dirty_map s = d) by (unfold dirty_map; by rewrite Ed). rewrite Edm in *.
  assert (Hsub : forall k e, d !! k = Some e -> emap s !! k = Some e).
  { intros k e Hk. rewrite Em. destruct (s_rd s !! k) as [e'|] eqn:Er; [|done].
    destruct (Hn1 _ _ Er) as [[_ ?]|[_ ?]]; congruence. }
  assert (Hc1 : core s (<[t := (c, P_unr d)]> thr) (h ++ [HI (ISnap t (dom d))]) kof m).
  { eapply core_item; [exact Hc|exact Ht|apply soft_refl|done|by left|by left| | | | |].
    - right. exists (ISnap t (dom d)). split; [done|]. split; [done|]. cbn [stat]. eapply snap_ok; [done|done|].
      intros k e He Hx. rewrite Em in He. destruct (s_rd s !! k) as [e'|] eqn:Er; [|done]. injection He as ->.
      by destruct (Hn1 _ _ Er) as [[? _]|[_ ?]].
    - cbn. done.
    - by intros e [].
    - intros e [k Hk]. right. destruct (Hdd _ _ Hk) as [<- _]. by apply Hsub.
    - by intros e _ []. }
  edestruct (core_promote deref veq s _ _ kof m t c (P_unr d) Hc1) as (h' & Hc' & Hv'); try done.
  - by rewrite lookup_insert.
  - intros s2 Hs2. cbn. by rewrite Hs2.
  - exists h', kof, m. split; [done|]. rewrite Hv', bind_app. cbn. by rewrite app_nil_r.
Qed.

Lemma step_P_unr s thr h kof m t c n :
  core s thr h kof m -> thr !! t = Some (c, P_unr n) ->
  good (set_lock None s) (<[t := (c, R_next n 0)]> thr) (h ≫= hvis).
Proof.
  intros Hc Ht. pose proof (i_pc _ _ _ _ _ _ _ Hc _ _ _ Ht) as Hp.
  eapply good_move; try done.
  - by right; left.
  - intros e He. by left.
Qed.

Lemma step_P_clr2 s thr h kof m t c :
  core s thr h kof m -> thr !! t = Some (c, P_clr2) ->
  good (set_len 0 (set_misses 0 (set_dirty ((fun _ => ∅) <$> s_dirty s) s))) (<[t := (c, P_un RUnit)]> thr) (h ≫= hvis).
Proof.
  intros Hc Ht. pose proof (i_pc _ _ _ _ _ _ _ Hc _ _ _ Ht) as Hp. cbn in Hp. subst c.
  destruct (holder_phase _ _ _ _ _ _ _ _ _ _ Hc Ht eq_refl) as [Hl (Hrd & Hdd & Ha & Hr)].
  exists h, kof, m. split; [|done]. eapply core_shape; try done.
  - intros k. unfold emap. cbn. by rewrite Ha.
  - split; [done|]. split.
    + intros k e. unfold dirty_map. cbn. destruct (s_dirty s); cbn; done.
    + cbn. rewrite Ha, Hr. split; [|done]. destruct (s_dirty s); cbn; [right|left]; done.
  - by intros e' [[]|[]].
Qed.

Lemma step_E_cas s thr h kof m t c e x md op s' ev :
  core s thr h kof m -> thr !! t = Some (c, E_cas e x md) ->
  step deref zero veq t c (E_cas e x md) s LTick = Some (op, s', ev) ->
  fine op s' ev thr h t c.
Proof.
  intros Hc Ht Hstep.
  destruct (i_pc _ _ _ _ _ _ _ Hc _ _ _ Ht) as (Hk & He & Hmo & Hok).
  cbn in Hstep. case_decide as Hx; injection Hstep as <- <- <-; apply ret1.
  - assert (Hcl : c <> CLen) by by intros ->.
    assert (Hxe : x <> SExp) by (intros ->; destruct c; cbn in Hok; try done; by destruct Hok as (? & ? & ?) || by destruct Hok).
    edestruct (core_lin deref veq s thr h kof m t c (E_cas e x md) e (set_ent e (cas_new c) s)
      (after c md (cas_result deref c x)) (ret_of c (cas_result deref c x)))
      as (h' & m' & Hc' & Hv'); [exact Hc|exact Ht|done|by destruct c|done| |done|..].
    + destruct md; cbn [after]; try done. by rewrite finish_stat.
    + repeat split; try done.
      * cbn. destruct (decide (e0 = e)) as [->|Hne]; [rewrite fn_lookup_insert; by destruct c|by rewrite fn_lookup_insert_ne].
      * cbn. destruct (decide (e0 = e)) as [->|Hne]; [by rewrite Hx|by rewrite fn_lookup_insert_ne].
    + done.
    + intros e' Hne. cbn. by rewrite fn_lookup_insert_ne.
    + destruct md; cbn [after]; [by apply finish_pcinv|done|]. cbn. split; [|done]. by apply Hmo.
    + destruct md; cbn [after]; [by rewrite finish_locked|done..].
    + destruct md; cbn [after]; [by rewrite finish_phase|done..].
    + destruct md; cbn [after]; [by apply finish_nohold|intros e'; split; by intros []..].
    + by intros e' <-.
    + intros m0 Hm0. cbn. rewrite fn_lookup_insert, Hx in *.
      destruct c; cbn in Hok, Hk |- *; try done; injection Hk as ->.
      * rewrite lookup_insert. split; [done|]. split; [done|]. intros k' Hne. by rewrite lookup_insert_ne.
      * rewrite lookup_insert. split; [by rewrite Hm0|]. split; [done|]. intros k' Hne. by rewrite lookup_insert_ne.
      * rewrite Hm0, Hok. cbn. rewrite lookup_insert. split; [done|]. split; [done|]. intros k' Hne. by rewrite lookup_insert_ne.
      * rewrite lookup_delete. split; [by rewrite Hm0|]. split; [done|]. intros k' Hne. by rewrite lookup_delete_ne.
      * rewrite lookup_delete. split; [done|]. split; [done|]. intros k' Hne. by rewrite lookup_delete_ne.
      * destruct Hok as (q & -> & Hv). cbn in Hm0. rewrite Hm0, Hv. rewrite lookup_insert.
        split; [done|]. split; [done|]. intros k' Hne. by rewrite lookup_insert_ne.
      * destruct Hok as (q & -> & Hv). cbn in Hm0. rewrite Hm0, Hv. rewrite lookup_delete.
        split; [done|]. split; [done|]. intros k' Hne. by rewrite lookup_delete_ne.
    + destruct md; [by right|left; apply Hmo..].
    + by exists h', kof, m'.
  - eapply good_goto; try done; [intros e' <-; by left|intros e' _ <-; by left].
Qed.

Lemma step_E_load s thr h kof m t c e md op s' ev :
  core s thr h kof m -> thr !! t = Some (c, E_load e md) ->
  step_load deref zero veq c e md s = Some (op, s', ev) ->
  fine op s' ev thr h t c.
Proof.
  intros Hc Ht Hstep.
  destruct (i_pc _ _ _ _ _ _ _ Hc _ _ _ Ht) as (Hk & He & Hmo).
  assert (Hcl : c <> CLen) by by intros ->.
  assert (Hlin : forall r p', p' = after c md r \/ (r = RPanic /\ p' = after_panic md) ->
    op_ok c (kof e) (s_ent s e) (s_ent s e) (ret_of c r) -> good s (<[t := (c, p')]> thr) (h ≫= hvis)).
  { intros r p' Hp' Hop.
    assert (Hpp : stat (c, p') = ADone c (ret_of c r) /\ pcinv c p' s kof /\ locked p' = locked (E_load (K := K) (V := V) e md) /\
      phase_of p' = Normal /\ nohold p').
    { destruct Hp' as [->|[-> ->]]; destruct md; cbn [after after_panic].
      - rewrite finish_stat, finish_phase by done. split; [done|]. split; [by apply finish_pcinv|].
        split; [apply finish_locked|]. split; [done|apply finish_nohold].
      - split; [done|]. split; [done|]. split; [done|]. split; [done|]. intros e'; split; by intros [].
      - split; [done|]. split; [by split; [apply Hmo|]|]. split; [done|]. split; [done|]. intros e'; split; by intros [].
      - split; [by destruct c|]. split; [by cbn|]. split; [done|]. split; [done|]. intros e'; split; by intros [].
      - split; [done|]. split; [done|]. split; [done|]. split; [done|]. intros e'; split; by intros [].
      - split; [done|]. split; [done|]. split; [done|]. split; [done|]. intros e'; split; by intros []. }
    destruct Hpp as (H1 & H2 & H3 & H4 & H5).
    edestruct (core_lin deref veq s thr h kof m t c (E_load e md) e s p' (ret_of c r))
      as (h' & m' & Hc' & Hv'); try done.
    - by destruct c.
    - destruct md; [by right|left; apply Hmo..].
    - by exists h', kof, m'. }
  assert (Hcas : forall x, s_ent s e = x -> cas_ok deref veq c x -> good s (<[t := (c, E_cas e x md)]> thr) (h ≫= hvis)).
  { intros x Hx Hok. eapply good_goto; try done; [intros e' <-; by left|intros e' _ <-; by left]. }
  assert (Hlock : md = Fast -> storing c -> good s (<[t := (c, P_lock)]> thr) (h ≫= hvis)).
  { intros -> Hst. eapply good_goto; try done.
    intros e' Hd _. by destruct c. }
  unfold step_load in Hstep.
  assert (Hswp : swapping c -> match s_ent s e with SExp => goto P_lock s | _ => goto (E_cas e (s_ent s e) md) s end = Some (op, s', ev) ->
    fine op s' ev thr h t c).
  { intros Hsw Hq. destruct (s_ent s e) as [| |q] eqn:Hx; injection Hq as <- <- <-; apply ret1.
    - apply Hcas; [done|]. by destruct c.
    - apply Hlock; [|by destruct c]. destruct md; [done|exfalso; destruct Hmo as [Hmo _]; by destruct c..].
    - apply Hcas; [done|]. by destruct c. }
  destruct c; try done; injection Hk as ->.
  - injection Hstep as <- <- <-. apply ret1. eapply Hlin; [by left|].
    intros m0 Hm0. cbn. by rewrite Hm0.
  - exact (Hswp I Hstep).
  - exact (Hswp I Hstep).
  - destruct (s_ent s e) as [| |q] eqn:Hx.
    + injection Hstep as <- <- <-. apply ret1. by apply Hcas.
    + destruct md; [|destruct Hmo as (_ & _ & ? & _); done..]. injection Hstep as <- <- <-. apply ret1. by apply Hlock.
    + injection Hstep as <- <- <-. apply ret1. eapply Hlin; [by left|].
      intros m0 Hm0. cbn in *. by rewrite Hm0.
  - destruct (s_ent s e) as [| |q] eqn:Hx; injection Hstep as <- <- <-; apply ret1.
    + eapply Hlin; [by left|]. intros m0 Hm0. cbn in *. rewrite Hm0, delete_notin by done. done.
    + eapply Hlin; [by left|]. intros m0 Hm0. cbn in *. rewrite Hm0, delete_notin by done. done.
    + apply Hcas; [done|]. by exists q.
  - destruct (s_ent s e) as [| |q] eqn:Hx; injection Hstep as <- <- <-; apply ret1.
    + eapply Hlin; [by left|]. intros m0 Hm0. cbn in *. rewrite delete_notin by done. done.
    + eapply Hlin; [by left|]. intros m0 Hm0. cbn in *. rewrite delete_notin by done. done.
    + apply Hcas; [done|]. by exists q.
  - destruct (s_ent s e) as [| |q] eqn:Hx; [| |destruct (veq (deref q) old) as [[]|] eqn:Hv];
      injection Hstep as <- <- <-; apply ret1.
    + eapply Hlin; [by left|]. intros m0 Hm0. cbn in *. by rewrite Hm0.
    + eapply Hlin; [by left|]. intros m0 Hm0. cbn in *. by rewrite Hm0.
    + apply Hcas; [done|]. by exists q.
    + eapply Hlin; [by left|]. intros m0 Hm0. cbn in *. by rewrite Hm0, Hv.
    + eapply Hlin; [by right|]. intros m0 Hm0. cbn in *. by rewrite Hm0, Hv.
  - destruct (s_ent s e) as [| |q] eqn:Hx; [| |destruct (veq (deref q) old) as [[]|] eqn:Hv];
      injection Hstep as <- <- <-; apply ret1.
    + eapply Hlin; [by left|]. intros m0 Hm0. cbn in *. by rewrite Hm0.
    + eapply Hlin; [by left|]. intros m0 Hm0. cbn in *. by rewrite Hm0.
    + apply Hcas; [done|]. by exists q.
    + eapply Hlin; [by left|]. intros m0 Hm0. cbn in *. by rewrite Hm0, Hv.
    + eapply Hlin; [by right|]. intros m0 Hm0. cbn in *. by rewrite Hm0, Hv.
Qed.

Lemma step_P_len s thr h kof m t c r d :
  core s thr h kof m -> thr !! t = Some (c, P_len r d) ->
  good (set_len (s_len s + d) s) (<[t := (c, X_ret r)]> thr) (h ≫= hvis).
Proof.
  intros Hc Ht. pose proof (i_pc _ _ _ _ _ _ _ Hc _ _ _ Ht) as Hp. cbn in Hp.
  eapply good_move; try done; [by left|by cbn; destruct c|by intros ->].
Qed.

Lemma step_R_next s thr h kof m t c todo n lab op s' ev :
  core s thr h kof m -> thr !! t = Some (c, R_next todo n) ->
  step deref zero veq t c (R_next todo n) s lab = Some (op, s', ev) ->
  fine op s' ev thr h t c.
Proof.
  intros Hc Ht Hstep.
  destruct (i_pc _ _ _ _ _ _ _ Hc _ _ _ Ht) as (Hrc & Hmok).
  destruct lab as [|k|b]; cbn in Hstep; [|destruct (todo !! k) as [e|] eqn:Ek|]; try done.
  - case_decide as Hd; [|done]. injection Hstep as <- <- <-. apply ret1. subst todo.
    rewrite <- (app_nil_r (h ≫= hvis)).
    eapply (good_item _ _ _ _ _ _ _ _ _ _ _ (IEnd t)); try done; [by left| |by cbn; intros ->].
    intros st Hst. cbn. exists c, n. cbn in Hst. rewrite dom_empty_L in Hst. split; [done|].
    by destruct c.
  - injection Hstep as <- <- <-. apply ret1.
    eapply good_goto; try done.
    + cbn. f_equal. rewrite dom_delete_L. rewrite <- union_difference_L; [done|].
      apply singleton_subseteq_l, elem_of_dom. eauto.
    + cbn. rewrite insert_delete, lookup_delete by done. done.
    + intros e' [<-|[k' Hk']]; left; cbn; [eauto|].
      exists k'. by apply lookup_delete_Some in Hk' as [_ ?].
Qed.

Lemma step_R_call s thr h kof m t c k v todo n b op s' ev :
  core s thr h kof m -> thr !! t = Some (c, R_call k v todo n) ->
  step deref zero veq t c (R_call k v todo n) s (LCb b) = Some (op, s', ev) ->
  exists p', op = Some p' /\ ev = [ECall t k v b] /\ good s' (<[t := (c, p')]> thr) ((h ≫= hvis) ++ ev).
Proof.
  intros Hc Ht Hstep.
  destruct (i_pc _ _ _ _ _ _ _ Hc _ _ _ Ht) as (Hrc & Hmok & Htk).
  assert (Hstep' : (b = false -> c = CRange) /\
    Some (if b then Some (R_next todo (n + 1)) else Some (X_ret RUnit), s, [ECall t k v b]) = Some (op, s', ev)).
  { destruct c; try done; destruct b; done. }
  destruct Hstep' as [Hb Hq]. injection Hq as <- <- <-.
  exists (if b then R_next todo (n + 1) else X_ret RUnit). split; [by destruct b|]. split; [done|].
  change [ECall t k v b] with (visible (ICall t k v b)).
  eapply (good_item _ _ _ _ _ _ _ _ _ _ _ (ICall t k v b)); try done.
  - by destruct b.
  - left. by destruct b.
  - intros st Hst. cbn in *. exists c, (dom todo), {[k := v]}, n. split; [done|].
    split; [apply lookup_singleton|]. split; [done|]. f_equal. f_equal.
    destruct b; cbn.
    + f_equal. by rewrite delete_singleton.
    + by rewrite (Hb eq_refl).
  - destruct b; cbn; [done|]. by intros ->.
  - intros e. by destruct b.
  - intros e Hp. destruct b; [|done]. left. split; [|done].
    intros y ->%elem_of_list_singleton _. exists k. split; [|right; eauto].
    destruct Hp as [k' Hk']. destruct (Hmok _ _ Hk') as [-> _]. congruence.
Qed.

Lemma step_X_ret s thr h kof m t c r :
  core s thr h kof m -> thr !! t = Some (c, X_ret r) ->
  good s (delete t thr) ((h ≫= hvis) ++ [ERet t (ret_of c r)]).
Proof.
  intros Hc Ht. pose proof (i_pc _ _ _ _ _ _ _ Hc _ _ _ Ht) as Hp. cbn in Hp.
  exists (h ++ [HI (IRet t (ret_of c r))]), kof, m. split; [|by rewrite bind_app].
  pose proof Hc as [_ _ Hs _ Hlk _ _ _ _ _].
  assert (Hl : s_lock s <> Some t).
  { intros Hl. by apply (Hlk _ _ _ Ht) in Hl. }
  eapply (core_local _ _ _ _ _ _ _ t); [exact Hc|apply soft_refl|done|..].
  - intros t' Hne. by rewrite lookup_delete_ne.
  - eexists. split; [|done]. cbn. rewrite fmap_delete. split; [done|].
    rewrite lookup_fmap, Ht. assert (c = CLen \/ c <> CLen) as [->|Hcl] by (destruct c; by (right + left));
    [|left; exists c; by destruct c]. destruct (Hp eq_refl) as [n ->]. right. by exists n.
  - intros i ->%elem_of_list_singleton. eauto.
  - assert (the_phase s (delete t thr) = the_phase s thr) as ->; [|done].
    unfold the_phase. destruct (s_lock s) as [u|]; [|done]. rewrite lookup_delete_ne; [done|congruence].
  - intros c' p'. by rewrite lookup_delete.
  - intros c' p'. by rewrite lookup_delete.
  - done.
  - done.
  - intros e c' p' _. by rewrite lookup_delete.
  - intros e c' p' _. by rewrite lookup_delete.
  - intros e c' p' _ _. rewrite Ht. intros [= <- <-] _ [].
Qed.

Lemma step_invoke s thr h kof m t c :
  core s thr h kof m -> thr !! t = None ->
  good s (<[t := (c, enter c)]> thr) ((h ≫= hvis) ++ [EInv t c]).
Proof.
  intros Hc Ht.
  exists (h ++ [HI (IInv t c)]), kof, m. split; [|by rewrite bind_app].
  pose proof Hc as [_ _ Hs _ Hlk Hlk2 _ _ _ _].
  assert (Hl : s_lock s <> Some t).
  { intros Hl. apply Hlk2 in Hl. rewrite Ht in Hl. by destruct Hl. }
  assert (He : locked (enter c) = false) by by destruct c.
  eapply (core_local _ _ _ _ _ _ _ t); [exact Hc|apply soft_refl|done|..].
  - intros t' Hne. by rewrite lookup_insert_ne.
  - eexists. split; [|done]. cbn. rewrite fmap_insert, lookup_fmap, Ht. split; [done|].
    f_equal. f_equal. by destruct c.
  - intros i ->%elem_of_list_singleton. eauto.
  - assert (the_phase s (<[t := (c, enter c)]> thr) = the_phase s thr) as ->; [|done].
    unfold the_phase. destruct (s_lock s) as [u|]; [|done]. rewrite lookup_insert_ne; [done|congruence].
  - intros c' p'. rewrite lookup_insert. intros [= <- <-]. by destruct c.
  - intros c' p'. rewrite lookup_insert. intros [= <- <-]. by rewrite He.
  - done.
  - done.
  - intros e c' p' _. rewrite lookup_insert. intros [= <- <-]. by destruct c.
  - intros e c' p' _. rewrite lookup_insert. intros [= <- <-]. by destruct c.
  - intros e c' p' _ _. by rewrite Ht.
Qed.

(** All together. *)
Lemma act_good (cf : config K V) tr a cf' ev :
  good (c_sh cf) (c_thr cf) tr -> act deref zero veq cf a = Some (cf', ev) ->
  good (c_sh cf') (c_thr cf') (tr ++ ev).
Proof.
  intros (h & kof & m & Hc & <-) Hact. destruct cf as [s thr]. cbn [c_sh c_thr] in *.
  destruct a as [t c|t lab]; cbn in Hact.
  - destruct (thr !! t) eqn:Ht; [done|]. injection Hact as <- <-. cbn. by eapply step_invoke.
  - destruct (thr !! t) as [[c p]|] eqn:Ht; [|done].
    destruct (step deref zero veq t c p s lab) as [[[op s'] ev']|] eqn:Hstep; [|done].
    assert (Hfine : (exists p', op = Some p' /\ good s' (<[t := (c, p')]> thr) ((h ≫= hvis) ++ ev')) \/
      (op = None /\ good s' (delete t thr) ((h ≫= hvis) ++ ev'))).
    { assert (Hfin : fine op s' ev' thr h t c -> (exists p', op = Some p' /\ good s' (<[t := (c, p')]> thr) ((h ≫= hvis) ++ ev')) \/
        (op = None /\ good s' (delete t thr) ((h ≫= hvis) ++ ev'))).
      { intros (p' & -> & -> & Hg). left. exists p'. rewrite app_nil_r. done. }
      assert (Hfin' : forall p', goto p' s' = Some (op, s', ev') -> good s' (<[t := (c, p')]> thr) (h ≫= hvis) ->
        (exists p', op = Some p' /\ good s' (<[t := (c, p')]> thr) ((h ≫= hvis) ++ ev')) \/
        (op = None /\ good s' (delete t thr) ((h ≫= hvis) ++ ev'))).
      { intros p' [= <- <-] Hg. left. exists p'. by rewrite app_nil_r. }
      destruct p; try (destruct lab as [|kl|b]; [|discriminate Hstep|discriminate Hstep]).
      - apply Hfin. by eapply step_P_read.
      - cbn in Hstep. destruct (s_lock s) eqn:Hl; [done|]. injection Hstep as <- <- <-.
        eapply Hfin'; [done|]. by eapply step_P_lock.
      - apply Hfin. by eapply step_P_read2.
      - apply Hfin. by eapply step_P_dirty.
      - apply Hfin. by eapply step_P_unexp.
      - apply Hfin. by eapply step_P_swap.
      - apply Hfin. by eapply step_P_dl.
      - apply Hfin. by eapply step_P_dlx.
      - apply Hfin. by eapply step_P_dlc.
      - injection Hstep as <- <- <-. eapply Hfin'; [done|]. by eapply step_P_amend.
      - apply Hfin. by eapply step_P_new.
      - injection Hstep as <- <- <-. eapply Hfin'; [done|]. by eapply step_P_miss.
      - injection Hstep as <- <- <-. eapply Hfin'; [done|]. by eapply step_P_un.
      - destruct o as [e|]; (destruct lab; [|discriminate Hstep..]); injection Hstep as <- <- <-; (eapply Hfin'; [done|]); [by eapply step_P_une|by eapply step_P_une0].
      - injection Hstep as <- <- <-. eapply Hfin'; [done|]. by eapply step_P_prom.
      - injection Hstep as <- <- <-. eapply Hfin'; [done|]. by eapply step_P_unr.
      - injection Hstep as <- <- <-. eapply Hfin'; [done|].
        destruct (core_clear deref veq _ _ _ _ _ _ _ Hc Ht) as (h' & m' & Hc' & <-). by exists h', kof, m'.
      - injection Hstep as <- <- <-. eapply Hfin'; [done|]. by eapply step_P_clr2.
      - apply Hfin. by eapply step_E_load.
      - apply Hfin. by eapply step_E_cas.
      - injection Hstep as <- <- <-. eapply Hfin'; [done|]. by eapply step_P_len.
      - apply Hfin. by eapply step_R_next.
      - apply Hfin. cbn in Hstep. destruct (core_see deref veq s thr h kof m t c k e todo n _ Hc Ht eq_refl) as (h' & Hc' & Hv').
        destruct (slot_val (s_ent s e)) as [v|]; injection Hstep as <- <- <-; apply ret1; by exists h', kof, m.
      - destruct lab as [|kl|b]; [by destruct c|by destruct c|].
        destruct (step_R_call _ _ _ _ _ _ _ _ _ _ _ _ _ _ _ Hc Ht Hstep) as (p' & -> & -> & Hg). left. by exists p'.
      - injection Hstep as <- <- <-. eapply Hfin'; [done|].
        pose proof (i_pc _ _ _ _ _ _ _ Hc _ _ _ Ht) as Hp. cbn in Hp. subst c.
        eapply good_goto; try done. cbn. eauto.
      - injection Hstep as <- <- <-. right. split; [done|]. by eapply step_X_ret. }
    destruct Hfine as [(p' & -> & Hg)|(-> & Hg)]; injection Hact as <- <-; done.
Qed.

Lemma run_good acts (cf : config K V) tr cf' ev :
  good (c_sh cf) (c_thr cf) tr -> run deref zero veq cf acts = Some (cf', ev) ->
  good (c_sh cf') (c_thr cf') (tr ++ ev).
Proof.
  revert cf tr ev. induction acts as [|a acts IH]; intros cf tr ev Hg Hrun; cbn in Hrun.
  - injection Hrun as <- <-. by rewrite app_nil_r.
  - destruct (act deref zero veq cf a) as [[cf1 ev1]|] eqn:Ha; [|done].
    destruct (run deref zero veq cf1 acts) as [[cf2 ev2]|] eqn:Hr; [|done]. injection Hrun as <- <-.
    rewrite app_assoc. eapply IH; [|done]. by eapply act_good.
Qed.

End steps3.
