(** Steps of rwmap under the lock: the second look at [read], the dirty map, unexpunging. *)
From Verif Require Import Base RwMapModel RwMapSpec RwMapInv RwMapFrame RwMapMoves RwMapMoves2 RwMapStep.

Section steps2.
Context {K : Type} `{Countable K} {V : Type}.
Context (deref : nat -> V) (zero : V) (veq : V -> V -> option bool).
Local Notation call := (call K V).
Local Notation result := (result V).
Local Notation pc := (pc K V).
Local Notation shared := (shared K).
Local Notation hitem := (hitem (K := K) (V := V)).
Local Notation hstep := (hstep deref veq).
Local Notation core := (core deref veq).
Local Notation good := (good deref veq).
Local Notation slot_val := (slot_val deref).
Local Notation pcinv := (pcinv deref veq).
Local Notation seq_res := (seq_res deref veq).
Local Notation seq_next := (seq_next deref veq).
Local Notation op_ok := (op_ok deref veq).

Implicit Types (s : shared) (thr : gmap nat (call * pc)) (h : list hitem) (c : call) (p : pc).

Lemma ret1 s' thr h t c p' :
  good s' (<[t := (c, p')]> thr) (h ≫= hvis) ->
  exists p'', Some p' = Some p'' /\ [] = @nil (event K V) /\ good s' (<[t := (c, p'')]> thr) (h ≫= hvis).
Proof. intros Hg. by exists p'. Qed.

Lemma finding_ns c : finding c -> ~ storing c.
Proof. destruct c; cbn; tauto. Qed.
Lemma deleting_finding c : deleting c -> finding c.
Proof. destruct c; cbn; tauto. Qed.

(** Steps under the lock. *)
Lemma step_P_read2 s thr h kof m t c op s' ev :
  core s thr h kof m -> thr !! t = Some (c, P_read2) ->
  step_read2 c s = Some (op, s', ev) ->
  exists p', op = Some p' /\ ev = [] /\ good s' (<[t := (c, p')]> thr) (h ≫= hvis).
Proof.
  intros Hc Ht Hstep.
  destruct (holder_phase _ _ _ _ _ _ _ _ _ _ Hc Ht eq_refl) as [Hl Hs]. cbn [phase_of] in Hs.
  assert (Hgo : forall p', locked p' = true -> phase_of p' = Normal -> stat (c, p') = AInv_ c -> pcinv c p' s kof ->
    (forall e, holds p' e -> emap s !! kof e = Some e) ->
    (forall e, ~ rholds p' e) -> good s (<[t := (c, p')]> thr) (h ≫= hvis)).
  { intros p' Hlp Hph Hst Hpc Hh Hrh. eapply good_goto; try done.
    - intros e Hp. right. by apply Hh.
    - intros e Hp. by apply Hrh in Hp. }
  assert (Hdirty : forall k, call_key c = Some k -> s_rd s !! k = None -> (finding c -> s_am s = true) ->
    good s (<[t := (c, P_dirty)]> thr) (h ≫= hvis)).
  { intros k Hk Hr Ha. apply Hgo; try done; [|intros e []]. cbn. eauto. }
  assert (Hfind : finding c -> forall k, call_key c = Some k ->
    match s_rd s !! k with
      | Some e => goto (P_une (Some e)) s
      | None => if s_am s then goto P_dirty s else goto (P_une None) s
      end = Some (op, s', ev) ->
   exists p', op = Some p' /\ ev = [] /\ good s' (<[t := (c, p')]> thr) (h ≫= hvis)).
  { intros Hf k Hk Hq. destruct (s_rd s !! k) as [e|] eqn:Er.
    - injection Hq as <- <- <-. apply ret1.
      destruct (core_rd _ _ _ _ _ _ _ _ _ Hc Er) as (<- & Hlt & Hcur).
      apply Hgo; try done; [by intros e' <-|intros e' []].
    - destruct (s_am s) eqn:Ha; injection Hq as <- <- <-; apply ret1.
      + by eapply Hdirty.
      + rewrite <- (app_nil_r (h ≫= hvis)).
        eapply (good_item _ _ _ _ _ _ _ _ _ _ _ (ILin t)); try done; [by left|].
        cbn [stat]. eapply lin_none; [done| |by apply finding_ns].
        eapply miss_none; eauto. }
  assert (Hst : storing c -> forall k, call_key c = Some k ->
    match s_rd s !! k with
      | Some e => goto (P_unexp e) s
      | None => goto P_dirty s
      end = Some (op, s', ev) ->
   exists p', op = Some p' /\ ev = [] /\ good s' (<[t := (c, p')]> thr) (h ≫= hvis)).
  { intros Hf k Hk Hq. destruct (s_rd s !! k) as [e|] eqn:Er; injection Hq as <- <- <-; apply ret1.
    - destruct (core_rd _ _ _ _ _ _ _ _ _ Hc Er) as (<- & Hlt & Hcur).
      apply Hgo; try done; intros e' [].
    - eapply Hdirty; [done|done|by destruct c]. }
  destruct c; cbn in Hstep; try (eapply Hfind; [..|exact Hstep]; done);
    try (eapply Hst; [..|exact Hstep]; done).
  - destruct (s_rd s !! k) as [e|] eqn:Er; injection Hstep as <- <- <-; apply ret1.
    + destruct (core_rd _ _ _ _ _ _ _ _ _ Hc Er) as (<- & Hlt & Hcur).
      apply Hgo; [done|done|done| |by intros e' <-|by intros e' []].
      cbn. split; [done|]. split; [done|]. split; [done|]. done.
    + by eapply Hdirty.
  - case_decide as Hd; injection Hstep as <- <- <-; apply ret1.
    + destruct Hd as [Hr Ha]. pose proof (emap_empty _ _ _ _ _ _ _ Hc Hr Ha) as ->.
      rewrite <- (app_nil_r (h ≫= hvis)).
      eapply (good_item _ _ _ _ _ _ _ _ _ _ _ (ILin t)); try done.
      * right. split; [done|]. destruct Hs as (? & ? & _). done.
      * intros st Hst'. cbn. exists CClear. done.
    + apply Hgo; try done; intros e [].
  - destruct (s_am s) eqn:Ha; injection Hstep as <- <- <-; apply ret1.
    + apply Hgo; try done; intros e [].
    + rewrite <- (app_nil_r (h ≫= hvis)).
      eapply (good_item _ _ _ _ _ _ _ _ _ _ _ (ISnap t (dom (s_rd s)))); try done.
      * by left.
      * cbn [stat]. eapply snap_ok; [exact Hc|done|]. unfold emap. by rewrite Ha.
      * cbn. split; [done|]. by eapply rd_mapok.
      * intros e [k Hk]. right. by destruct (core_rd _ _ _ _ _ _ _ _ _ Hc Hk) as (_ & _ & ?).
  - destruct (s_am s) eqn:Ha; injection Hstep as <- <- <-; apply ret1.
    + apply Hgo; try done; intros e [].
    + rewrite <- (app_nil_r (h ≫= hvis)).
      eapply (good_item _ _ _ _ _ _ _ _ _ _ _ (ISnap t (dom (s_rd s)))); try done.
      * by left.
      * cbn [stat]. eapply snap_ok; [exact Hc|done|]. unfold emap. by rewrite Ha.
      * cbn. split; [done|]. by eapply rd_mapok.
      * intros e [k Hk]. right. by destruct (core_rd _ _ _ _ _ _ _ _ _ Hc Hk) as (_ & _ & ?).
  - done.
Qed.

(** Miss counting after a step under the lock. *)
Lemma good_miss s thr h kof m t c p tr :
  core s thr h kof m -> h ≫= hvis = tr -> thr !! t = Some (c, p) -> locked p = true -> phase_of p = Normal ->
  s_am s = true -> (forall s2, s_next s2 = s_next s -> pcinv c p s2 kof) ->
  good (missLocked s) thr tr.
Proof.
  intros Hc <- Ht Hlp Hph Ha Hp.
  destruct (core_miss deref veq s thr h kof m t c p Hc Ht Hlp Hph Ha Hp) as (h' & Hc' & <-).
  by exists h', kof, m.
Qed.

Lemma core_dirty s thr h kof m t c p k e :
  core s thr h kof m -> thr !! t = Some (c, p) -> locked p = true -> phase_of p = Normal ->
  s_rd s !! k = None -> dirty_map s !! k = Some e ->
  s_am s = true /\ kof e = k /\ e < s_next s /\ emap s !! kof e = Some e /\ s_ent s e <> SExp /\
  exists d, s_dirty s = Some d /\ d !! k = Some e.
Proof.
  intros Hc Ht Hlp Hph Hr Hd.
  destruct (holder_phase _ _ _ _ _ _ _ _ _ _ Hc Ht Hlp) as [Hl Hs]. rewrite Hph in Hs.
  pose proof Hs as (_ & Hdd & Hn). destruct (Hdd _ _ Hd) as [<- Hlt].
  unfold dirty_map in Hd.
  destruct (s_am s) eqn:Ha.
  - destruct Hn as (d & Ed & _ & Hn2). rewrite Ed in Hd.
    split; [done|]. split; [done|]. split; [done|]. split.
    + rewrite (emap_normal s kof _ Hs Ha), Hr. unfold dirty_map. by rewrite Ed.
    + split; [by eapply Hn2|]. eauto.
  - destruct Hn as [[Ed|[Ed _]] _]; by rewrite Ed in Hd.
Qed.

Lemma add_key_ok s thr h kof m t c k op s' ev :
  core s thr h kof m -> thr !! t = Some (c, P_dirty) -> storing c -> call_key c = Some k ->
  s_rd s !! k = None -> dirty_map s !! k = None ->
  add_key s = Some (op, s', ev) ->
  exists p', op = Some p' /\ ev = [] /\ good s' (<[t := (c, p')]> thr) (h ≫= hvis).
Proof.
  intros Hc Ht Hst Hk Hr Hd Hstep.
  destruct (holder_phase _ _ _ _ _ _ _ _ _ _ Hc Ht eq_refl) as [Hl Hs]. cbn [phase_of] in Hs.
  unfold add_key in Hstep. destruct (s_am s) eqn:Ha.
  - injection Hstep as <- <- <-. apply ret1. eapply good_goto; try done; [|by intros e []..].
    cbn. eauto 10.
  - pose proof Hs as (Hrd & Hdd & Hn). rewrite Ha in Hn. destruct Hn as [Hn Hx].
    destruct (s_dirty s) as [d|] eqn:Ed.
    + injection Hstep as <- <- <-. apply ret1. destruct Hn as [?|[[= ->] Hre]]; [done|].
      exists h, kof, m. split; [|done]. eapply core_shape; try done.
      * split; [done|]. split; [done|]. split; [done|]. exists ∅. split; [done|].
        split; [done|]. split; [done|]. intros k' e'. by rewrite Hre.
      * cbn. eauto.
      * by intros e [[]|[]].
    + injection Hstep as <- <- <-. apply ret1.
      exists h, kof, m. split; [|done]. eapply core_shape; try done.
      * intros k'. unfold emap. cbn. by rewrite Ha.
      * split; [done|]. split; [done|]. split; [done|]. exists ∅. split; [done|].
        cbn. split; [|split; [done|congruence]]. intros k' e' He'. split; [done|]. split; [by eapply Hx|done].
      * cbn. eauto.
      * by intros e [[]|[]].
Qed.

Lemma step_P_dirty s thr h kof m t c op s' ev :
  core s thr h kof m -> thr !! t = Some (c, P_dirty) ->
  step_dirty c s = Some (op, s', ev) ->
  exists p', op = Some p' /\ ev = [] /\ good s' (<[t := (c, p')]> thr) (h ≫= hvis).
Proof.
  intros Hc Ht Hstep.
  destruct (i_pc _ _ _ _ _ _ _ Hc _ _ _ Ht) as (k & Hk & Hr & Ham).
  pose proof (fun e => core_dirty _ _ _ _ _ _ _ _ k e Hc Ht eq_refl eq_refl Hr) as Hde.
  assert (Hlin : dirty_map s !! k = None -> ~ storing c -> forall p', locked p' = true -> phase_of p' = Normal ->
    stat (c, p') = ADone c (ret_of c (absent c)) -> pcinv c p' s kof -> nohold p' ->
    exists h', core s (<[t := (c, p')]> thr) h' kof m /\ h' ≫= hvis = h ≫= hvis).
  { intros Hd Hns p' Hlp Hph Hst Hpc Hnh.
    exists (h ++ [HI (ILin t)]). split; [|rewrite bind_app; cbn; by rewrite app_nil_r].
    eapply core_item; try done.
    - by left.
    - by left.
    - right. exists (ILin t). split; [done|]. split; [done|]. rewrite Hst. eapply lin_none; try done.
      eapply miss_none; eauto.
    - intros e Hp. by destruct (Hnh e).
    - intros e Hp. by destruct (Hnh e). }
  assert (Hpct : forall p', <[t := (c, p')]> thr !! t = Some (c, p')) by (intros; apply lookup_insert).
  assert (Hfind : finding c -> ~ deleting c ->
    exists p', Some (P_une (dirty_map s !! k)) = Some p' /\ [] = @nil (event K V) /\
      good (missLocked s) (<[t := (c, p')]> thr) (h ≫= hvis)).
  { intros Hf Hnd. apply ret1. destruct (dirty_map s !! k) as [e|] eqn:Ed.
    - destruct (Hde e eq_refl) as (Ha & <- & Hlt & Hcur & _).
      eapply (good_miss s _ (h ++ []) kof m t c (P_une (Some e))); [|by rewrite app_nil_r|done..|].
      + eapply core_item; [exact Hc|exact Ht|apply soft_refl|done|by left|by left|by left|done|
          intros e' <-; by right|by intros e' []|by intros e' _ []].
      + intros s2 Hs2. cbn. by rewrite Hs2.
    - destruct (Hlin eq_refl ltac:(eauto using finding_ns, deleting_finding) (P_une None)) as (h' & Hc' & Hv'); try done.
      + by intros e; split; intros [].
      + eapply (good_miss s _ h' kof m t c (P_une None)); try done. by apply Ham. }
  assert (Hdelc : deleting c ->
    exists p', Some (P_une (dirty_map s !! k)) = Some p' /\ [] = @nil (event K V) /\
      good (missLocked (set_dirty (delete k <$> s_dirty s) s)) (<[t := (c, p')]> thr) (h ≫= hvis)).
  { intros Hd. apply ret1. destruct (dirty_map s !! k) as [e|] eqn:Ed.
    - destruct (Hde e eq_refl) as (Ha & Hke & Hlt & Hcur & _ & d & Hd' & Hdk). rewrite Hd'. cbn [fmap option_fmap option_map].
      destruct (core_dirty_delete deref veq _ _ _ _ _ _ _ _ _ _ Hc Ht Hd Hk Hr Ha Hd' Hdk) as (h' & m' & Hc' & Hv').
      eapply (good_miss _ _ h' kof m' t c (P_une (Some e))); try done.
      intros s2 Hs2. cbn in *. rewrite Hs2. split; [by destruct c|]. by rewrite Hke.
    - assert (Hsame : set_dirty (delete k <$> s_dirty s) s = s).
      { destruct s as [rd am d en nx ms ln lk]. unfold set_dirty. cbn. f_equal.
        destruct d as [d|]; [|done]. cbn in *. f_equal. by apply delete_notin. }
      rewrite Hsame.
      destruct (Hlin eq_refl ltac:(eauto using finding_ns, deleting_finding) (P_une None)) as (h' & Hc' & Hv'); try done.
      + by destruct c.
      + by intros e; split; intros [].
      + eapply (good_miss s _ h' kof m t c (P_une None)); try done; [by apply Ham; destruct c|by destruct c]. }
  assert (Hcash : los_or_cas c -> forall e, dirty_map s !! k = Some e ->
    good s (<[t := (c, E_load e LckMiss)]> thr) (h ≫= hvis)).
  { intros Hlc e Ed. destruct (Hde e Ed) as (Ha & <- & Hlt & Hcur & Hx & _).
    eapply good_goto; try done.
    - cbn. split; [done|]. split; [done|]. split; [done|]. split; [done|]. split; [by destruct c|done].
    - intros e' <-. by right. }
  assert (Hswap : swapping c -> match dirty_map s !! k with
      | Some e => goto (P_swap e) s
      | None => add_key s
      end = Some (op, s', ev) ->
    exists p', op = Some p' /\ ev = [] /\ good s' (<[t := (c, p')]> thr) (h ≫= hvis)).
  { intros Hsw Hq. destruct (dirty_map s !! k) as [e|] eqn:Ed.
    - injection Hq as <- <- <-. apply ret1.
      destruct (Hde e eq_refl) as (Ha & <- & Hlt & Hcur & Hx & _).
      eapply good_goto; try done; by intros e' [].
    - eapply add_key_ok; try done. by destruct c. }
  destruct c; cbn in Hstep; try done; injection Hk as ->.
  - injection Hstep as <- <- <-. apply Hfind; cbn; tauto.
  - by apply Hswap.
  - by apply Hswap.
  - destruct (dirty_map s !! k) as [e|] eqn:Ed.
    + injection Hstep as <- <- <-. apply ret1. by apply Hcash.
    + eapply add_key_ok; try done.
  - injection Hstep as <- <- <-. by apply Hdelc.
  - injection Hstep as <- <- <-. by apply Hdelc.
  - destruct (dirty_map s !! k) as [e|] eqn:Ed; injection Hstep as <- <- <-; apply ret1.
    + by apply Hcash.
    + destruct (Hlin eq_refl ltac:(by intros []) (P_un (RBool false))) as (h' & Hc' & Hv'); try done.
      * by intros e; split; intros [].
      * by exists h', kof, m.
  - injection Hstep as <- <- <-. apply Hfind; cbn; tauto.
Qed.

Lemma dirty_store_ok s d k e p : s_dirty s = Some d ->
  dirty_store k e p s = Some (Some p, set_dirty (Some (<[k := e]> d)) s, @nil (event K V)).
Proof. intros E. unfold dirty_store. by rewrite E. Qed.

Lemma step_P_unexp s thr h kof m t c e op s' ev :
  core s thr h kof m -> thr !! t = Some (c, P_unexp e) ->
  step deref zero veq t c (P_unexp e) s LTick = Some (op, s', ev) ->
  exists p', op = Some p' /\ ev = [] /\ good s' (<[t := (c, p')]> thr) (h ≫= hvis).
Proof.
  intros Hc Ht Hstep.
  destruct (holder_phase _ _ _ _ _ _ _ _ _ _ Hc Ht eq_refl) as [Hl Hs]. cbn [phase_of] in Hs.
  destruct (i_pc _ _ _ _ _ _ _ Hc _ _ _ Ht) as (Hst & Hk & Hr).
  destruct (core_rd _ _ _ _ _ _ _ _ _ Hc Hr) as (_ & Hlt & Hcur).
  set (next := (match c with CLoadOrStore _ _ => E_load e Lck | _ => P_swap e end : pc)) in *.
  assert (Hpc : forall s2, s_next s2 = s_next s -> emap s2 !! kof e = Some e -> s_ent s2 e <> SExp -> pcinv c next s2 kof).
  { intros s2 Hn He Hx. unfold next. destruct c; try done; cbn; rewrite Hn; split_and!; try done. }
  assert (Hn1 : locked next = true) by (unfold next; by destruct c).
  assert (Hn2 : phase_of next = Normal) by (unfold next; by destruct c).
  assert (Hn3 : stat (c, next) = AInv_ c) by (unfold next; by destruct c).
  assert (Hn4 : forall e', holds next e' -> e' = e) by (unfold next; intros e'; destruct c; cbn; tauto || congruence).
  assert (Hn5 : forall e', ~ rholds next e') by (unfold next; intros e'; destruct c; cbn; tauto).
  cbn in Hstep. fold next in Hstep.
  destruct (decide (s_ent s e = SExp)) as [Hx|Hx].
  - rewrite Hx, Hk in Hstep.
    pose proof Hs as (Hrd & Hdd & Hn). destruct (s_am s) eqn:Ha; [|by destruct (proj2 Hn _ _ Hr)].
    destruct Hn as (d & Ed & Hna & Hnb).
    rewrite (dirty_store_ok _ d) in Hstep by done. injection Hstep as <- <- <-. apply ret1.
    assert (Hdk : d !! kof e = None) by (destruct (Hna _ _ Hr) as [[_ ?]|[? _]]; done).
    assert (Edm : dirty_map s = d) by (unfold dirty_map; by rewrite Ed). rewrite Edm in Hdd.
    set (s2 := set_dirty (Some (<[kof e := e]> d)) (set_ent e SNil s)).
    assert (Hem : forall k, emap s2 !! k = emap s !! k).
    { intros k. unfold emap, s2, dirty_map. cbn. rewrite Ha, Ed, !lookup_union.
      destruct (decide (k = kof e)) as [->|Hne].
      - rewrite Hr, lookup_insert, Hdk. done.
      - by rewrite lookup_insert_ne. }
    exists h, kof, m. split; [|done]. eapply core_shape; try done.
    + intros e' Hne. cbn. rewrite fn_lookup_insert_ne; [done|]. intros ->. done.
    + intros e'. cbn. destruct (decide (e' = e)) as [->|Hne]; [by rewrite fn_lookup_insert, Hx|].
      by rewrite fn_lookup_insert_ne.
    + rewrite Hn2. unfold s2. split; [done|]. split.
      * intros k e'. cbn. intros [[<- <-]|[Hne He']]%lookup_insert_Some; [done|by apply Hdd].
      * cbn. rewrite Ha. eexists. split; [done|]. split.
        -- intros k e' He'. destruct (decide (e' = e)) as [->|Hne].
           ++ right. rewrite fn_lookup_insert. split; [done|].
              rewrite <- (proj1 (Hrd _ _ He')). apply lookup_insert.
           ++ rewrite fn_lookup_insert_ne by done.
              assert (kof e <> k) by (intros <-; congruence). rewrite lookup_insert_ne by done. by apply Hna.
        -- intros k e'. intros [[<- <-]|[Hne He']]%lookup_insert_Some; [by rewrite fn_lookup_insert|].
           rewrite fn_lookup_insert_ne; [by eapply Hnb|].
           intros <-. by rewrite <- (proj1 (Hdd _ _ He')) in Hne.
    + apply Hpc; [done|by rewrite Hem|]. cbn. by rewrite fn_lookup_insert.
    + intros e' [Hp|Hp]; [by rewrite (Hn4 _ Hp)|by apply Hn5 in Hp].
  - assert (Hq : Some (Some next, s, @nil (event K V)) = Some (op, s', ev)).
    { rewrite <- Hstep. by destruct (s_ent s e). }
    injection Hq as <- <- <-. apply ret1. eapply good_goto; try done.
    + by apply Hpc.
    + intros e' Hp. right. by rewrite (Hn4 _ Hp).
    + intros e' Hp. by apply Hn5 in Hp.
Qed.

End steps2.
