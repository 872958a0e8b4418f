(** The kinds of steps of rwmap, each preserving the invariant. *)
From Verif Require Import Base RwMapModel RwMapSpec RwMapInv RwMapFrame.

Section moves.
Context {K : Type} `{Countable K} {V : Type}.
Context (deref : nat -> V) (veq : V -> V -> option bool).
Local Notation call := (call K V).
Local Notation result := (result V).
Local Notation pc := (pc K V).
Local Notation shared := (shared K).
Local Notation astate := (astate K V).
Local Notation hitem := (hitem (K := K) (V := V)).
Local Notation hrun := (hrun deref veq).
Local Notation hstep := (hstep deref veq).
Local Notation core := (core deref veq).
Local Notation slot_val := (slot_val deref).
Local Notation pcinv := (pcinv deref veq).
Local Notation seq_res := (seq_res deref veq).
Local Notation seq_next := (seq_next deref veq).

Definition nohold (p : pc) : Prop := forall e, ~ holds p e /\ ~ rholds p e.

(** The invariant, with the history hidden. *)
Definition good (s : shared) (thr : gmap nat (call * pc)) (tr : list (event K V)) : Prop :=
  exists h kof m, core s thr h kof m /\ h ≫= hvis = tr.

(** What the call [c] on a key [k] with the entry value [x] does: result [r], new value [x']. *)
Definition op_ok (c : call) (k : K) (x x' : slot) (r : result) : Prop :=
  forall m0 : gmap K V, m0 !! k = slot_val x ->
    seq_res m0 c = r /\ seq_next m0 c !! k = slot_val x' /\
    forall k', k' <> k -> seq_next m0 c !! k' = m0 !! k'.

Lemma some_map (k : K) (o : option V) : exists m0 : gmap K V, m0 !! k = o.
Proof. destruct o as [v|]; [exists {[k := v]}; apply lookup_singleton | exists ∅; done]. Qed.

Lemma op_deleting c k x x' r :
  op_ok c k x x' r -> call_key c = Some k -> deleting c -> slot_val x' = None.
Proof.
  intros Hop Hk Hd. destruct (some_map k (slot_val x)) as [m0 Hm0].
  destruct (Hop m0 Hm0) as (_ & <- & _). destruct c; try done; cbn in *; injection Hk as ->; apply lookup_delete.
Qed.

Lemma op_nonwriter c k x x' r :
  op_ok c k x x' r -> call_key c = Some k -> slot_val x = None -> slot_val x' = None \/ writer c.
Proof.
  intros Hop Hk Hd. destruct (some_map k (slot_val x)) as [m0 Hm0].
  destruct (Hop m0 Hm0) as (_ & <- & _). rewrite Hd in Hm0.
  destruct c; try done; cbn in *; try (by right); injection Hk as ->; left; try done; try apply lookup_delete.
  by rewrite Hm0.
Qed.

(** A call acts on the entry of its key. *)
Lemma core_lin (s : shared) thr (h : list hitem) kof m t c p e (s' : shared) p' r :
  core s thr h kof m ->
  thr !! t = Some (c, p) -> call_key c = Some (kof e) -> atomic_call c ->
  stat (c, p) = AInv_ c -> stat (c, p') = ADone c r ->
  e < s_next s ->
  soft s s' -> s_lock s' = s_lock s -> (forall e', e' <> e -> s_ent s' e' = s_ent s e') ->
  pcinv c p' s' kof -> locked p' = locked p -> phase_of p' = phase_of p -> nohold p' ->
  (forall e', holds p e' -> e' = e) ->
  op_ok c (kof e) (s_ent s e) (s_ent s' e) r ->
  emap s !! kof e = Some e \/ (holds p e /\ locked p = false) ->
  exists h' m', core s' (<[t := (c, p')]> thr) h' kof m' /\ h' ≫= hvis = h ≫= hvis.
Proof.
  intros Hc Ht Hk Hat Hst Hst' He Hsoft Hlock Hent Hpc' Hlp Hph Hnh Hh1 Hop Hcase.
  pose proof (soft_emap _ _ Hsoft) as Ee. pose proof Hsoft as (E1 & E2 & E3 & E4 & Hexp).
  destruct (decide (emap s !! kof e = Some e)) as [Hcur|Hcur].
  - exists (h ++ [HI (ILin t)]), (seq_next m c). split; [|by rewrite bind_app; cbn; rewrite app_nil_r].
    pose proof Hc as [Hrun Hmap Hs Hpc Hlk Hlk2 _ _ _ _].
    assert (Hme : m !! kof e = slot_val (s_ent s e)) by by rewrite Hmap, Hcur.
    destruct (Hop m Hme) as (Hr & Hn1 & Hn2).
    eapply (core_append _ _ _ _ _ _ _ t [HI (ILin t)]); [exact Hc|..].
    + eexists. split; [|done]. cbn. exists c. rewrite lookup_fmap, Ht. cbn [fmap option_fmap option_map].
      rewrite Hst. split; [done|]. split; [done|]. rewrite fmap_insert, Hst', Hr. done.
    + intros t' Hne. by rewrite lookup_insert_ne.
    + intros k. rewrite Ee. destruct (decide (k = kof e)) as [->|Hne].
      * rewrite Hcur. cbn. done.
      * rewrite Hn2, Hmap by done. destruct (emap s !! k) as [e'|] eqn:Ek; [|done]. cbn.
        rewrite Hent; [done|]. intros ->. by destruct (emap_ok _ _ _ _ _ Hs Ek).
    + assert (the_phase s' (<[t := (c, p')]> thr) = the_phase s thr) as ->; [|by eapply soft_sinv].
      unfold the_phase. rewrite Hlock. destruct (s_lock s) as [u|]; [|done].
      destruct (decide (u = t)) as [->|Hne]; [by rewrite lookup_insert, Ht|by rewrite lookup_insert_ne].
    + intros t' c' p'' Ht'. destruct (decide (t' = t)) as [->|Hn].
      * rewrite lookup_insert in Ht'. by injection Ht' as <- <-.
      * rewrite lookup_insert_ne in Ht' by done. eapply soft_pcinv; [done|]. by eapply Hpc.
    + intros t' c' p'' Ht'. rewrite Hlock. destruct (decide (t' = t)) as [->|Hn].
      * rewrite lookup_insert in Ht'. injection Ht' as <- <-. rewrite Hlp. by eapply Hlk.
      * rewrite lookup_insert_ne in Ht' by done. by eapply Hlk.
    + intros t'. rewrite Hlock. intros Hl. destruct (decide (t' = t)) as [->|Hn]; [by rewrite lookup_insert|].
      rewrite lookup_insert_ne by done. by apply Hlk2.
    + by rewrite E4.
    + done.
    + by rewrite Ee.
    + intros i ->%elem_of_list_singleton. by right.
    + intros i k e' ->%elem_of_list_singleton. cbn. done.
    + rewrite E4, Ee. intros e' He' Hc'. split; [done|]. left. split; [done|]. split.
      { apply Hent. congruence. }
      rewrite lookup_insert. split; intros c' p'' [= <- <-] Hp''; exfalso; by destruct (Hnh e').
    + intros c' p'' e' Ht' Hd' Hp'' He' Hc'. rewrite Ht in Ht'. injection Ht' as <- <-.
      apply Hh1 in Hp'' as ->. done.
    + intros k e' td Hin. by apply elem_of_list_singleton in Hin.
  - destruct Hcase as [?|[Hhp Hlp0]]; [done|].
    destruct (core_insert deref veq s thr h kof m t c p e (ILin t) (upd t (ADone c r)) s' p')
      as (h' & Hc' & Hv'); [..|by exists h', m]; try done.
    + by rewrite Hlp.
    + intros e' Hp. by destruct (Hnh e').
    + intros e' Hp. exfalso. by destruct (Hnh e').
    + intros Hd _. by eapply op_deleting.
    + intros Hn. destruct (op_nonwriter _ _ _ _ _ Hop Hk Hn); auto.
    + unfold upd. cbn. by rewrite fmap_insert, Hst'.
    + intros h1 i h2 a1 Eh Hr1 Ho Hv Hm Hq _ Hr2. specialize (Hq Hhp).
      destruct (Hop (a_map a1) Hv) as (Hr & Hn1 & Hn2).
      assert (Hst1 : a_st a1 !! t = Some (AInv_ c)).
      { destruct (hrun_upd deref veq t (AInv_ c) _ _ _ Hq Hr2) as [_ <-]. cbn [a_st]. rewrite lookup_fmap, Ht.
        change (Some (stat (c, p)) = Some (AInv_ c)). by rewrite Hst. }
      exists (mk_astate (seq_next (a_map a1) c) (<[t := ADone c r]> (a_st a1))).
      split. { cbn. exists c. rewrite Hr. done. }
      split; [done|]. split; [done|].
      intros [|i' u] v a3 Eu Hu0 Hu; [done|]. cbn in Eu. injection Eu as <- Eu.
      destruct Hu as (a2 & Hi & Hu).
      assert (Hi' : hstep (mk_astate (seq_next (a_map a1) c) (<[t := ADone c r]> (a_st a1))) i (upd t (ADone c r) a2)).
      { assert (Hoi : own i <> Some t) by (apply Hq; left).
        destruct i as [j|u0 os|k0 e0 t0|os]; cbn in Ho, Hi |- *.
        - done.
        - destruct Hi as [Hi ->]. unfold upd. cbn. assert (u0 <> t) by (intros ->; by apply Hoi).
          rewrite lookup_insert_ne by done. split; [done|]. by rewrite insert_commute.
        - subst a2. unfold upd. cbn. f_equal.
          apply lookup_singleton_Some in Ho as [-> _].
          apply map_eq. intros k'. destruct (decide (k' = kof e)) as [->|Hne]; [by rewrite !lookup_delete|].
          rewrite !lookup_delete_ne by done. symmetry. by apply Hn2.
        - subst a2. unfold upd. f_equal. pose proof (Hm os eq_refl) as Hx.
          apply map_eq. intros k'. destruct (decide (k' = kof e)) as [->|Hne]; [|symmetry; by apply Hn2].
          rewrite Hn1, Hv. rewrite Hx. by rewrite (proj2 (Hexp e) Hx). }
      eexists. split; [exact Hi'|].
      destruct (hrun_upd deref veq t (ADone c r) a2 u a3) as [Hu' _]; [|done|done].
      intros y Hy. apply Hq. right. rewrite Eu. apply elem_of_app. by left.
Qed.

(** Range looks at one key. *)
Lemma core_see (s : shared) thr (h : list hitem) kof m t c k e todo n p' :
  core s thr h kof m ->
  thr !! t = Some (c, R_load k e todo n) ->
  p' = match slot_val (s_ent s e) with Some v => R_call k v todo n | None => R_next todo n end ->
  exists h', core s (<[t := (c, p')]> thr) h' kof m /\ h' ≫= hvis = h ≫= hvis.
Proof.
  intros Hc Ht Hp'.
  pose proof Hc as [Hrun Hmap Hs Hpc Hlk Hlk2 _ _ _ _].
  destruct (Hpc _ _ _ Ht) as (Hrc & Hmok & Htk).
  destruct (Hmok k e) as (Hke & He); [by rewrite lookup_insert|].
  assert (Hmok' : mapok kof (s_next s) todo).
  { intros k' e' Hk'. apply Hmok. destruct (decide (k' = k)) as [->|?]; [congruence|]. by rewrite lookup_insert_ne. }
  assert (Hlp : locked p' = false) by (rewrite Hp'; by destruct (slot_val _)).
  assert (Hpc' : pcinv c p' s kof) by (rewrite Hp'; by destruct (slot_val _)).
  assert (Hnh : forall e', ~ holds p' e') by (intros e'; rewrite Hp'; destruct (slot_val _); cbn; tauto).
  assert (Hrh : forall e', rholds p' e' -> exists k', todo !! k' = Some e')
    by (intros e'; rewrite Hp'; destruct (slot_val _); cbn; tauto).
  assert (Hst' : stat (c, p') = AIter c (dom todo) (match slot_val (s_ent s e) with Some v => {[k := v]} | None => ∅ end) n).
  { rewrite Hp'. by destruct (slot_val _). }
  assert (Hdom : ({[k]} ∪ dom todo) ∖ {[k]} = dom todo).
  { assert (k ∉ dom todo) by by apply not_elem_of_dom. set_solver. }
  assert (Hrne : forall e', rholds p' e' -> kof e' <> kof e).
  { intros e' Hp. destruct (Hrh _ Hp) as [k' Hk']. destruct (Hmok' _ _ Hk') as [Hk1 _]. intros E.
    assert (k' = k) by congruence. congruence. }
  destruct (decide (emap s !! kof e = Some e)) as [Hcur|Hcur].
  - exists (h ++ [HI (ISee t k)]). split; [|by rewrite bind_app; cbn; rewrite app_nil_r].
    eapply (core_append _ _ _ _ _ _ _ t [HI (ISee t k)]); [exact Hc|..].
    + eexists. split; [|done]. cbn. rewrite lookup_fmap, Ht.
      exists c, ({[k]} ∪ dom todo), ∅, n. split; [done|]. split; [set_solver|].
      rewrite fmap_insert, Hst', Hdom, Hmap. rewrite <- Hke, Hcur. cbn.
      by destruct (slot_val (s_ent s e)).
    + intros t' Hne. by rewrite lookup_insert_ne.
    + done.
    + assert (the_phase s (<[t := (c, p')]> thr) = the_phase s thr) as ->; [|done].
      unfold the_phase. destruct (s_lock s) as [u|] eqn:El; [|done].
      destruct (decide (u = t)) as [->|Hne]; [|by rewrite lookup_insert_ne].
      by pose proof (proj2 (Hlk _ _ _ Ht) eq_refl).
    + intros t' c' p'' Ht'. destruct (decide (t' = t)) as [->|Hn].
      * rewrite lookup_insert in Ht'. by injection Ht' as <- <-.
      * rewrite lookup_insert_ne in Ht' by done. by eapply Hpc.
    + intros t' c' p'' Ht'. destruct (decide (t' = t)) as [->|Hn].
      * rewrite lookup_insert in Ht'. injection Ht' as <- <-. rewrite Hlp.
        split; [done|]. intros El. by apply (Hlk _ _ _ Ht) in El.
      * rewrite lookup_insert_ne in Ht' by done. by eapply Hlk.
    + intros t' Hl. destruct (decide (t' = t)) as [->|Hn]; [by rewrite lookup_insert|].
      rewrite lookup_insert_ne by done. by apply Hlk2.
    + done.
    + done.
    + done.
    + intros i ->%elem_of_list_singleton. by right.
    + intros i k' e' ->%elem_of_list_singleton. cbn. done.
    + intros e' He' Hc'. split; [done|]. left. split; [done|]. split; [done|].
      rewrite lookup_insert. split; intros c' p'' [= <- <-] Hp''; [by apply Hnh in Hp''|]. split.
      * intros y ->%elem_of_list_singleton _. exists k. split; [|by left]. rewrite <- Hke. apply not_eq_sym, Hrne. done.
      * exists (R_load k e todo n). split; [done|]. cbn. right. by apply Hrh.
    + intros c' p'' e' Ht' Hd' Hp'' He' Hc'. rewrite Ht in Ht'. by injection Ht' as <- <-.
    + intros k' e' td Hin. by apply elem_of_list_singleton in Hin.
  - destruct (core_insert deref veq s thr h kof m t c (R_load k e todo n) e (ISee t k)
      (see t k (slot_val (s_ent s e))) s p')
      as (h' & Hc' & Hv'); [..|by exists h']; try done.
    + intros e' Hp. split; [cbn; right; by apply Hrh|]. split; [by apply Hrne|]. by rewrite Hke.
    + by left.
    + apply see_map.
    + unfold see. cbn. rewrite lookup_fmap, Ht. cbn. unfold upd. cbn. rewrite fmap_insert, Hst', Hdom.
      by destruct (slot_val (s_ent s e)).
    + intros h1 i h2 a1 Eh Hr1 Ho Hv Hm _ Hq Hr2. rewrite Hke in *. specialize (Hq ltac:(by left)).
      assert (Hrg : ranging t k a1).
      { eapply hrun_back; [exact Hq|exact Hr2|]. do 4 eexists. cbn. rewrite lookup_fmap, Ht. split; [done|]. set_solver. }
      pose proof Hrg as (c1 & ks & vis & n1 & Hst1 & Hin).
      exists (see t k (slot_val (s_ent s e)) a1).
      split. { cbn. do 4 eexists. split; [exact Hst1|]. split; [done|]. unfold see. rewrite Hst1, Hv. done. }
      rewrite see_map. split; [done|]. split; [done|].
      intros u v a3 Eu Hu0 Hu. apply hrun_see; [|done|done].
      intros y Hy. apply Hq. rewrite Eu. apply elem_of_app. by left.
Qed.

(** Steps that leave the contents alone. *)
Lemma core_local (s : shared) thr (h : list hitem) kof m t its (s' : shared) thr' :
  core s thr h kof m ->
  soft s s' -> (forall e, s_ent s' e = s_ent s e) ->
  (forall t', t' <> t -> thr' !! t' = thr !! t') ->
  hrun (mk_astate m (stat <$> thr)) its (mk_astate m (stat <$> thr')) ->
  (forall i, i ∈ its -> exists j, i = HI j /\ item_thr j = t) ->
  sinv (the_phase s' thr') s kof ->
  (forall c p, thr' !! t = Some (c, p) -> pcinv c p s kof) ->
  (forall c p, thr' !! t = Some (c, p) -> (locked p = true <-> s_lock s' = Some t)) ->
  (s_lock s' = Some t -> is_Some (thr' !! t)) ->
  (forall t', t' <> t -> s_lock s' = Some t' <-> s_lock s = Some t') ->
  (forall e c p, emap s !! kof e <> Some e -> thr' !! t = Some (c, p) -> holds p e ->
     its = [] /\ exists p0, thr !! t = Some (c, p0) /\ holds p0 e) ->
  (forall e c p, emap s !! kof e <> Some e -> thr' !! t = Some (c, p) -> rholds p e ->
     rquiet t (kof e) its /\ exists p0, thr !! t = Some (c, p0) /\ rholds p0 e) ->
  (forall e c p, e < s_next s -> emap s !! kof e <> Some e -> thr !! t = Some (c, p) -> deleting c -> holds p e ->
     slot_val (s_ent s e) = None \/ (its = [] /\ exists p', thr' !! t = Some (c, p') /\ holds p' e)) ->
  core s' thr' (h ++ its) kof m.
Proof.
  intros Hc Hsoft Hent Hthr Hr Hits Hs' Hpc' Hlk' Hlkt Hlko Hhold Hrhold Hdel.
  pose proof Hc as [Hrun Hmap Hs Hpc Hlk Hlk2 _ _ _ _].
  pose proof (soft_emap _ _ Hsoft) as Ee. pose proof Hsoft as (E1 & E2 & E3 & E4 & Hexp).
  eapply (core_append _ _ _ _ _ _ _ t its); [exact Hc|exact Hr|done|..].
  - intros k. rewrite Ee, Hmap. destruct (emap s !! k); [|done]. cbn. by rewrite Hent.
  - by eapply soft_sinv.
  - intros t' c' p'' Ht'. eapply soft_pcinv; [done|]. destruct (decide (t' = t)) as [->|Hn]; [by eapply Hpc'|].
    rewrite Hthr in Ht' by done. by eapply Hpc.
  - intros t' c' p'' Ht'. destruct (decide (t' = t)) as [->|Hn]; [by eapply Hlk'|].
    rewrite Hthr in Ht' by done. rewrite Hlko by done. by eapply Hlk.
  - intros t' Hl. destruct (decide (t' = t)) as [->|Hn]; [by apply Hlkt|].
    rewrite Hthr by done. apply Hlk2. by apply Hlko.
  - by rewrite E4.
  - done.
  - by rewrite Ee.
  - intros i Hi. destruct (Hits i Hi) as (j & -> & <-). by right.
  - intros i k e Hi. destruct (Hits i Hi) as (j & -> & <-). cbn. done.
  - rewrite E4, Ee. intros e' He' Hc'. split; [done|]. left. split; [done|]. split; [done|]. split.
    + intros c p Ht Hp. destruct (Hhold e' c p Hc' Ht Hp) as (-> & Hx). split; [|done].
      intros y Hy. by apply elem_of_nil in Hy.
    + intros c p Ht Hp. by apply (Hrhold e' c p Hc').
  - intros c p e Ht Hd Hp He Hc'. rewrite Hent.
    destruct (Hdel e c p He Hc' Ht Hd Hp) as [?|[-> (p' & Ht' & Hp')]]; [by left|].
    right. exists p'. split; [done|]. split; [done|]. split.
    + intros y Hy. by apply elem_of_nil in Hy.
    + intros k' e' Hy. by apply elem_of_nil in Hy.
  - intros k e td Hin. by destruct (Hits _ Hin) as (j & ? & _).
Qed.

(** Steps of the lock holder that reorganize the maps. *)
Lemma core_shape (s : shared) thr (h : list hitem) kof m t c p (s' : shared) p' :
  core s thr h kof m ->
  thr !! t = Some (c, p) -> locked p = true -> locked p' = true ->
  s_lock s' = s_lock s -> s_next s' = s_next s ->
  (forall k, emap s' !! k = emap s !! k) ->
  (forall k e, s_rd s !! k = Some e -> s_rd s' !! k = Some e) ->
  (forall e, emap s !! kof e <> Some e -> s_ent s' e = s_ent s e) ->
  (forall e, slot_val (s_ent s' e) = slot_val (s_ent s e)) ->
  stat (c, p') = stat (c, p) ->
  sinv (phase_of p') s' kof -> pcinv c p' s' kof ->
  (forall e, holds p e -> deleting c -> holds p' e) ->
  (forall e, holds p' e \/ rholds p' e -> emap s !! kof e = Some e) ->
  core s' (<[t := (c, p')]> thr) h kof m.
Proof.
  intros Hc Ht Hlp Hlp' Hlock Hn Hem Hrd Hent Hval Hst Hs' Hpc' Hdel Hhold.
  pose proof Hc as [Hrun Hmap Hs Hpc Hlk Hlk2 _ _ _ _].
  assert (Hl : s_lock s = Some t) by by apply (Hlk _ _ _ Ht).
  rewrite <- (app_nil_r h).
  eapply (core_append _ _ _ _ _ _ _ t []); [exact Hc|..].
  - cbn. f_equal. rewrite fmap_insert, Hst. apply insert_id. by rewrite lookup_fmap, Ht.
  - intros t' Hne. by rewrite lookup_insert_ne.
  - intros k. rewrite Hem, Hmap. destruct (emap s !! k); [|done]. cbn. by rewrite Hval.
  - unfold the_phase. by rewrite Hlock, Hl, lookup_insert.
  - intros t' c' p'' Ht'. destruct (decide (t' = t)) as [->|Hne].
    + rewrite lookup_insert in Ht'. by injection Ht' as <- <-.
    + rewrite lookup_insert_ne in Ht' by done. apply (unlocked_pcinv _ _ _ _ s _ kof).
      * destruct (locked p'') eqn:El; [|done]. apply (Hlk _ _ _ Ht') in El. congruence.
      * lia.
      * done.
      * intros e He Hce. right. rewrite Hem in Hce. auto.
      * by eapply Hpc.
  - intros t' c' p'' Ht'. rewrite Hlock. destruct (decide (t' = t)) as [->|Hne].
    + rewrite lookup_insert in Ht'. by injection Ht' as <- <-.
    + rewrite lookup_insert_ne in Ht' by done. by eapply Hlk.
  - intros t'. rewrite Hlock. intros Hl'. destruct (decide (t' = t)) as [->|Hne]; [by rewrite lookup_insert|].
    rewrite lookup_insert_ne by done. by apply Hlk2.
  - lia.
  - done.
  - intros e _. by rewrite Hem.
  - intros i Hi. by apply elem_of_nil in Hi.
  - intros i k e Hi. by apply elem_of_nil in Hi.
  - rewrite Hn. intros e He Hce. rewrite Hem in Hce. split; [done|]. left. split; [done|]. split; [by apply Hent|].
    rewrite lookup_insert. split; intros c' p'' [= <- <-] Hp''; exfalso; apply Hce, Hhold; auto.
  - intros c' p'' e Ht' Hd Hp He Hce. right. rewrite Ht in Ht'. injection Ht' as <- <-.
    exists p'. rewrite lookup_insert. split; [done|]. split; [by apply Hdel|]. split.
    + intros y Hy. by apply elem_of_nil in Hy.
    + intros k' e' Hy. by apply elem_of_nil in Hy.
  - intros k e td Hin. by apply elem_of_nil in Hin.
Qed.


Lemma unlocked_normal (p : pc) : locked p = false -> phase_of p = Normal.
Proof. by destruct p as [| | | | | | | | | | | | |[]| | | | |? []|? ? []| | | | | |]. Qed.

Definition lockrel (t : nat) (p p' : pc) (s s' : shared) : Prop :=
  (s_lock s' = s_lock s /\ locked p' = locked p) \/
  (locked p = true /\ locked p' = false /\ s_lock s' = None) \/
  (locked p = false /\ locked p' = true /\ s_lock s = None /\ s_lock s' = Some t).

(** One goroutine moves on, with at most one item of its own. *)
Lemma core_item (s : shared) thr (h : list hitem) kof m t c p p' (s' : shared) its :
  core s thr h kof m -> thr !! t = Some (c, p) ->
  soft s s' -> (forall e, s_ent s' e = s_ent s e) -> lockrel t p p' s s' ->
  (phase_of p' = phase_of p \/ (locked p = true /\ locked p' = true /\ sinv (phase_of p') s kof)) ->
  ((its = [] /\ stat (c, p') = stat (c, p)) \/
   (exists j, its = [HI j] /\ item_thr j = t /\
      (forall st, st !! t = Some (stat (c, p)) ->
         hstep (mk_astate m st) (HI j) (mk_astate m (<[t := stat (c, p')]> st))))) ->
  pcinv c p' s kof ->
  (forall e, holds p' e -> (its = [] /\ holds p e) \/ emap s !! kof e = Some e) ->
  (forall e, rholds p' e -> (rquiet t (kof e) its /\ rholds p e) \/ emap s !! kof e = Some e) ->
  (forall e, deleting c -> holds p e ->
     (its = [] /\ holds p' e) \/ emap s !! kof e = Some e) ->
  core s' (<[t := (c, p')]> thr) (h ++ its) kof m.
Proof.
  intros Hc Ht Hsoft Hent Hlr Hph Hits Hpc' Hh Hrh Hdel.
  pose proof Hc as [Hrun Hmap Hs Hpc Hlk Hlk2 _ _ _ _].
  assert (Hlt := Hlk _ _ _ Ht).
  eapply (core_local _ _ _ _ _ t its); [exact Hc|exact Hsoft|exact Hent|..].
  - intros t' Hne. by rewrite lookup_insert_ne.
  - rewrite fmap_insert. destruct Hits as [(-> & ->)|(j & -> & Hj & Hstep)].
    + cbn. f_equal. apply insert_id. by rewrite lookup_fmap, Ht.
    + eexists. split; [|done]. apply Hstep. by rewrite lookup_fmap, Ht.
  - intros i Hi. destruct Hits as [(-> & _)|(j & -> & Hj & _)]; [by apply elem_of_nil in Hi|].
    apply elem_of_list_singleton in Hi as ->. eauto.
  - unfold the_phase in *. destruct Hlr as [(El & Elp)|[(Hl1 & Hl2 & El)|(Hl1 & Hl2 & El0 & El)]]; rewrite El.
    + destruct (s_lock s) as [u|] eqn:Es; [|done].
      destruct (decide (u = t)) as [->|Hne].
      * rewrite lookup_insert. rewrite Ht in Hs.
        destruct Hph as [->|(_ & _ & ?)]; done.
      * by rewrite lookup_insert_ne.
    + rewrite (proj1 Hlt Hl1), Ht in Hs. destruct Hph as [Hph|(_ & ? & _)]; [|congruence].
      rewrite <- Hph, unlocked_normal in Hs; done.
    + rewrite lookup_insert. rewrite El0 in Hs. destruct Hph as [->|(? & _ & _)]; [|congruence].
      by rewrite unlocked_normal.
  - intros c' p''. rewrite lookup_insert. by intros [= <- <-].
  - intros c' p''. rewrite lookup_insert. intros [= <- <-].
    destruct Hlr as [(El & Elp)|[(Hl1 & Hl2 & El)|(Hl1 & Hl2 & El0 & El)]]; rewrite El.
    + by rewrite Elp.
    + by rewrite Hl2.
    + by rewrite Hl2.
  - by rewrite lookup_insert.
  - intros t' Hne. destruct Hlr as [(El & Elp)|[(Hl1 & Hl2 & El)|(Hl1 & Hl2 & El0 & El)]]; rewrite El.
    + done.
    + rewrite (proj1 Hlt Hl1). split; [done|congruence].
    + rewrite El0. split; [congruence|done].
  - intros e c' p'' Hce. rewrite lookup_insert. intros [= <- <-] Hp''.
    destruct (Hh e Hp'') as [(-> & ?)|?]; [|done]. eauto.
  - intros e c' p'' Hce. rewrite lookup_insert. intros [= <- <-] Hp''.
    destruct (Hrh e Hp'') as [(? & ?)|?]; [|done]. eauto.
  - intros e c' p'' He Hce. rewrite Ht. intros [= <- <-] Hd Hp.
    destruct (Hdel e Hd Hp) as [(-> & ?)|?]; [|done].
    right. rewrite lookup_insert. eauto.
Qed.

(** Promotion: the dirty map becomes the read map. *)
Lemma emap_normal (s : shared) kof k :
  sinv Normal s kof -> s_am s = true ->
  emap s !! k = match s_rd s !! k with Some e => Some e | None => dirty_map s !! k end.
Proof.
  intros _ Ha. unfold emap. rewrite Ha, lookup_union. by destruct (s_rd s !! k), (dirty_map s !! k).
Qed.

Lemma core_promote (s : shared) thr (h : list hitem) kof m t c p :
  core s thr h kof m -> thr !! t = Some (c, p) -> locked p = true -> phase_of p = Normal ->
  s_am s = true -> (forall s2, s_next s2 = s_next s -> pcinv c p s2 kof) ->
  exists h', core (promote s) thr h' kof m /\ h' ≫= hvis = h ≫= hvis.
Proof.
  intros Hc Ht Hlp Hph Ha Hp.
  pose proof Hc as [Hrun Hmap Hs Hpc Hlk Hlk2 _ _ _ _].
  assert (Hl : s_lock s = Some t) by by apply (Hlk _ _ _ Ht).
  assert (Hn : sinv Normal s kof).
  { unfold the_phase in Hs. by rewrite Hl, Ht, Hph in Hs. }
  pose proof (fun k => emap_normal s kof k Hn Ha) as Em.
  destruct Hn as (Hrd & Hdm & Hn). rewrite Ha in Hn. destruct Hn as (d & Ed & Hn1 & Hn2).
  assert (Edm : dirty_map s = d) by by unfold dirty_map; rewrite Ed.
  rewrite Edm in *.
  assert (Em' : forall k, emap (promote s) !! k = d !! k).
  { intros k. unfold emap, promote. cbn. by rewrite Edm. }
  assert (Hmok : forall k e, emap s !! k = Some e -> kof e = k /\ e < s_next s).
  { intros k e Hk. by eapply emap_ok. }
  assert (Hsub : forall k e, d !! k = Some e -> emap s !! k = Some e).
  { intros k e Hk. rewrite Em. destruct (s_rd s !! k) as [e'|] eqn:Er; [|done].
    destruct (Hn1 _ _ Er) as [[_ ?]|[_ ?]]; congruence. }
  assert (Hdrop : forall k e, emap s !! k = Some e -> d !! k <> Some e -> s_rd s !! k = Some e /\ s_ent s e = SExp).
  { intros k e Hk Hd. rewrite Em in Hk. destruct (s_rd s !! k) as [e'|] eqn:Er; [|done].
    injection Hk as ->. split; [done|]. destruct (Hn1 _ _ Er) as [[? _]|[_ ?]]; done. }
  set (os := filter (fun ke => s_ent s ke.2 = SExp) (s_rd s)).
  exists (h ++ [HMark os]). split; [|by rewrite bind_app; cbn; rewrite app_nil_r].
  eapply (core_append _ _ _ _ _ _ _ t [HMark os]); [exact Hc|..].
  - eexists. by split.
  - done.
  - intros k. rewrite Em', Hmap. cbn.
    destruct (emap s !! k) as [e|] eqn:Ek; cbn.
    + destruct (decide (d !! k = Some e)) as [->|Hd]; [done|].
      destruct (Hdrop _ _ Ek Hd) as [Er Ex]. rewrite Ex. cbn.
      destruct (d !! k) as [e'|] eqn:Ed'; [|done]. apply Hsub in Ed'. congruence.
    + destruct (d !! k) as [e'|] eqn:Ed'; [|done]. apply Hsub in Ed'. congruence.
  - unfold the_phase. cbn. rewrite Hl, Ht, Hph. split; [|split].
    + cbn. by rewrite Edm.
    + intros k e. done.
    + cbn. split; [by left|]. rewrite Edm. done.
  - intros t' c' p' Ht'. destruct (decide (t' = t)) as [->|Hne].
    + rewrite Ht in Ht'. injection Ht' as <- <-. by apply Hp.
    + apply (unlocked_pcinv _ _ _ _ s _ kof); [|done|done| |by eapply Hpc].
      * destruct (locked p') eqn:El; [|done]. apply (Hlk _ _ _ Ht') in El. congruence.
      * intros e He Hce. left. rewrite Em' in Hce. cbn. by rewrite Edm.
  - done.
  - done.
  - done.
  - done.
  - intros e _. rewrite Em'. apply Hsub.
  - intros i ->%elem_of_list_singleton. by left.
  - intros i k e ->%elem_of_list_singleton. cbn. intros Ho.
    apply map_filter_lookup_Some in Ho as [Hr Hx]. cbn in Hx.
    destruct (Hrd _ _ Hr) as [Hk He]. split; [done|]. rewrite Em', Em, Hk, Hr. split; [done|].
    intros Hd. by apply Hn2 in Hd.
  - cbn. intros e He Hce. rewrite Em' in Hce. split; [done|].
    destruct (decide (emap s !! kof e = Some e)) as [Hcur|Hcur].
    + right. split; [done|]. exists (HMark os). destruct (Hdrop _ _ Hcur Hce) as [Hr Hx].
      split; [done|]. split. { cbn. apply map_filter_lookup_Some. done. }
      split. { rewrite Hmap, Hcur. done. }
      split; done.
    + left. split; [done|]. split; [done|]. split.
      * intros c' p' Ht' Hp'. split; [|eauto]. intros y ->%elem_of_list_singleton. done.
      * intros c' p' Ht' Hp'. split; [|eauto]. intros y ->%elem_of_list_singleton. done.
  - intros c' p' e Ht' Hd Hp' He Hce. right. exists p'. split; [done|]. split; [done|]. split.
    + intros y ->%elem_of_list_singleton. done.
    + intros k' e' Hy. by apply elem_of_list_singleton in Hy.
  - intros k e td Hin. by apply elem_of_list_singleton in Hin.
Qed.

Lemma core_miss (s : shared) thr (h : list hitem) kof m t c p :
  core s thr h kof m -> thr !! t = Some (c, p) -> locked p = true -> phase_of p = Normal ->
  s_am s = true -> (forall s2, s_next s2 = s_next s -> pcinv c p s2 kof) ->
  exists h', core (missLocked s) thr h' kof m /\ h' ≫= hvis = h ≫= hvis.
Proof.
  intros Hc Ht Hlp Hph Ha Hp. unfold missLocked. case_decide.
  - exists (h ++ []). split; [|by rewrite app_nil_r].
    rewrite <- (insert_id thr t (c, p)) by done.
    eapply core_item; [exact Hc|exact Ht|..].
    + by repeat split.
    + done.
    + by left.
    + by left.
    + by left.
    + by apply Hp.
    + by left.
    + left. split; [|done]. intros y Hy. by apply elem_of_nil in Hy.
    + by left.
  - by eapply core_promote.
Qed.

End moves.
