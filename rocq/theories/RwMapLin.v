(** Every execution of rwmap is explained by a run of the atomic object. *)
From Verif Require Import Base RwMapModel RwMapSpec RwMapInv RwMapFrame RwMapMoves RwMapMoves2 RwMapStep RwMapStep2 RwMapStep3.

Section lin.
Context {K : Type} `{Countable K} {V : Type}.
Context (deref : nat -> V) (zero : V) (veq : V -> V -> option bool).
Local Notation call := (call K V).
Local Notation result := (result V).
Local Notation pc := (pc K V).
Local Notation shared := (shared K).
Local Notation hitem := (hitem (K := K) (V := V)).
Local Notation astate := (astate K V).
Local Notation item := (item K V).
Local Notation astep := (astep deref veq).
Local Notation arun := (arun deref veq).
Local Notation hrun := (hrun deref veq).
Local Notation hstep := (hstep deref veq).
Local Notation core := (core deref veq).
Local Notation good := (good deref veq).
Local Notation slot_val := (slot_val deref).
Local Notation pcinv := (pcinv deref veq).
Local Notation seq_res := (seq_res deref veq).
Local Notation seq_next := (seq_next deref veq).
Local Notation op_ok := (op_ok deref veq).

Implicit Types (s : shared) (thr : gmap nat (call * pc)) (h : list hitem) (c : call) (p : pc).

(** ** From a history with marks to a run of the atomic object *)
(** An item acts on the map and on the status of its goroutine only. *)
Lemma astep_frame (a : astate) (i : item) (a' b : astate) :
  astep a i a' -> a_map b = a_map a -> a_st b !! item_thr i = a_st a !! item_thr i ->
  exists b', astep b i b' /\ a_map b' = a_map a' /\ a_st b' !! item_thr i = a_st a' !! item_thr i /\
    forall t, t <> item_thr i -> a_st b' !! t = a_st b !! t /\ a_st a' !! t = a_st a !! t.
Proof.
  intros Hs Hm Ht. destruct b as [bm bst]. cbn in Hm. subst bm.
  destruct i as [u c|u r|u k v b|u|u ks|u k|u]; cbn in Ht, Hs |- *.
  - destruct Hs as [Hn ->]. eexists. split; [split; [congruence|done]|]. cbn. rewrite !lookup_insert.
    split; [done|]. split; [done|]. intros t Hne. by rewrite !lookup_insert_ne.
  - destruct Hs as [-> Hs]. eexists. split; [split; [done|by rewrite Ht]|]. cbn. rewrite !lookup_delete.
    split; [done|]. split; [done|]. intros t Hne. by rewrite !lookup_delete_ne.
  - destruct Hs as (c & ks & vis & n & Hst & Hv & Hb & ->). eexists.
    split; [exists c, ks, vis, n; rewrite Ht; by split_and!|]. cbn. rewrite !lookup_insert.
    split; [done|]. split; [done|]. intros t Hne. by rewrite !lookup_insert_ne.
  - destruct Hs as (c & Hst & Hc & ->). eexists. split; [exists c; rewrite Ht; by split_and!|]. cbn. rewrite !lookup_insert.
    split; [done|]. split; [done|]. intros t Hne. by rewrite !lookup_insert_ne.
  - destruct Hs as (c & Hst & Hc & Hd & ->). eexists. split; [exists c; rewrite Ht; by split_and!|]. cbn. rewrite !lookup_insert.
    split; [done|]. split; [done|]. intros t Hne. by rewrite !lookup_insert_ne.
  - destruct Hs as (c & ks & vis & n & Hst & Hk & ->). eexists.
    split; [exists c, ks, vis, n; rewrite Ht; by split_and!|]. cbn. rewrite !lookup_insert.
    split; [done|]. split; [done|]. intros t Hne. by rewrite !lookup_insert_ne.
  - destruct Hs as (c & n & Hst & ->). eexists. split; [exists c, n; rewrite Ht; by split_and!|]. cbn. rewrite !lookup_insert.
    split; [done|]. split; [done|]. intros t Hne. by rewrite !lookup_insert_ne.
Qed.

(** Nothing more happens to [t]. *)
Definition frozen (t : nat) (l : list hitem) : Prop :=
  quiet t l /\ forall k e, HDel k e t ∉ l.

Lemma frozen_cons t i l : frozen t (i :: l) -> own i <> Some t /\ (forall k e, i <> HDel k e t) /\ frozen t l.
Proof.
  intros [Hq Hd]. split; [apply Hq; left|]. split; [intros k e ->; apply (Hd k e); left|].
  split; [intros j Hj; apply Hq; by right|]. intros k e Hin. apply (Hd k e). by right.
Qed.

Lemma extract (h : list hitem) (a b a' : astate) :
  hrun a h a' -> a_map b = a_map a ->
  (forall t, a_st b !! t = a_st a !! t \/ (frozen t h /\ is_Some (a_st a !! t))) ->
  (forall h1 k e td h2 a1, h = h1 ++ HDel k e td :: h2 -> hrun a h1 a1 ->
     a_map a1 !! k = None \/
     (frozen td h2 /\ exists c, a_st a' !! td = Some (AInv_ c) /\ deleting c /\ call_key c = Some k)) ->
  exists l b', arun b l b' /\ observed l = h ≫= hvis /\ a_map b' = a_map a' /\
    forall t, a_st b' !! t = a_st a' !! t \/ is_Some (a_st a' !! t).
Proof.
  revert a b. induction h as [|i h IH]; intros a b Hr Hm Hst Hd.
  - cbn in Hr. subst a'. exists [], b. split; [done|]. split; [done|]. split; [done|]. intros t.
    destruct (Hst t) as [?|[_ ?]]; [by left|by right].
  - destruct Hr as (a1 & Hs & Hr).
    assert (Hd1 : forall h1 k e td h2 a2, h = h1 ++ HDel k e td :: h2 -> hrun a1 h1 a2 ->
       a_map a2 !! k = None \/
       (frozen td h2 /\ exists c, a_st a' !! td = Some (AInv_ c) /\ deleting c /\ call_key c = Some k)).
    { intros h1 k e td h2 a2 -> Hr1. apply (Hd (i :: h1) k e td h2); [done|]. by exists a1. }
    destruct i as [j|t os|k e td|os].
    + cbn in Hs. destruct (Hst (item_thr j)) as [Hj|[Hf _]]; [|by apply frozen_cons in Hf as [[] _]].
      destruct (astep_frame _ _ _ b Hs Hm Hj) as (b1 & Hb1 & Hm1 & Hj1 & Hoth).
      edestruct (IH a1 b1 Hr Hm1) as (l & b' & Hl & Ho & Hm' & Ht'); [|done|].
      * intros t. destruct (decide (t = item_thr j)) as [->|Hne]; [by left|].
        destruct (Hoth t Hne) as [-> ->]. destruct (Hst t) as [?|[Hf ?]]; [by left|right].
        split; [|done]. by apply frozen_cons in Hf as (_ & _ & ?).
      * exists (j :: l), b'. split; [by exists b1|]. split; [|done]. cbn. by rewrite <- Ho.
    + destruct Hs as [Hc ->]. destruct (Hst t) as [Hj|[Hf _]]; [|by apply frozen_cons in Hf as [[] _]].
      edestruct (IH _ (mk_astate ∅ (<[t := ADone CClear RUnit]> (a_st b))) Hr) as (l & b' & Hl & Ho & Hm' & Ht'); [done| |done|].
      * intros u. cbn. destruct (decide (u = t)) as [->|Hne]; [left; by rewrite !lookup_insert|].
        rewrite !lookup_insert_ne by done. destruct (Hst u) as [?|[Hf ?]]; [by left|right].
        split; [|done]. by apply frozen_cons in Hf as (_ & _ & ?).
      * exists (ILin t :: l), b'. split; [|done]. eexists. split; [|done].
        exists CClear. split; [congruence|]. by split.
    + cbn in Hs. subst a1.
      destruct (Hd [] k e td h a eq_refl eq_refl) as [Hn|(Hf & c & Hc & Hdl & Hk)].
      * edestruct (IH _ b Hr) as (l & b' & Hl & Ho & Hm' & Ht'); [|  |done|].
        -- cbn. by rewrite delete_notin.
        -- intros u. cbn. destruct (Hst u) as [?|[Hf ?]]; [by left|right].
           split; [|done]. by apply frozen_cons in Hf as (_ & _ & ?).
        -- by exists l, b'.
      * assert (Hat : a_st a !! td = Some (AInv_ c)).
        { rewrite <- Hc. symmetry. apply (hrun_upd deref veq td (AInv_ CClear) _ h a' (proj1 Hf) Hr). }
        destruct (Hst td) as [Hj|[Hf2 _]]; [|apply frozen_cons in Hf2 as (_ & Hf2 & _); by destruct (Hf2 k e)].
        edestruct (IH _ (mk_astate (delete k (a_map a)) (<[td := ADone c (seq_res (a_map b) c)]> (a_st b))) Hr)
          as (l & b' & Hl & Ho & Hm' & Ht'); [done| |done|].
        -- intros u. cbn. destruct (decide (u = td)) as [->|Hne].
           { right. split; [done|]. by rewrite Hat. }
           rewrite lookup_insert_ne by done. destruct (Hst u) as [?|[Hf2 ?]]; [by left|right].
           split; [|done]. by apply frozen_cons in Hf2 as (_ & _ & ?).
        -- exists (ILin td :: l), b'. split; [|done]. eexists. split; [|exact Hl].
           exists c. rewrite Hj, Hat. split; [done|]. split; [by destruct c|].
           rewrite Hm. f_equal. destruct c; cbn in Hdl, Hk |- *; try done; by injection Hk as ->.
    + cbn in Hs. subst a1. edestruct (IH _ b Hr Hm) as (l & b' & Hl & Ho & Hm' & Ht'); [|done|].
      * intros u. destruct (Hst u) as [?|[Hf ?]]; [by left|right].
        split; [|done]. by apply frozen_cons in Hf as (_ & _ & ?).
      * by exists l, b'.
Qed.

Lemma holds_stat c p e : holds p e -> stat (c, p) = AInv_ c.
Proof. destruct p as [| | | | | | | | | | | | |[]| | | | | | | | | | | | ]; cbn; done. Qed.

Lemma core_linearizes s thr h kof m :
  core s thr h kof m ->
  exists l b, arun a_new l b /\ observed l = h ≫= hvis /\ a_map b = m /\
    forall t, a_st b !! t = stat <$> thr !! t \/ is_Some (thr !! t).
Proof.
  intros Hc. pose proof Hc as [Hr _ _ _ _ _ _ _ Ho Hd].
  destruct (extract h a_new a_new _ Hr) as (l & b & Hl & Hob & Hm & Ht); [done|by left| |].
  - intros h1 k e td h2 a1 Eh Hr1.
    destruct (Hd _ _ _ _ _ Eh) as (He & Hk & Hcur & _ & Hv).
    destruct (Ho e He Hcur) as (g1 & i & g2 & a2 & Eg & Hr2 & Hi & Huniq & Hval & _).
    rewrite Eh in Eg. apply app_cut in Eg as [(<- & <- & <-)|[(u & -> & ->)|(u & -> & ->)]].
    + rewrite (hrun_det _ _ _ _ _ _ Hr1 Hr2). rewrite Hk in Hval. rewrite Hval.
      destruct Hv as [Hv|(c & p & Hp & Hdel & Hck & Hh & Hq & Hno)]; [by left|right].
      split; [by split|]. exists c. cbn [a_st]. rewrite lookup_fmap, Hp. cbn [fmap option_fmap option_map]. by rewrite (holds_stat _ _ _ Hh).
    + exfalso. apply (Huniq (HDel k e td) k); [|cbn; by rewrite lookup_singleton]. set_solver.
    + exfalso. apply (Huniq (HDel k e td) k); [|cbn; by rewrite lookup_singleton]. set_solver.
  - exists l, b. split; [done|]. split; [done|]. split; [done|]. intros t. cbn in Ht.
    specialize (Ht t). rewrite lookup_fmap in Ht. destruct Ht as [Ht|Ht]; [by left|right].
    by apply fmap_is_Some in Ht.
Qed.

Lemma new_good : Inhabited K -> good (c_sh (new_config (K := K) (V := V))) (c_thr (new_config (K := K) (V := V))) [].
Proof.
  intros Hinh. exists [], (fun _ => inhabitant), ∅. split; [|done].
  split; cbn.
  - by rewrite fmap_empty.
  - intros k. by rewrite !lookup_empty.
  - split; [by intros k e|]. split; [by intros k e|]. cbn. split; [by left|by intros k e].
  - by intros t c p.
  - by intros t c p.
  - done.
  - lia.
  - by intros i k e Hi%elem_of_nil.
  - lia.
  - by intros [] k e td h2 Eh.
Qed.

(** The pairs in the map: under its key the value of the entry in [read], or else, if [amended], of
    the entry in [dirty]. *)
Lemma run_linearizes (acts : list (action K V)) (cf : config K V) tr :
  Inhabited K -> run deref zero veq new_config acts = Some (cf, tr) ->
  exists l b, arun a_new l b /\ observed l = tr /\
    (forall k, a_map b !! k = emap (c_sh cf) !! k ≫= (fun e => slot_val (s_ent (c_sh cf) e))) /\
    forall t, c_thr cf !! t = None -> a_st b !! t = None.
Proof.
  intros Hinh Hrun. eapply run_good in Hrun as (h & kof & m & Hc & Hv); [|by apply new_good].
  destruct (core_linearizes _ _ _ _ _ Hc) as (l & b & Hl & Hob & <- & Ht).
  exists l, b. split; [done|]. split; [by rewrite Hob, Hv|]. split; [apply (i_map _ _ _ _ _ _ _ Hc)|].
  intros t Hn. destruct (Ht t) as [->|[x Hx]]; [by rewrite Hn|congruence].
Qed.

End lin.
