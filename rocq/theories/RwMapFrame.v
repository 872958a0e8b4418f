(** How the invariant of rwmap survives: items added at the end of the history, and items inserted
    before the mark of an entry that is no longer in the map. *)
From Verif Require Import Base RwMapModel RwMapSpec RwMapInv.

(** Membership in lists built from the same pieces. *)
Ltac mem :=
  repeat match goal with
  | Hm : ?x ∈ ?l |- _ => revert Hm
  end; clear; repeat first [rewrite elem_of_app | rewrite elem_of_cons | rewrite elem_of_nil]; tauto.

Section frame.
Context {K : Type} `{Countable K} {V : Type}.
Context (deref : nat -> V) (veq : V -> V -> option bool).
Local Notation call := (call K V).
Local Notation pc := (pc K V).
Local Notation shared := (shared K).
Local Notation astate := (astate K V).
Local Notation hitem := (hitem (K := K) (V := V)).
Local Notation hrun := (hrun deref veq).
Local Notation hstep := (hstep deref veq).
Local Notation core := (core deref veq).
Local Notation slot_val := (slot_val deref).
Local Notation pcinv := (pcinv deref veq).

(** ** Changes that keep the shape of the map *)
Definition soft (s s' : shared) : Prop :=
  s_rd s' = s_rd s /\ s_am s' = s_am s /\ s_dirty s' = s_dirty s /\ s_next s' = s_next s /\
  forall e, s_ent s' e = SExp <-> s_ent s e = SExp.

Lemma soft_refl s : soft s s.
Proof. by repeat split. Qed.

Lemma soft_emap s s' : soft s s' -> emap s' = emap s.
Proof. intros (E1 & E2 & E3 & _). unfold emap, dirty_map. by rewrite E1, E2, E3. Qed.
Lemma soft_dirty s s' : soft s s' -> dirty_map s' = dirty_map s.
Proof. intros (_ & _ & E3 & _). unfold dirty_map. by rewrite E3. Qed.

Lemma soft_sinv ph s s' kof : soft s s' -> sinv ph s kof -> sinv ph s' kof.
Proof.
  intros Hs. pose proof (soft_dirty _ _ Hs) as Ed. destruct Hs as (E1 & E2 & E3 & E4 & Hx).
  unfold sinv. rewrite Ed, E1, E2, E3, E4. intros (Hr & Hd & Hp). split; [done|]. split; [done|].
  destruct ph as [|todo|].
  - destruct (s_am s).
    + destruct Hp as (d & Hd' & H1 & H2). exists d. split; [done|].
      setoid_rewrite Hx. split; [done|]. done.
    + setoid_rewrite Hx. done.
  - setoid_rewrite Hx. done.
  - done.
Qed.

Lemma soft_mode (c : call) e m s s' kof : soft s s' -> mode_ok c e m s kof -> mode_ok c e m s' kof.
Proof.
  intros Hs. pose proof (soft_emap _ _ Hs) as Ee. destruct Hs as (E1 & E2 & E3 & E4 & Hx).
  unfold mode_ok. rewrite Ee, E1, E2. destruct m; [done| |]; intros (H1 & H2 & H3 & H4);
    (split; [done|]; split; [done|]; split; [|done]); destruct c; try done; by rewrite Hx.
Qed.

Lemma soft_pcinv c p s s' kof : soft s s' -> pcinv c p s kof -> pcinv c p s' kof.
Proof.
  intros Hs. pose proof (soft_emap _ _ Hs) as Ee. pose proof (soft_dirty _ _ Hs) as Ed.
  pose proof Hs as (E1 & E2 & E3 & E4 & Hx).
  destruct p; cbn; rewrite ?Ee, ?Ed, ?E1, ?E2, ?E3, ?E4; try done.
  - by rewrite Hx.
  - intros (H1 & H2 & H3). split; [done|]. split; [done|]. by eapply soft_mode.
  - intros (H1 & H2 & H3 & H4). split; [done|]. split; [done|]. split; [|done]. by eapply soft_mode.
Qed.

(** The lock holder may do more: a goroutine that does not hold the lock knows little. *)
Lemma unlocked_pcinv (c : call) (p : pc) (s s' : shared) (kof kof' : nat -> K) :
  locked p = false -> s_next s <= s_next s' ->
  (forall e, e < s_next s -> kof' e = kof e) ->
  (forall e, e < s_next s -> emap s' !! kof e = Some e ->
     s_rd s' !! kof e = Some e \/ (emap s !! kof e = Some e /\ (s_rd s !! kof e = Some e -> s_rd s' !! kof e = Some e))) ->
  pcinv c p s kof -> pcinv c p s' kof'.
Proof.
  intros Hl Hn Hk He.
  assert (Hmap : forall m, mapok kof (s_next s) m -> mapok kof' (s_next s') m).
  { intros m Hm k e Hke. destruct (Hm k e Hke). rewrite Hk by done. split; [done|lia]. }
  destruct p; cbn in *; try done; try naive_solver.
  - destruct m; try done. intros (H1 & H2 & H3). rewrite Hk by done. split; [done|]. split; [lia|].
    cbn in *. intros Hw Hc. rewrite Hk in * by done.
    destruct (He _ H2 Hc) as [?|[? Hr]]; [done|]. by apply Hr, H3.
  - destruct m; try done. intros (H1 & H2 & H3 & H4). rewrite Hk by done. split; [done|]. split; [lia|].
    split; [|done]. cbn in *. intros Hw Hc. rewrite Hk in * by done.
    destruct (He _ H2 Hc) as [?|[? Hr]]; [done|]. by apply Hr, H3.
Qed.

(** ** Appending *)
Lemma core_append (s : shared) thr (h : list hitem) kof m t its (s' : shared) thr' kof' m' :
  core s thr h kof m ->
  hrun (mk_astate m (stat <$> thr)) its (mk_astate m' (stat <$> thr')) ->
  (forall t', t' <> t -> thr' !! t' = thr !! t') ->
  (forall k, m' !! k = emap s' !! k ≫= fun e => slot_val (s_ent s' e)) ->
  sinv (the_phase s' thr') s' kof' ->
  (forall t' c p, thr' !! t' = Some (c, p) -> pcinv c p s' kof') ->
  (forall t' c p, thr' !! t' = Some (c, p) -> (locked p = true <-> s_lock s' = Some t')) ->
  (forall t', s_lock s' = Some t' -> is_Some (thr' !! t')) ->
  s_next s <= s_next s' ->
  (forall e, e < s_next s -> kof' e = kof e) ->
  (* no entry comes back *)
  (forall e, e < s_next s -> emap s' !! kof e = Some e -> emap s !! kof e = Some e) ->
  (* the new items *)
  (forall i, i ∈ its -> own i = None \/ own i = Some t) ->
  (forall i k e, i ∈ its -> orphs i !! k = Some e ->
     e < s_next s /\ emap s !! kof e = Some e /\ emap s' !! kof e <> Some e) ->
  (* the entries not in the map *)
  (forall e, e < s_next s' -> emap s' !! kof' e <> Some e ->
     e < s_next s /\
     ((emap s !! kof e <> Some e /\ s_ent s' e = s_ent s e /\
       (forall c p, thr' !! t = Some (c, p) -> holds p e ->
          quiet t its /\ exists p0, thr !! t = Some (c, p0) /\ holds p0 e) /\
       (forall c p, thr' !! t = Some (c, p) -> rholds p e ->
          rquiet t (kof e) its /\ exists p0, thr !! t = Some (c, p0) /\ rholds p0 e)) \/
      (emap s !! kof e = Some e /\ exists i, its = [i] /\ orphs i !! kof e = Some e /\
       m !! kof e = slot_val (s_ent s' e) /\
       (forall os, i = HMark os -> s_ent s' e = SExp) /\
       (forall c p, thr' !! t = Some (c, p) -> holds p e \/ rholds p e -> own i <> Some t)))) ->
  (* the deletions *)
  (forall c p e, thr !! t = Some (c, p) -> deleting c -> holds p e -> e < s_next s ->
     emap s !! kof e <> Some e ->
     slot_val (s_ent s' e) = None \/
     exists p', thr' !! t = Some (c, p') /\ holds p' e /\ quiet t its /\ forall k' e', HDel k' e' t ∉ its) ->
  (forall k e td, HDel k e td ∈ its ->
     its = [HDel k e td] /\ kof e = k /\
     (forall t' c p, thr' !! t' = Some (c, p) -> holds p e -> ~ writer c) /\
     td = t /\ exists c p', thr' !! t = Some (c, p') /\ deleting c /\ call_key c = Some k /\ holds p' e) ->
  core s' thr' (h ++ its) kof' m'.
Proof.
  intros [Hrun Hmap Hs Hpc Hlk Hlk2 Hcur Hbd Horph Hdel] Hr Hthr Hmap' Hs' Hpc' Hlk' Hlk2' Hn Hk Hback
    Hown Hits Hent Hd1 Hd2.
  constructor; try done.
  - apply hrun_app. eauto.
  - intros e He Hc i k Hi Ho. destruct (decide (e < s_next s)) as [Hlt|Hge].
    + rewrite Hk in Hc by done. apply elem_of_app in Hi as [Hi|Hi].
      * exact (Hcur e Hlt (Hback e Hlt Hc) i k Hi Ho).
      * by destruct (Hits i k e Hi Ho) as (_ & _ & ?).
    + apply elem_of_app in Hi as [Hi|Hi].
      * apply Hge. eauto.
      * apply Hge. by destruct (Hits i k e Hi Ho) as (? & _).
  - intros i k e Hi Ho. apply elem_of_app in Hi as [Hi|Hi].
    + pose proof (Hbd i k e Hi Ho). lia.
    + destruct (Hits i k e Hi Ho). lia.
  - intros e He Hc. destruct (Hent e He Hc) as (Hlt & [(Hc0 & Heq & Hh & Hrh)|(Hc0 & i & -> & Ho & Hv & Hm & Hh)]).
    + destruct (Horph e Hlt Hc0) as (h1 & i & h2 & a1 & -> & Hr1 & Ho & Hno & Hv & Hm & Hq & Hrq).
      exists h1, i, (h2 ++ its), a1. rewrite <- app_assoc. rewrite Hk, Heq by done.
      split; [done|]. split; [done|]. split; [done|]. split; [|split; [done|split; [done|split]]].
      * intros j k Hj Hjo. rewrite app_assoc in Hj. apply elem_of_app in Hj as [Hj|Hj]; [by apply (Hno j k)|].
        by destruct (Hits j k e Hj Hjo) as (_ & ? & _).
      * intros t' c p Ht' Hp j Hj. destruct (decide (t' = t)) as [->|Hne].
        -- destruct (Hh c p Ht' Hp) as (Hqt & p0 & Ht0 & Hp0).
           rewrite app_comm_cons in Hj. apply elem_of_app in Hj as [Hj|Hj]; [|by apply Hqt].
           by eapply Hq.
        -- rewrite Hthr in Ht' by done. rewrite app_comm_cons in Hj. apply elem_of_app in Hj as [Hj|Hj].
           ++ by eapply Hq.
           ++ destruct (Hown j Hj) as [->| ->]; congruence.
      * intros t' c p Ht' Hp j Hj. destruct (decide (t' = t)) as [->|Hne].
        -- destruct (Hrh c p Ht' Hp) as (Hqt & p0 & Ht0 & Hp0).
           rewrite app_comm_cons in Hj. apply elem_of_app in Hj as [Hj|Hj]; [|by apply Hqt].
           by eapply Hrq.
        -- rewrite Hthr in Ht' by done. rewrite app_comm_cons in Hj. apply elem_of_app in Hj as [Hj|Hj].
           ++ by eapply Hrq.
           ++ destruct (Hown j Hj) as [->| ->]; congruence.
    + exists h, i, [], (mk_astate m (stat <$> thr)). rewrite Hk by done. cbn.
      split; [done|]. split; [done|]. split; [done|]. split; [|split; [done|split; [done|split]]].
      * intros j k Hj. rewrite app_nil_r in Hj. by eapply Hcur.
      * intros t' c p Ht' Hp j ->%elem_of_list_singleton.
        assert (Hi : own i = None \/ own i = Some t) by (apply Hown; left).
        destruct (decide (t' = t)) as [->|Hne]; [apply (Hh c p Ht'); by left|]. destruct Hi as [->| ->]; congruence.
      * intros t' c p Ht' Hp j ->%elem_of_list_singleton. intros Hoj. exfalso. revert Hoj.
        assert (Hi : own i = None \/ own i = Some t) by (apply Hown; left).
        destruct (decide (t' = t)) as [->|Hne]; [apply (Hh c p Ht'); by right|]. destruct Hi as [->| ->]; congruence.
  - intros h1 k e td h2 E.
    assert (Hcases : (exists h2', h = h1 ++ HDel k e td :: h2' /\ h2 = h2' ++ its) \/ HDel k e td ∈ its).
    { clear -E. revert h1 E. induction h as [|x h IH]; intros h1 E; cbn in E.
      - right. rewrite E. apply elem_of_app. right. left.
      - destruct h1 as [|y h1]; cbn in E.
        + injection E as -> <-. left. exists h. done.
        + injection E as -> E. destruct (IH h1 E) as [(h2' & -> & ->)|?]; [left|by right]. by exists h2'. }
    destruct Hcases as [(h2' & -> & ->)|Hin].
    + destruct (Hdel h1 k e td h2' eq_refl) as (Hlt & Hke & Hc & Hw & Hv). rewrite Hk by done.
      assert (Hc' : emap s' !! kof' e <> Some e).
      { rewrite Hk by done. intros Hc'. by apply Hc, Hback. }
      destruct (Hent e ltac:(lia) Hc') as (_ & [(_ & Heq & Hh & Hrh)|(Hc0 & _)]); [|done].
      rewrite Hk in Hc' by done.
      split; [lia|]. split; [done|]. split; [done|]. split.
      { intros t' c p Ht' Hp. destruct (decide (t' = t)) as [->|Hne].
        - destruct (Hh c p Ht' Hp) as (_ & p0 & Ht0 & Hp0). by eapply Hw.
        - rewrite Hthr in Ht' by done. by eapply Hw. }
      rewrite Heq. destruct Hv as [Hv|(c & p & Htd & Hdc & Hck & Hp & Hq & Hnd)]; [by left|].
      destruct (decide (td = t)) as [->|Hne].
      * destruct (Hd1 c p e Htd Hdc Hp Hlt Hc) as [Hv|(p' & Htd' & Hp' & Hq' & Hnd')]; [rewrite Heq in Hv; by left|].
        right. exists c, p'. split_and!; try done.
        -- intros j Hj. apply elem_of_app in Hj as [Hj|Hj]; [by apply Hq|by apply Hq'].
        -- intros k' e' Hj. apply elem_of_app in Hj as [Hj|Hj]; [by eapply Hnd|by eapply Hnd'].
      * right. exists c, p. rewrite Hthr by done. split_and!; try done.
        -- intros j Hj. apply elem_of_app in Hj as [Hj|Hj]; [by apply Hq|].
           destruct (Hown j Hj) as [->| ->]; congruence.
        -- intros k' e' Hj. apply elem_of_app in Hj as [Hj|Hj]; [by eapply Hnd|].
           destruct (Hd2 _ _ _ Hj) as (_ & _ & _ & ? & _). congruence.
    + destruct (Hd2 _ _ _ Hin) as (-> & Hke & Hw & -> & c & p & Ht & Hdc & Hck & Hp).
      assert (h1 = h /\ h2 = []) as [-> ->].
      { apply app_inj_2 in E as [? E]; [|].
        - injection E as <-. done.
        - clear -E Hcur Hbd Hits Hin. 
          assert (Hlen := f_equal length E). rewrite !app_length in Hlen. cbn in Hlen.
          destruct h2 as [|x h2]; [done|]. exfalso.
          (* the mark would already be in h *)
          assert (Hh : HDel k e t ∈ h).
          { destruct (exists_last (l := x :: h2)) as (l' & y & Hl); [done|].
            rewrite Hl in E. change (HDel k e t :: l' ++ [y]) with ((HDel k e t :: l') ++ [y]) in E.
            rewrite app_assoc in E. apply app_inj_tail in E as [-> _]. set_solver. }
          destruct (Hits (HDel k e t) k e Hin) as (Hlt & Hc & _); [apply lookup_singleton|].
          eapply Hcur; [exact Hlt|exact Hc|exact Hh|apply lookup_singleton]. }
      destruct (Hits (HDel k e t) k e Hin) as (Hlt & Hc & Hc'); [apply lookup_singleton|].
      rewrite Hk by done. split; [lia|]. split; [done|]. split; [done|]. split; [done|].
      right. exists c, p. split_and!; try done.
      * intros j Hj. by apply elem_of_nil in Hj.
      * intros k' e' Hj. by apply elem_of_nil in Hj.
Qed.


Lemma emap_ok ph (s : shared) kof k e :
  sinv ph s kof -> emap s !! k = Some e -> kof e = k /\ e < s_next s.
Proof.
  intros (Hr & Hd & _). unfold emap. destruct (s_am s); [|by apply Hr].
  intros [Hk|[_ Hk]]%lookup_union_Some_raw; [by apply Hr|by apply Hd].
Qed.

(** ** Inserting *)
(** [t] acts on the entry [e], which is not in the map any more.  Its item [x] goes before the mark
    of [e]; [f] is what that changes in the states behind the mark. *)
Lemma core_insert (s : shared) thr (h : list hitem) kof m t c p e ix f (s' : shared) p' :
  core s thr h kof m ->
  thr !! t = Some (c, p) -> locked p = false -> locked p' = false ->
  e < s_next s -> emap s !! kof e <> Some e ->
  soft s s' -> s_lock s' = s_lock s -> (forall e', e' <> e -> s_ent s' e' = s_ent s e') ->
  pcinv c p' s' kof ->
  item_thr ix = t -> visible ix = [] ->
  (forall e', ~ holds p' e') ->
  (forall e', holds p e' -> e' = e) ->
  (forall e', rholds p' e' -> rholds p e' /\ kof e' <> kof e /\ ix = ISee t (kof e)) ->
  (deleting c -> holds p e -> slot_val (s_ent s' e) = None) ->
  (slot_val (s_ent s e) = None -> slot_val (s_ent s' e) = None \/ (writer c /\ holds p e)) ->
  (forall a, a_map (f a) = a_map a) ->
  f (mk_astate m (stat <$> thr)) = mk_astate m (stat <$> <[t := (c, p')]> thr) ->
  (forall h1 i h2 a1,
     h = h1 ++ i :: h2 -> hrun a_new h1 a1 -> orphs i !! kof e = Some e ->
     a_map a1 !! kof e = slot_val (s_ent s e) -> (forall os, i = HMark os -> s_ent s e = SExp) ->
     (holds p e -> quiet t (i :: h2)) -> (rholds p e -> rquiet t (kof e) (i :: h2)) ->
     hrun a1 (i :: h2) (mk_astate m (stat <$> thr)) ->
     exists a1x,
       hstep a1 (HI ix) a1x /\
       (forall k, k <> kof e -> a_map a1x !! k = a_map a1 !! k) /\
       a_map a1x !! kof e = slot_val (s_ent s' e) /\
       (forall u v a3, i :: h2 = u ++ v -> u <> [] -> hrun a1 u a3 -> hrun a1x u (f a3))) ->
  exists h', core s' (<[t := (c, p')]> thr) h' kof m /\ h' ≫= hvis = h ≫= hvis.
Proof.
  intros [Hrun Hmap Hs Hpc Hlk Hlk2 Hcur Hbd Horph Hdel] Ht Hlp Hlp' He Hne Hsoft Hlock Hent Hpc' Hx Hvis
    Hnh Hh1 Hrh Hdc Hwr Hfm Hf Hins.
  destruct (Horph e He Hne) as (h1 & i & h2 & a1 & Eh & Hr1 & Ho & Hno & Hv & Hm & Hq & Hrq).
  assert (Hr2 : hrun a1 (i :: h2) (mk_astate m (stat <$> thr))).
  { rewrite Eh in Hrun. apply hrun_app in Hrun as (a1' & Hr1' & Hr2).
    by rewrite (hrun_det _ _ _ _ _ _ Hr1' Hr1) in Hr2. }
  destruct (Hins h1 i h2 a1 Eh Hr1 Ho Hv Hm (Hq t c p Ht) (Hrq t c p Ht) Hr2)
    as (a1x & Hsx & Hkx & Hex & Hfx).
  pose proof (soft_emap _ _ Hsoft) as Ee. pose proof Hsoft as (E1 & E2 & E3 & E4 & Hexp).
  assert (Hlt : s_lock s <> Some t).
  { intros Hl. apply (Hlk t c p Ht) in Hl. congruence. }
  assert (Hph : the_phase s' (<[t := (c, p')]> thr) = the_phase s thr).
  { unfold the_phase. rewrite Hlock. destruct (s_lock s) as [u|] eqn:El; [|done].
    rewrite lookup_insert_ne; [done|]. congruence. }
  exists (h1 ++ HI ix :: i :: h2). split; [|by rewrite Eh, !bind_app, !bind_cons; cbn; rewrite Hvis].
  constructor.
  - apply hrun_app. exists a1. split; [done|]. exists a1x. split; [done|].
    rewrite <- Hf. apply (Hfx (i :: h2) []); [by rewrite app_nil_r|done|done].
  - intros k. rewrite Ee, Hmap. destruct (emap s !! k) as [e'|] eqn:Ek; [|done]. cbn.
    rewrite Hent; [done|]. intros ->. apply Hne. by rewrite (proj1 (emap_ok _ _ _ _ _ Hs Ek)).
  - rewrite Hph. by eapply soft_sinv.
  - intros t' c' p'' Ht'. destruct (decide (t' = t)) as [->|Hn].
    + rewrite lookup_insert in Ht'. by injection Ht' as <- <-.
    + rewrite lookup_insert_ne in Ht' by done. eapply soft_pcinv; [done|]. by eapply Hpc.
  - intros t' c' p'' Ht'. rewrite Hlock. destruct (decide (t' = t)) as [->|Hn].
    + rewrite lookup_insert in Ht'. injection Ht' as <- <-. rewrite Hlp'. split; done.
    + rewrite lookup_insert_ne in Ht' by done. by eapply Hlk.
  - intros t'. rewrite Hlock. intros Hl. destruct (decide (t' = t)) as [->|Hn]; [done|].
    rewrite lookup_insert_ne by done. by apply Hlk2.
  - intros e' He' Hc' j k Hj. rewrite Ee in Hc'. rewrite E4 in He'.
    assert (Hj' : j = HI ix \/ j ∈ h) by (rewrite Eh; mem).
    destruct Hj' as [->|Hj']; [by cbn|]. by eapply Hcur.
  - intros j k e' Hj. rewrite E4.
    assert (Hj' : j = HI ix \/ j ∈ h) by (rewrite Eh; mem).
    destruct Hj' as [->|Hj']; [by cbn|]. by eapply Hbd.
  - (* entries not in the map *)
    intros e' He' Hc'. rewrite Ee in Hc'. rewrite E4 in He'.
    assert (Hthr : forall t' c' p'', <[t := (c, p')]> thr !! t' = Some (c', p'') -> holds p'' e' ->
              t' <> t /\ thr !! t' = Some (c', p'')).
    { intros t' c' p'' Ht' Hp''. destruct (decide (t' = t)) as [->|Hn].
      - rewrite lookup_insert in Ht'. injection Ht' as <- <-. by apply Hnh in Hp''.
      - by rewrite lookup_insert_ne in Ht' by done. }
    destruct (decide (e' = e)) as [->|Hne'].
    + exists (h1 ++ [HI ix]), i, h2, a1x. rewrite <- app_assoc. split; [done|].
      split. { apply hrun_app. exists a1. split; [done|]. by exists a1x. }
      split; [done|]. split.
      { intros j k Hj. assert (Hj' : j = HI ix \/ j ∈ h1 ++ h2) by mem.
        destruct Hj' as [->|Hj']; [by cbn|by apply Hno]. }
      split; [done|]. split. { intros os Ei. apply Hexp. by eapply Hm. }
      split.
      * intros t' c' p'' Ht' Hp''. destruct (Hthr _ _ _ Ht' Hp'') as [Hn Ht0]. by eapply Hq.
      * intros t' c' p'' Ht' Hp''. destruct (decide (t' = t)) as [->|Hn].
        -- rewrite lookup_insert in Ht'. injection Ht' as <- <-. by destruct (Hrh _ Hp'') as (_ & ? & _).
        -- rewrite lookup_insert_ne in Ht' by done. by eapply Hrq.
    + destruct (Horph e' He' Hc') as (g1 & j & g2 & b1 & Eg & Hg1 & Hoj & Hnoj & Hvj & Hmj & Hqj & Hrqj).
      rewrite Hent by done.
      assert (Hq' : forall l, (forall y, y ∈ l -> y = HI ix \/ y ∈ j :: g2) ->
                forall t' c' p'', <[t := (c, p')]> thr !! t' = Some (c', p'') -> holds p'' e' -> quiet t' l).
      { intros l Hl t' c' p'' Ht' Hp'' y Hy. destruct (Hthr _ _ _ Ht' Hp'') as [Hn Ht0].
        destruct (Hl y Hy) as [->|Hy']; [cbn; congruence|]. by eapply Hqj. }
      assert (Hrq' : forall l, (forall y, y ∈ l -> y = HI ix \/ y ∈ j :: g2) ->
                forall t' c' p'', <[t := (c, p')]> thr !! t' = Some (c', p'') -> rholds p'' e' -> rquiet t' (kof e') l).
      { intros l Hl t' c' p'' Ht' Hp'' y Hy Hoy. destruct (decide (t' = t)) as [->|Hn].
        - rewrite lookup_insert in Ht'. injection Ht' as <- <-. destruct (Hrh _ Hp'') as (Hp0 & Hk0 & Eix).
          destruct (Hl y Hy) as [->|Hy'].
          + exists (kof e). split; [done|]. left. by rewrite Eix.
          + exact (Hrqj t c p Ht Hp0 y Hy' Hoy).
        - rewrite lookup_insert_ne in Ht' by done.
          destruct (Hl y Hy) as [->|Hy']; [cbn in Hoy; congruence|]. by eapply Hrqj. }
      rewrite Eh in Eg. destruct (app_cut _ _ _ _ _ _ Eg) as [(<- & <- & <-)|[(u & -> & ->)|(u & -> & ->)]].
      * (* the same mark *)
        assert (Hkk : kof e' <> kof e) by congruence.
        exists (h1 ++ [HI ix]), i, h2, a1x. rewrite <- app_assoc. split; [done|].
        split. { apply hrun_app. exists a1. split; [done|]. by exists a1x. }
        split; [done|]. split.
        { intros y k Hy. assert (Hy' : y = HI ix \/ y ∈ h1 ++ h2) by mem.
          destruct Hy' as [->|Hy']; [by cbn|by apply Hnoj]. }
        split. { rewrite Hkx by done. by rewrite (hrun_det _ _ _ _ _ _ Hr1 Hg1). }
        split; [done|]. split; [apply Hq'|apply Hrq']; intros y Hy; mem.
      * (* a later mark *)
        apply hrun_app in Hg1 as (a1' & Hr1' & Hu). rewrite (hrun_det _ _ _ _ _ _ Hr1' Hr1) in Hu.
        exists (h1 ++ HI ix :: i :: u), j, g2, (f b1).
        split. { by rewrite <- app_assoc. }
        split. { apply hrun_app. exists a1. split; [done|]. exists a1x. split; [done|].
                 by apply (Hfx (i :: u) (j :: g2)). }
        split; [done|]. split.
        { intros y k Hy. assert (Hy' : y = HI ix \/ y ∈ (h1 ++ i :: u) ++ g2) by mem.
          destruct Hy' as [->|Hy']; [by cbn|by apply Hnoj]. }
        split. { by rewrite Hfm. }
        split; [done|]. split; [apply Hq'|apply Hrq']; intros y Hy; mem.
      * (* an earlier mark *)
        exists g1, j, (u ++ HI ix :: i :: h2), b1.
        split. { by rewrite <- app_assoc. }
        split; [done|]. split; [done|]. split.
        { intros y k Hy. assert (Hy' : y = HI ix \/ y ∈ g1 ++ u ++ i :: h2) by mem.
          destruct Hy' as [->|Hy']; [by cbn|by apply Hnoj]. }
        split; [done|]. split; [done|]. split; [apply Hq'|apply Hrq']; intros y Hy; mem.
  - (* deletions *)
    intros g1 k e' td g2 Eg.
    assert (Hcases : exists g1' g2', h = g1' ++ HDel k e' td :: g2' /\
              ((g2 = g2' /\ (forall y, y ∈ g1' -> y ∈ g1) /\ (e' = e \/ True)) \/
               (e' <> e /\ forall y, y ∈ g2 -> y = HI ix \/ y ∈ g2'))).
    { destruct (app_cut _ _ _ _ _ _ Eg) as [(_ & ? & _)|[(u & -> & Eu)|(u & -> & ->)]]; [done| |].
      - destruct u as [|y u]; cbn in Eu.
        + injection Eu as -> ->. exists h1, g2. split; [done|]. left. split; [done|]. split; [intros y Hy; mem|by right].
        + injection Eu as -> ->. exists (h1 ++ y :: u), g2. split; [by rewrite <- app_assoc|].
          left. split; [done|]. split; [intros y0 Hy; mem|by right].
      - exists g1, (u ++ i :: h2). split; [by rewrite Eh, <- app_assoc|]. right. split; [|intros y Hy; mem].
        intros ->. apply (Hno (HDel k e td) k); [mem|]. apply lookup_singleton. }
    destruct Hcases as (g1' & g2' & Eg' & Hg).
    destruct (Hdel g1' k e' td g2' Eg') as (Hlt' & Hke' & Hc' & Hw' & Hv').
    rewrite E4, Ee. split; [done|]. split; [done|]. split; [done|]. split.
    { intros t' c' p'' Ht' Hp''. destruct (decide (t' = t)) as [->|Hn].
      - rewrite lookup_insert in Ht'. injection Ht' as <- <-. by apply Hnh in Hp''.
      - rewrite lookup_insert_ne in Ht' by done. by eapply Hw'. }
    destruct Hv' as [Hv'|(c' & p'' & Htd & Hdc' & Hck & Hp'' & Hqd & Hnd)].
    + left. destruct (decide (e' = e)) as [->|Hne']; [|by rewrite Hent].
      destruct (Hwr Hv') as [?|[Hwc Hhp]]; [done|]. exfalso. by eapply Hw'.
    + destruct (decide (td = t)) as [->|Hn].
      * rewrite Ht in Htd. injection Htd as <- <-. left.
        assert (e' = e) as -> by by apply Hh1. by apply Hdc.
      * right. exists c', p''. rewrite lookup_insert_ne by done. split; [done|]. split; [done|].
        split; [done|]. split; [done|]. destruct Hg as [(-> & _)|(_ & Hg)]; [done|].
        split.
        -- intros y Hy. destruct (Hg y Hy) as [->|Hy']; [cbn; congruence|by apply Hqd].
        -- intros k' e'' Hy. destruct (Hg _ Hy) as [?|Hy']; [done|]. by eapply Hnd.
Qed.

End frame.
