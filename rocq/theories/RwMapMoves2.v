(** Three more kinds of steps of rwmap: a new entry, an entry taken out of the dirty map, Clear. *)
From Verif Require Import Base RwMapModel RwMapSpec RwMapInv RwMapFrame RwMapMoves.

Section moves2.
Context {K : Type} `{Countable K} {V : Type}.
Context (deref : nat -> V) (veq : V -> V -> option bool).
Local Notation call := (call K V).
Local Notation result := (result V).
Local Notation pc := (pc K V).
Local Notation shared := (shared K).
Local Notation hitem := (hitem (K := K) (V := V)).
Local Notation core := (core deref veq).
Local Notation slot_val := (slot_val deref).
Local Notation pcinv := (pcinv deref veq).
Local Notation seq_res := (seq_res deref veq).
Local Notation seq_next := (seq_next deref veq).

(** What the lock holder knows. *)
Lemma holder_phase (s : shared) thr (h : list hitem) kof m t c p :
  core s thr h kof m -> thr !! t = Some (c, p) -> locked p = true ->
  s_lock s = Some t /\ sinv (phase_of p) s kof.
Proof.
  intros Hc Ht Hlp. destruct Hc as [_ _ Hs _ Hlk _ _ _ _ _].
  assert (Hl : s_lock s = Some t) by by apply (Hlk _ _ _ Ht).
  split; [done|]. unfold the_phase in Hs. by rewrite Hl, Ht in Hs.
Qed.

Lemma core_new (s : shared) thr (h : list hitem) kof m t c k q d r :
  core s thr h kof m -> thr !! t = Some (c, P_new) ->
  call_key c = Some k -> call_ptr c = Some q -> s_dirty s = Some d ->
  r = (match c with CLoadOrStore _ _ => RLos (deref q) false | _ => RVal None end) ->
  exists h' kof' m', core (set_dirty (Some (<[k := s_next s]> d)) (new_entry q s)) (<[t := (c, P_un r)]> thr) h' kof' m' /\
    h' ≫= hvis = h ≫= hvis.
Proof.
  intros Hc Ht Hck Hcp Hd Hr.
  destruct (holder_phase _ _ _ _ _ _ _ _ Hc Ht eq_refl) as [Hl Hs].
  pose proof Hc as [Hrun Hmap _ Hpc Hlk Hlk2 _ _ _ _].
  destruct (Hpc _ _ _ Ht) as (Hst & Ha & k' & Hk' & Hrk & Hdk). rewrite Hck in Hk'. injection Hk' as <-.
  assert (Hdm : dirty_map s = d) by by unfold dirty_map; rewrite Hd. rewrite Hdm in Hdk.
  pose proof (fun k => emap_normal s kof k Hs Ha) as Em. rewrite Hdm in Em.
  assert (Hemk : emap s !! k = None) by by rewrite Em, Hrk.
  assert (Hmk : m !! k = None) by by rewrite Hmap, Hemk.
  assert (Hemok : forall k e, emap s !! k = Some e -> kof e = k /\ e < s_next s).
  { intros k0 e0. by eapply (emap_ok Normal). }
  destruct Hs as (Hrd & Hdd & Hs). cbn in Hs. rewrite Ha in Hs.
  destruct Hs as (d' & Hd' & Hn1 & Hn2). rewrite Hd in Hd'. injection Hd' as <-.
  rewrite Hdm in Hdd.
  set (s' := set_dirty (Some (<[k := s_next s]> d)) (new_entry q s)).
  assert (Em' : forall k', emap s' !! k' = if decide (k' = k) then Some (s_next s) else emap s !! k').
  { intros k'. unfold emap at 1, s', dirty_map. cbn. rewrite Ha. rewrite lookup_union, Em.
    case_decide as E; [subst k'; by rewrite Hrk, lookup_insert|].
    rewrite lookup_insert_ne by done. by destruct (s_rd s !! k'), (d !! k'). }
  assert (Hkof : forall e, e < s_next s -> <[s_next s := k]> kof e = kof e).
  { intros e He. rewrite fn_lookup_insert_ne; [done|lia]. }
  assert (Hent : forall e, e < s_next s -> s_ent s' e = s_ent s e).
  { intros e He. unfold s'. cbn. rewrite fn_lookup_insert_ne; [done|lia]. }
  exists (h ++ [HI (ILin t)]), (<[s_next s := k]> kof), (<[k := deref q]> m).
  split; [|by rewrite bind_app; cbn; rewrite app_nil_r].
  eapply (core_append _ _ _ _ _ _ _ t [HI (ILin t)]); [exact Hc|..].
  - eexists. split; [|done]. cbn. exists c. rewrite lookup_fmap, Ht. split; [done|].
    split; [by destruct c|]. rewrite fmap_insert. subst r.
    destruct c; try done; cbn in *; simplify_eq; try done; by rewrite Hmk.
  - intros t' Hne. by rewrite lookup_insert_ne.
  - intros k'. rewrite Em'. case_decide as E.
    + subst k'. rewrite lookup_insert. cbn. unfold s'. cbn. by rewrite fn_lookup_insert.
    + rewrite lookup_insert_ne, Hmap by done. destruct (emap s !! k') as [e|] eqn:Ee; [|done].
      cbn [mbind option_bind]. rewrite Hent; [done|]. by destruct (Hemok _ _ Ee).
  - unfold the_phase, s'. cbn. rewrite Hl, lookup_insert. cbn. split; [|split].
    + intros k' e He. cbn in *. destruct (Hrd _ _ He). rewrite Hkof by done. split; [done|lia].
    + intros k' e. cbn. intros [[<- <-]|[Hne He]]%lookup_insert_Some.
      * rewrite fn_lookup_insert. split; [done|lia].
      * destruct (Hdd _ _ He). rewrite Hkof by done. split; [done|lia].
    + cbn. rewrite Ha. eexists. split; [done|]. split.
      * intros k' e He. destruct (Hrd _ _ He) as [_ Hlt]. rewrite fn_lookup_insert_ne by lia.
        assert (k' <> k) by congruence. rewrite lookup_insert_ne by done. by apply Hn1.
      * intros k' e [[<- <-]|[Hne He]]%lookup_insert_Some; [by rewrite fn_lookup_insert|].
        destruct (Hdd _ _ He) as [_ Hlt]. rewrite fn_lookup_insert_ne by lia. by eapply Hn2.
  - intros t' c' p'' Ht'. destruct (decide (t' = t)) as [->|Hne].
    + rewrite lookup_insert in Ht'. injection Ht' as <- <-. cbn. by destruct c.
    + rewrite lookup_insert_ne in Ht' by done. apply (unlocked_pcinv _ _ _ _ s _ kof); [|cbn; lia|done| |by eapply Hpc].
      * destruct (locked p'') eqn:El; [|done]. apply (Hlk _ _ _ Ht') in El. congruence.
      * intros e He Hce. right. rewrite Em' in Hce. split; [|done]. case_decide; [|done].
        injection Hce. lia.
  - intros t' c' p'' Ht'. cbn. destruct (decide (t' = t)) as [->|Hne].
    + rewrite lookup_insert in Ht'. by injection Ht' as <- <-.
    + rewrite lookup_insert_ne in Ht' by done. by eapply Hlk.
  - intros t'. cbn. intros Hl'. destruct (decide (t' = t)) as [->|Hne]; [by rewrite lookup_insert|].
    rewrite lookup_insert_ne by done. by apply Hlk2.
  - cbn. lia.
  - done.
  - intros e He. rewrite Em'. case_decide; [|done]. injection 1. lia.
  - intros i ->%elem_of_list_singleton. by right.
  - intros i k' e ->%elem_of_list_singleton. cbn. done.
  - intros e He Hce. assert (Hlt : e < s_next s).
    { cbn in He. destruct (decide (e = s_next s)) as [->|?]; [|lia].
      rewrite fn_lookup_insert, Em', decide_True in Hce by done. done. }
    rewrite Hkof, Em' in Hce by done. split; [done|]. left.
    split. { destruct (decide (kof e = k)) as [->|]; [by rewrite Hemk|done]. }
    split; [by apply Hent|]. rewrite lookup_insert. split; intros c' p'' [= <- <-] Hp''; done.
  - intros c' p'' e Ht' Hdc Hp''. rewrite Ht in Ht'. by injection Ht' as <- <-.
  - intros k' e td Hin. by apply elem_of_list_singleton in Hin.
Qed.

Lemma core_dirty_delete (s : shared) thr (h : list hitem) kof m t c k d e :
  core s thr h kof m -> thr !! t = Some (c, P_dirty) -> deleting c ->
  call_key c = Some k -> s_rd s !! k = None -> s_am s = true -> s_dirty s = Some d -> d !! k = Some e ->
  exists h' m', core (set_dirty (Some (delete k d)) s) (<[t := (c, P_une (Some e))]> thr) h' kof m' /\
    h' ≫= hvis = h ≫= hvis.
Proof.
  intros Hc Ht Hdc Hck Hrk Ha Hd Hdk.
  destruct (holder_phase _ _ _ _ _ _ _ _ Hc Ht eq_refl) as [Hl Hs].
  pose proof Hc as [Hrun Hmap _ Hpc Hlk Hlk2 _ _ _ _].
  assert (Hdm : dirty_map s = d) by by unfold dirty_map; rewrite Hd.
  pose proof (fun k => emap_normal s kof k Hs Ha) as Em. rewrite Hdm in Em.
  assert (Hemk : emap s !! k = Some e) by by rewrite Em, Hrk.
  assert (Hemok : forall k e, emap s !! k = Some e -> kof e = k /\ e < s_next s).
  { intros k0 e0. by eapply (emap_ok Normal). }
  destruct (Hemok _ _ Hemk) as [Hke He].
  destruct Hs as (Hrd & Hdd & Hs). cbn in Hs. rewrite Ha in Hs. rewrite Hdm in Hdd.
  destruct Hs as (d' & Hd' & Hn1 & Hn2). rewrite Hd in Hd'. injection Hd' as <-.
  set (s' := set_dirty (Some (delete k d)) s).
  assert (Em' : forall k', emap s' !! k' = if decide (k' = k) then None else emap s !! k').
  { intros k'. unfold emap at 1, s', dirty_map. cbn. rewrite Ha. rewrite lookup_union, Em.
    case_decide as E; [subst k'; by rewrite Hrk, lookup_delete|].
    rewrite lookup_delete_ne by done. by destruct (s_rd s !! k'), (d !! k'). }
  exists (h ++ [HDel k e t]), (delete k m).
  split; [|by rewrite bind_app; cbn; rewrite app_nil_r].
  eapply (core_append _ _ _ _ _ _ _ t [HDel k e t]); [exact Hc|..].
  - eexists. split; [done|]. cbn. f_equal. rewrite fmap_insert. apply insert_id. by rewrite lookup_fmap, Ht.
  - intros t' Hne. by rewrite lookup_insert_ne.
  - intros k'. rewrite Em'. case_decide as E.
    + subst k'. by rewrite lookup_delete.
    + by rewrite lookup_delete_ne, Hmap by done.
  - unfold the_phase, s'. cbn. rewrite Hl, lookup_insert. cbn. split; [|split].
    + done.
    + intros k' e'. cbn. intros [Hne He']%lookup_delete_Some. by apply Hdd.
    + cbn. rewrite Ha. eexists. split; [done|]. split.
      * intros k' e' He'. assert (k' <> k) by congruence. rewrite lookup_delete_ne by done. by apply Hn1.
      * intros k' e' [Hne He']%lookup_delete_Some. by eapply Hn2.
  - intros t' c' p'' Ht'. destruct (decide (t' = t)) as [->|Hne].
    + rewrite lookup_insert in Ht'. injection Ht' as <- <-. cbn. rewrite Hke. by destruct c.
    + rewrite lookup_insert_ne in Ht' by done. apply (unlocked_pcinv _ _ _ _ s _ kof); [|cbn; lia|done| |by eapply Hpc].
      * destruct (locked p'') eqn:El; [|done]. apply (Hlk _ _ _ Ht') in El. congruence.
      * intros e' He' Hce. right. rewrite Em' in Hce. split; [|done]. by case_decide.
  - intros t' c' p'' Ht'. cbn. destruct (decide (t' = t)) as [->|Hne].
    + rewrite lookup_insert in Ht'. by injection Ht' as <- <-.
    + rewrite lookup_insert_ne in Ht' by done. by eapply Hlk.
  - intros t'. cbn. intros Hl'. destruct (decide (t' = t)) as [->|Hne]; [by rewrite lookup_insert|].
    rewrite lookup_insert_ne by done. by apply Hlk2.
  - done.
  - done.
  - intros e' He'. rewrite Em'. by case_decide.
  - intros i ->%elem_of_list_singleton. by left.
  - intros i k' e' ->%elem_of_list_singleton. cbn. intros [<- <-]%lookup_singleton_Some.
    rewrite Hke, Em', decide_True by done. done.
  - cbn. intros e' He' Hce. split; [done|]. rewrite Em' in Hce. case_decide as Hkk.
    + destruct (decide (e' = e)) as [->|Hne].
      * right. rewrite Hke in *. split; [done|]. exists (HDel k e t). split; [done|].
        split; [apply lookup_singleton|]. split; [by rewrite Hmap, Hemk|]. split; [done|]. done.
      * left. rewrite Hkk, Hemk. split; [congruence|]. split; [done|]. rewrite lookup_insert.
        split; intros c' p'' [= <- <-] Hp''; [|done]. by cbn in Hp''.
    + left. split; [done|]. split; [done|]. rewrite lookup_insert.
        split; intros c' p'' [= <- <-] Hp''; [|done]. cbn in Hp''. congruence.
  - intros c' p'' e' Ht' Hdc' Hp''. rewrite Ht in Ht'. by injection Ht' as <- <-.
  - intros k' e' td Hin. apply elem_of_list_singleton in Hin. injection Hin as -> -> ->.
    split; [done|]. split; [done|]. split; [|split; [done|]].
    + intros t' c' p'' Ht' Hp'' Hw. destruct (decide (t' = t)) as [->|Hne].
      * rewrite lookup_insert in Ht'. injection Ht' as <- <-. by destruct c.
      * rewrite lookup_insert_ne in Ht' by done.
        assert (Hlp : locked p'' = false).
        { destruct (locked p'') eqn:El; [|done]. apply (Hlk _ _ _ Ht') in El. congruence. }
        pose proof (Hpc _ _ _ Ht') as Hpi. clear Ht'.
        destruct p''; cbn in Hp''; try done.
        -- subst. destruct m0; try done. destruct Hpi as (_ & _ & Hmo). cbn in Hmo.
           specialize (Hmo Hw Hemk). congruence.
        -- subst. destruct m0; try done. destruct Hpi as (_ & _ & Hmo & _). cbn in Hmo.
           specialize (Hmo Hw Hemk). congruence.
    + exists c, (P_une (Some e)). rewrite lookup_insert. done.
Qed.

Lemma core_clear (s : shared) thr (h : list hitem) kof m t c :
  core s thr h kof m -> thr !! t = Some (c, P_clr) ->
  exists h' m', core (set_read ∅ false s) (<[t := (c, P_clr2)]> thr) h' kof m' /\
    h' ≫= hvis = h ≫= hvis.
Proof.
  intros Hc Ht.
  destruct (holder_phase _ _ _ _ _ _ _ _ Hc Ht eq_refl) as [Hl Hs].
  pose proof Hc as [Hrun Hmap _ Hpc Hlk Hlk2 _ _ _ _].
  pose proof (Hpc _ _ _ Ht) as Hcc. cbn in Hcc. subst c.
  assert (Hemok : forall k e, emap s !! k = Some e -> kof e = k /\ e < s_next s).
  { intros k0 e0. by eapply (emap_ok Normal). }
  exists (h ++ [HClr t (emap s)]), ∅.
  split; [|by rewrite bind_app; cbn; rewrite app_nil_r].
  assert (Em' : forall k', emap (set_read ∅ false s) !! k' = None) by done.
  eapply (core_append _ _ _ _ _ _ _ t [HClr t (emap s)]); [exact Hc|..].
  - eexists. split; [|done]. cbn. rewrite lookup_fmap, Ht. split; [done|]. by rewrite fmap_insert.
  - intros t' Hne. by rewrite lookup_insert_ne.
  - intros k'. by rewrite Em'.
  - unfold the_phase. cbn. rewrite Hl, lookup_insert. cbn. split; [|split].
    + intros k e. done.
    + apply Hs.
    + done.
  - intros t' c' p'' Ht'. destruct (decide (t' = t)) as [->|Hne].
    + rewrite lookup_insert in Ht'. by injection Ht' as <- <-.
    + rewrite lookup_insert_ne in Ht' by done. apply (unlocked_pcinv _ _ _ _ s _ kof); [|cbn; lia|done| |by eapply Hpc].
      * destruct (locked p'') eqn:El; [|done]. apply (Hlk _ _ _ Ht') in El. congruence.
      * intros e' He' Hce. done.
  - intros t' c' p'' Ht'. cbn. destruct (decide (t' = t)) as [->|Hne].
    + rewrite lookup_insert in Ht'. by injection Ht' as <- <-.
    + rewrite lookup_insert_ne in Ht' by done. by eapply Hlk.
  - intros t'. cbn. intros Hl'. destruct (decide (t' = t)) as [->|Hne]; [by rewrite lookup_insert|].
    rewrite lookup_insert_ne by done. by apply Hlk2.
  - done.
  - done.
  - intros e' He'. by rewrite Em'.
  - intros i ->%elem_of_list_singleton. by right.
  - intros i k' e' ->%elem_of_list_singleton. cbn. intros Hk.
    destruct (Hemok _ _ Hk) as [-> ?]. done.
  - cbn. intros e' He' Hce. split; [done|].
    destruct (decide (emap s !! kof e' = Some e')) as [Hcur|Hcur].
    + right. split; [done|]. eexists. split; [done|]. split; [done|]. split; [by rewrite Hmap, Hcur|]. split; [done|].
      intros c' p''. rewrite lookup_insert. intros [= <- <-] [[]|[]].
    + left. split; [done|]. split; [done|]. rewrite lookup_insert.
      split; intros c' p'' [= <- <-] Hp''; done.
  - intros c' p'' e' Ht' Hdc' Hp''. rewrite Ht in Ht'. by injection Ht' as <- <-.
  - intros k' e' td Hin. by apply elem_of_list_singleton in Hin.
Qed.

End moves2.
