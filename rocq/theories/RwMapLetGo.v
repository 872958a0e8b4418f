(** rwmap: a key that is not used any more is gone after two promotions. *)
From Verif Require Import Base RwMapModel RwMapSpec RwMapInv RwMapFrame RwMapMoves RwMapMoves2 RwMapStep RwMapStep2 RwMapStep3 RwMapLin RwMapLen RwMapMemSpec RwMapMem RwMapLetGoSpec.

Section letgo.
Context {K : Type} `{Countable K} {V : Type}.
Context (deref : nat -> V) (zero : V) (veq : V -> V -> option bool).
Local Notation call := (call K V).
Local Notation pc := (pc K V).
Local Notation shared := (shared K).
Local Notation good := (good deref veq).
Local Notation slot_val := (slot_val deref).
Local Notation pcinv := (pcinv deref veq).
Local Notation config := (config K V).
Local Notation run := (run deref zero veq).
Local Notation act := (act deref zero veq).
Local Notation step := (step deref zero veq).
Local Notation contents := (contents deref).
Local Notation promotions := (promotions deref zero veq).
Implicit Types (s : shared) (c : call) (p : pc).

(** What one step may do to a key that the call does not store. *)
Record mild (k : K) p s s' : Prop := mk_mild {
  m_down : s_am s = true -> s_am s' = false -> forall e, s_rd s' !! k = Some e -> dirty_map s !! k = Some e;
  m_down2 : s_am s = true -> s_am s' = false -> p <> P_clr -> dirty_map s' !! k = None;
  m_rd : s_am s = false \/ s_am s' = true -> forall e, s_rd s' !! k = Some e -> s_rd s !! k = Some e;
  m_dirty : forall e, dirty_map s' !! k = Some e ->
    dirty_map s !! k = Some e \/ (s_rd s !! k = Some e /\ slot_val (s_ent s e) <> None);
  m_val : forall e, s_rd s !! k = Some e \/ dirty_map s !! k = Some e ->
    slot_val (s_ent s e) = None -> slot_val (s_ent s' e) = None }.

Lemma mild_same k p s s' :
  s_rd s' = s_rd s -> s_am s' = s_am s -> dirty_map s' = dirty_map s -> s_ent s' = s_ent s -> mild k p s s'.
Proof. intros H1 H2 H3 H4. constructor; rewrite ?H1, ?H2, ?H3, ?H4; intros; try congruence; auto. Qed.

Lemma mild_ent k p s e x :
  (s_rd s !! k = Some e \/ dirty_map s !! k = Some e -> slot_val (s_ent s e) = None -> slot_val x = None) ->
  mild k p s (set_ent e x s).
Proof.
  intros Hx. constructor; cbn [set_ent s_rd s_am s_ent]; intros; try congruence; auto.
  destruct (decide (e0 = e)) as [->|Hne]; [rewrite fn_lookup_insert; auto|by rewrite fn_lookup_insert_ne].
Qed.

Lemma mild_promote k p s : s_am s = true -> mild k p s (promote s).
Proof.
  intros Ha. constructor; cbn; intros; try done; auto.
  destruct_or?; congruence.
Qed.

Lemma mild_miss k p s : s_am s = true -> mild k p s (missLocked s).
Proof. intros Ha. unfold missLocked. case_decide; [by apply mild_same|by apply mild_promote]. Qed.

Lemma dirty_del s k : dirty_map (set_dirty (delete k <$> s_dirty s) s) = delete k (dirty_map s).
Proof. unfold dirty_map. cbn. destruct (s_dirty s); cbn; [done|by rewrite delete_empty]. Qed.

Lemma mild_del k k' p s : s_am s = true -> mild k p s (missLocked (set_dirty (delete k' <$> s_dirty s) s)).
Proof.
  intros Ha. set (s1 := set_dirty (delete k' <$> s_dirty s) s).
  assert (Hd : forall e, dirty_map s1 !! k = Some e -> dirty_map s !! k = Some e).
  { intros e. unfold s1. rewrite dirty_del. by intros [_ ?]%lookup_delete_Some. }
  unfold missLocked. case_decide; constructor; cbn; intros; try congruence; auto.
  - destruct_or?; congruence.
  - match goal with Hx : ∅ !! _ = _ |- _ => by rewrite lookup_empty in Hx | Hx : dirty_map (promote _) !! _ = _ |- _ => by rewrite lookup_empty in Hx end.
Qed.

Lemma mild_store k k' e p s s' (q : pc) op ev :
  k' <> k -> s_rd s' = s_rd s -> s_am s' = s_am s -> s_dirty s' = s_dirty s ->
  (forall e', s_rd s !! k = Some e' \/ dirty_map s !! k = Some e' -> slot_val (s_ent s e') = None -> slot_val (s_ent s' e') = None) ->
  forall s'', dirty_store k' e q s' = Some (op, s'', ev) -> mild k p s s''.
Proof.
  intros Hk E1 E2 E3 E4 s'' Hs. unfold dirty_store in Hs. destruct (s_dirty s') as [d|] eqn:Hd.
  - injection Hs as <- <- <-. constructor; cbn [set_dirty s_rd s_am s_ent dirty_map s_dirty].
    + intros; congruence.
    + intros; congruence.
    + intros; congruence.
    + intros e'. rewrite lookup_insert_ne by done. unfold dirty_map. rewrite <- E3. by left.
    + done.
  - injection Hs as <- <- <-. constructor; intros; try congruence; auto.
    match goal with Hx : dirty_map _ !! _ = _ |- _ => unfold dirty_map in Hx; rewrite Hd in Hx; by rewrite lookup_empty in Hx end.
Qed.

Lemma step_mild k ph s kof t c p lab op s' ev :
  sinv ph s kof -> (locked p = true -> ph = phase_of p) -> pcinv c p s kof -> ~ stores_key k c ->
  step t c p s lab = Some (op, s', ev) -> mild k p s s'.
Proof.
  intros Hs Hph Hp Hk Hst.
  pose proof Hs as (Hm1 & Hm2 & _).
  assert (Hkof : forall e, s_rd s !! k = Some e \/ dirty_map s !! k = Some e -> kof e = k /\ e < s_next s).
  { intros e [He|He]; [by apply Hm1|by apply Hm2]. }
  assert (Hst_key : storing c -> call_key c <> Some k).
  { destruct c; cbn in *; try done; intros _ [= ->]; by apply Hk. }
  assert (Hgoto : forall q, goto q s = Some (op, s', ev) -> mild k p s s').
  { intros q [= <- <- <-]. by apply mild_same. }
  destruct p; cbn in Hst; destruct lab; try done.
  - unfold step_read in Hst. repeat case_match; try done; eauto.
  - case_match; [done|]. injection Hst as <- <- <-. by apply mild_same.
  - unfold step_read2 in Hst. repeat case_match; try done; eauto.
  - destruct Hp as (k' & Hck & Hrd & Hfind).
    assert (Hadd : storing c -> add_key s = Some (op, s', ev) -> mild k P_dirty s s').
    { intros _ Ha. unfold add_key in Ha. destruct (s_am s) eqn:Ea; [eauto|]. destruct (s_dirty s) eqn:Ed; [eauto|].
      injection Ha as <- <- <-. apply mild_same; try done. unfold dirty_map. cbn. by rewrite Ed. }
    unfold step_dirty in Hst. destruct c; cbn in Hck; try done; injection Hck as ->; cbn in Hfind.
    + injection Hst as <- <- <-. apply mild_miss. auto.
    + case_match; [eauto|]. by apply Hadd.
    + case_match; [eauto|]. by apply Hadd.
    + case_match; [eauto|]. by apply Hadd.
    + injection Hst as <- <- <-. apply mild_del; auto.
    + injection Hst as <- <- <-. apply mild_del; auto.
    + case_match; eauto.
    + injection Hst as <- <- <-. apply mild_miss. auto.
  - destruct Hp as (Hsc & Hck & Hrd). rewrite Hck in Hst.
    destruct (s_ent s e) eqn:Ee; [eauto| |eauto].
    eapply (mild_store k (kof e) e _ s (set_ent e SNil s)); try done.
    + intros Heq. apply (Hst_key Hsc). congruence.
    + intros e' _ Hv. cbn. destruct (decide (e' = e)) as [->|Hne]; [by rewrite fn_lookup_insert|by rewrite fn_lookup_insert_ne].
  - destruct Hp as (Hsc & Hck & Hlt & Hem & Hne).
    assert (Hsc' : storing c) by (by destruct c).
    assert (Hno : s_rd s !! k = Some e \/ dirty_map s !! k = Some e -> False).
    { intros He. apply (Hst_key Hsc'). destruct (Hkof e He) as [<- _]. done. }
    destruct (s_ent s e) eqn:Ee; [| |].
    + case_match; [|eauto]. injection Hst as <- <- <-. apply mild_ent. intros He. by destruct (Hno He).
    + eauto.
    + case_match; [|eauto]. injection Hst as <- <- <-. apply mild_ent. intros He. by destruct (Hno He).
  - case_decide; eauto. done.
  - case_match; eauto. done.
  - destruct (s_ent s e) eqn:Ee; [eauto|eauto|].
    destruct (decide (k0 = k)) as [->|Hne].
    2: { eapply (mild_store k k0 e _ s s); eauto. }
    rewrite (Hph eq_refl) in Hs. destruct Hs as (_ & _ & Ham & d & Hd & Htodo & _).
    destruct (Htodo k e) as (Hr & _); [by rewrite lookup_insert|].
    unfold dirty_store in Hst. rewrite Hd in Hst. injection Hst as <- <- <-.
    constructor; cbn; intros; try congruence; auto.
    unfold dirty_map in *. cbn in *. rewrite Hd. apply lookup_insert_Some in H0 as [[_ <-]|[_ ?]]; [right|by left].
    split; [done|]. by rewrite Ee.
  - destruct (s_ent s e) eqn:Ee; [|eauto|eauto]. injection Hst as <- <- <-. apply mild_ent. done.
  - injection Hst as <- <- <-. constructor; cbn; intros; try done; auto. 
  - destruct Hp as (Hsc & Ham & k' & Hck & _). rewrite Hck in Hst. case_match; [|done].
    eapply (mild_store k k' _ _ s (new_entry _ s)); try done.
    + intros ->. by apply (Hst_key Hsc).
    + intros e' He Hv. cbn. destruct (Hkof e' He). rewrite fn_lookup_insert_ne by lia. done.
  - injection Hst as <- <- <-. apply mild_miss. apply Hp.
  - injection Hst as <- <- <-. by apply mild_same.
  - case_match; injection Hst as <- <- <-; by apply mild_same.
  - by case_match.
  - by case_match.
  - injection Hst as <- <- <-. apply mild_promote. apply Hp.
  - injection Hst as <- <- <-. by apply mild_same.
  - injection Hst as <- <- <-. constructor; cbn; intros; try done; auto. 
  - injection Hst as <- <- <-. constructor; cbn; intros; try congruence; auto. 
    unfold dirty_map in *. cbn in *. destruct (s_dirty s); cbn in *; by rewrite lookup_empty in *.
  - unfold step_load in Hst. repeat case_match; try done; eauto.
  - destruct Hp as (Hck & Hlt & _ & Hok). case_decide as Hx; [|eauto]. injection Hst as <- <- <-. apply mild_ent.
    intros He Hv. destruct (Hkof e He) as [Hke _]. rewrite Hke in Hck.
    destruct c; cbn in *; try done; try (injection Hck as ->; by destruct (Hk eq_refl)).
    destruct Hok as (q & -> & _). rewrite Hx in Hv. done.
  - injection Hst as <- <- <-. by apply mild_same.
  - case_decide; eauto. done.
  - case_match; eauto. done.
  - case_match; eauto.
  - repeat case_match; try done; injection Hst as <- <- <-; by apply mild_same.
  - eauto.
  - injection Hst as <- <- <-. by apply mild_same.
Qed.

(** ** Executions *)
Definition dead (k : K) (cf : config) : Prop :=
  (forall e, s_rd (c_sh cf) !! k = Some e -> slot_val (s_ent (c_sh cf) e) = None) /\
  (no_half_clear cf -> forall e, dirty_map (c_sh cf) !! k = Some e -> slot_val (s_ent (c_sh cf) e) = None) /\
  (forall t c p, c_thr cf !! t = Some (c, p) -> ~ stores_key k c).
Definition stage (k : K) (n : nat) (cf : config) : Prop :=
  (1 <= n -> no_half_clear cf -> dirty_map (c_sh cf) !! k = None) /\
  (2 <= n -> s_rd (c_sh cf) !! k = None).

Lemma phase_locked (s : shared) (thr : gmap nat (call * pc)) h kof m t c p :
  core deref veq s thr h kof m -> thr !! t = Some (c, p) -> locked p = true -> the_phase s thr = phase_of p.
Proof.
  intros Hc Ht Hl. unfold the_phase. rewrite (proj1 (i_lock _ _ _ _ _ _ _ Hc _ _ _ Ht) Hl), Ht. done.
Qed.

Lemma amended_no_clear (s : shared) (thr : gmap nat (call * pc)) h kof m :
  core deref veq s thr h kof m -> s_am s = true -> no_half_clear (mk_config s thr).
Proof.
  intros Hc Ha t c Ht. cbn in Ht. pose proof (i_s _ _ _ _ _ _ _ Hc) as Hs.
  rewrite (phase_locked _ _ _ _ _ _ _ _ Hc Ht eq_refl) in Hs. destruct Hs as (_ & _ & Hx & _). congruence.
Qed.

Lemma clr2_dec p : p = P_clr2 \/ p <> P_clr2.
Proof. destruct p; first [left; reflexivity|right; discriminate]. Qed.

Lemma act_dead k n (cf : config) tr a cf' ev :
  good (c_sh cf) (c_thr cf) tr -> act cf a = Some (cf', ev) ->
  (forall t c, EInv t c ∈ ev -> ~ stores_key k c) -> dead k cf -> stage k n cf ->
  dead k cf' /\ stage k (n + (if s_am (c_sh cf) then if s_am (c_sh cf') then 0 else 1 else 0)) cf'.
Proof.
  intros (h & kof & m & Hc & _) Ha Hev (Hd1 & Hd2 & Hd3) (Hs1 & Hs2). destruct cf as [s thr]. cbn [c_sh c_thr] in *.
  destruct a as [t c|t lab]; cbn in Ha.
  - destruct (thr !! t) eqn:Ht; [done|]. injection Ha as <- <-. cbn [c_sh c_thr].
    assert (Hnh : no_half_clear (mk_config s (<[t := (c, enter c)]> thr)) -> no_half_clear (mk_config s thr)).
    { intros Hn t' c' Ht'. apply (Hn t' c'). cbn in *. rewrite lookup_insert_ne by congruence. done. }
    replace (n + _) with n by (destruct (s_am s); lia).
    split; [split; [done|split; [auto|]]|split; auto].
    intros t' c' p'. cbn. intros [[<- [= <- <-]]|[_ ?]]%lookup_insert_Some; [|eauto].
    apply (Hev t). by apply elem_of_list_singleton.
  - destruct (thr !! t) as [[c p]|] eqn:Ht; [|done].
    destruct (step t c p s lab) as [[[op s'] ev']|] eqn:Hst; [|done].
    pose proof (step_mild k _ _ _ _ _ _ _ _ _ _ (i_s _ _ _ _ _ _ _ Hc) (phase_locked _ _ _ _ _ _ _ _ Hc Ht)
      (i_pc _ _ _ _ _ _ _ Hc _ _ _ Ht) (Hd3 _ _ _ Ht) Hst) as Hm.
    assert (Hshape : exists thr', cf' = mk_config s' thr' /\
      (forall t' c' p', thr' !! t' = Some (c', p') -> (t' = t /\ c' = c /\ op = Some p') \/ thr !! t' = Some (c', p')) /\
      (forall t', t' <> t -> thr' !! t' = thr !! t') /\ (forall p', op = Some p' -> thr' !! t = Some (c, p'))).
    { destruct op as [p'|]; injection Ha as <- <-; eexists; (split; [done|]); (split; [|split]).
      - intros t' c' q. intros [[<- [= <- <-]]|[_ ?]]%lookup_insert_Some; auto.
      - intros t' Hne. by rewrite lookup_insert_ne.
      - intros q [= <-]. by rewrite lookup_insert.
      - intros t' c' q [_ ?]%lookup_delete_Some. auto.
      - intros t' Hne. by rewrite lookup_delete_ne.
      - done. }
    destruct Hshape as (thr' & -> & Hthr & Hoth & Hself). cbn [c_sh c_thr] in *. clear Ha.
    assert (Hnh : no_half_clear (mk_config s' thr') -> p = P_clr2 \/ no_half_clear (mk_config s thr)).
    { intros Hn. destruct (clr2_dec p) as [Hp|Hp]; [by left|].
      right. intros t' c' Ht'. cbn in Ht'. destruct (decide (t' = t)) as [->|Hne].
      - rewrite Ht in Ht'. injection Ht' as <- ->. done.
      - apply (Hn t' c'). cbn. by rewrite Hoth. }
    assert (Hclr2 : p = P_clr2 -> dirty_map s' = ∅).
    { intros ->. destruct lab; try done. injection Hst as <- <- <-. cbn. unfold dirty_map. cbn. by destruct (s_dirty s). }
    assert (Hdown : s_am s = true -> no_half_clear (mk_config s thr)) by (by eapply amended_no_clear).
    assert (Hrd' : forall e, s_rd s' !! k = Some e ->
      ((s_am s = false \/ s_am s' = true) /\ s_rd s !! k = Some e) \/ (s_am s = true /\ s_am s' = false /\ dirty_map s !! k = Some e)).
    { intros e He. destruct (s_am s) eqn:E1, (s_am s') eqn:E2.
      - left. split; [auto|]. eapply m_rd; eauto.
      - right. split; [done|]. split; [done|]. eapply m_down; eauto.
      - left. split; [auto|]. eapply m_rd; eauto.
      - left. split; [auto|]. eapply m_rd; eauto. }
    split; [split; [|split]|split]; cbn [c_sh c_thr].
    + intros e He. destruct (Hrd' e He) as [[_ Hr]|(Ha & _ & Hr)].
      * eapply m_val; eauto.
      * eapply m_val; eauto.
    + intros Hn e He. destruct (Hnh Hn) as [Hp|Hn0].
      * rewrite (Hclr2 Hp), lookup_empty in He. done.
      * destruct (m_dirty _ _ _ _ Hm e He) as [Hd|[Hr Hv]].
        -- eapply m_val; eauto.
        -- by destruct (Hv (Hd1 e Hr)).
    + intros t' c' p' [(_ & -> & _)|?]%Hthr; eauto.
    + intros Hn1 Hn. destruct (Hnh Hn) as [Hp|Hn0]; [by rewrite (Hclr2 Hp), lookup_empty|].
      destruct (decide (1 <= n)) as [Hn'|Hn'].
      * destruct (dirty_map s' !! k) as [e|] eqn:He; [|done].
        destruct (m_dirty _ _ _ _ Hm e He) as [Hd|[Hr Hv]]; [|by destruct (Hv (Hd1 e Hr))].
        rewrite Hs1 in Hd; done.
      * destruct (s_am s) eqn:E1; [|lia]. destruct (s_am s') eqn:E2; [lia|].
        eapply m_down2; [done..|]. intros ->. destruct lab; try done. injection Hst as <- <- <-.
        destruct (Hn t c). cbn. by apply Hself.
    + intros Hn2. destruct (s_rd s' !! k) as [e|] eqn:He; [|done].
      destruct (Hrd' e eq_refl) as [[Hx Hr]|(Ha & Hb & Hr)].
      * rewrite Hs2 in Hr; [done|]. destruct Hx as [Hx|Hx]; rewrite Hx in Hn2; [lia|].
        destruct (s_am s); lia.
      * rewrite Ha, Hb in Hn2. rewrite Hs1 in Hr; [done|lia|auto].
Qed.

Lemma run_dead k acts n (cf : config) tr cf' ev :
  good (c_sh cf) (c_thr cf) tr -> run cf acts = Some (cf', ev) ->
  (forall t c, EInv t c ∈ ev -> ~ stores_key k c) -> dead k cf -> stage k n cf ->
  dead k cf' /\ stage k (n + promotions cf acts) cf'.
Proof.
  revert n cf tr ev. induction acts as [|a acts IH]; intros n cf tr ev Hg Hr Hev Hd Hs; cbn in Hr.
  - injection Hr as <- <-. cbn. by rewrite Nat.add_0_r.
  - destruct (act cf a) as [[cf1 ev1]|] eqn:Ha; [|done].
    destruct (run cf1 acts) as [[cf2 ev2]|] eqn:Hr'; [|done]. injection Hr as <- <-.
    destruct (act_dead k n _ _ _ _ _ Hg Ha) as [Hd1 Hs1]; try done.
    { intros t c Hin. apply (Hev t). apply elem_of_app. by left. }
    cbn. rewrite Ha, Nat.add_assoc. eapply IH; try done; [by eapply act_good|].
    intros t c Hin. apply (Hev t). apply elem_of_app. by right.
Qed.

Lemma absent_dead (cf : config) tr k :
  good (c_sh cf) (c_thr cf) tr -> contents (c_sh cf) !! k = None ->
  (forall t c p, c_thr cf !! t = Some (c, p) -> ~ stores_key k c) -> dead k cf.
Proof.
  intros (h & kof & m & Hc & _) Hk Ht. rewrite contents_lookup in Hk.
  assert (Hem : forall e, emap (c_sh cf) !! k = Some e -> slot_val (s_ent (c_sh cf) e) = None).
  { intros e He. by rewrite He in Hk. }
  split; [|split; [|done]].
  - intros e He. apply Hem. unfold emap. case_match; [|done]. by apply lookup_union_Some_l.
  - intros Hn e He. destruct (s_ent (c_sh cf) e) as [| |q] eqn:Hq; [done..|].
    rewrite <- Hq. apply Hem. eapply kept_emap; [apply (i_s _ _ _ _ _ _ _ Hc)| |by right|done].
    unfold the_phase. destruct (s_lock (c_sh cf)) as [t|]; [|done].
    destruct (c_thr cf !! t) as [[c p]|] eqn:Hp; [|done]. intros Hq'. apply (Hn t c). rewrite Hp. by destruct p.
Qed.

Lemma let_go acts0 acts (cf0 cf : config) tr0 tr k : Inhabited K ->
  run new_config acts0 = Some (cf0, tr0) -> contents (c_sh cf0) !! k = None ->
  (forall t c p, c_thr cf0 !! t = Some (c, p) -> ~ stores_key k c) ->
  run cf0 acts = Some (cf, tr) -> (forall t c, EInv t c ∈ tr -> ~ stores_key k c) ->
  2 <= promotions cf0 acts -> no_half_clear cf -> ~ keeps_key (c_sh cf) k.
Proof.
  intros Hinh Hr0 Hk Ht Hr Hev H2 Hn.
  assert (Hg : good (c_sh cf0) (c_thr cf0) ([] ++ tr0)) by (eapply run_good; [by apply new_good|done]).
  destruct (run_dead k acts 0 _ _ _ _ Hg Hr Hev) as [_ [Hs1 Hs2]].
  - by eapply absent_dead.
  - split; lia.
  - cbn in Hs1, Hs2. intros [Hin|Hin]; apply elem_of_dom in Hin as [e He].
    + by rewrite Hs2 in He.
    + rewrite Hs1 in He; [done|lia|done].
Qed.
End letgo.
