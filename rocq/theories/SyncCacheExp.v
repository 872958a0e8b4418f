(** synccache: expirations. *)
From Coq Require Import ZifyBool ZifyNat.
From Verif Require Import Base RwMapModel RwMapSpec SyncCacheModel SyncCacheSpec SyncCacheHist SyncCacheLink SyncCacheDel SyncCacheCalls.

Section exp.
Context {K : Type} `{Countable K} {V : Type}.
Context (deref : nat -> nat) (veq : V -> V -> option bool) (has_cb : bool).
Local Notation scall := (scall K V).
Local Notation spc := (spc K).
Local Notation frame := (frame K V).
Local Notation sev := (sev K V).
Local Notation status := (status K nat).
Local Notation mcall := (call K nat).
Local Notation result := (result nat).
Local Notation mev := (mev K V).
Local Notation mstate := (mstate K V).
Local Notation mstep := (mstep deref veq has_cb).
Local Notation mrun := (mrun deref veq has_cb).
Local Notation mcase := (mcase deref veq has_cb).
Local Notation linked := (linked deref has_cb).
Local Notation changes := (changes deref veq has_cb).
Local Notation seen := (seen deref veq has_cb).
Local Notation removed := (removed deref veq has_cb).
Local Notation answers := (answers deref veq has_cb).

Implicit Types (h : list mev) (m : mstate) (ent : gmap nat (V * Z)) (nw : nat) (fr : gmap nat frame)
  (mp : gmap K nat) (st : gmap nat status) (c : scall) (p : spc) (mc : mcall) (r : result) (t u e : nat) (k : K).


Local Ltac ev_in Hin := cbn in Hin; repeat (apply elem_of_cons in Hin as [Hin|Hin]); try (by apply elem_of_nil in Hin); try discriminate Hin.

Lemma expiration_app e y (tr1 tr2 : list sev) : expiration e y (tr1 ++ tr2) = expiration e (expiration e y tr1) tr2.
Proof. revert y. induction tr1 as [|ev tr1 IH]; intros y; [done|]. apply IH. Qed.

Lemma mrun_expiration h m : mrun m_init h m -> forall e, snd <$> c_ent (m_cl m) !! e = expiration e None (trace h).
Proof.
  revert h m. apply (mrun_cases _ _ _ (fun h m => forall e, snd <$> c_ent (m_cl m) !! e = expiration e None (trace h))).
  - intros e. cbn. by rewrite lookup_empty.
  - intros h m x m' Hr Hl Hr' IH Hm e. rewrite trace_snoc, expiration_app, <- IH.
    destruct Hm; cbn; try done.
    + case_decide as Hd; [subst; by rewrite lookup_insert|by rewrite lookup_insert_ne].
    + case_decide as Hd; [subst; by rewrite lookup_insert|by rewrite lookup_insert_ne].
    + case_decide as Hd; [subst; rewrite lookup_insert, H0; done|by rewrite lookup_insert_ne].
Qed.

Lemma mrun_checked h m g1 x g2 t e now y : mrun m_init h m -> h = g1 ++ x :: g2 -> SChk t e now y ∈ x.2 ->
  expiration e None (trace g1) = Some y.
Proof.
  intros Hr -> Hin. apply mrun_app in Hr as (m1 & Hr1 & m2 & Hs & _).
  rewrite <- (mrun_expiration _ _ Hr1). apply mstep_case in Hs.
  destruct Hs; cbn in Hin; ev_in Hin. injection Hin as -> -> -> ->. cbn. by rewrite H1.
Qed.

(** An entry is made once. *)
Lemma mrun_made h m : mrun m_init h m ->
  (forall t e v y, SNew t e v y ∈ trace h -> e < c_new (m_cl m)) /\
  (forall e v y, c_ent (m_cl m) !! e = Some (v, y) -> e < c_new (m_cl m)) /\
  (forall t v y t' v' y' e, SNew t e v y ∈ trace h -> SNew t' e v' y' ∈ trace h -> t' = t /\ v' = v /\ y' = y).
Proof.
  revert h m. apply (mrun_cases _ _ _ (fun h m => (forall t e v y, SNew t e v y ∈ trace h -> e < c_new (m_cl m)) /\
    (forall e v y, c_ent (m_cl m) !! e = Some (v, y) -> e < c_new (m_cl m)) /\
    (forall t v y t' v' y' e, SNew t e v y ∈ trace h -> SNew t' e v' y' ∈ trace h -> t' = t /\ v' = v /\ y' = y))).
  - split; [intros t e v y Hin; by apply elem_of_nil in Hin|]. split; [|intros t v y t' v' y' e Hin; by apply elem_of_nil in Hin].
    intros e v y. cbn. by rewrite lookup_empty.
  - intros h m x m' Hr Hl Hr' (I1 & I2 & I3) Hm. pose proof (c_new_mono _ _ _ _ _ _ Hm) as Hmono.
    rewrite trace_snoc. setoid_rewrite elem_of_app.
    assert (Hcase : (exists t v y, forall t' e v' y', SNew t' e v' y' ∈ x.2 <-> t' = t /\ e = c_new (m_cl m) /\ v' = v /\ y' = y) /\ c_new (m_cl m') = S (c_new (m_cl m)) \/
      forall t e v y, SNew t e v y ∉ x.2).
    { destruct Hm; try (right; intros ? ? ? ? Hin; ev_in Hin; fail).
      left. split; [|done]. exists t, v, (ms (n + d)). intros t' e v' y'. cbn. rewrite !elem_of_cons, elem_of_nil.
      split; [intros [|[[= -> -> -> ->]|]]; done|intros (-> & -> & -> & ->); auto]. }
    split; [|split].
    + intros t e v y [Hin|Hin]; [apply I1 in Hin; lia|].
      destruct Hcase as [[(t1 & v1 & y1 & Hx) Hn]|Hx]; [|by apply Hx in Hin]. apply Hx in Hin as (_ & -> & _). lia.
    + intros e v y He. assert (Hold : forall v y, c_ent (m_cl m) !! e = Some (v, y) -> e < c_new (m_cl m')).
      { intros v' y' ?%I2. lia. }
      clear Hcase. destruct Hm; cbn in He, Hold |- *; try (by eapply Hold).
      * apply lookup_insert_Some in He as [[<- _]|[_ He]]; [lia|by eapply Hold].
      * apply lookup_insert_Some in He as [[<- _]|[_ He]]; by eapply Hold.
      * apply lookup_insert_Some in He as [[<- _]|[_ He]]; by eapply Hold.
    + intros t v y t' v' y' e Hin Hin'. destruct Hcase as [[(t1 & v1 & y1 & Hx) Hn]|Hx].
      * destruct Hin as [Hin|Hin], Hin' as [Hin'|Hin'].
        -- by eapply I3.
        -- apply Hx in Hin' as (_ & -> & _). apply I1 in Hin. lia.
        -- apply Hx in Hin as (_ & -> & _). apply I1 in Hin'. lia.
        -- apply Hx in Hin as (-> & _ & -> & ->). apply Hx in Hin' as (-> & _ & -> & ->). done.
      * destruct Hin as [Hin|Hin]; [|by apply Hx in Hin]. destruct Hin' as [Hin'|Hin']; [|by apply Hx in Hin']. by eapply I3.
Qed.

(** While nobody moves the expiration of an entry it is that of its making. *)
Lemma expiration_unmoved e t v y o (tr : list sev) :
  (forall a, SSet e a ∉ tr) -> (forall d, SAdd e d ∉ tr) ->
  (forall t' v' y', SNew t' e v' y' ∈ tr -> y' = y) ->
  SNew t e v y ∈ tr \/ o = Some y -> expiration e o tr = Some y.
Proof.
  revert o. induction tr as [|ev tr IH]; intros o H1 H2 H3 Hin.
  { destruct Hin as [Hin|]; [by apply elem_of_nil in Hin|done]. }
  cbn. apply IH.
  - intros a Ha. eapply H1. by right.
  - intros a Ha. eapply H2. by right.
  - intros t' v' y' Ha. eapply H3. by right.
  - rewrite elem_of_cons in Hin. destruct Hin as [[<-|?]| ->]; [right; by rewrite decide_True|by left|].
    right. destruct ev; try done; case_decide; subst; try done.
    + f_equal. eapply H3. by left.
    + exfalso. eapply H1. by left.
    + exfalso. eapply H2. by left.
Qed.

Lemma mrun_unmoved h m t e v y : mrun m_init h m -> SNew t e v y ∈ trace h ->
  (forall a, SSet e a ∉ trace h) -> (forall d, SAdd e d ∉ trace h) -> expiration e None (trace h) = Some y.
Proof.
  intros Hr Hin H1 H2. eapply expiration_unmoved; eauto. intros t' v' y' Hin'.
  destruct (mrun_made _ _ Hr) as (_ & _ & Hu). by destruct (Hu _ _ _ _ _ _ _ Hin Hin') as (_ & _ & ?).
Qed.

(** ** The answer of Load and LoadAndDelete once the entry was checked *)
Definition settled c p e n x : Prop :=
  match p with
  | Q_cad _ _ _ | Q_cadw _ _ _ => Z.lt x n
  | Q_del _ e' b => match c with SLoad _ => Z.lt x n | _ => e' = e /\ b = Z.ltb x n end
  | Q_ret y => y = answer_of e n x
  | _ => False
  end.
Definition bounds h m : Prop :=
  forall t c now p, c_fr (m_cl m) !! t = Some (mk_frame c now p) -> looks_up c ->
    exists h1 h2, in_call h t c h1 h2 /\ forall e n x, SChk t e n x ∈ trace h2 -> settled c p e n x.

Lemma bounds_step h m x m' :
  mrun m_init h m -> linked m -> bounds h m -> mcase m x m' -> bounds (h ++ [x]) m'.
Proof.
  intros Hrun [Hl Hok] Hb Hm.
  assert (Hgo : forall t c now p p', c_fr (m_cl m) !! t = Some (mk_frame c now p) -> looks_up c ->
    (forall c', SInv t c' ∉ x.2) -> (forall y, SRet t y ∉ x.2) ->
    (forall e n y, settled c p e n y -> settled c p' e n y) ->
    (forall e n y, SChk t e n y ∈ x.2 -> settled c p' e n y) ->
    exists h1 h2, in_call (h ++ [x]) t c h1 h2 /\ forall e n y, SChk t e n y ∈ trace h2 -> settled c p' e n y).
  { intros t c now p p' Hf Hc H1 H2 H3 H4. destruct (Hb _ _ _ _ Hf Hc) as (h1 & h2 & Hic & Hs).
    exists h1, (h2 ++ [x]). split; [by apply in_call_snoc|]. intros e n y. rewrite trace_snoc. intros [Hin|Hin]%elem_of_app; eauto. }
  intros t' c' now' p'. destruct Hm; cbn in Hl, Hok |- *; cbn [m_cl c_fr M m_map a_st snd] in Hgo; intros Hf' Hlk;
    try (eapply Hgo; [done|done| | | |]; try (by (intros ? Hin; ev_in Hin)); try done; try (by (intros ? ? ? Hin; ev_in Hin)));
    try (apply lookup_insert_Some in Hf' as [[<- [= <- <- <-]]|[Hne Hf']];
         [|eapply Hgo; [done|done| | | |]; try (by (intros ? Hin; ev_in Hin)); try done; try (intros ? ? ? Hin; ev_in Hin; congruence)]).
  - exists h, []. split; [by split_and!; [done|intros ? Hin; ev_in Hin|intros ? Hin; ev_in Hin]|]. intros e n y Hin. ev_in Hin.
  - intros c1 Hin. ev_in Hin. congruence.
  - by destruct H1 as [-> | ->].
  - eapply Hgo; [done|done| | | |]; try (by (intros ? Hin; ev_in Hin)); try (by (intros ? ? ? Hin; ev_in Hin)).
  - eapply Hgo; [done|done| | | |]; try (by (intros ? Hin; ev_in Hin)); try (by (intros ? ? ? Hin; ev_in Hin)).
  - eapply Hgo; [done|done| | | |]; try (by (intros ? Hin; ev_in Hin)); try (by (intros ? ? ? Hin; ev_in Hin)).
    intros e1 n1 y1 Hin. ev_in Hin. injection Hin as -> -> ->. unfold after_chk.
    destruct c; try done; unfold SyncCacheModel.del, after_del; unfold settled, answer_of; cbn; repeat case_match; simplify_eq; try done; try lia.
  - pose proof (Hok _ _ _ _ H0) as Hp. eapply Hgo; [done|done| | | |]; try (by (intros ? Hin; ev_in Hin)); try (by (intros ? ? ? Hin; ev_in Hin)).
    intros e1 n1 y1. destruct c; try done; cbn; unfold answer_of; [|intros [-> ->]]; repeat case_match; try done; lia.
  - pose proof (Hok _ _ _ _ H0) as Hp. cbn in Hp. by subst c.
  - apply lookup_delete_Some in Hf' as [Hne Hf']. eapply Hgo; [done|done| | | |]; try done;
      try (by (intros ? Hin; ev_in Hin)); try (by (intros ? ? ? Hin; ev_in Hin)). intros y Hin. ev_in Hin. congruence.
  - by destruct c.
  - eapply Hgo; [done|done| | | |]; try (by (intros ? Hin; ev_in Hin)); try (by (intros ? ? ? Hin; ev_in Hin)).
    by destruct p.
  - pose proof (Hok _ _ _ _ H0) as Hp.
    eapply Hgo; [done|done| | | |]; try (by (intros ? Hin; ev_in Hin)); try (by (intros ? ? ? Hin; ev_in Hin)).
    intros e1 n1 y1. destruct p; try done. cbn. destruct c; try done. cbn in H2. destruct r; try done.
    injection H2 as <-. cbn. unfold answer_of. repeat case_match; simplify_eq; cbn; try done; try (intros; unfold answer_of; case_match; [done|lia]).
  - pose proof (Hok _ _ _ _ H0) as [Hp _]. by destruct c.
Qed.

Lemma mrun_bounds h m : mrun m_init h m -> bounds h m.
Proof.
  revert h m. apply (mrun_cases _ _ _ bounds); [intros t c now p Hf; cbn in Hf; by rewrite lookup_empty in Hf|].
  intros h m x m' Hr Hb Hm. eapply bounds_step; eauto using mrun_linked.
Qed.

Lemma mrun_boundary h m g1 x g2 t c (y : sres) h1 h2 : mrun m_init h m -> h = g1 ++ x :: g2 -> SRet t y ∈ x.2 ->
  in_call g1 t c h1 h2 -> looks_up c ->
  forall e n x, SChk t e n x ∈ trace h2 -> y = answer_of e n x.
Proof.
  intros Hr -> Hin Hic Hc e n z Hz. apply mrun_app in Hr as (m1 & Hr1 & m2 & Hs & _).
  pose proof (mrun_informed _ _ _ _ _ Hr1) as Hi.
  apply mrun_bounds in Hr1. apply mstep_case in Hs.
  destruct Hs; cbn in Hin; ev_in Hin. injection Hin as -> ->.
  destruct (Hi _ _ _ _ H0) as (h1' & h2' & Hc' & _).
  destruct (in_call_inj _ _ _ _ _ _ _ _ Hic Hc') as (-> & -> & ->).
  destruct (Hr1 _ _ _ _ H0 Hc) as (h1' & h2' & Hc'' & Hse).
  destruct (in_call_inj _ _ _ _ _ _ _ _ Hic Hc'') as (-> & -> & _). by apply Hse in Hz.
Qed.

End exp.
