(** synccache: what Range, trim and Clear do. *)
From Verif Require Import Base RwMapModel RwMapSpec SyncCacheModel SyncCacheSpec SyncCacheHist SyncCacheLink SyncCacheDel SyncCacheCalls.

Section ranges.
Context {K : Type} `{Countable K} {V : Type}.
Context (deref : nat -> nat) (veq : V -> V -> option bool) (has_cb : bool).
Local Notation scall := (scall K V).
Local Notation spc := (spc K).
Local Notation frame := (frame K V).
Local Notation sev := (sev K V).
Local Notation status := (status K nat).
Local Notation mcall := (call K nat).
Local Notation result := (result nat).
Local Notation mev := (mev K V).
Local Notation mstate := (mstate K V).
Local Notation mstep := (mstep deref veq has_cb).
Local Notation mrun := (mrun deref veq has_cb).
Local Notation mcase := (mcase deref veq has_cb).
Local Notation linked := (linked deref has_cb).
Local Notation changes := (changes deref veq has_cb).
Local Notation seen := (seen deref veq has_cb).
Local Notation removed := (removed deref veq has_cb).
Local Notation answers := (answers deref veq has_cb).

Implicit Types (h : list mev) (m : mstate) (ent : gmap nat (V * Z)) (nw : nat) (fr : gmap nat frame)
  (mp : gmap K nat) (st : gmap nat status) (c : scall) (p : spc) (mc : mcall) (r : result) (t u e : nat) (k : K).


Local Notation throughout := (throughout deref veq has_cb).
Local Notation swept := (swept deref veq has_cb).
Local Ltac ev_in Hin := cbn in Hin; repeat (apply elem_of_cons in Hin as [Hin|Hin]); try (by apply elem_of_nil in Hin); try discriminate Hin.

Lemma throughout_snoc h1 h2 x k e : throughout h1 (h2 ++ [x]) k e -> throughout h1 h2 k e.
Proof. intros Ht o Ho. apply Ht. by apply seen_snoc. Qed.
Lemma used_app t (tr1 tr2 : list sev) : used t (tr1 ++ tr2) = used t tr1 ++ used t tr2.
Proof. apply bind_app. Qed.
Lemma used_none t (tr : list sev) : (forall k e b, SUse t k e b ∉ tr) -> used t tr = [].
Proof.
  induction tr as [|ev tr IH]; [done|]. intros Hn. change (ev :: tr) with ([ev] ++ tr). rewrite used_app, IH; [|intros k e b Hin; eapply (Hn k e b); by right].
  rewrite app_nil_r. destruct ev; try done. cbn. rewrite app_nil_r. case_decide; [|done]. subst. exfalso. eapply Hn. by left.
Qed.

Section sweep.
Context (h1 h2 : list mev).

(** The entry was found expired; left alone. *)
Definition old_ t c now e : Prop :=
  match c with STrim => exists x, SChk t e now x ∈ trace h2 /\ Z.lt x now | _ => found_expired h2 t e end.
Definition left_alone t c now k e (b : bool) : Prop :=
  match c with
  | SRange => SUse t k e b ∈ trace h2
  | STrim => exists x, SChk t e now x ∈ trace h2 /\ Z.le now x
  | _ => False
  end.
Definition not_there k e : Prop := exists o, o <> Some e /\ seen h1 h2 k o.

Definition clock_ok t c now p : Prop :=
  c = STrim -> match p with
               | Q_now => forall n, SClock t n ∉ trace h2
               | _ => exists n, now = ms n /\ forall n', SClock t n' ∈ trace h2 <-> n' = n
               end.
Definition removed_ok t c now p : Prop :=
  c <> SClear -> forall k e, removed h1 h2 t k e -> p <> Q_now /\ old_ t c now e.
Definition uses_ok t c p (xo : option status) : Prop :=
  (exists l, NoDup l /\
    match xo with
    | Some (AIter _ ks vis _) => forall k, k ∈ l -> k ∉ ks /\ vis !! k = None
    | Some (ADone _ _) => True
    | _ => match p with Q_ret _ => True | _ => l = [] end
    end /\
    (used t (trace h2) = l \/ exists k e b, p = Q_back k e b /\ used t (trace h2) = l ++ [k])) /\
  (forall k e b, SUse t k e b ∈ trace h2 -> found_live h2 t e /\ (seen h1 h2 k (Some e) \/ p = Q_back k e b)).
Definition complete t c now : Prop :=
  (exists k e, SUse t k e false ∈ trace h2) \/
  forall k e, throughout h1 h2 k e -> left_alone t c now k e true.
Definition emptied : Prop := exists g1 g2 m, h2 = g1 ++ g2 /\ mrun m_init (h1 ++ g1) m /\ map_of m = ∅.
Definition status_ok t c now (xo : option status) : Prop :=
  match xo with
  | Some (AIter _ ks vis _) =>
      (forall k e, vis !! k = Some e -> k ∉ ks /\ seen h1 h2 k (Some e)) /\
      (forall k e, throughout h1 h2 k e -> k ∈ ks \/ vis !! k = Some e \/ left_alone t c now k e true)
  | Some (ADone CClear _) => emptied
  | Some (ADone CRange _) => (c = SRange /\ exists k e, SUse t k e false ∈ trace h2) \/
      forall k e, throughout h1 h2 k e -> left_alone t c now k e true
  | _ => True
  end.
Definition place_ok t c now p (yo : option status) : Prop :=
  match p with
  | Q_chk k e => c = SRange
  | Q_chk2 k e => c = SRange -> exists n, SClock t n ∈ trace h2 /\ now = ms n
  | Q_cad k e x => c <> SClear -> old_ t c now e
  | Q_cadw k e x => (c <> SClear -> old_ t c now e) /\
      match yo with Some (ADone _ _) => not_there k e | _ => True end
  | Q_del k e x => not_there k e
  | Q_user k e => found_live h2 t e
  | Q_back k e b => (b = true /\ not_there k e) \/ left_alone t c now k e b
  | Q_ret _ => swept h1 h2 t c
  | _ => True
  end.
Definition sweeps t c now p st : Prop :=
  clock_ok t c now p /\ removed_ok t c now p /\ uses_ok t c p (st !! tid t false) /\
  status_ok t c now (st !! tid t false) /\ place_ok t c now p (st !! tid t true).
End sweep.

Definition sweeping c : Prop := match c with SClear | SRange | STrim => True | _ => False end.

Lemma old_snoc h2 x t c now e : old_ h2 t c now e -> old_ (h2 ++ [x]) t c now e.
Proof. destruct c; cbn; try apply expired_snoc. intros (y & ? & ?). exists y. split; [by apply trace_in_snoc|done]. Qed.
Lemma left_alone_snoc h2 x t c now k e b : left_alone h2 t c now k e b -> left_alone (h2 ++ [x]) t c now k e b.
Proof. destruct c; cbn; try done; [by apply trace_in_snoc|]. intros (y & ? & ?). exists y. split; [by apply trace_in_snoc|done]. Qed.
Lemma not_there_snoc h1 h2 x k e : not_there h1 h2 k e -> not_there h1 (h2 ++ [x]) k e.
Proof. intros (o & ? & ?). exists o. split; [done|]. by apply seen_snoc. Qed.
Lemma emptied_snoc h1 h2 x : emptied h1 h2 -> emptied h1 (h2 ++ [x]).
Proof. intros (g1 & g2 & m & -> & ? & ?). exists g1, (g2 ++ [x]), m. by rewrite app_assoc. Qed.

Lemma clock_snoc h2 (x : mev) t c now p : (forall n, SClock t n ∉ x.2) ->
  clock_ok h2 t c now p -> clock_ok (h2 ++ [x]) t c now p.
Proof.
  intros Hx Hc Ht. specialize (Hc Ht). destruct p;
    try (destruct Hc as (n & -> & Hn); exists n; split; [done|]; intros n'; rewrite trace_snoc, elem_of_app, <- Hn; specialize (Hx n'); tauto).
  intros n. rewrite trace_snoc, elem_of_app. intros [?|?]; [by eapply Hc|by eapply Hx].
Qed.
Lemma removed_ok_snoc h1 h2 x t c now p : by_ x <> Some t ->
  removed_ok h1 h2 t c now p -> removed_ok h1 (h2 ++ [x]) t c now p.
Proof. intros Hx Hr Hc k e [?%Hr|[_ ?]]%removed_snoc_inv; [|done|done]. destruct H0. split; [done|]. by apply old_snoc. Qed.
Lemma uses_snoc h1 h2 (x : mev) t c p xo : (forall k e b, SUse t k e b ∉ x.2) ->
  uses_ok h1 h2 t c p xo -> uses_ok h1 (h2 ++ [x]) t c p xo.
Proof.
  intros Hx [Hl Hu]. split.
  - rewrite trace_snoc, used_app, (used_none _ x.2), app_nil_r by done. done.
  - intros k e b. rewrite trace_snoc, elem_of_app. intros [Hin|Hin]; [|by apply Hx in Hin].
    apply Hu in Hin as [? [?|?]]; eauto using live_snoc, seen_snoc.
Qed.
Lemma status_snoc h1 h2 x t c now xo : status_ok h1 h2 t c now xo -> status_ok h1 (h2 ++ [x]) t c now xo.
Proof.
  destruct xo as [[|[] r|mc ks vis n]|]; cbn; try done.
  - apply emptied_snoc.
  - intros [(? & k & e & ?)|Hx]; [left|right].
    + split; [done|]. exists k, e. by apply trace_in_snoc.
    + intros k e ?%throughout_snoc%Hx. by apply left_alone_snoc.
  - intros [H1 H2]. split.
    + intros k e Hk. apply H1 in Hk as [? ?]. split; [done|]. by apply seen_snoc.
    + intros k e Ht%throughout_snoc. apply H2 in Ht as [?|[?|?]]; eauto using left_alone_snoc.
Qed.
Lemma swept_snoc h1 h2 (x : mev) t c : by_ x <> Some t -> (forall ev, ev ∈ x.2 -> ev_thr ev <> Some t) ->
  swept h1 h2 t c -> swept h1 (h2 ++ [x]) t c.
Proof.
  intros Hb Hx. destruct c; cbn; try done.
  - intros [Hc He]. split; [intros k e ?%throughout_snoc; by eapply Hc|]. intros ?%He. by apply emptied_snoc.
  - assert (Hu : forall k e b, SUse t k e b ∉ x.2) by (intros k e b Hin%Hx; done).
    intros (Hn & Hs & Hr & Hc). split_and!.
    + rewrite trace_snoc, used_app, (used_none _ x.2), app_nil_r by done. done.
    + intros k e b. rewrite trace_snoc, elem_of_app. intros [Hin|Hin]; [|by apply Hu in Hin].
      apply Hs in Hin as []. eauto using live_snoc, seen_snoc.
    + intros k e [?%Hr|[_ ?]]%removed_snoc_inv; [|done]. by apply expired_snoc.
    + destruct Hc as [(k & e & ?)|Hc]; [left; exists k, e; by apply trace_in_snoc|right].
      intros k e ?%throughout_snoc%Hc. by apply trace_in_snoc.
  - intros (n & Hn & Hr & Hc). exists n. split_and!.
    + intros n'. rewrite trace_snoc, elem_of_app, <- Hn. split; [|by left]. intros [?|?%Hx]; done.
    + intros k e [(y & ? & ?)%Hr|[_ ?]]%removed_snoc_inv; [|done]. exists y. split; [by apply trace_in_snoc|done].
    + intros k e (y & ? & ?)%throughout_snoc%Hc. exists y. split; [by apply trace_in_snoc|done].
Qed.
Lemma place_snoc h1 h2 (x : mev) t c now p yo : by_ x <> Some t -> (forall ev, ev ∈ x.2 -> ev_thr ev <> Some t) ->
  place_ok h1 h2 t c now p yo -> place_ok h1 (h2 ++ [x]) t c now p yo.
Proof.
  intros Hb Hx. destruct p; cbn; try done.
  - intros Hk Hc. apply Hk in Hc as (n & ? & ?). exists n. split; [by apply trace_in_snoc|done].
  - eauto using old_snoc.
  - intros [? ?]. split; [eauto using old_snoc|]. destruct yo as [[]|]; eauto using not_there_snoc.
  - apply not_there_snoc.
  - apply live_snoc.
  - intros [[? ?]|?]; eauto using not_there_snoc, left_alone_snoc.
  - by apply swept_snoc.
Qed.

Lemma used_no_call (x : mev) t : (forall ev, ev ∈ x.2 -> ev_thr ev <> Some t) ->
  (forall n, SClock t n ∉ x.2) /\ (forall k e b, SUse t k e b ∉ x.2) /\
  (forall c', SInv t c' ∉ x.2) /\ (forall y, SRet t y ∉ x.2).
Proof. intros Hx. split_and!; intros; intros Hin%Hx; done. Qed.

Lemma sweeps_snoc h1 h2 (x : mev) t c now p st st' : by_ x <> Some t -> (forall ev, ev ∈ x.2 -> ev_thr ev <> Some t) ->
  (forall b, st' !! tid t b = st !! tid t b) ->
  sweeps h1 h2 t c now p st -> sweeps h1 (h2 ++ [x]) t c now p st'.
Proof.
  intros Hb Hx Hst (H1 & H2 & H3 & H4 & H5). destruct (used_no_call _ _ Hx) as (X1 & X2 & _).
  unfold sweeps. rewrite !Hst. split_and!.
  - by apply clock_snoc.
  - by apply removed_ok_snoc.
  - by apply uses_snoc.
  - by apply status_snoc.
  - by apply place_snoc.
Qed.

Definition swept_up h m : Prop :=
  forall t c now p, c_fr (m_cl m) !! t = Some (mk_frame c now p) -> sweeping c ->
    exists h1 h2, in_call h t c h1 h2 /\ sweeps (h1 ++ [inv_of t c]) h2 t c now p (a_st (m_map m)).

Lemma not_there_throughout h1 h2 k e : not_there h1 h2 k e -> ~ throughout h1 h2 k e.
Proof. intros (o & Hne & Hs) Ht. apply Hne. by apply Ht. Qed.

(** Parts that only look at some places. *)
Lemma clock_go h2 t c now p p' : p <> Q_now -> clock_ok h2 t c now p -> p' <> Q_now -> clock_ok h2 t c now p'.
Proof. intros Hp Hc Hp' Ht. specialize (Hc Ht). destruct p, p'; done. Qed.
Lemma removed_go h1 h2 t c now p p' : p' <> Q_now -> removed_ok h1 h2 t c now p -> removed_ok h1 h2 t c now p'.
Proof. intros Hp Hc Ht k e [_ ?]%Hc; done. Qed.
Definition quiet p : Prop := match p with Q_back _ _ _ | Q_ret _ => False | _ => True end.
Lemma uses_go h1 h2 t c p p' xo : quiet p -> uses_ok h1 h2 t c p xo -> uses_ok h1 h2 t c p' xo.
Proof.
  intros Hp [(l & Hn & Hx & Hl) Hu]. split.
  - exists l. split; [done|]. split.
    + destruct xo as [[]|]; try done; destruct p'; try done; by destruct p.
    + destruct Hl as [Hl|(k & e & b & -> & _)]; [by left|done].
  - intros k e b [? [?| ->]]%Hu; [|done]. auto.
Qed.

Lemma swept_up_step h m x m' :
  mrun m_init h m -> linked m -> mrun m_init (h ++ [x]) m' -> swept_up h m -> mcase m x m' -> swept_up (h ++ [x]) m'.
Proof.
  intros Hrun [Hl Hok] Hrun' Hi Hm.
  pose proof (mstep_last _ _ _ _ _ _ _ _ Hrun Hrun') as Hstep.
  assert (Hsame : forall t c now p, c_fr (m_cl m) !! t = Some (mk_frame c now p) -> sweeping c ->
    (forall ev, ev ∈ x.2 -> ev_thr ev <> Some t) -> by_ x <> Some t ->
    (forall b, a_st (m_map m') !! tid t b = a_st (m_map m) !! tid t b) ->
    exists h1 h2, in_call (h ++ [x]) t c h1 h2 /\ sweeps (h1 ++ [inv_of t c]) h2 t c now p (a_st (m_map m'))).
  { intros t c now p Hf Hc H1 H2 H3. destruct (Hi _ _ _ _ Hf Hc) as (h1 & h2 & Hin & Hs).
    exists h1, (h2 ++ [x]). destruct (used_no_call _ _ H1) as (_ & _ & X3 & X4). split; [by apply in_call_snoc|].
    by eapply sweeps_snoc. }
  assert (Hgo : forall t c now p now' p', c_fr (m_cl m) !! t = Some (mk_frame c now p) -> sweeping c ->
    (forall c', SInv t c' ∉ x.2) -> (forall y, SRet t y ∉ x.2) ->
    (forall h1 h2, h = h1 ++ h2 -> sweeps h1 h2 t c now p (a_st (m_map m)) ->
       sweeps h1 (h2 ++ [x]) t c now' p' (a_st (m_map m'))) ->
    exists h1 h2, in_call (h ++ [x]) t c h1 h2 /\ sweeps (h1 ++ [inv_of t c]) h2 t c now' p' (a_st (m_map m'))).
  { intros t c now p now' p' Hf Hc H1 H2 H3. destruct (Hi _ _ _ _ Hf Hc) as (h1 & h2 & Hin & Hs).
    exists h1, (h2 ++ [x]). split; [by apply in_call_snoc|]. apply H3; [|done].
    destruct Hin as [-> _]. by rewrite <- app_assoc. }
  intros t' c' now' q'.
  destruct Hm; cbn [m_cl c_fr M m_map a_st snd] in *.
  - rewrite lookup_insert_Some. intros [[<- [= <- <- <-]]|[Hne Hf]] Hc.
    2:{ apply Hsame; try done. intros ev Hin; ev_in Hin. subst ev. cbn. congruence. }
    exists h, []. split; [split; [done|]; split; intros ? Hin; by apply elem_of_nil in Hin|].
    assert (Hst : forall b, st !! tid t b = None).
    { intros b. destruct (st !! tid t b) eqn:E; [|done].
      destruct (link_call_of _ _ _ _ _ _ _ Hl E) as (? & ? & ? & ? & ? & _). congruence. }
    unfold sweeps. rewrite !Hst. split_and!.
    + intros ->. cbn. intros n Hin. by apply elem_of_nil in Hin.
    + intros _ k e (g1 & y & g2 & Hg & _). by destruct g1.
    + split; [|intros k e b Hin; by apply elem_of_nil in Hin]. exists []. split; [constructor|]. split; [by destruct c|by left].
    + done.
    + by destruct c.
  - rewrite lookup_insert_Some. intros [[<- [= <- <- <-]]|[Hne Hf]] Hc.
    2:{ apply Hsame; try done. intros ev Hin; ev_in Hin; subst ev; cbn; congruence. }
    by destruct H1 as [-> | ->].
  - rewrite lookup_insert_Some. intros [[<- [= <- <- <-]]|[Hne Hf]] Hc.
    2:{ apply Hsame; try done. intros ev Hin; ev_in Hin; subst ev; cbn; congruence. }
    eapply Hgo; [done|done|intros ? Hin; ev_in Hin..|]. intros h1 h2 Hh (S1 & S2 & S3 & S4 & S5).
    pose proof (Hok _ _ _ _ H0) as Hk. cbn in Hk. subst c. split_and!.
    + intros _. exists n. split; [done|]. intros n'. rewrite trace_snoc, elem_of_app. specialize (S1 eq_refl). cbn in S1. split.
      * intros [?|Hin]; [by apply S1 in H1|]. ev_in Hin. congruence.
      * intros ->. right. by left.
    + intros Hc1 k e [?%S2|[_ ?]]%removed_snoc_inv; [|done|done]. by destruct H1.
    + apply uses_snoc; [intros k e b Hin; ev_in Hin|]. by eapply uses_go; [|exact S3].
    + assert (st !! tid t false = None) as ->; [|done].
      destruct (st !! tid t false) eqn:E; [|done].
      destruct (link_call_of _ _ _ _ _ _ _ Hl E) as (? & ? & ? & ? & Hf & Hb & _). rewrite H0 in Hf. by injection Hf as <- <- <-.
    + done.
  - rewrite lookup_insert_Some. intros [[<- [= <- <- <-]]|[Hne Hf]] Hc.
    2:{ apply Hsame; try done. intros ev Hin; ev_in Hin; subst ev; cbn; congruence. }
    eapply Hgo; [done|done|intros ? Hin; ev_in Hin..|]. intros h1 h2 Hh (S1 & S2 & S3 & S4 & S5).
    cbn in S5. subst c. split_and!.
    + done.
    + intros Hc1 k' e' [[_ ?]%S2|[_ ?]]%removed_snoc_inv; [|done|done]. split; [done|]. by apply expired_snoc.
    + apply uses_snoc; [intros ? ? ? Hin; ev_in Hin|]. by eapply uses_go; [|exact S3].
    + by apply (status_snoc _ _ _ _ SRange now).
    + intros _. exists n. split; [|done]. apply trace_in_last. by left.
  - (* the check *)
    rewrite lookup_insert_Some. intros [[<- [= <- <- <-]]|[Hne Hf]] Hc.
    2:{ apply Hsame; try done. intros ev Hin; ev_in Hin; subst ev; cbn; congruence. }
    eapply Hgo; [done|done|intros ? Hin; ev_in Hin..|]. intros h1 h2 Hh (S1 & S2 & S3 & S4 & S5).
    set (y := (MLoc (KLoc t LNone), [SChk t e now x]) : mev).
    assert (Hchk : SChk t e now x ∈ trace (h2 ++ [y])) by (apply trace_in_last; by left).
    pose proof (Hok _ _ _ _ H0) as Hk.
    assert (Hnn : after_chk veq has_cb c k e v (Z.ltb x now) <> Q_now).
    { destruct c; try done; cbn; by destruct (Z.ltb x now). }
    split_and!.
    + eapply clock_snoc; [intros ? Hin; ev_in Hin|]. by eapply clock_go; [|exact S1|].
    + apply removed_ok_snoc; [done|]. by eapply removed_go.
    + apply uses_snoc; [intros ? ? ? Hin; ev_in Hin|]. by eapply uses_go; [|exact S3].
    + by apply status_snoc.
    + destruct c; try done; cbn.
      * destruct (S5 eq_refl) as (n & Hn & ->).
        assert (SClock t n ∈ trace (h2 ++ [y])) by by apply trace_in_snoc.
        destruct (Z.ltb_spec x (ms n)); cbn; [intros _|]; by exists n, x.
      * destruct (Z.ltb_spec x now); cbn; [intros _|right]; by exists x.
  - (* deletedCallback *)
    rewrite lookup_insert_Some. intros [[<- [= <- <- <-]]|[Hne Hf]] Hc.
    2:{ apply Hsame; try done. intros ev Hin; ev_in Hin; subst ev; cbn; congruence. }
    eapply Hgo; [done|done|intros ? Hin; ev_in Hin..|]. intros h1 h2 Hh (S1 & S2 & S3 & S4 & S5).
    assert (after_del c k e x = Q_back k e true) as -> by by destruct c.
    split_and!.
    + eapply clock_snoc; [intros ? Hin; ev_in Hin|]. by eapply clock_go; [|exact S1|].
    + apply removed_ok_snoc; [done|]. by eapply removed_go.
    + apply uses_snoc; [intros ? ? ? Hin; ev_in Hin|]. by eapply uses_go; [|exact S3].
    + by apply status_snoc.
    + left. split; [done|]. by apply not_there_snoc.
  - (* f *)
    rewrite lookup_insert_Some. intros [[<- [= <- <- <-]]|[Hne Hf]] Hc.
    2:{ apply Hsame; try done. intros ev Hin; ev_in Hin; subst ev; cbn; congruence. }
    eapply Hgo; [done|done|intros ? Hin; ev_in Hin..|]. intros h1 h2 Hh (S1 & S2 & S3 & S4 & S5).
    pose proof (Hok _ _ _ _ H0) as Hk. cbn in Hk. subst c.
    split_and!.
    + eapply clock_snoc; [intros ? Hin; ev_in Hin|]. by eapply clock_go; [|exact S1|].
    + apply removed_ok_snoc; [done|]. by eapply removed_go.
    + destruct S3 as [(l & Hn & Hx & Hlu) Hu]. split.
      * exists l. split; [done|]. split; [done|]. right. exists k, e, b. split; [done|].
        destruct Hlu as [Hlu|(? & ? & ? & ? & _)]; [|done]. rewrite trace_snoc, used_app, Hlu. cbn. by rewrite decide_True.
      * intros k' e' b'. rewrite trace_snoc, elem_of_app. intros [Hin|Hin].
        -- apply Hu in Hin as [? [?|?]]; [|done]. eauto using live_snoc, seen_snoc.
        -- ev_in Hin. injection Hin as -> -> ->. split; [by apply live_snoc|by right].
    + by apply status_snoc.
    + right. apply trace_in_last. by left.
  - rewrite lookup_delete_Some. intros [Hne Hf] Hc.
    apply Hsame; try done. intros ev Hin; ev_in Hin; subst ev; cbn; congruence.
  - (* the callback begins *)
    rewrite lookup_insert_Some. intros [[<- [= <- <- <-]]|[Hne Hf]] Hc.
    2:{ apply Hsame; try done. intros ev Hin; ev_in Hin; subst ev; cbn; congruence. }
    eapply Hgo; [done|done|intros ? Hin; ev_in Hin..|]. intros h1 h2 Hh (S1 & S2 & S3 & S4 & S5).
    assert (Hnn : callback c k e <> Q_now) by by destruct c.
    split_and!.
    + eapply clock_snoc; [intros ? Hin; ev_in Hin|]. by eapply clock_go; [|exact S1|].
    + apply removed_ok_snoc; [done|]. by eapply removed_go.
    + apply uses_snoc; [intros ? ? ? Hin; ev_in Hin|]. by eapply uses_go; [|exact S3].
    + by apply status_snoc.
    + destruct c; cbn; try done; intros Hx; done.
  - intros Hf Hc. apply Hsame; try done. intros ev Hin; ev_in Hin; subst ev; done.
  - intros Hf Hc. apply Hsame; try done. intros ev Hin; ev_in Hin; subst ev; done.
  - (* a call of the map begins *)
    rewrite lookup_insert_Some. intros [[<- [= <- <- <-]]|[Hne Hf]] Hc.
    2:{ apply Hsame; try done; [intros ev Hin; ev_in Hin|]. intros b. apply lookup_insert_ne, tid_ne; auto. }
    eapply Hgo; [done|done|intros ? Hin; ev_in Hin..|]. intros h1 h2 Hh (S1 & S2 & S3 & S4 & S5).
    pose proof (Hok _ _ _ _ H0) as Hk.
    assert (Hnn : p <> Q_now /\ inside p <> Q_now /\ quiet p) by by destruct p. destruct Hnn as (Hn1 & Hn2 & Hq).
    destruct p; try done; cbn [SyncCacheModel.inside SyncCacheModel.inner] in *.
    + by destruct c.
    + split_and!.
      * eapply clock_snoc; [intros ? Hin; ev_in Hin|]. by eapply clock_go; [|exact S1|].
      * apply removed_ok_snoc; [done|]. by eapply removed_go.
      * apply uses_snoc; [intros ? ? ? Hin; ev_in Hin|]. rewrite lookup_insert. rewrite H2 in S3. exact (uses_go _ _ _ _ Q_get Q_wait None I S3).
      * by rewrite lookup_insert.
      * done.
    + assert (Hr : ranging has_cb c = true). { cbn in Hk. destruct c; try done. by destruct Hk. }
      rewrite Hr in *.
      assert (E : forall st y, <[tid t true := y]> st !! tid t false = (st : gmap nat status) !! tid t false).
      { intros. apply lookup_insert_ne, tid_ne. by right. }
      split_and!.
      * eapply clock_snoc; [intros ? Hin; ev_in Hin|]. by eapply clock_go; [|exact S1|].
      * apply removed_ok_snoc; [done|]. by eapply removed_go.
      * apply uses_snoc; [intros ? ? ? Hin; ev_in Hin|]. rewrite E. by eapply uses_go; [|exact S3].
      * rewrite E. by apply status_snoc.
      * cbn [place_ok]. rewrite lookup_insert. split; [|done]. intros ?%S5. by apply old_snoc.
  - (* a call of the map returns *)
    rewrite lookup_insert_Some. intros [[<- [= <- <- <-]]|[Hne Hf]] Hc.
    2:{ apply Hsame; try done; [intros ev Hin; ev_in Hin|]. intros b. apply lookup_delete_ne, tid_ne; auto. }
    eapply Hgo; [done|done|intros ? Hin; ev_in Hin..|]. intros h1 h2 Hh (S1 & S2 & S3 & S4 & S5).
    pose proof (Hok _ _ _ _ H0) as Hk.
    destruct (link_call_of _ _ _ _ _ _ _ Hl H1) as (c1 & now1 & p1 & mc1 & Hf1 & Hb1 & Hm1 & Hs1).
    rewrite H0 in Hf1. injection Hf1 as <- <- <-. destruct Hs1 as [<- _].
    destruct p; try done; cbn [SyncCacheModel.inner] in *.
    + assert (p' = Q_ret SUnit) as ->. { destruct c, r; cbn in H2; try done; congruence. }
      split_and!.
      * eapply clock_snoc; [intros ? Hin; ev_in Hin|]. by eapply clock_go; [|exact S1|].
      * apply removed_ok_snoc; [done|]. by eapply removed_go.
      * apply uses_snoc; [intros ? ? ? Hin; ev_in Hin|]. rewrite lookup_delete. rewrite H1 in S3.
        destruct S3 as [(l & Hn & Hx & Hlu) Hu]. split.
        -- exists l. split_and!; [done..|]. destruct Hlu as [?|(? & ? & ? & ? & _)]; [by left|done].
        -- intros k e b [? [?|?]]%Hu; [|done]. eauto.
      * by rewrite lookup_delete.
      * apply swept_snoc; [done|intros ev Hin; ev_in Hin|]. rewrite H1 in S3, S4.
        assert (Hmc : mc = if ranging has_cb c then CRange else CClear).
        { unfold mcall_ok in Hm1. destruct (ranging has_cb c) eqn:E; [done|]. by destruct c. }
        destruct c; try done; cbn in Hmc |- *.
        -- assert (Hg : forall hc : bool, mc = (if hc then CRange else CClear) ->
             (∀ k e, ¬ throughout h1 h2 k e) ∧ (hc = false → emptied h1 h2)).
           { intros [] ->; cbn in S4; split; try done.
             - destruct S4 as [[? _]|S4]; [done|]. intros k e Ht. by apply (S4 k e) in Ht.
             - intros k e Ht. destruct S4 as (g1 & g2 & m & -> & Hr & Hm). specialize (Ht None). 
               discriminate Ht. exists g1, g2, m. split_and!; [done..|]. by rewrite Hm, lookup_empty. }
           by apply Hg.
        -- subst mc. destruct S3 as [(l & Hn & Hx & Hlu) Hu]. cbn in S4. split_and!.
           ++ destruct Hlu as [->|(? & ? & ? & ? & _)]; done.
           ++ intros k e b [? [?|?]]%Hu; done.
           ++ intros k e [_ ?]%S2; done.
           ++ destruct S4 as [[_ ?]|?]; [by left|by right].
        -- subst mc. destruct (S1 eq_refl) as (n & -> & Hn). exists n. split; [done|]. split.
           ++ intros k e [_ ?]%S2; done.
           ++ cbn in S4. destruct S4 as [[? _]|?]; done.
    + assert (Hr : ranging has_cb c = true). { cbn in Hk. destruct c; try done. by destruct Hk. }
      rewrite Hr in *. destruct (after_ret_cad _ _ _ _ _ _ _ H2) as (b & -> & ->).
      rewrite H1 in S5. destruct S5 as [_ S5].
      assert (E : forall st, delete (tid t true) st !! tid t false = (st : gmap nat status) !! tid t false).
      { intros. apply lookup_delete_ne, tid_ne. by right. }
      assert (Ha : forall b, after_cad c k e x b = Q_back k e true) by by destruct c.
      assert (Hnn : forall hc : bool, sweeps h1 (h2 ++ [(MItem (IRet (tid t true) (RBool b)), [])]) t c now
        (if b then if hc then Q_del k e x else after_cad c k e x true else after_cad c k e x false) (delete (tid t true) st)); [|apply Hnn].
      intros hc. rewrite !Ha.
      set (q := if b then if hc then Q_del k e x else Q_back k e true else Q_back k e true).
      assert (Hq : q = Q_del k e x \/ q = Q_back k e true). { subst q. destruct b, hc; auto. }
      clearbody q. assert (Hqn : q <> Q_now) by by destruct Hq as [-> | ->].
      unfold sweeps. rewrite E. split_and!.
      * eapply clock_snoc; [intros ? Hin; ev_in Hin|]. by eapply clock_go; [|exact S1|].
      * apply removed_ok_snoc; [done|]. by eapply removed_go.
      * apply uses_snoc; [intros ? ? ? Hin; ev_in Hin|]. by eapply uses_go; [|exact S3].
      * by apply status_snoc.
      * destruct Hq as [-> | ->]; cbn; [by apply not_there_snoc|left]. split; [done|]. by apply not_there_snoc.
  - (* the callback ends *)
    rewrite lookup_insert_Some. intros [[<- [= <- <- <-]]|[Hne Hf]] Hc.
    2:{ apply Hsame; try done; [intros ev Hin; ev_in Hin|]. intros b'. apply lookup_insert_ne, tid_ne; auto. }
    eapply Hgo; [done|done|intros ? Hin; ev_in Hin..|]. intros h1 h2 Hh (S1 & S2 & S3 & S4 & S5).
    pose proof (Hok _ _ _ _ H0) as [Hrg Hb].
    destruct (link_call_of _ _ _ _ _ _ _ Hl H1) as (c1 & now1 & p1 & mc1 & Hf1 & Hb1 & Hm1 & Hs1).
    destruct Hs1 as [-> ->]. rewrite H1 in S3, S4. destruct S4 as [S4 S4']. destruct (S4 _ _ H2) as [Hks Hseen].
    unfold sweeps. rewrite lookup_insert. split_and!.
    + eapply clock_snoc; [intros ? Hin; ev_in Hin|]. by eapply clock_go; [|exact S1|].
    + apply removed_ok_snoc; [done|]. by eapply removed_go.
    + apply uses_snoc; [intros ? ? ? Hin; ev_in Hin|].
      destruct S3 as [(l & Hn & Hx & Hlu) Hu]. split.
      * assert (Hkl : k ∉ l). { intros Hin. destruct (Hx _ Hin). congruence. }
        exists (used t (trace h2)). split_and!; [..|by left].
        -- destruct Hlu as [-> |(k' & e' & b' & [= <- <- <-] & ->)]; [done|].
           apply NoDup_app. split; [done|]. split; [|by apply NoDup_singleton].
           intros k' Hk' ->%elem_of_list_singleton. done.
        -- destruct b; [|done]. intros k' Hk'. destruct (decide (k' = k)) as [->|Hne].
           ++ by rewrite lookup_delete.
           ++ rewrite lookup_delete_ne by done. apply Hx. destruct Hlu as [Hu2|(k2 & e2 & b2 & [= <- <- <-] & Hu2)]; [congruence|].
              rewrite Hu2 in Hk'. apply elem_of_app in Hk' as [?|?%elem_of_list_singleton]; done.
      * intros k' e' b' [? [?|[= <- <- <-]]]%Hu; [by auto|]. auto.
    + apply status_snoc. destruct b; cbn.
      * split.
        -- intros k' e' [_ Hk']%lookup_delete_Some. by apply S4.
        -- intros k' e' Ht. destruct (S4' _ _ Ht) as [?|[Hv|?]]; [by left| |by auto].
           destruct (decide (k' = k)) as [->|Hne]; [|right; left; by rewrite lookup_delete_ne].
           right. right. rewrite H2 in Hv. injection Hv as <-.
           destruct S5 as [[_ ?%not_there_throughout]|?]; done.
      * left. assert (c = SRange) as -> by (destruct c; try done; by discriminate Hb). split; [done|].
        exists k, e. by destruct S5 as [[? _]|?].
    + done.
  - (* a call takes effect *)
    destruct (tid_of u) as (t & b & ->).
    destruct (link_call_of _ _ _ _ _ _ _ Hl H0) as (c1 & now1 & p1 & mc1 & Hf1 & Hb1 & Hm1 & Hs1). cbn in Hs1. subst mc1.
    intros Hf Hc. destruct (decide (t' = t)) as [->|Hne].
    2:{ apply Hsame; try done; [intros ev Hin; ev_in Hin|cbn; rewrite tid_div2; congruence|].
        intros b'. apply lookup_insert_ne, tid_ne; auto. }
    rewrite Hf in Hf1. injection Hf1 as <- <- <-. pose proof (Hok _ _ _ _ Hf) as Hokc.
    eapply Hgo; [done|done|intros ? Hin; ev_in Hin..|]. intros h1 h2 Hh (S1 & S2 & S3 & S4 & S5).
    set (y := (MItem (ILin (tid t b)), []) : mev).
    assert (Haft : mrun m_init (h1 ++ h2 ++ [y]) (M ent nw fr (seq_next deref peq mp mc) (<[tid t b := ADone mc (seq_res deref peq mp mc)]> st))).
    { by rewrite app_assoc, <- Hh. }
    assert (Hcl : clock_ok (h2 ++ [y]) t c' now' q') by (eapply clock_snoc; [intros ? Hin; ev_in Hin|done]).
    destruct b.
    + assert (exists k e x, q' = Q_cadw k e x /\ mc = CCad k e) as (k & e & x & -> & ->).
      { unfold mcall_ok in Hm1. destruct q'; try done. eauto 10. }
      assert (E : forall st y, <[tid t true := y]> st !! tid t false = (st : gmap nat status) !! tid t false).
      { intros. apply lookup_insert_ne, tid_ne. by right. }
      unfold sweeps. rewrite E, lookup_insert. destruct S5 as [S5 _].
      assert (Hnx : seq_next deref peq mp (CCad k e) !! k <> Some e).
      { cbn. destruct (mp !! k) as [e1|] eqn:E1; [|by rewrite E1]. unfold peq. case_bool_decide; [by rewrite lookup_delete|]. congruence. }
      assert (Hnx' : forall k' e', mp !! k' = Some e' -> seq_next deref peq mp (CCad k e) !! k' = None -> k' = k /\ e' = e).
      { intros k' e' H2 H3. cbn in H3. destruct (mp !! k) as [e1|] eqn:E1; [|congruence]. unfold peq in H3.
        case_bool_decide; [|congruence]. destruct (decide (k' = k)) as [->|]; [|by rewrite lookup_delete_ne in H3; congruence].
        split; congruence. }
      split_and!.
      * done.
      * intros Hcc k' e' [[_ ?]%S2|[(m1 & m2 & R1 & R2 & E1 & E2) _]]%removed_snoc_inv; [split; [done|]; by apply old_snoc|done|].
        rewrite <- Hh in R1. assert (m1 = M ent nw fr mp st) as -> by by eapply mrun_det.
        pose proof (mstep_det _ _ _ _ _ _ _ R2 Hstep) as ->.
        destruct (Hnx' _ _ E1 E2) as [-> ->]. split; [done|]. apply old_snoc. by apply S5.
      * apply uses_snoc; [intros ? ? ? Hin; ev_in Hin|done].
      * by apply status_snoc.
      * cbn [place_ok]. split; [intros ?%S5; by apply old_snoc|].
        eexists. split; [exact Hnx|]. by eapply seen_now.
    + assert (c' = SClear /\ mc = CClear /\ q' = Q_wait /\ has_cb = false) as (-> & -> & -> & Hcb).
      { unfold mcall_ok in Hm1. destruct (ranging has_cb c') eqn:E; [by subst mc|]. destruct c'; try done.
        cbn in E. rewrite E in Hokc. destruct q'; try done; cbn in Hokc; by destruct Hokc. }
      assert (E : forall st y, <[tid t false := y]> st !! tid t true = (st : gmap nat status) !! tid t true).
      { intros. apply lookup_insert_ne, tid_ne. by right. }
      unfold sweeps. rewrite E, lookup_insert. split_and!.
      * done.
      * done.
      * apply uses_snoc; [intros ? ? ? Hin; ev_in Hin|]. rewrite H0 in S3. destruct S3 as [(l & Hn & Hx & Hlu) Hu].
        split; [|done]. by exists l.
      * cbn. eexists (h2 ++ [y]), [], _. split; [by rewrite app_nil_r|]. by split; [exact Haft|].
      * done.
  - (* Range begins *)
    destruct (tid_of u) as (t & b & ->).
    destruct (link_call_of _ _ _ _ _ _ _ Hl H0) as (c1 & now1 & p1 & mc1 & Hf1 & Hb1 & Hm1 & Hs1). cbn in Hs1. subst mc1.
    assert (mc = CRange) as -> by by eapply mcall_not_slow.
    intros Hf Hc. destruct (decide (t' = t)) as [->|Hne].
    2:{ apply Hsame; try done; [intros ev Hin; ev_in Hin|]. intros b'. apply lookup_insert_ne, tid_ne; auto. }
    rewrite Hf in Hf1. injection Hf1 as <- <- <-.
    assert (b = false) as -> by (destruct b; [by destruct q'|done]).
    eapply Hgo; [done|done|intros ? Hin; ev_in Hin..|]. intros h1 h2 Hh (S1 & S2 & S3 & S4 & S5).
    assert (E : forall st y, <[tid t false := y]> st !! tid t true = (st : gmap nat status) !! tid t true).
    { intros. apply lookup_insert_ne, tid_ne. by right. }
    unfold sweeps. rewrite E, lookup_insert. split_and!.
    + eapply clock_snoc; [intros ? Hin; ev_in Hin|done].
    + by apply removed_ok_snoc.
    + apply uses_snoc; [intros ? ? ? Hin; ev_in Hin|]. rewrite H0 in S3. destruct S3 as [(l & Hn & Hx & Hlu) Hu].
      split; [|done]. exists l. split; [done|]. split; [|done]. intros k Hk. assert (l = []) as -> by by destruct q'. by apply elem_of_nil in Hk.
    + apply status_snoc. split; [intros k e; by rewrite lookup_empty|]. intros k e Ht. left. apply H2.
      apply elem_of_dom. exists e. apply Ht. rewrite Hh in Hrun. by eapply seen_now.
    + apply place_snoc; [done|intros ev Hin; ev_in Hin|done].
  - (* Range sees a key *)
    destruct (tid_of u) as (t & b & ->).
    destruct (link_call_of _ _ _ _ _ _ _ Hl H0) as (c1 & now1 & p1 & mc1 & Hf1 & Hb1 & Hm1 & Hs1). destruct Hs1 as [-> ->].
    intros Hf Hc. destruct (decide (t' = t)) as [->|Hne].
    2:{ apply Hsame; try done; [intros ev Hin; ev_in Hin|]. intros b'. apply lookup_insert_ne, tid_ne; auto. }
    rewrite Hf in Hf1. injection Hf1 as <- <- <-.
    assert (b = false) as -> by (destruct b; [by destruct q'|done]).
    eapply Hgo; [done|done|intros ? Hin; ev_in Hin..|]. intros h1 h2 Hh (S1 & S2 & S3 & S4 & S5).
    assert (E : forall st y, <[tid t false := y]> st !! tid t true = (st : gmap nat status) !! tid t true).
    { intros. apply lookup_insert_ne, tid_ne. by right. }
    rewrite H0 in S3, S4. rewrite Hh in Hrun. destruct S4 as [S4 S4'].
    assert (Hnow : forall k e, mp !! k = Some e -> seen h1 h2 k (Some e)) by (intros; by eapply seen_now).
    assert (Hoth : forall k', k' <> k -> see mp k vis !! k' = vis !! k').
    { intros k' Hne. unfold see. destruct (mp !! k); [|done]. by rewrite lookup_insert_ne. }
    assert (Hvk : vis !! k = None). { destruct (vis !! k) as [e|] eqn:Ev; [|done]. by destruct (S4 _ _ Ev). }
    unfold sweeps. rewrite E, lookup_insert. split_and!.
    + eapply clock_snoc; [intros ? Hin; ev_in Hin|done].
    + by apply removed_ok_snoc.
    + apply uses_snoc; [intros ? ? ? Hin; ev_in Hin|]. destruct S3 as [(l & Hn & Hx & Hlu) Hu].
      split; [|done]. exists l. split; [done|]. split; [|done]. intros k' Hk. destruct (Hx _ Hk) as [Hk1 Hk2].
      assert (k' <> k) by congruence. rewrite Hoth by done. split; [|done]. rewrite elem_of_difference. tauto.
    + apply status_snoc. split.
      * intros k' e'. destruct (decide (k' = k)) as [->|Hne].
        -- unfold see. destruct (mp !! k) as [e1|] eqn:Ek; [|congruence]. rewrite lookup_insert. intros [= <-].
           split; [|by apply Hnow]. rewrite elem_of_difference, elem_of_singleton. tauto.
        -- rewrite Hoth by done. intros [? ?]%S4. split; [|done]. rewrite elem_of_difference. tauto.
      * intros k' e' Ht. destruct (decide (k' = k)) as [->|Hne].
        -- assert (Hk : mp !! k = Some e'). { apply Ht. by eapply seen_now. }
           right. left. unfold see. rewrite Hk. by rewrite lookup_insert.
        -- rewrite Hoth by done. destruct (S4' _ _ Ht) as [?|?]; [left|by right]. rewrite elem_of_difference, elem_of_singleton. tauto.
    + apply place_snoc; [done|intros ev Hin; ev_in Hin|done].
  - (* Range ends *)
    destruct (tid_of u) as (t & b & ->).
    destruct (link_call_of _ _ _ _ _ _ _ Hl H0) as (c1 & now1 & p1 & mc1 & Hf1 & Hb1 & Hm1 & Hs1). destruct Hs1 as [-> ->].
    intros Hf Hc. destruct (decide (t' = t)) as [->|Hne].
    2:{ apply Hsame; try done; [intros ev Hin; ev_in Hin|]. intros b'. apply lookup_insert_ne, tid_ne; auto. }
    rewrite Hf in Hf1. injection Hf1 as <- <- <-.
    assert (b = false) as -> by (destruct b; [by destruct q'|done]).
    eapply Hgo; [done|done|intros ? Hin; ev_in Hin..|]. intros h1 h2 Hh (S1 & S2 & S3 & S4 & S5).
    assert (E : forall st y, <[tid t false := y]> st !! tid t true = (st : gmap nat status) !! tid t true).
    { intros. apply lookup_insert_ne, tid_ne. by right. }
    rewrite H0 in S3, S4. destruct S4 as [S4 S4'].
    unfold sweeps. rewrite E, lookup_insert. split_and!.
    + eapply clock_snoc; [intros ? Hin; ev_in Hin|done].
    + by apply removed_ok_snoc.
    + apply uses_snoc; [intros ? ? ? Hin; ev_in Hin|]. destruct S3 as [(l & Hn & Hx & Hlu) Hu].
      split; [|done]. by exists l.
    + apply status_snoc. right. intros k e Ht. destruct (S4' _ _ Ht) as [Hk|[Hk|?]]; [..|done].
      * by apply elem_of_empty in Hk.
      * by rewrite lookup_empty in Hk.
    + apply place_snoc; [done|intros ev Hin; ev_in Hin|done].
Qed.

Lemma mrun_swept_up h m : mrun m_init h m -> swept_up h m.
Proof.
  revert h m. apply (mrun_cases _ _ _ swept_up).
  - intros t c now p. cbn. by rewrite lookup_empty.
  - intros h m x m' Hr Hl Hr' IH Hm. by eapply swept_up_step.
Qed.

Lemma mrun_swept h m g1 x g2 t (y : sres) : mrun m_init h m -> h = g1 ++ x :: g2 -> SRet t y ∈ x.2 ->
  exists c h1 h2, in_call g1 t c h1 h2 /\ swept (h1 ++ [inv_of t c]) h2 t c.
Proof.
  intros Hr -> Hin. apply mrun_app in Hr as (m1 & Hr1 & m2 & Hs & _).
  pose proof (mrun_informed _ _ _ _ _ Hr1) as Hinf.
  apply mrun_swept_up in Hr1. apply mstep_case in Hs.
  destruct Hs; cbn in Hin; ev_in Hin. injection Hin as -> ->.
  assert (sweeping c \/ ~ sweeping c) as [Hc|Hc] by (destruct c; cbn; tauto).
  - destruct (Hr1 _ _ _ _ H0 Hc) as (h1 & h2 & Hic & _ & _ & _ & _ & Hk). by eexists _, _, _.
  - destruct (Hinf _ _ _ _ H0) as (h1 & h2 & Hic & _). exists c, h1, h2. split; [done|]. by destruct c.
Qed.

End ranges.
