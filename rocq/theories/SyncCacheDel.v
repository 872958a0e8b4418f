(** synccache: where an entry is, and its callback. *)
From Verif Require Import Base RwMapModel RwMapSpec SyncCacheModel SyncCacheSpec SyncCacheHist SyncCacheLink.

Section dels.
Context {K : Type} `{Countable K} {V : Type}.
Context (deref : nat -> nat) (veq : V -> V -> option bool) (has_cb : bool).
Local Notation scall := (scall K V).
Local Notation spc := (spc K).
Local Notation frame := (frame K V).
Local Notation sev := (sev K V).
Local Notation status := (status K nat).
Local Notation mcall := (call K nat).
Local Notation result := (result nat).
Local Notation mev := (mev K V).
Local Notation mstate := (mstate K V).
Local Notation mstep := (mstep deref veq has_cb).
Local Notation mrun := (mrun deref veq has_cb).
Local Notation mcase := (mcase deref veq has_cb).
Local Notation linked := (linked deref has_cb).
Local Notation changes := (changes deref veq has_cb).

Implicit Types (h : list mev) (m : mstate) (ent : gmap nat (V * Z)) (nw : nat) (fr : gmap nat frame)
  (mp : gmap K nat) (st : gmap nat status) (c : scall) (p : spc) (mc : mcall) (r : result) (t u e : nat) (k : K).

(** Events of a step. *)
Local Ltac ev_in Hin :=
  cbn in Hin; repeat (apply elem_of_cons in Hin as [Hin|Hin]); try (by apply elem_of_nil in Hin); try discriminate Hin.

(** An entry is on its way into the map, in the map, or on its way to the callback. *)
Inductive place : Type := PPut (t : nat) | PInv (u : nat) | PMap (k : K) | PDone (u : nat) | PDel (t : nat).

Definition stores mc e : Prop :=
  match mc with CStore _ q | CLoadOrStore _ q => deref q = e | _ => False end.
Definition takes mc r e : Prop :=
  match mc, r with
  | CLoadAndDelete _, RVal (Some e') => e' = e
  | CCad _ e', RBool true => e' = e
  | _, _ => False
  end.
Definition dropping c p e : Prop :=
  match p with
  | Q_del _ e' _ => e' = e
  | Q_chk _ e' | Q_chk2 _ e' => match c with SLoadAndDelete _ => e' = e | _ => False end
  | _ => False
  end.
Definition at_ m e (pl : place) : Prop :=
  match pl with
  | PPut t => exists c now, c_fr (m_cl m) !! t = Some (mk_frame c now (Q_put e))
  | PInv u => exists mc, a_st (m_map m) !! u = Some (AInv_ mc) /\ stores mc e
  | PMap k => map_of m !! k = Some e
  | PDone u => exists mc r, a_st (m_map m) !! u = Some (ADone mc r) /\ takes mc r e
  | PDel t => exists c now p, c_fr (m_cl m) !! t = Some (mk_frame c now p) /\ dropping c p e
  end.

(** A step moves entries from at most one place to another. *)
Definition moves m m' (src dst : place) : Prop :=
  (forall e pl, at_ m' e pl ->
     (pl = dst /\ (at_ m e src \/ (e = c_new (m_cl m) /\ c_new (m_cl m') = S e))) \/ (pl <> dst /\ at_ m e pl)) /\
  (forall e, at_ m' e src -> at_ m' e dst -> src = dst).
Definition mono m m' : Prop := forall e pl, at_ m' e pl -> at_ m e pl.

Lemma mono_moves m m' : mono m m' -> exists src dst, moves m m' src dst.
Proof.
  intros Hm. exists (PPut 0), (PPut 0). split; [|done]. intros e pl Hp.
  assert (pl = PPut 0 \/ pl <> PPut 0) as [->|Hne].
  { destruct pl as [[]| | | |]; [by left|by right..]. }
  - left. split; [done|]. left. by apply Hm.
  - right. split; [done|]. by apply Hm.
Qed.

(** A change of one frame. *)
Lemma mono_frame ent ent' nw nw' fr mp st t c now p c' now' p' :
  fr !! t = Some (mk_frame c now p) ->
  (forall e, p' = Q_put e -> p = Q_put e) -> (forall e, dropping c' p' e -> dropping c p e) ->
  mono (M ent nw fr mp st) (M ent' nw' (<[t := mk_frame c' now' p']> fr) mp st).
Proof.
  intros Hf H1 H2 e [t'|u|k|u|t']; cbn; try done.
  - intros (c1 & now1 & Hf1). destruct (decide (t' = t)) as [->|Hne].
    + rewrite lookup_insert in Hf1. injection Hf1 as <- <- ->. rewrite (H1 e eq_refl) in Hf. eauto.
    + rewrite lookup_insert_ne in Hf1 by done. eauto.
  - intros (c1 & now1 & p1 & Hf1 & Hd). destruct (decide (t' = t)) as [->|Hne].
    + rewrite lookup_insert in Hf1. injection Hf1 as <- <- <-. eauto 10.
    + rewrite lookup_insert_ne in Hf1 by done. eauto 10.
Qed.

Lemma mono_status ent nw fr mp st u y :
  (forall e mc, y = AInv_ mc -> ~ stores mc e) -> (forall e mc r, y = ADone mc r -> ~ takes mc r e) ->
  mono (M ent nw fr mp st) (M ent nw fr mp (<[u := y]> st)).
Proof.
  intros H1 H2 e [t'|u'|k|u'|t']; cbn; try done.
  - intros (mc & Hs & Hst). destruct (decide (u' = u)) as [->|Hne].
    + rewrite lookup_insert in Hs. injection Hs as ->. by destruct (H1 e mc).
    + rewrite lookup_insert_ne in Hs by done. eauto.
  - intros (mc & r & Hs & Hst). destruct (decide (u' = u)) as [->|Hne].
    + rewrite lookup_insert in Hs. injection Hs as ->. by destruct (H2 e mc r).
    + rewrite lookup_insert_ne in Hs by done. eauto 10.
Qed.

Lemma mono_trans m1 m2 m3 : mono m1 m2 -> mono m2 m3 -> mono m1 m3.
Proof. unfold mono. eauto. Qed.

Lemma after_cad_place c k e x b e' :
  after_cad c k e x b <> Q_put e' /\ ~ dropping c (after_cad c k e x b) e'.
Proof. destruct c; cbn; repeat case_match; cbn; auto. Qed.
Lemma after_del_place c k e x e' :
  after_del c k e x <> Q_put e' /\ ~ dropping c (after_del c k e x) e'.
Proof. destruct c; cbn; repeat case_match; cbn; auto. Qed.
Lemma after_chk_place c k e v x e' :
  after_chk veq has_cb c k e v x <> Q_put e' /\
  (dropping c (after_chk veq has_cb c k e v x) e' -> dropping c (Q_chk2 k e) e').
Proof. destruct c; cbn; unfold del; repeat case_match; cbn; auto; by split. Qed.
Lemma callback_place c k e e' :
  ranging has_cb c = true -> callback c k e <> Q_put e' /\ ~ dropping c (callback c k e) e'.
Proof. destruct c; cbn; auto. Qed.

(** The calls of the map that a cache makes. *)
Lemma made_call fr st u x : link deref has_cb fr st -> st !! u = Some x ->
  match x with
  | AInv_ mc | ADone mc _ | AIter mc _ _ _ =>
      match mc with CSwap _ _ | CCas _ _ _ | CDelete _ | CSlowLen | CLen => False | _ => True end
  end.
Proof.
  intros Hl Hx. destruct (tid_of u) as (t & b & ->).
  destruct (link_call_of _ _ _ _ _ _ _ Hl Hx) as (c & now & p & mc & Hf & Hb & Hmc & Hst).
  assert (match mc with CSwap _ _ | CCas _ _ _ | CDelete _ | CSlowLen | CLen => False | _ => True end) as Hm.
  { unfold mcall_ok in Hmc. destruct b; [destruct p; try done; by subst mc|].
    destruct (ranging has_cb c); [by subst mc|]. destruct p, c; try done; naive_solver. }
  destruct x as [mc'|mc' r|mc' ks vis n]; cbn in Hst; [by subst mc'|by destruct Hst as [-> _]|by destruct Hst as [-> _]].
Qed.

Lemma after_ret_takes c now p fr st t r p' mc e :
  link deref has_cb fr st -> fr !! t = Some (mk_frame c now p) -> fok has_cb c p ->
  st !! tid t (inner has_cb c p) = Some (ADone mc r) -> after_ret has_cb c p r = Some p' ->
  p' <> Q_put e /\ (dropping c p' e -> takes mc r e).
Proof.
  intros Hl Hf Hok Hs Hr. destruct (link_call_of _ _ _ _ _ _ _ Hl Hs) as (c1 & now1 & p1 & mc1 & Hf1 & Hb & Hmc & Hst).
  rewrite Hf in Hf1. injection Hf1 as <- <- <-. cbn in Hst. destruct Hst as [<- Hst]. destruct p; try done.
  - cbn in Hmc, Hr. destruct c, r; try done; repeat case_match; injection Hr as <-; try (split; [done|]; by intros []);
      try (destruct (ranging has_cb _); done); cbn in Hmc.
    subst mc. unfold del. destruct has_cb; cbn; [by split|]. by split.
  - apply after_ret_cad in Hr as (b & -> & ->).
    assert (mc = CCad k e0) as ->. { unfold mcall_ok, inner in Hmc. by destruct (ranging has_cb c). }
    destruct b; [|split; [apply after_cad_place|]; intros Hd; by apply after_cad_place in Hd].
    destruct has_cb; [by split|]. split; [apply after_cad_place|]; intros Hd; by apply after_cad_place in Hd.
Qed.

Lemma step_moves m x m' : mcase m x m' -> linked m -> exists src dst, moves m m' src dst.
Proof.
  intros Hm [Hl Hok]. destruct Hm; cbn in Hl, Hok.
  - apply mono_moves. intros e [t'|u|k|u|t']; cbn; try done.
    + intros (c1 & now1 & Hf1). destruct (decide (t' = t)) as [->|Hne].
      * rewrite lookup_insert in Hf1. injection Hf1 as <- <- Hp. by destruct c.
      * rewrite lookup_insert_ne in Hf1 by done. eauto.
    + intros (c1 & now1 & p1 & Hf1 & Hd). destruct (decide (t' = t)) as [->|Hne].
      * rewrite lookup_insert in Hf1. injection Hf1 as <- <- <-. by destruct c.
      * rewrite lookup_insert_ne in Hf1 by done. eauto 10.
  - exists (PPut t), (PPut t). split; [|done]. intros e [t'|u|k'|u|t']; cbn; try by right.
    + intros (c1 & now1 & Hf1). destruct (decide (t' = t)) as [->|Hne].
      * rewrite lookup_insert in Hf1. injection Hf1 as <- <- <-. left. split; [done|]. by right.
      * rewrite lookup_insert_ne in Hf1 by done. right. split; [congruence|]. eauto.
    + intros (c1 & now1 & p1 & Hf1 & Hd). right. split; [done|]. destruct (decide (t' = t)) as [->|Hne].
      * rewrite lookup_insert in Hf1. by injection Hf1 as <- <- <-.
      * rewrite lookup_insert_ne in Hf1 by done. eauto 10.
  - apply mono_moves. by eapply mono_frame.
  - apply mono_moves. by eapply mono_frame.
  - apply mono_moves. eapply mono_frame; [done|..].
    + intros e' Hp. by destruct (after_chk_place c k e v (Z.ltb x now) e').
    + intros e'. apply after_chk_place.
  - apply mono_moves. eapply mono_frame; [done|..]; intros e' Hp.
    + by destruct (after_del_place c k e x e').
    + by apply after_del_place in Hp.
  - apply mono_moves. by eapply mono_frame.
  - apply mono_moves. intros e [t'|u|k|u|t']; cbn; try done; setoid_rewrite lookup_delete_Some; naive_solver.
  - apply mono_moves. eapply mono_frame; [done|..]; intros e' Hp.
    + by destruct (callback_place c k e e').
    + by apply callback_place in Hp.
  - apply mono_moves. intros e' pl. by destruct pl.
  - apply mono_moves. intros e' pl. by destruct pl.
  - (* a call of the map *)
    exists (PPut t), (PInv (tid t (inner has_cb c p))). split.
    + intros e [t'|u|k'|u|t']; cbn; try by right.
      * intros (c1 & now1 & Hf1). right. split; [done|]. destruct (decide (t' = t)) as [->|Hne].
        -- rewrite lookup_insert in Hf1. injection Hf1 as <- <- Hp. by destruct p.
        -- rewrite lookup_insert_ne in Hf1 by done. eauto.
      * intros (mc1 & Hs & Hst). destruct (decide (u = tid t (inner has_cb c p))) as [->|Hne].
        -- left. split; [done|]. left. rewrite lookup_insert in Hs. injection Hs as ->.
           destruct mc1; try done; cbn in Hst; destruct p; try done; destruct c; try done;
             cbn in H1; apply bool_decide_eq_true in H1 as [_ ?]; subst; eauto.
        -- right. split; [congruence|]. rewrite lookup_insert_ne in Hs by done. eauto.
      * intros (mc1 & r1 & Hs & Hst). right. split; [done|]. destruct (decide (u = tid t (inner has_cb c p))) as [->|Hne].
        -- by rewrite lookup_insert in Hs.
        -- rewrite lookup_insert_ne in Hs by done. eauto 10.
      * intros (c1 & now1 & p1 & Hf1 & Hd). right. split; [done|]. destruct (decide (t' = t)) as [->|Hne].
        -- rewrite lookup_insert in Hf1. injection Hf1 as <- <- <-. by destruct p.
        -- rewrite lookup_insert_ne in Hf1 by done. eauto 10.
    + intros e. cbn. rewrite lookup_insert. intros (c1 & now1 & [= _ _ Hp]). by destruct p.
  - (* a call of the map ends *)
    exists (PDone (tid t (inner has_cb c p))), (PDel t). split.
    + intros e [t'|u|k'|u|t']; cbn; try by right.
      * intros (c1 & now1 & Hf1). right. split; [done|]. destruct (decide (t' = t)) as [->|Hne].
        -- rewrite lookup_insert in Hf1. injection Hf1 as <- <- Hp.
           by destruct (after_ret_takes _ _ _ _ _ _ _ _ _ e Hl H0 (Hok _ _ _ _ H0) H1 H2).
        -- rewrite lookup_insert_ne in Hf1 by done. eauto.
      * intros (mc1 & Hs & Hst). right. split; [done|]. apply lookup_delete_Some in Hs as [_ Hs]. eauto.
      * intros (mc1 & r1 & Hs & Hst). right. split; [done|]. apply lookup_delete_Some in Hs as [_ Hs]. eauto 10.
      * intros (c1 & now1 & p1 & Hf1 & Hd). destruct (decide (t' = t)) as [->|Hne].
        -- left. split; [done|]. left. rewrite lookup_insert in Hf1. injection Hf1 as <- <- <-.
           apply (after_ret_takes _ _ _ _ _ _ _ _ _ e Hl H0 (Hok _ _ _ _ H0) H1 H2) in Hd. eauto.
        -- right. split; [congruence|]. rewrite lookup_insert_ne in Hf1 by done. eauto 10.
    + intros e. cbn. rewrite lookup_delete. by intros (? & ? & ? & _).
  - apply mono_moves. pose proof (made_call _ _ _ _ Hl H1) as Hmc. cbn in Hmc.
    eapply mono_trans; [|apply mono_status].
    + by eapply mono_frame.
    + intros e' mc'. by destruct b.
    + intros e' mc' r'. destruct b; [done|]. intros [= <- <-] Ht. by destruct mc.
  - (* the effect of a call *)
    pose proof (made_call _ _ _ _ Hl H0) as Hmc. cbn in Hmc.
    assert (Hmono : seq_next deref peq mp mc = mp -> (forall e, ~ takes mc (seq_res deref peq mp mc) e) ->
      exists src dst, moves (M ent nw fr mp st)
        (M ent nw fr (seq_next deref peq mp mc) (<[u := ADone mc (seq_res deref peq mp mc)]> st)) src dst).
    { intros -> Hn. apply mono_moves, mono_status; [done|]. by intros e mc' r' [= <- <-]. }
    assert (Hput : forall k q, stores mc (deref q) -> (forall e, ~ takes mc (seq_res deref peq mp mc) e) ->
      exists src dst, moves (M ent nw fr mp st)
        (M ent nw fr (<[k := deref q]> mp) (<[u := ADone mc (seq_res deref peq mp mc)]> st)) src dst).
    { intros k q Hst Hn. exists (PInv u), (PMap k). split.
      - intros e [t'|u'|k'|u'|t']; cbn; try by right.
        + intros (mc1 & Hs & Hst1). right. split; [done|]. apply lookup_insert_Some in Hs as [[_ ?]|[_ Hs]]; [done|eauto].
        + destruct (decide (k' = k)) as [->|Hne].
          * unfold map_of. cbn. rewrite lookup_insert. intros [= <-]. left. split; [done|]. left. eauto.
          * unfold map_of. cbn. rewrite lookup_insert_ne by done. right. split; [congruence|done].
        + intros (mc1 & r1 & Hs & Hst1). right. split; [done|]. apply lookup_insert_Some in Hs as [[_ [= <- <-]]|[_ Hs]]; [|eauto 10].
          by destruct (Hn e).
      - intros e. cbn. rewrite lookup_insert. by intros (? & ? & _). }
    assert (Htake : forall k e0, mp !! k = Some e0 ->
      (forall e, takes mc (seq_res deref peq mp mc) e -> e = e0) ->
      exists src dst, moves (M ent nw fr mp st)
        (M ent nw fr (delete k mp) (<[u := ADone mc (seq_res deref peq mp mc)]> st)) src dst).
    { intros k e0 He0 Htk. exists (PMap k), (PDone u). split.
      - intros e [t'|u'|k'|u'|t']; cbn; try by right.
        + intros (mc1 & Hs & Hst1). right. split; [done|]. apply lookup_insert_Some in Hs as [[_ ?]|[_ Hs]]; [done|eauto].
        + unfold map_of. cbn. intros [_ Hk]%lookup_delete_Some. by right.
        + intros (mc1 & r1 & Hs & Hst1). apply lookup_insert_Some in Hs as [[<- [= <- <-]]|[Hne Hs]].
          * left. split; [done|]. left. rewrite (Htk e Hst1). done.
          * right. split; [congruence|]. eauto 10.
      - intros e. unfold at_, map_of. cbn. by rewrite lookup_delete. }
    assert (Hnone : forall k, mp !! k = None -> delete k mp = mp) by (intros; by apply delete_notin).
    destruct mc as [k|k q| |k q|k| | |k e0| | | |]; try done; cbn.
    + (apply Hmono; [done|by intros e' Ht']).
    + (apply Hput; [done|by intros e' Ht']).
    + destruct (mp !! k) as [e1|] eqn:Hk; cbn in Hmono, Hput; rewrite Hk in *; [(apply Hmono; [done|by intros e' Ht'])|(apply Hput; [done|by intros e' Ht'])].
    + destruct (mp !! k) as [e1|] eqn:Hk; cbn in Hmono, Htake; rewrite ?Hk in *.
      * by apply (Htake k e1).
      * rewrite Hnone by done. rewrite Hnone in Hmono by done. (apply Hmono; [done|by intros e' Ht']).
    + cbn in Hmono, Htake. destruct (mp !! k) as [e1|] eqn:Hk; [|(apply Hmono; [done|by intros e' Ht'])].
      unfold peq in *. case_bool_decide as He; [|(apply Hmono; [done|by intros e' Ht'])]. subst e1. by apply (Htake k e0).
    + (* Clear *)
      apply mono_moves. eapply mono_trans; [|apply mono_status]; [|done|by intros e' mc' r' [= <- <-] Ht'].
      intros e [t'|u'|k'|u'|t']; cbn; try done.
  - apply mono_moves, mono_status; done.
  - apply mono_moves, mono_status; done.
  - apply mono_moves, mono_status; [done|]. pose proof (made_call _ _ _ _ Hl H0) as Hmc. intros e mc' r' [= <- <-] Ht'.
    destruct (tid_of u) as (t & b & ->).
    destruct (link_call_of _ _ _ _ _ _ _ Hl H0) as (c & now & p & mc' & Hf & Hb & Hmc' & [-> ->]). done.
Qed.

(** ** Every entry is in at most one place *)
Definition unique m : Prop :=
  (forall e pl, at_ m e pl -> e < c_new (m_cl m)) /\
  (forall e pl1 pl2, at_ m e pl1 -> at_ m e pl2 -> pl1 = pl2).

Lemma c_new_mono m x m' : mcase m x m' -> c_new (m_cl m) <= c_new (m_cl m').
Proof. destruct 1; cbn; lia. Qed.

Lemma unique_step m x m' : mcase m x m' -> linked m -> unique m -> unique m'.
Proof.
  intros Hm Hl [H1 H2]. destruct (step_moves _ _ _ Hm Hl) as (src & dst & Hmv & Hsd).
  pose proof (c_new_mono _ _ _ Hm) as Hn. split.
  - intros e pl Hp. destruct (Hmv e pl Hp) as [[-> [Hs|[He Hs]]]|[_ Hs]].
    + apply H1 in Hs. lia.
    + lia.
    + apply H1 in Hs. lia.
  - intros e pl1 pl2 Hp1 Hp2.
    assert (Hone : forall pl, pl <> dst -> at_ m e pl -> at_ m' e pl -> at_ m' e dst ->
      (at_ m e src \/ e = c_new (m_cl m) /\ c_new (m_cl m') = S e) -> False).
    { intros pl Hne Hpl Hpl' Hd [Hs|[He _]].
      - rewrite (H2 e pl src Hpl Hs) in *. by apply Hne, (Hsd e).
      - apply H1 in Hpl. lia. }
    destruct (Hmv e pl1 Hp1) as [[-> Hs1]|[Hne1 Hs1]], (Hmv e pl2 Hp2) as [[-> Hs2]|[Hne2 Hs2]].
    + done.
    + by destruct (Hone pl2).
    + by destruct (Hone pl1).
    + eauto.
Qed.

Lemma unique_init : unique m_init.
Proof.
  split.
  - intros e [t|u|k|u|t]; cbn; try (unfold map_of; cbn); try setoid_rewrite lookup_empty; naive_solver.
  - intros e pl1 pl2. destruct pl1; cbn; try (unfold map_of; cbn); try setoid_rewrite lookup_empty; naive_solver.
Qed.

Lemma mrun_unique h m : mrun m_init h m -> unique m.
Proof.
  revert h m. apply mrun_cases; [apply unique_init|]. intros h m x m' _ Hl _ Hu Hm. by eapply unique_step.
Qed.

(** An entry that is nowhere stays nowhere. *)
Lemma gone_step m x m' e : mcase m x m' -> linked m -> e < c_new (m_cl m) ->
  (forall pl, ~ at_ m e pl) -> forall pl, ~ at_ m' e pl.
Proof.
  intros Hm Hl He Hn pl Hp. destruct (step_moves _ _ _ Hm Hl) as (src & dst & Hmv & _).
  destruct (Hmv e pl Hp) as [[-> [Hs|[? _]]]|[_ Hs]]; [by eapply Hn|lia|by eapply Hn].
Qed.
Lemma gone_run h m m' e : linked m -> mrun m h m' -> e < c_new (m_cl m) ->
  (forall pl, ~ at_ m e pl) -> (forall pl, ~ at_ m' e pl) /\ forall t v, SDel t e v ∉ trace h.
Proof.
  revert m. induction h as [|x h IH]; intros m Hl Hr He Hn.
  - cbn in Hr. subst m'. split; [done|]. intros t v. apply not_elem_of_nil.
  - destruct Hr as (m1 & Hx & Hr). apply mstep_case in Hx as Hc.
    destruct (IH m1) as [H1 H2]; [by eapply linked_step|done|pose proof (c_new_mono _ _ _ Hc); lia|by eapply gone_step|].
    split; [done|]. intros t v. rewrite trace_cons. intros [Hin|Hin]%elem_of_app; [|by eapply H2].
    destruct Hc; ev_in Hin. injection Hin as -> -> ->.
    apply (Hn (PDel t0)). cbn. eexists _, _, _. split; [done|]. done.
Qed.

(** ** On the way to the callback *)
Definition leaving m e t : Prop := at_ m e (PDel t) \/ exists b, at_ m e (PDone (tid t b)).

Lemma dropping_kept c k e v x e' : has_cb = true ->
  dropping c (Q_chk2 k e) e' -> dropping c (after_chk veq has_cb c k e v x) e'.
Proof. intros Hcb. destruct c; cbn; try done. unfold del. by rewrite Hcb. Qed.

Lemma takes_dropping c now p fr st t r p' mc e : has_cb = true ->
  link deref has_cb fr st -> fr !! t = Some (mk_frame c now p) -> fok has_cb c p ->
  st !! tid t (inner has_cb c p) = Some (ADone mc r) -> after_ret has_cb c p r = Some p' ->
  takes mc r e -> dropping c p' e.
Proof.
  intros Hcb Hl Hf Hok Hs Hr Ht. destruct (link_call_of _ _ _ _ _ _ _ Hl Hs) as (c1 & now1 & p1 & mc1 & Hf1 & Hb & Hmc & Hst).
  rewrite Hf in Hf1. injection Hf1 as <- <- <-. cbn in Hst. destruct Hst as [<- _]. destruct p; try done.
  - cbn in Hmc. destruct (ranging has_cb c) eqn:Er; [by subst mc|].
    destruct c; try done; try (match type of Hmc with exists _, _ => destruct Hmc as [q0 Hq0]; rewrite Hq0 in Ht; done end); subst mc; try done;
      destruct r as [[e1|]| | | | |]; try done; cbn in Ht; subst e1; cbn in Hr; injection Hr as <-.
    + unfold del. by rewrite Hcb.
    + done.
  - assert (mc = CCad k e0) as ->. { unfold mcall_ok, inner in Hmc. by destruct (ranging has_cb c). }
    apply after_ret_cad in Hr as (b & -> & ->). cbn in Ht. destruct b; [|done]. subst e0. rewrite Hcb. done.
Qed.

Lemma leaving_step m x m' e t : has_cb = true -> mcase m x m' -> linked m -> leaving m e t ->
  (forall y, SRet t y ∉ x.2) /\ (leaving m' e t \/ exists v, SDel t e v ∈ x.2).
Proof.
  intros Hcb Hm [Hl Hok] Hle. split.
  - intros r Hin. destruct Hm; ev_in Hin. injection Hin as -> ->. destruct Hle as [(c1 & now1 & p1 & Hf1 & Hd)|(b & mc & r1 & Hs & _)]; cbn in *.
    + rewrite H0 in Hf1. by injection Hf1 as <- <- <-.
    + destruct (link_call_of _ _ _ _ _ _ _ Hl Hs) as (c1 & now1 & p1 & mc1 & Hf1 & Hb & _).
      rewrite H0 in Hf1. injection Hf1 as <- <- <-. by destruct b.
  - destruct Hle as [(c1 & now1 & p1 & Hf1 & Hd)|(b & mc1 & r1 & Hs & Ht)].
    + (* before the callback *)
      assert (Hoth : forall ent' nw' fr' mp' st' t0 f0, t0 <> t ->
        leaving (M ent' nw' (<[t0 := f0]> (c_fr (m_cl m))) mp' st') e t).
      { intros ent' nw' fr' mp' st' t0 f0 Hne. left. cbn. rewrite lookup_insert_ne by done. eauto 10. }
      destruct Hm; cbn in Hf1, Hl, Hok, Hoth |- *;
        try (left; left; cbn; by eauto 10);
        try (destruct (decide (t0 = t)) as [->|Hne]; [|left; by apply Hoth];
             match goal with Hf : _ !! t = _ |- _ => rewrite Hf1 in Hf; try discriminate Hf; injection Hf as -> -> -> end;
             cbn in Hd; try done).
      * left. left. cbn. rewrite lookup_insert. by eauto 10.
      * left. left. cbn. rewrite lookup_insert. eexists _, _, _. split; [done|]. by apply dropping_kept.
      * subst e0. right. eexists. by left.
      * left. left. cbn. destruct (decide (t0 = t)) as [->|Hne].
        -- rewrite H0 in Hf1. by injection Hf1 as <- <- <-.
        -- rewrite lookup_delete_ne by done. eauto 10.
      * exfalso. destruct p; try done; cbn in Hd; (destruct c; done).
      * exfalso. destruct (after_ret_nw _ _ _ _ _ (Hok _ _ _ _ Hf1) H2) as (_ & _ & _ & Hnw). by destruct p.
    + left.
      destruct Hm; cbn in Hs, Hl, Hok |- *; try (right; exists b; cbn; by eauto 10).
      * right. exists b. cbn. rewrite lookup_insert_ne; [by eauto 10|]. intros Heq. rewrite Heq in H2. congruence.
      * destruct (decide (tid t0 (inner has_cb c p) = tid t b)) as [Heq|Hne].
        -- apply tid_inj in Heq as [-> <-]. rewrite H1 in Hs. injection Hs as -> ->.
           left. cbn. rewrite lookup_insert. eexists _, _, _. split; [done|]. by eapply takes_dropping; eauto.
        -- right. exists b. cbn. rewrite lookup_delete_ne by done. eauto 10.
      * right. exists b. cbn. rewrite lookup_insert_ne; [by eauto 10|]. intros Heq. change (tid t0 false = tid t b) in Heq. rewrite Heq in H1. congruence.
      * right. exists b. cbn. rewrite lookup_insert_ne; [by eauto 10|]. intros Heq. rewrite Heq in H0. congruence.
      * right. exists b. cbn. rewrite lookup_insert_ne; [by eauto 10|]. intros Heq. rewrite Heq in H0. congruence.
      * right. exists b. cbn. rewrite lookup_insert_ne; [by eauto 10|]. intros Heq. rewrite Heq in H0. congruence.
      * right. exists b. cbn. rewrite lookup_insert_ne; [by eauto 10|]. intros Heq. rewrite Heq in H0. congruence.
Qed.

(** Who takes an entry out of the map. *)
Lemma takes_out m x m' k e : has_cb = true -> mcase m x m' -> linked m ->
  map_of m !! k = Some e -> map_of m' !! k = None ->
  exists t b, by_ x = Some t /\ at_ m' e (PDone (tid t b)).
Proof.
  intros Hcb Hm [Hl Hok] H1 H2. destruct Hm; unfold map_of in *; cbn in *; try congruence.
  destruct (tid_of u) as (t & b & ->). exists t, b. split; [unfold by_; cbn; by rewrite tid_div2|].
  rewrite lookup_insert. eexists _, _. split; [done|].
  destruct (link_call_of _ _ _ _ _ _ _ Hl H0) as (c & now & p & mc' & Hf & Hb & Hmc & Hst). cbn in Hst. subst mc'.
  pose proof (made_call _ _ _ _ Hl H0) as Hmd. cbn in Hmd.
  destruct mc as [k'|k' q| |k' q|k'| | |k' e0| | | |]; try done; cbn in H2 |- *.
  - congruence.
  - destruct (decide (k' = k)) as [->|Hne]; [by rewrite lookup_insert in H2|]. rewrite lookup_insert_ne in H2 by done. congruence.
  - destruct (mp !! k') eqn:Hk'; [congruence|]. destruct (decide (k' = k)) as [->|Hne]; [by rewrite lookup_insert in H2|].
    rewrite lookup_insert_ne in H2 by done. congruence.
  - destruct (decide (k' = k)) as [->|Hne]; [by rewrite H1|]. rewrite lookup_delete_ne in H2 by done. congruence.
  - destruct (mp !! k') as [e1|] eqn:Hk'; [|congruence]. unfold peq in *. case_bool_decide as He; [|congruence].
    destruct (decide (k' = k)) as [->|Hne]; [congruence|]. rewrite lookup_delete_ne in H2 by done. congruence.
  - exfalso. unfold mcall_ok in Hmc. destruct b; [by destruct p|].
    destruct c; cbn in Hmc; rewrite ?Hcb in Hmc; destruct p; try done; naive_solver.
Qed.

Definition ret_since t (h2 : list mev) : Prop := exists y, SRet t y ∈ trace h2.

Lemma mrun_taken h m : has_cb = true -> mrun m_init h m ->
  forall h1 x h2 k e, h = h1 ++ x :: h2 -> changes h1 x k (Some e) None ->
  exists t, by_ x = Some t /\ ((leaving m e t /\ forall y, SRet t y ∉ trace h2) \/ exists v, SDel t e v ∈ trace h2).
Proof.
  intros Hcb. revert h m. apply (mrun_cases _ _ _ (fun h m => forall h1 x h2 k e, h = h1 ++ x :: h2 -> changes h1 x k (Some e) None ->
    exists t, by_ x = Some t /\ ((leaving m e t /\ forall y, SRet t y ∉ trace h2) \/ exists v, SDel t e v ∈ trace h2))).
  - by intros [].
  - intros h m x m' Hr Hl Hr' IH Hm h1 y h2 k e Eh Hch. destruct h2 as [|z h2 _] using rev_ind.
    + apply app_inj_tail in Eh as [<- <-]. destruct Hch as (m1 & m2 & R1 & S1 & E1 & E2).
      rewrite (mrun_det _ _ _ _ _ _ _ R1 Hr) in *. rewrite (mstep_det _ _ _ _ _ _ _ S1 (mstep_last _ _ _ _ _ _ _ _ Hr Hr')) in E2.
      destruct (takes_out _ _ _ _ _ Hcb Hm Hl E1 E2) as (t & b & Hby & Hat).
      exists t. split; [done|]. left. split; [right; by exists b|]. intros r. apply not_elem_of_nil.
    + rewrite app_comm_cons, app_assoc in Eh. apply app_inj_tail in Eh as [-> <-].
      destruct (IH h1 y h2 k e eq_refl Hch) as (t & Hby & Hd). exists t. split; [done|].
      destruct Hd as [[Hle Hnr]|[v Hv]].
      * destruct (leaving_step _ _ _ _ _ Hcb Hm Hl Hle) as [Hr1 Hor].
        destruct Hor as [Hle'|[v Hv]].
        -- left. split; [done|]. intros r. rewrite trace_snoc. intros [Hin|Hin]%elem_of_app; [by eapply Hnr|by eapply Hr1].
        -- right. exists v. rewrite trace_snoc. apply elem_of_app. by right.
      * right. exists v. rewrite trace_snoc. apply elem_of_app. by left.
Qed.

(** Backwards: what is on its way to the callback was taken out of the map. *)
Lemma done_back m x m' e u : mcase m x m' -> linked m -> at_ m' e (PDone u) ->
  at_ m e (PDone u) \/
  (by_ x = Some (Nat.div2 u) /\ exists k, map_of m !! k = Some e /\ map_of m' !! k = None).
Proof.
  intros Hm [Hl Hok] (mc1 & r1 & Hs & Ht). destruct Hm; cbn in Hs, Hl, Hok; try (left; cbn; by eauto 10).
  - apply lookup_insert_Some in Hs as [[_ ?]|[_ Hs]]; [done|left; cbn; by eauto 10].
  - apply lookup_delete_Some in Hs as [_ Hs]. left; cbn; by eauto 10.
  - apply lookup_insert_Some in Hs as [[_ Hs]|[_ Hs]]; [|left; cbn; by eauto 10].
    destruct b; [done|]. injection Hs as <- <-. by destruct mc.
  - apply lookup_insert_Some in Hs as [[<- [= <- <-]]|[_ Hs]]; [|left; cbn; by eauto 10]. right. split; [done|].
    unfold map_of. cbn. destruct mc as [k'|k' q| |k' q|k'| | |k' e0| | | |]; try done; cbn in Ht |- *.
    + destruct (mp !! k') as [e1|] eqn:Hk'; [|done]. subst e1. exists k'. by rewrite lookup_delete.
    + destruct (mp !! k') as [e1|] eqn:Hk'; [|done]. unfold peq in *. case_bool_decide; [|done]. subst e1 e0.
      exists k'. by rewrite lookup_delete.
  - apply lookup_insert_Some in Hs as [[_ ?]|[_ Hs]]; [done|left; cbn; by eauto 10].
  - apply lookup_insert_Some in Hs as [[_ ?]|[_ Hs]]; [done|left; cbn; by eauto 10].
  - apply lookup_insert_Some in Hs as [[_ [= <- <-]]|[_ Hs]]; [by destruct mc|left; cbn; by eauto 10].
Qed.

Lemma del_back m x m' e t : mcase m x m' -> linked m -> at_ m' e (PDel t) -> leaving m e t.
Proof.
  intros Hm [Hl Hok] (c1 & now1 & p1 & Hf1 & Hd).
  destruct Hm; cbn in Hf1, Hl, Hok; try (left; cbn; by eauto 10);
    try (apply lookup_insert_Some in Hf1 as [[<- [= <- <- <-]]|[_ Hf1]]; [|left; cbn; by eauto 10]).
  - by destruct c.
  - done.
  - done.
  - left. cbn. eauto 10.
  - left. cbn. apply after_chk_place in Hd. eauto 10.
  - by apply after_del_place in Hd.
  - done.
  - apply lookup_delete_Some in Hf1 as [_ Hf1]. left. cbn. eauto 10.
  - by apply callback_place in Hd.
  - by destruct p.
  - right. exists (inner has_cb c p). cbn.
    apply (after_ret_takes _ _ _ _ _ _ _ _ _ e Hl H0 (Hok _ _ _ _ H0) H1 H2) in Hd. eauto.
  - done.
Qed.

Lemma changes_last h m x m' k o1 o2 : mrun m_init h m -> mstep m x m' ->
  map_of m !! k = o1 -> map_of m' !! k = o2 -> changes h x k o1 o2.
Proof. intros Hr Hs H1 H2. exists m, m'. by split_and!. Qed.

Lemma mrun_leaving h m : mrun m_init h m -> forall e t, leaving m e t ->
  exists h1 x h2 k, h = h1 ++ x :: h2 /\ changes h1 x k (Some e) None /\ by_ x = Some t.
Proof.
  revert h m. apply (mrun_cases _ _ _ (fun h m => forall e t, leaving m e t ->
    exists h1 x h2 k, h = h1 ++ x :: h2 /\ changes h1 x k (Some e) None /\ by_ x = Some t)).
  - intros e t [(c & now & p & Hf & _)|(b & mc & r & Hs & _)]; cbn in *; by rewrite lookup_empty in *.
  - intros h m x m' Hr Hl Hr' IH Hm e t Hle.
    assert (Hold : leaving m e t -> exists h1 y h2 k, h ++ [x] = h1 ++ y :: h2 /\ changes h1 y k (Some e) None /\ by_ y = Some t).
    { intros (h1 & y & h2 & k & -> & Hc & Hb)%IH. exists h1, y, (h2 ++ [x]), k. split; [by rewrite <- app_assoc|done]. }
    destruct Hle as [Hd|[b Hd]].
    + apply Hold. by eapply del_back.
    + destruct (done_back _ _ _ _ _ Hm Hl Hd) as [Hd'|(Hb & k & H1 & H2)]; [apply Hold; right; by exists b|].
      exists h, x, [], k. rewrite tid_div2 in Hb. split; [done|]. split; [|done].
      eapply changes_last; try done. by eapply mstep_last.
Qed.

(** ** Calls of the callback *)
Lemma del_event m x m' t e v : mcase m x m' -> linked m -> SDel t e v ∈ x.2 ->
  x.2 = [SDel t e v] /\ at_ m e (PDel t) /\ has_cb = true /\ (exists y, c_ent (m_cl m) !! e = Some (v, y)) /\
  (unique m -> forall pl, ~ at_ m' e pl).
Proof.
  intros Hm Hl Hin. destruct Hm; ev_in Hin. injection Hin as -> -> ->.
  destruct Hl as [Hl Hok]. pose proof (Hok _ _ _ _ H0) as [Hcb _]. cbn in Hl, Hok.
  assert (Hat : at_ (M ent nw fr mp st) e0 (PDel t0)).
  { eexists _, _, _. split; [exact H0|]. done. }
  split; [done|]. split; [done|]. split; [done|]. split; [cbn; eauto|]. intros [_ Hu] pl Hp.
  assert (Hmono : mono (M ent nw fr mp st) (M ent nw (<[t0 := mk_frame c now (after_del c k e0 x)]> fr) mp st)).
  { eapply mono_frame; [done|..]; intros e' Hp'; [by destruct (after_del_place c k e0 x e')|by apply after_del_place in Hp']. }
  rewrite (Hu _ _ _ (Hmono _ _ Hp) Hat) in Hp. destruct Hp as (c1 & now1 & p1 & Hf1 & Hd). cbn in Hf1.
  rewrite lookup_insert in Hf1. injection Hf1 as <- <- <-. by apply after_del_place in Hd.
Qed.

Lemma count_app (tr1 tr2 : list sev) e :
  times_called_back (tr1 ++ tr2) e = times_called_back tr1 e + times_called_back tr2 e.
Proof. unfold times_called_back. by rewrite bind_app, app_length. Qed.
Lemma count_none (tr : list sev) e : (forall t v, SDel t e v ∉ tr) -> times_called_back tr e = 0.
Proof.
  induction tr as [|ev tr IH]; [done|]. intros Hn. change (ev :: tr) with ([ev] ++ tr). rewrite count_app, IH.
  - destruct ev; cbn; try done. unfold times_called_back. cbn. case_decide; [|done]. subst. destruct (Hn t v). by left.
  - intros t v Hin. apply (Hn t v). by right.
Qed.

Lemma mrun_count h m : mrun m_init h m -> forall e,
  times_called_back (trace h) e <= 1 /\
  (forall t v, SDel t e v ∈ trace h -> e < c_new (m_cl m) /\ forall pl, ~ at_ m e pl).
Proof.
  revert h m. apply (mrun_cases _ _ _ (fun h m => forall e,
    times_called_back (trace h) e <= 1 /\
    (forall t v, SDel t e v ∈ trace h -> e < c_new (m_cl m) /\ forall pl, ~ at_ m e pl))).
  - intros e. split; [cbn; lia|]. intros t v Hin. by apply elem_of_nil in Hin.
  - intros h m x m' Hr Hl Hr' IH Hm e. destruct (IH e) as [IH1 IH2]. rewrite trace_snoc, count_app.
    pose proof (mrun_unique _ _ Hr) as Hu. pose proof (c_new_mono _ _ _ Hm) as Hn.
    assert (Hdec : (exists t v, SDel t e v ∈ x.2) \/ forall t v, SDel t e v ∉ x.2).
    { destruct Hm; try (right; intros t1 v1 Hin; ev_in Hin; fail).
      destruct (decide (e0 = e)) as [->|Hne]; [left; eexists _, _; by left|right].
      intros t1 v1 Hin. ev_in Hin. congruence. }
    destruct Hdec as [(t & v & Hin)|Hno].
    + destruct (del_event _ _ _ _ _ _ Hm Hl Hin) as (Hx & Hat & _ & _ & Hgone). specialize (Hgone Hu).
      rewrite (count_none (trace h)); [|intros t' v' Hin'; by eapply (IH2 _ _ Hin')].
      rewrite Hx. unfold times_called_back. cbn. case_decide; [|done]. cbn. split; [lia|].
      intros t' v' _. split; [|done]. destruct Hu as [Hu _]. apply Hu in Hat. lia.
    + rewrite (count_none x.2) by done. split; [lia|]. intros t v [Hin|Hin]%elem_of_app; [|by destruct (Hno t v)].
      destruct (IH2 t v Hin) as [He Hg]. split; [lia|]. by eapply gone_step.
Qed.

(** Values of entries. *)
Lemma mrun_values h m : mrun m_init h m -> forall e v y, c_ent (m_cl m) !! e = Some (v, y) ->
  exists t y', SNew t e v y' ∈ trace h.
Proof.
  revert h m. apply (mrun_cases _ _ _ (fun h m => forall e v y, c_ent (m_cl m) !! e = Some (v, y) ->
    exists t y', SNew t e v y' ∈ trace h)).
  - intros e v y. cbn. by rewrite lookup_empty.
  - intros h m x m' Hr Hl Hr' IH Hm e v y He. rewrite trace_snoc. setoid_rewrite elem_of_app.
    assert (Hold : forall y, c_ent (m_cl m) !! e = Some (v, y) -> exists t y', SNew t e v y' ∈ trace h \/ SNew t e v y' ∈ x.2).
    { intros y' (t & y'' & Hin)%IH. eauto. }
    destruct Hm; cbn in He, Hold; try (by eapply Hold).
    + apply lookup_insert_Some in He as [[<- [= <- <-]]|[_ He]]; [|by eapply Hold].
      eexists _, _. right. right. by left.
    + apply lookup_insert_Some in He as [[<- [= <- <-]]|[_ He]]; by eapply Hold.
    + apply lookup_insert_Some in He as [[<- [= <- <-]]|[_ He]]; by eapply Hold.
Qed.

Lemma mrun_called h m : mrun m_init h m -> forall t e v, SDel t e v ∈ trace h ->
  has_cb = true /\ (exists t' y, SNew t' e v y ∈ trace h) /\
  exists h1 x h2 k, h = h1 ++ x :: h2 /\ changes h1 x k (Some e) None /\ by_ x = Some t /\ SDel t e v ∈ trace h2.
Proof.
  revert h m. apply (mrun_cases _ _ _ (fun h m => forall t e v, SDel t e v ∈ trace h ->
    has_cb = true /\ (exists t' y, SNew t' e v y ∈ trace h) /\
    exists h1 x h2 k, h = h1 ++ x :: h2 /\ changes h1 x k (Some e) None /\ by_ x = Some t /\ SDel t e v ∈ trace h2)).
  - intros t e v Hin. by apply elem_of_nil in Hin.
  - intros h m x m' Hr Hl Hr' IH Hm t e v. rewrite trace_snoc. intros [Hin|Hin]%elem_of_app.
    + destruct (IH _ _ _ Hin) as (Hcb & (t' & y & Hy) & h1 & z & h2 & k & -> & Hc & Hb & Hd).
      split; [done|]. split; [exists t', y; apply elem_of_app; by left|].
      exists h1, z, (h2 ++ [x]), k. split; [by rewrite <- app_assoc|]. split; [done|]. split; [done|].
      rewrite trace_snoc. apply elem_of_app. by left.
    + destruct (del_event _ _ _ _ _ _ Hm Hl Hin) as (Hx & Hat & Hcb & (y & Hy) & _).
      split; [done|]. split.
      { destruct (mrun_values _ _ Hr _ _ _ Hy) as (t' & y' & Hin'). exists t', y'. apply elem_of_app. by left. }
      destruct (mrun_leaving _ _ Hr e t (or_introl Hat)) as (h1 & z & h2 & k & -> & Hc & Hb).
      exists h1, z, (h2 ++ [x]), k. split; [by rewrite <- app_assoc|]. split; [done|]. split; [done|].
      rewrite trace_snoc. apply elem_of_app. by right.
Qed.

(** Entries in the map, and entries replaced, are not handed to the callback. *)
Lemma mrun_present h m k e : mrun m_init h m -> map_of m !! k = Some e -> ~ called_back (trace h) e.
Proof.
  intros Hr Hk (t & v & Hin). destruct (mrun_count _ _ Hr e) as [_ Hc]. by apply (proj2 (Hc _ _ Hin) (PMap k)).
Qed.

Lemma mrun_replaced h m h1 x h2 k e e' : mrun m_init h m -> h = h1 ++ x :: h2 ->
  changes h1 x k (Some e) (Some e') -> e' <> e -> ~ called_back (trace h) e.
Proof.
  intros Hr -> (m1 & m2 & R1 & S1 & E1 & E2) Hne (t & v & Hin).
  apply mrun_app in Hr as (m1' & R1' & (m2' & S2 & R2)).
  rewrite (mrun_det _ _ _ _ _ _ _ R1' R1) in *. rewrite (mstep_det _ _ _ _ _ _ _ S2 S1) in *.
  pose proof (mrun_linked _ _ _ _ _ R1) as Hl. pose proof (mrun_unique _ _ R1) as Hu.
  apply mstep_case in S1 as Hm.
  assert (Hg : forall pl, ~ at_ m2 e pl).
  { intros pl Hp. destruct (step_moves _ _ _ Hm Hl) as (src & dst & Hmv & Hsd).
    assert (Hk : at_ m1 e (PMap k)) by done. assert (Hk' : at_ m2 e' (PMap k)) by done.
    destruct Hu as [Hu1 Hu2].
    assert (dst = PMap k /\ (at_ m1 e' src \/ e' = c_new (m_cl m1))) as [-> Hsrc].
    { destruct (Hmv _ _ Hk') as [[<- [?|[? _]]]|[_ Hx]]; [by auto..|]. cbn in Hx, Hk. congruence. }
    assert (Hpl : pl = PMap k \/ at_ m2 e (PMap k)).
    { destruct (Hmv _ _ Hp) as [[-> _]|[Hne2 Hx]]; [by left|]. by rewrite (Hu2 _ _ _ Hx Hk) in *. }
    assert (Hx : at_ m2 e (PMap k)) by (destruct Hpl as [->|]; done). cbn in Hx, Hk'. congruence. }
  assert (He : e < c_new (m_cl m2)).
  { pose proof (c_new_mono _ _ _ Hm). destruct Hu as [Hu1 _]. assert (Hk : at_ m1 e (PMap k)) by done. apply Hu1 in Hk. lia. }
  assert (Hl2 : linked m2) by (by eapply linked_step).
  destruct (gone_run _ _ _ _ Hl2 R2 He Hg) as [_ Hno].
  rewrite trace_app, trace_cons in Hin. apply elem_of_app in Hin as [Hin|[Hin|Hin]%elem_of_app].
  - destruct (mrun_count _ _ R1 e) as [_ Hc]. by apply (proj2 (Hc _ _ Hin) (PMap k)).
  - destruct (del_event _ _ _ _ _ _ Hm Hl Hin) as (_ & Hat & _). destruct Hu as [_ Hu].
    assert (Hk : at_ m1 e (PMap k)) by done. by pose proof (Hu _ _ _ Hat Hk).
  - by eapply Hno.
Qed.

End dels.
