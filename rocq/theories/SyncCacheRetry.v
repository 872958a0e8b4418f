(** synccache: every time LoadOrStore goes around once more, it has taken out an entry that it found
    expired and that is not its own. *)
From Verif Require Import Base RwMapModel RwMapSpec SyncCacheModel SyncCacheSpec SyncCacheHist SyncCacheLink SyncCacheDel SyncCacheRetrySpec.

Section retry.
Context {K : Type} `{Countable K} {V : Type}.
Context (deref : nat -> nat) (veq : V -> V -> option bool) (has_cb : bool).
Local Notation scall := (scall K V).
Local Notation spc := (spc K).
Local Notation frame := (frame K V).
Local Notation sev := (sev K V).
Local Notation status := (status K nat).
Local Notation mev := (mev K V).
Local Notation mstate := (mstate K V).
Local Notation mrun := (mrun deref veq has_cb).
Local Notation mcase := (mcase deref veq has_cb).
Local Notation linked := (linked deref has_cb).
Local Notation at_ := (at_ deref).
Local Notation unique := (unique deref).

Context (t : nat) (k0 : K) (v0 : V) (d0 : Z).
Local Notation c0 := (SLoadOrStore k0 v0 d0).

Definition nowhere (m : mstate) (e : nat) : Prop := forall pl, ~ at_ m e pl.

(** The entry the goroutine found in the map. *)
Definition target (s : option status) (p : spc) : option nat :=
  match p with
  | Q_chk _ e | Q_chk2 _ e | Q_cad _ e _ | Q_cadw _ e _ | Q_del _ e _ => Some e
  | Q_wait => match s with Some (ADone _ (RLos e true)) => Some e | _ => None end
  | _ => None
  end.
(** It stored its own. *)
Definition has_stored (s : option status) (p : spc) : Prop :=
  match p with
  | Q_ret _ => True
  | Q_wait => exists mc e, s = Some (ADone mc (RLos e false))
  | _ => False
  end.
Definition condemned (p : spc) : Prop :=
  match p with Q_cad _ _ _ | Q_cadw _ _ _ | Q_del _ _ _ => True | _ => False end.
Definition under_way (p : spc) : nat := match p with Q_new => 0 | _ => 1 end.

Definition around (m : mstate) (tr : list sev) (R : list nat) (now : Z) (p : spc) : Prop :=
  c_fr (m_cl m) !! t = Some (mk_frame c0 now p) /\
  NoDup R /\
  (forall e, e ∈ R -> e < c_new (m_cl m) /\ nowhere m e /\ e ∉ entries_of t tr /\ saw_expired t e tr) /\
  (forall e, e ∈ entries_of t tr -> e < c_new (m_cl m) /\
     (has_stored (a_st (m_map m) !! tid t false) p \/ p = Q_put e \/
      (p = Q_wait /\ exists mc, a_st (m_map m) !! tid t false = Some (AInv_ mc) /\ stores deref mc e) \/ nowhere m e)) /\
  length (entries_of t tr) = length R + under_way p /\
  (forall e, target (a_st (m_map m) !! tid t false) p = Some e ->
     e < c_new (m_cl m) /\ e ∉ R /\ e ∉ entries_of t tr /\ (condemned p -> saw_expired t e tr)).

Lemma entries_of_app (tr1 tr2 : list sev) : entries_of t (tr1 ++ tr2) = entries_of t tr1 ++ entries_of t tr2.
Proof. apply bind_app. Qed.
Lemma saw_app e (tr1 tr2 : list sev) : saw_expired t e tr1 -> saw_expired t e (tr1 ++ tr2).
Proof. intros (n & x & Hin & Hlt). exists n, x. split; [|done]. apply elem_of_app. by left. Qed.

(** Steps after which the goroutine is where it was, as far as it matters. *)
Lemma around_keeps m x m' tr R now p now' p' :
  mcase m x m' -> linked m -> around m tr R now p ->
  c_fr (m_cl m') !! t = Some (mk_frame c0 now' p') ->
  entries_of t x.2 = [] -> under_way p' = under_way p ->
  (has_stored (a_st (m_map m) !! tid t false) p -> has_stored (a_st (m_map m') !! tid t false) p') ->
  (forall e, p = Q_put e -> p' = Q_put e \/
     (p' = Q_wait /\ exists mc, a_st (m_map m') !! tid t false = Some (AInv_ mc) /\ stores deref mc e)) ->
  (forall e mc, p = Q_wait -> a_st (m_map m) !! tid t false = Some (AInv_ mc) -> stores deref mc e ->
     p' = Q_wait /\ exists mc, a_st (m_map m') !! tid t false = Some (AInv_ mc) /\ stores deref mc e) ->
  (forall e, target (a_st (m_map m') !! tid t false) p' = Some e ->
     target (a_st (m_map m) !! tid t false) p = Some e /\ (condemned p' -> condemned p \/ saw_expired t e x.2)) ->
  around m' (tr ++ x.2) R now' p'.
Proof.
  intros Hm Hl (Hf & Hnd & HR & Hmine & Hlen & Htg) Hf' Hev Huw Hst Hput Hinv Htgt.
  pose proof (c_new_mono _ _ _ _ _ _ Hm) as Hnew.
  assert (Hgone : forall e, e < c_new (m_cl m) -> nowhere m e -> nowhere m' e).
  { intros e He Hn. exact (gone_step deref veq has_cb m x m' e Hm Hl He Hn). }
  unfold around. rewrite entries_of_app, Hev, app_nil_r. split; [done|]. split; [done|]. split_and!.
  - intros e He. destruct (HR e He) as (? & ? & ? & ?). split_and!; [lia|eauto|done|by apply saw_app].
  - intros e He. destruct (Hmine e He) as [Hlt Hw]. split; [lia|].
    destruct Hw as [Hw|[Hw|[(Hw & mc & Hs & Hm')|Hw]]]; [auto|destruct (Hput e Hw); auto|destruct (Hinv e mc Hw Hs Hm'); auto|auto 10].
  - by rewrite Huw.
  - intros e He. destruct (Htgt e He) as [He0 Hc]. destruct (Htg e He0) as (? & ? & ? & Hs). split_and!; [lia|done|done|].
    intros Hp. destruct (Hc Hp) as [Hp'|(n & z & Hin & Hlt)]; [by apply saw_app, Hs|].
    exists n, z. split; [|done]. apply elem_of_app. by right.
Qed.

(** Steps of others. *)
Lemma around_other m x m' tr R now p :
  mcase m x m' -> linked m -> around m tr R now p ->
  c_fr (m_cl m') !! t = c_fr (m_cl m) !! t -> a_st (m_map m') !! tid t false = a_st (m_map m) !! tid t false ->
  entries_of t x.2 = [] -> around m' (tr ++ x.2) R now p.
Proof.
  intros Hm Hl Ha Hf Hs Hev. eapply around_keeps; try done; rewrite ?Hs.
  - rewrite Hf. apply Ha.
  - done.
  - intros e. by left.
  - eauto.
  - intros e He. split; [done|]. by left.
Qed.

(** A goroutine whose own step it is. *)
Lemma tid_t_ne u b : u <> t -> tid u b <> tid t false.
Proof. intros. apply tid_ne. by left. Qed.

Lemma c0_ranging : ranging has_cb c0 = false.
Proof. done. Qed.
Lemma c0_inner p : inner has_cb c0 p = false.
Proof. by destruct p. Qed.

(** Round again. *)
Lemma around_again m x m' tr R now now' p e :
  mcase m x m' -> linked m -> around m tr R now p ->
  c_fr (m_cl m') !! t = Some (mk_frame c0 now' Q_new) ->
  entries_of t x.2 = [] -> under_way p = 1 -> ~ has_stored (a_st (m_map m) !! tid t false) p ->
  (forall e, p <> Q_put e) -> (forall mc, p = Q_wait -> a_st (m_map m) !! tid t false <> Some (AInv_ mc)) ->
  target (a_st (m_map m) !! tid t false) p = Some e -> condemned p -> nowhere m' e ->
  around m' (tr ++ x.2) (e :: R) now' Q_new.
Proof.
  intros Hm Hl (Hf & Hnd & HR & Hmine & Hlen & Htg) Hf' Hev Huw Hns Hnp Hni Ht Hc Hn.
  pose proof (c_new_mono _ _ _ _ _ _ Hm) as Hnew.
  assert (Hgone : forall e, e < c_new (m_cl m) -> nowhere m e -> nowhere m' e).
  { intros e' He' Hn'. exact (gone_step deref veq has_cb m x m' e' Hm Hl He' Hn'). }
  destruct (Htg e Ht) as (Hlt & HeR & Hem & Hse).
  unfold around. rewrite entries_of_app, Hev, app_nil_r. split; [done|]. split; [by constructor|]. split_and!.
  - intros e' [->|He']%elem_of_cons.
    + split_and!; [lia|done|done|by apply saw_app, Hse].
    + destruct (HR e' He') as (? & ? & ? & ?). split_and!; [lia|eauto|done|by apply saw_app].
  - intros e' He'. destruct (Hmine e' He') as [Hlt' Hw]. split; [lia|].
    destruct Hw as [Hw|[Hw|[(Hw & mc & Hs & Hm')|Hw]]]; [done|by destruct (Hnp e')|by destruct (Hni mc)|auto 10].
  - rewrite Hlen, Huw. cbn. lia.
  - done.
Qed.

Lemma status_c0 fr st now p s : link deref has_cb fr st -> fr !! t = Some (mk_frame c0 now p) ->
  st !! tid t false = Some s ->
  (p = Q_wait /\ exists q, st_ok deref s (CLoadOrStore k0 q)) \/
  (exists k e x, p = Q_cadw k e x /\ st_ok deref s (CCad k e)).
Proof.
  intros Hl Hf Hs. destruct (link_call_of _ _ _ _ _ _ _ Hl Hs) as (c & now' & p' & mc & Hf' & Hb & Hmc & Hst).
  rewrite Hf in Hf'. injection Hf' as <- <- <-. destruct p; try done.
  - left. split; [done|]. cbn in Hmc. destruct Hmc as [q ->]. eauto.
  - right. cbn in Hmc. subst mc. eauto 10.
Qed.

Lemma around_step (m : mstate) (x : mev) (m' : mstate) tr R now p :
  mcase m x m' -> linked m -> unique m -> around m tr R now p -> (forall r, SRet t r ∉ x.2) ->
  exists R' now' p', around m' (tr ++ x.2) R' now' p'.
Proof.
  intros Hm Hl Hu Ha Hret. pose proof Ha as (Hf & Hnd & HR & Hmine & Hlen & Htg).
  pose proof (proj2 Hl _ _ _ _ Hf) as Hok.
  assert (Hother : c_fr (m_cl m') !! t = c_fr (m_cl m) !! t -> a_st (m_map m') !! tid t false = a_st (m_map m) !! tid t false ->
    entries_of t x.2 = [] -> exists R' now' p', around m' (tr ++ x.2) R' now' p').
  { intros. exists R, now, p. by eapply around_other. }
  pose proof (around_keeps m x m' tr R now p) as Hkeep.
  pose proof (around_again m x m' tr R now) as Hagain.
  specialize (Hkeep) with (1 := Hm) (2 := Hl) (3 := Ha).
  pose proof Hm as Hm0. destruct Hm.
  - cbn in Hf. apply Hother; [|done|done]. cbn. apply lookup_insert_ne. congruence.
  - cbn in Hf. destruct (decide (t0 = t)) as [->|Hne].
    2: { apply Hother; cbn -[tid]; [by apply lookup_insert_ne|done|by rewrite decide_False]. }
    rewrite Hf in H0. destruct H1 as [-> | ->]; [done|]. injection H0 as <- <- <- <- ->.
    assert (Hgone : forall e, e < nw -> nowhere (M ent nw fr mp st) e ->
      nowhere (M (<[nw:=(v0, ms (n + d0))]> ent) (S nw) (<[t:=mk_frame c0 now (Q_put nw)]> fr) mp st) e).
    { intros e He Hn. exact (gone_step deref veq has_cb _ _ _ e Hm0 Hl He Hn). }
    exists R, now, (Q_put nw). unfold around. rewrite entries_of_app. cbn. rewrite decide_True by done. cbn.
    split; [apply lookup_insert|]. split; [done|]. split_and!.
    + intros e He. destruct (HR e He) as (Hlt & Hn & Hnm & Hs). cbn in Hlt. split_and!; [lia|eauto| |by apply saw_app].
      intros [?|?%elem_of_list_singleton]%elem_of_app; [done|lia].
    + intros e [He|He%elem_of_list_singleton]%elem_of_app.
      * destruct (Hmine e He) as [Hlt Hw]. cbn in Hlt. split; [lia|]. right. right. right. apply Hgone; [done|].
        destruct Hw as [[]|[?|[(? & _)|?]]]; done.
      * subst e. split; [lia|]. right. by left.
    + rewrite app_length. cbn. cbn in Hlen. lia.
    + done.
  - cbn in Hf. destruct (decide (t0 = t)) as [->|Hne].
    2: { apply Hother; cbn -[tid]; [by apply lookup_insert_ne|done|done]. }
    rewrite Hf in H0. injection H0 as <- <- ->. done.
  - cbn in Hf. destruct (decide (t0 = t)) as [->|Hne].
    2: { apply Hother; cbn -[tid]; [by apply lookup_insert_ne|done|done]. }
    rewrite Hf in H0. injection H0 as <- <- ->. exists R, (ms n), (Q_chk2 k e).
    apply Hkeep; cbn -[tid]; try done; try apply lookup_insert.
  - cbn in Hf. destruct (decide (t0 = t)) as [->|Hne].
    2: { apply Hother; cbn -[tid]; [by apply lookup_insert_ne|done|done]. }
    rewrite Hf in H0. injection H0 as <- <- ->. eexists R, now, _.
    apply Hkeep; cbn -[tid]; try done; try apply lookup_insert; [by destruct (Z.ltb x now)|].
    destruct (Z.ltb_spec x now); [|done]. cbn. intros e' [= <-]. split; [done|]. intros _. right. exists now, x. split; [by left|done].
  - cbn in Hf. destruct (decide (t0 = t)) as [->|Hne].
    2: { apply Hother; cbn -[tid]; [by apply lookup_insert_ne|done|done]. }
    rewrite Hf in H0. injection H0 as <- <- ->. eexists (e :: R), now, _.
    eapply (Hagain now (Q_del k e x) e); cbn; try done; try apply lookup_insert; [by intros []|].
    intros pl Hp. apply (mono_frame deref ent ent nw nw fr mp st t c0 now (Q_del k e x)) in Hp as Hp0; [|done|done|done].
    assert (pl = PDel t) as ->. { eapply (proj2 Hu e); [done|]. cbn. by eexists _, _, _. }
    cbn in Hp. rewrite lookup_insert in Hp. destruct Hp as (? & ? & ? & Hp & Hd). by injection Hp as <- <- <-.
  - cbn in Hf. destruct (decide (t0 = t)) as [->|Hne].
    2: { apply Hother; cbn -[tid]; [by apply lookup_insert_ne|done|done]. }
    rewrite Hf in H0. injection H0 as <- <- ->. done.
  - cbn in Hf. destruct (decide (t0 = t)) as [->|Hne].
    2: { apply Hother; cbn -[tid]; [by apply lookup_delete_ne|done|done]. }
    destruct (Hret r). cbn. by left.
  - cbn in Hf. destruct (decide (t0 = t)) as [->|Hne].
    2: { apply Hother; cbn -[tid]; [by apply lookup_insert_ne|done|done]. }
    rewrite Hf in H0. by injection H0 as <- <- ->.
  - apply Hother; done.
  - apply Hother; done.
  - (* a call of the map *)
    cbn in Hf. destruct (decide (t0 = t)) as [->|Hne].
    2: { apply Hother; cbn -[tid]; [by apply lookup_insert_ne|apply lookup_insert_ne; by apply tid_t_ne|done]. }
    rewrite Hf in H0. injection H0 as <- <- <-. rewrite c0_inner in *.
    destruct p; try done; cbn in H1; (destruct mc; try done; apply bool_decide_eq_true in H1 as [-> He]).
    + subst e. exists R, now, Q_wait. apply Hkeep; cbn -[tid]; try done; try apply lookup_insert.
      * intros e' [= <-]. right. split; [done|]. rewrite lookup_insert. by eexists.
      * rewrite lookup_insert. done.
    + subst. exists R, now, (Q_cadw k e x). apply Hkeep; cbn -[tid]; try done; try apply lookup_insert.
      intros e' [= <-]. split; [done|]. by left.
  - (* its end *)
    cbn in Hf. destruct (decide (t0 = t)) as [->|Hne].
    2: { apply Hother; cbn -[tid]; [by apply lookup_insert_ne|apply lookup_delete_ne; by apply tid_t_ne|done]. }
    rewrite Hf in H0. injection H0 as <- <- <-. rewrite c0_inner in *.
    destruct (status_c0 _ _ _ _ _ (proj1 Hl) Hf H1) as [(-> & q & -> & _)|(k & e & x & -> & -> & _)].
    + cbn in H2. destruct r as [|e' b| | | |]; try done. injection H2 as <-.
      destruct b.
      * exists R, now, (Q_chk k0 e'). apply Hkeep; cbn -[tid]; try done; try apply lookup_insert.
        -- rewrite H1. by intros (? & ? & [=]).
        -- rewrite H1. done.
        -- rewrite H1. intros e'' [= <-]. split; [done|]. by intros [].
      * exists R, now, (Q_ret (SEnt e' false)). apply Hkeep; cbn -[tid]; try done; try apply lookup_insert.
        rewrite H1. done.
    + apply after_ret_cad in H2 as (b & -> & ->). destruct b.
      2: { exists R, now, (Q_ret (SEnt e true)). apply Hkeep; cbn -[tid]; try done; try apply lookup_insert. }
      destruct has_cb eqn:Ecb.
      * exists R, now, (Q_del k e x). apply Hkeep; cbn -[tid]; try done; try apply lookup_insert.
        intros e' [= <-]. split; [done|]. by left.
      * eexists (e :: R), now, _. eapply (Hagain now (Q_cadw k e x) e); cbn; try done; try apply lookup_insert; [by intros []|].
        intros pl Hp.
        assert (Hp0 : at_ (M ent nw fr mp st) e pl).
        { destruct pl as [t'|u|k'|u|t']; cbn in Hp |- *.
          - destruct Hp as (c1 & n1 & Hp). apply lookup_insert_Some in Hp as [[_ ?]|[_ ?]]; [done|eauto].
          - destruct Hp as (mc1 & Hp & ?). apply lookup_delete_Some in Hp as [_ ?]. eauto.
          - done.
          - destruct Hp as (mc1 & r1 & Hp & ?). apply lookup_delete_Some in Hp as [_ ?]. eauto.
          - destruct Hp as (c1 & n1 & p1 & Hp & Hd). apply lookup_insert_Some in Hp as [[_ Hp]|[_ ?]]; [|eauto 10].
            by injection Hp as <- <- <-. }
        assert (pl = PDone (tid t false)) as ->. { eapply (proj2 Hu e); [done|]. cbn. by eexists _, _. }
        cbn in Hp. rewrite lookup_delete in Hp. by destruct Hp as (? & ? & ? & _).
  - cbn in Hf. destruct (decide (t0 = t)) as [->|Hne].
    2: { apply Hother; cbn -[tid]; [by apply lookup_insert_ne|apply lookup_insert_ne; by apply tid_t_ne|done]. }
    rewrite Hf in H0. injection H0 as <- <- ->. by destruct Hok.
  - (* the effect of a call *)
    destruct (decide (u = tid t false)) as [->|Hne]; [|by apply Hother; cbn -[tid]; [done|apply lookup_insert_ne|]].
    cbn in Hf. destruct (status_c0 _ _ _ _ _ (proj1 Hl) Hf H0) as [(-> & q & Hq)|(k & e & x & -> & Hq)]; cbn in Hq; subst mc.
    2: { exists R, now, (Q_cadw k e x). apply Hkeep; cbn -[tid]; try done. intros e' [= <-]. split; [done|]. by left. }
    cbn [seq_next seq_res] in *.
    destruct (mp !! k0) as [e|] eqn:Hk; cbn [snd fst] in *.
    + assert (Hgone : forall e', e' < nw -> nowhere (M ent nw fr mp st) e' ->
        nowhere (M ent nw fr mp (<[tid t false:=ADone (CLoadOrStore k0 q) (RLos e true)]> st)) e').
      { intros e' He' Hn. exact (gone_step deref veq has_cb _ _ _ e' Hm0 Hl He' Hn). }
      assert (Hmap : at_ (M ent nw fr mp st) e (PMap k0)) by done.
      exists R, now, Q_wait. unfold around. rewrite app_nil_r. cbn -[tid]. rewrite lookup_insert. split; [done|]. split; [done|]. split_and!.
      * intros e' He'. destruct (HR e' He') as (? & ? & ? & ?). split_and!; [done|by apply Hgone|done|done].
      * intros e' He'. destruct (Hmine e' He') as [Hlt Hw]. split; [done|]. right. right. right.
        destruct Hw as [(mc & e1 & Hs)|[?|[(_ & mc & Hs & Hm')|Hw]]]; [cbn -[tid] in Hs; congruence|done| |by apply Hgone].
        intros pl Hp. assert (Hp0 : at_ (M ent nw fr mp st) e' pl).
        { apply (mono_status deref ent nw fr mp st (tid t false) (ADone (CLoadOrStore k0 q) (RLos e true))); [done| |done].
          intros ? ? ? [= <- <-]. by intros []. }
        assert (pl = PInv (tid t false)) as ->. { eapply (proj2 Hu e'); [done|]. cbn. eauto. }
        cbn in Hp. rewrite lookup_insert in Hp. by destruct Hp as (? & ? & _).
      * done.
      * intros e' [= <-]. split_and!; [by apply (proj1 Hu e (PMap k0))| | |by intros []].
        -- intros He'. destruct (HR e He') as (_ & Hn & _). by apply (Hn (PMap k0)).
        -- intros He'. destruct (Hmine e He') as [_ [(mc & e1 & Hs)|[?|[(_ & mc & Hs & Hm')|Hw]]]]; [cbn -[tid] in Hs; congruence|done| |by apply (Hw (PMap k0))].
           assert (PMap k0 = PInv (tid t false)) as [=]. eapply (proj2 Hu e); [done|]. cbn. eauto.
    + exists R, now, Q_wait. unfold around. rewrite app_nil_r. cbn -[tid]. rewrite lookup_insert. split; [done|]. split; [done|]. split_and!.
      * intros e' He'. destruct (HR e' He') as (Hlt & Hn & ? & ?). split_and!; [done| |done|done].
        exact (gone_step deref veq has_cb _ _ _ e' Hm0 Hl Hlt Hn).
      * intros e' He'. destruct (Hmine e' He') as [Hlt _]. split; [done|]. left. eauto.
      * done.
      * done.
  - destruct (decide (u = tid t false)) as [->|Hne]; [|by apply Hother; cbn -[tid]; [done|apply lookup_insert_ne|]].
    cbn in Hf. destruct (status_c0 _ _ _ _ _ (proj1 Hl) Hf H0) as [(-> & q & Hq)|(k & e & x & -> & Hq)]; cbn in Hq; by subst mc.
  - destruct (decide (u = tid t false)) as [->|Hne]; [|by apply Hother; cbn -[tid]; [done|apply lookup_insert_ne|]].
    cbn in Hf. destruct (status_c0 _ _ _ _ _ (proj1 Hl) Hf H0) as [(-> & q & Hq)|(k1 & e & x & -> & Hq)]; cbn in Hq; by destruct Hq as [-> ?].
  - destruct (decide (u = tid t false)) as [->|Hne]; [|by apply Hother; cbn -[tid]; [done|apply lookup_insert_ne|]].
    cbn in Hf. destruct (status_c0 _ _ _ _ _ (proj1 Hl) Hf H0) as [(-> & q & Hq)|(k & e & x & -> & Hq)]; cbn in Hq; by destruct Hq as [-> ?].
Qed.

Lemma around_run (h : list mev) (m : mstate) : mrun m_init h m -> forall tr1 tr2, trace h = tr1 ++ SInv t c0 :: tr2 -> still_in t tr2 ->
  exists R now p, around m tr2 R now p.
Proof.
  revert h m. apply (mrun_cases _ _ _ (fun h m => forall tr1 tr2, trace h = tr1 ++ SInv t c0 :: tr2 -> still_in t tr2 ->
    exists R now p, around m tr2 R now p)).
  - by intros [].
  - intros h m x m' Hr Hl Hr' IH Hm tr1 tr2 Ht Hin. rewrite trace_snoc in Ht.
    assert (Hstart : SInv t c0 ∈ x.2 -> x.2 = [SInv t c0] /\ around m' [] [] 0%Z Q_new).
    { intros He. destruct Hm; cbn in He; repeat (apply elem_of_cons in He as [He|He]); try (by apply elem_of_nil in He); try discriminate He.
      injection He as <- <-. split; [done|]. unfold around. cbn. split; [apply lookup_insert|]. split; [constructor|].
      split; [by intros e He%elem_of_nil|]. split; [by intros e He%elem_of_nil|]. done. }
    apply app_eq_inv in Ht as [(l & H1 & H2)|(l & H1 & H2)].
    + destruct l as [|ev l]; cbn in H2.
      * rewrite <- H2 in Hstart. destruct Hstart as [He Ha]; [by left|]. injection He as ->. eauto.
      * injection H2 as <- ->. destruct (IH tr1 l H1) as (R & now & p & Ha); [intros r Hi; apply (Hin r), elem_of_app; by left|].
        eapply around_step; try done; [by eapply mrun_unique|]. intros r Hi. apply (Hin r), elem_of_app. by right.
    + rewrite H2 in Hstart. destruct Hstart as [He Ha]; [apply elem_of_app; right; by left|].
      destruct l as [|ev l]; [|by destruct l]. injection He as ->. eauto.
Qed.

(** All entries are made in the trace. *)
Lemma made_run (h : list mev) (m : mstate) : mrun m_init h m ->
  NoDup (entries_in (trace h)) /\ (forall e, e ∈ entries_in (trace h) -> e < c_new (m_cl m)) /\
  (forall e, is_Some (c_ent (m_cl m) !! e) -> e ∈ entries_in (trace h)) /\
  (forall u e n x, SChk u e n x ∈ trace h -> e ∈ entries_in (trace h)).
Proof.
  revert h m. apply (mrun_cases _ _ _ (fun h m => NoDup (entries_in (trace h)) /\ (forall e, e ∈ entries_in (trace h) -> e < c_new (m_cl m)) /\
    (forall e, is_Some (c_ent (m_cl m) !! e) -> e ∈ entries_in (trace h)) /\
    (forall u e n x, SChk u e n x ∈ trace h -> e ∈ entries_in (trace h)))).
  - split_and!; [constructor|by intros e ?%elem_of_nil|by intros e [? ?]|by intros ? ? ? ? ?%elem_of_nil].
  - intros h m x m' Hr Hl Hr' (I1 & I2 & I3 & I4) Hm. rewrite trace_snoc.
    assert (Happ : entries_in (trace h ++ x.2) = entries_in (trace h) ++ entries_in x.2) by apply bind_app.
    rewrite Happ.
    assert (Hsame : c_new (m_cl m') = c_new (m_cl m) -> (forall e, is_Some (c_ent (m_cl m') !! e) -> is_Some (c_ent (m_cl m) !! e)) ->
      entries_in x.2 = [] -> (forall u e n z, SChk u e n z ∈ x.2 -> is_Some (c_ent (m_cl m) !! e)) ->
      NoDup (entries_in (trace h) ++ entries_in x.2) /\ (forall e, e ∈ entries_in (trace h) ++ entries_in x.2 -> e < c_new (m_cl m')) /\
      (forall e, is_Some (c_ent (m_cl m') !! e) -> e ∈ entries_in (trace h) ++ entries_in x.2) /\
      (forall u e n z, SChk u e n z ∈ trace h ++ x.2 -> e ∈ entries_in (trace h) ++ entries_in x.2)).
    { intros En Ee Ev Ec. rewrite Ev, app_nil_r, En. split_and!; [done|done|eauto|].
      intros u e n z [Hi|Hi]%elem_of_app; [by eapply I4|]. eauto. }
    destruct Hm; try (apply Hsame; cbn; [done|done|done|]; intros u' e' n' z' Hi; repeat (apply elem_of_cons in Hi as [Hi|Hi]); try (by apply elem_of_nil in Hi); try discriminate Hi).
    + cbn in I2, I3 |- *. split_and!.
      * apply NoDup_app. split_and!; [done| |by apply NoDup_singleton].
        intros e He ->%elem_of_list_singleton. apply I2 in He. lia.
      * intros e [He| ->%elem_of_list_singleton]%elem_of_app; [apply I2 in He|]; lia.
      * intros e [y Hy]. apply elem_of_app. apply lookup_insert_Some in Hy as [[<- _]|[_ Hy]]; [right; by left|left; eauto].
      * intros u e n0 z [Hi|Hi]%elem_of_app; [apply elem_of_app; left; eauto|].
        by repeat (apply elem_of_cons in Hi as [Hi|Hi]); try (by apply elem_of_nil in Hi).
    + injection Hi as -> -> -> ->. by eexists.
    + apply Hsame; cbn; [done| |done|].
      * intros e' [y' Hy]. apply lookup_insert_Some in Hy as [[<- _]|[_ Hy]]; eauto.
      * intros u' e' n' z' Hi; repeat (apply elem_of_cons in Hi as [Hi|Hi]); try (by apply elem_of_nil in Hi); discriminate Hi.
    + apply Hsame; cbn; [done| |done|].
      * intros e' [y' Hy]. apply lookup_insert_Some in Hy as [[<- _]|[_ Hy]]; eauto.
      * intros u' e' n' z' Hi; repeat (apply elem_of_cons in Hi as [Hi|Hi]); try (by apply elem_of_nil in Hi); discriminate Hi.
Qed.

Lemma entries_split (tr : list sev) e : e ∈ entries_in tr -> e ∈ entries_of t tr \/ e ∈ entries_not_of t tr.
Proof.
  unfold entries_in, entries_of, entries_not_of. rewrite !elem_of_list_bind. intros (ev & He & Hi).
  destruct ev; try by apply elem_of_nil in He. apply elem_of_list_singleton in He as ->.
  destruct (decide (t0 = t)) as [->|Hne]; [left|right]; eexists; (split; [|done]); cbn;
    [rewrite decide_True by done|rewrite decide_False by done]; by left.
Qed.

Lemma retries xs w tr1 tr2 : Inhabited K ->
  wrun deref veq has_cb w_init xs = Some (w, tr1 ++ SInv t c0 :: tr2) -> still_in t tr2 ->
  exists R, NoDup R /\ length (entries_of t tr2) <= length R + 1 /\
    forall e, e ∈ R -> saw_expired t e tr2 /\ (e ∈ entries_in tr1 \/ e ∈ entries_not_of t tr2).
Proof.
  intros Hi Hr Hs. destruct (run_explained _ _ _ _ _ _ Hi Hr) as (h & m & Hm & Ht & _).
  destruct (around_run _ _ Hm _ _ Ht Hs) as (R & now & p & _ & Hnd & HR & _ & Hlen & _).
  destruct (made_run _ _ Hm) as (_ & _ & _ & Hc).
  exists R. split; [done|]. split; [rewrite Hlen; by destruct p; cbn; lia|].
  intros e He. destruct (HR e He) as (_ & _ & Hnm & Hse). split; [done|].
  destruct Hse as (n & x & Hin & _). assert (He' : e ∈ entries_in (trace h)).
  { eapply Hc. rewrite Ht. apply elem_of_app. right. by right. }
  rewrite Ht in He'. unfold entries_in in He'. rewrite bind_app in He'. apply elem_of_app in He' as [?|He']; [by left|right].
  cbn in He'. apply entries_split in He' as [?|?]; done.
Qed.

Lemma retries_bound xs w tr1 tr2 : Inhabited K ->
  wrun deref veq has_cb w_init xs = Some (w, tr1 ++ SInv t c0 :: tr2) -> still_in t tr2 ->
  length (entries_of t tr2) <= length (entries_in tr1) + length (entries_not_of t tr2) + 1.
Proof.
  intros Hi Hr Hs. destruct (retries _ _ _ _ Hi Hr Hs) as (R & Hnd & Hlen & HR).
  assert (length R <= length (entries_in tr1 ++ entries_not_of t tr2)).
  { apply submseteq_length, NoDup_submseteq; [done|]. intros e He. apply elem_of_app. by apply HR. }
  rewrite app_length in *. lia.
Qed.
End retry.
