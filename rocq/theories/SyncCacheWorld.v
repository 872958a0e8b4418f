(** synccache: how the goroutines of the cache and those of its map belong together in a run, and that
    none of them is stuck. *)
From Verif Require Import Base RwMapModel RwMapSpec RwMapInv RwMapFrame RwMapMoves RwMapProgress
  SyncCacheModel SyncCacheSpec SyncCacheHist SyncCacheLink.

(** ** The shape of the results of rwmap *)
Section shape.
Context {K : Type} `{Countable K} {V : Type}.
Context (deref : nat -> V) (zero : V) (veq : V -> V -> option bool).

Definition shaped (c : call K V) (r : result V) : Prop :=
  match c with
  | CRange => r = RUnit
  | CSlowLen | CLen => True
  | _ => exists m, r = seq_res deref veq m c
  end.
Definition st_shaped (x : status K V) : Prop :=
  match x with
  | AInv_ _ => True
  | AIter c _ _ _ => range_call c
  | ADone c r => shaped c r
  end.

Lemma hstep_shaped (a a' : astate K V) i :
  hstep deref veq a i a' -> (forall t x, a_st a !! t = Some x -> st_shaped x) ->
  forall t x, a_st a' !! t = Some x -> st_shaped x.
Proof.
  intros Hs Ha t x.
  assert (Hins : forall u y, st_shaped y -> <[u := y]> (a_st a) !! t = Some x -> st_shaped x).
  { intros u y Hy. rewrite lookup_insert_Some. intros [[_ <-]|[_ ?]]; [done|by eapply Ha]. }
  destruct i as [i|u os|k e u|os]; cbn in Hs.
  - destruct i; cbn in Hs.
    + destruct Hs as [_ ->]. by apply Hins.
    + destruct Hs as [-> _]. cbn. rewrite lookup_delete_Some. intros [_ ?]. by eapply Ha.
    + destruct Hs as (c & ks & vis & n & Hc & _ & Hb & ->). apply Hins. specialize (Ha _ _ Hc).
      destruct b; [done|]. cbn. by rewrite Hb.
    + destruct Hs as (c & Hc & Hat & ->). apply Hins. cbn. destruct c; try done; cbn; first [by eauto|by exists ∅].
    + destruct Hs as (c & Hc & Hr & _ & ->). by apply Hins.
    + destruct Hs as (c & ks' & vis & n & Hc & _ & ->). apply Hins. by specialize (Ha _ _ Hc).
    + destruct Hs as (c & n & Hc & ->). apply Hins. specialize (Ha _ _ Hc). by destruct c.
  - destruct Hs as [_ ->]. apply Hins. cbn. by exists ∅.
  - subst a'. by apply Ha.
  - subst a'. by apply Ha.
Qed.

Lemma good_shaped s (thr : gmap nat (call K V * pc K V)) tr t c r :
  good deref veq s thr tr -> thr !! t = Some (c, X_ret r) -> c <> CLen -> shaped c (ret_of c r).
Proof.
  intros (h & kof & m & Hc & _) Ht Hl. pose proof (i_run _ _ _ _ _ _ _ Hc) as Hr.
  assert (Hall : forall a, hrun deref veq a_new h a -> forall t x, a_st a !! t = Some x -> st_shaped x).
  { clear. assert (Ha : forall u x, a_st (a_new : astate K V) !! u = Some x -> st_shaped x).
    { intros u x. cbn. by rewrite lookup_empty. }
    revert Ha. generalize (a_new : astate K V). induction h as [|i h IH]; intros a0 Ha a Hr; cbn in Hr.
    - by subst a.
    - destruct Hr as (a1 & Hs & Hr). eapply IH; [|done]. by eapply hstep_shaped. }
  apply (Hall _ Hr t (ADone c (ret_of c r))). cbn. rewrite lookup_fmap, Ht. cbn. by destruct c.
Qed.

(** A goroutine at a step that is seen outside: it returns, or it calls the callback of Range. *)
Definition visible_pc (p : pc K V) : Prop :=
  match p with X_ret _ | R_call _ _ _ _ => True | _ => False end.
Lemma step_silent t c p s lab o s' ev :
  step deref zero veq t c p s lab = Some (o, s', ev) -> ~ visible_pc p -> ev = [] /\ is_Some o.
Proof.
  intros Hs Hp.
  destruct p as [| | | | | | | | | | | | |[]| | | | | | | | | | | | ], lab; cbn in Hs, Hp; try done;
    unfold step_read, step_read2, step_dirty, step_load, add_key, dirty_store, goto in Hs;
    repeat (case_match || case_decide); simplify_eq; eauto.
Qed.

(** ** Where the values come from *)
Section vals.
Context (E : V -> Prop).
Definition res_from (c : call K V) (r : result V) : Prop :=
  match r with
  | RVal (Some v) | RLos v true => E v
  | RBool true => match c with CCad _ old => E old | _ => True end
  | _ => True
  end.
Definition pc_from (c : call K V) (p : pc K V) : Prop :=
  match p with
  | P_miss r | P_un r | P_len r _ | X_ret r => res_from c r
  | R_call _ v _ _ => E v
  | E_cas _ x _ => match c with CCad _ old => exists q, x = SPtr q /\ deref q = old | _ => True end
  | _ => True
  end.
Definition slots_from (s : shared K) : Prop := forall e q, s_ent s e = SPtr q -> E (deref q).
Definition ptr_from (c : call K V) : Prop := forall q, call_ptr c = Some q -> E (deref q).

Lemma finish_from c r : res_from c r -> pc_from c (finish c r).
Proof. unfold finish. by case_decide. Qed.
Lemma after_from c m r : res_from c r -> pc_from c (after c m r).
Proof. destruct m; cbn; [apply finish_from|done..]. Qed.
Lemma after_panic_from c m : pc_from c (after_panic m).
Proof. by destruct m. Qed.
Lemma slot_from s c e : slots_from s -> (forall k old, c <> CCad k old) -> res_from c (RVal (slot_val deref (s_ent s e))).
Proof. intros Hs _. cbn. unfold slot_val. destruct (s_ent s e) eqn:He; try done. by eapply Hs. Qed.

Lemma slots_set e x s : slots_from s -> (forall q, x = SPtr q -> E (deref q)) -> slots_from (set_ent e x s).
Proof.
  intros Hs Hx e' q. cbn. destruct (decide (e' = e)) as [->|Hne].
  - rewrite fn_lookup_insert. apply Hx.
  - rewrite fn_lookup_insert_ne by done. apply Hs.
Qed.

Lemma step_from (Hveq : forall a b, veq a b = Some true -> a = b) t c p s lab o s' ev :
  step deref zero veq t c p s lab = Some (o, s', ev) ->
  slots_from s -> ptr_from c -> pc_from c p ->
  slots_from s' /\ forall p', o = Some p' -> pc_from c p'.
Proof.
  intros Hs Hsl Hp Hpc.
  assert (Hml : slots_from (missLocked s)) by (unfold missLocked, promote; by case_decide).
  assert (Hmld : forall d, slots_from (missLocked (set_dirty d s))) by (intros d; unfold missLocked, promote; by case_decide).
  destruct p as [| | | | | | | | | | | | |[]| | | | | | | | | | | | ], lab; cbn in Hs; try done;
    unfold step_read, step_read2, step_dirty, step_load, add_key, dirty_store, goto in Hs.
  all: try (repeat (case_match || case_decide); simplify_eq; (split; [done|]); intros p' Ep'; simplify_eq; done).
  - destruct (s_ent s e) eqn:He; [|destruct (call_key c); [destruct (s_dirty _)|]|]; simplify_eq;
      (split; [|intros p' Ep'; simplify_eq; by destruct c]); try done; by apply (slots_set e SNil s).
  - destruct (s_ent s e) eqn:He, (call_ptr c) as [q|] eqn:Hq; simplify_eq; (split; [|intros p' Ep'; simplify_eq; try done]);
      try done; try (by apply slots_set; [done|intros ? [= <-]; apply Hp]). cbn. by eapply Hsl.
  - destruct (s_ent s e) eqn:He; simplify_eq; (split; [|by intros p' [= <-]]); try done. by apply slots_set.
  - destruct (call_key c); [|done]. destruct (call_ptr c) as [q|] eqn:Hq; [|done].
    assert (Hn : slots_from (new_entry q s)).
    { intros e' q'. cbn. destruct (decide (e' = s_next s)) as [->|Hne].
      - rewrite fn_lookup_insert. intros [= <-]. by apply Hp.
      - rewrite fn_lookup_insert_ne by done. apply Hsl. }
    destruct (s_dirty _); simplify_eq; (split; [done|]); intros p' [= <-]; by destruct c.
  - simplify_eq. split; [done|]. intros p' [= <-]. by apply finish_from.
  - simplify_eq. split; [done|]. intros p' [= <-]. by destruct c.
  - assert (Hv : forall q, s_ent s e = SPtr q -> E (deref q)) by (intros q He; by eapply Hsl).
    destruct c; simplify_eq; repeat case_match; simplify_eq; (split; [done|]); intros p' [= <-]; try done;
      try (apply after_from; cbn; unfold slot_val; repeat case_match; simplify_eq; by eauto);
      try apply after_panic_from. cbn. match goal with Hq : veq _ _ = Some true |- _ => apply Hveq in Hq end. by eauto.
  - case_decide as Hx; simplify_eq; [|by split; [|intros p' [= <-]]]. split.
    + apply slots_set; [done|]. intros q Hq. apply Hp. destruct c; cbn in Hq |- *; simplify_eq; done.
    + intros p' [= <-]. apply after_from. cbn in Hpc.
      assert (Hv : forall q, s_ent s e = SPtr q -> E (deref q)) by (intros q He; by eapply Hsl).
      destruct c; cbn; unfold slot_val; try (repeat case_match; simplify_eq; by eauto).
      destruct Hpc as (q & Hq & <-). by apply Hv.
  - unfold slot_val in Hs. destruct (s_ent s e) eqn:He; simplify_eq; (split; [done|]); intros p' [= <-]; try done.
    by eapply Hsl.
Qed.
End vals.

Lemma slots_mono (E E' : V -> Prop) s : (forall v, E v -> E' v) -> slots_from E s -> slots_from E' s.
Proof. intros HE Hs e q He. apply HE. by eapply Hs. Qed.
Lemma ptr_mono (E E' : V -> Prop) c : (forall v, E v -> E' v) -> ptr_from E c -> ptr_from E' c.
Proof. intros HE Hs q Hq. apply HE. by apply Hs. Qed.
Lemma pc_mono (E E' : V -> Prop) c p : (forall v, E v -> E' v) -> pc_from E c p -> pc_from E' c p.
Proof.
  intros HE. assert (Hr : forall r, res_from E c r -> res_from E' c r).
  { intros r. unfold res_from. repeat case_match; eauto. }
  destruct p; cbn; try done; eauto.
Qed.
End shape.

(** ** The invariant of a run *)
Section world.
Context {K : Type} `{Countable K} {V : Type}.
Context (deref : nat -> nat) (veq : V -> V -> option bool) (has_cb : bool).
Local Notation scall := (scall K V).
Local Notation spc := (spc K).
Local Notation frame := (frame K V).
Local Notation sev := (sev K V).
Local Notation sact := (sact K V).
Local Notation cstate := (cstate K V).
Local Notation status := (status K nat).
Local Notation astate := (astate K nat).
Local Notation mcall := (call K nat).
Local Notation result := (result nat).
Local Notation mev := (mev K V).
Local Notation mstate := (mstate K V).
Local Notation world := (world K V).
Local Notation wstep := (wstep deref veq has_cb).
Local Notation wrun := (wrun deref veq has_cb).
Local Notation calls_map := (calls_map deref has_cb).
Local Notation after_ret := (after_ret has_cb).
Local Notation after_chk := (after_chk veq has_cb).
Local Notation ranging := (ranging has_cb).
Local Notation inner := (inner has_cb).
Local Notation link := (link deref has_cb).
Local Notation busy := (busy has_cb).
Local Notation mcall_ok := (mcall_ok has_cb).
Local Notation fok := (fok has_cb).
Local Notation foks := (foks has_cb).
Local Notation mcase := (mcase deref veq has_cb).

Implicit Types (w : world) (fr : gmap nat frame) (thr : gmap nat (mcall * pc K nat)) (sh : shared K)
  (c : scall) (p : spc) (mc : mcall) (t u e : nat) (k : K).

Definition thr_st thr : gmap nat status := (fun x => AInv_ x.1) <$> thr.
(** The pair the callback of Range of rwmap works on. *)
Definition in_cb p : option (K * nat) :=
  match p with
  | Q_chk k e | Q_chk2 k e | Q_cad k e _ | Q_cadw k e _ | Q_del k e _ | Q_user k e | Q_back k e _ => Some (k, e)
  | _ => None
  end.
(** The entry whose fields are to be read. *)
Definition reads p : option nat :=
  match p with Q_put e | Q_chk _ e | Q_chk2 _ e | Q_del _ e _ => Some e | _ => None end.

Definition at_call thr t k e : Prop := exists mc todo n, thr !! tid t false = Some (mc, R_call k e todo n).

Record winv (s : cstate) sh thr : Prop := mk_winv {
  wi_link : link (c_fr s) (thr_st thr);
  wi_cb : forall t c now p k e, c_fr s !! t = Some (mk_frame c now p) -> ranging c = true ->
    in_cb p = Some (k, e) -> at_call thr t k e;
  wi_slots : slots_from deref (fun e => is_Some (c_ent s !! e)) sh;
  wi_thr : forall u mc pc, thr !! u = Some (mc, pc) ->
    ptr_from deref (fun e => is_Some (c_ent s !! e)) mc /\ pc_from deref (fun e => is_Some (c_ent s !! e)) mc pc;
  wi_fr : forall t c now p e, c_fr s !! t = Some (mk_frame c now p) -> reads p = Some e -> is_Some (c_ent s !! e) }.

Lemma in_cb_after_chk c k e v x k' e' : in_cb (after_chk c k e v x) = Some (k', e') -> k' = k /\ e' = e.
Proof. unfold SyncCacheModel.after_chk, SyncCacheModel.del. destruct c; cbn; repeat case_match; cbn; intros; by simplify_eq. Qed.
Lemma in_cb_after_cad c k e x b k' e' : in_cb (after_cad c k e x b) = Some (k', e') -> k' = k /\ e' = e.
Proof. destruct c; cbn; repeat case_match; cbn; intros; by simplify_eq. Qed.
Lemma in_cb_after_del c k e x k' e' : in_cb (after_del c k e x) = Some (k', e') -> k' = k /\ e' = e.
Proof. destruct c; cbn; repeat case_match; cbn; intros; by simplify_eq. Qed.
Lemma in_cb_callback c k e k' e' : in_cb (callback c k e) = Some (k', e') -> k' = k /\ e' = e.
Proof. destruct c; cbn; intros; by simplify_eq. Qed.
Lemma reads_after_chk c k e v x e' : reads (after_chk c k e v x) = Some e' -> e' = e.
Proof. unfold SyncCacheModel.after_chk, SyncCacheModel.del. destruct c; cbn; repeat case_match; cbn; intros; by simplify_eq. Qed.
Lemma reads_after_cad c k e x b : reads (after_cad c k e x b) = None.
Proof. destruct c; cbn; repeat case_match; done. Qed.
Lemma reads_after_del c k e x : reads (after_del c k e x) = None.
Proof. destruct c; cbn; repeat case_match; done. Qed.
Lemma reads_callback c k e e' : reads (callback c k e) = Some e' -> e' = e.
Proof. destruct c; cbn; intros; by simplify_eq. Qed.

Lemma winv_ent ent nw fr ent' nw' sh thr :
  (forall e, is_Some (ent !! e) -> is_Some (ent' !! e)) ->
  winv (mk_cstate ent nw fr) sh thr -> winv (mk_cstate ent' nw' fr) sh thr.
Proof.
  intros He [H1 H2 H3 H4 H5]. split; cbn in *; try done.
  - eapply slots_mono; [|exact H3]. apply He.
  - intros u mc pc Hu. destruct (H4 _ _ _ Hu). split; [eapply ptr_mono; [|done]; apply He|eapply pc_mono; [|done]; apply He].
  - eauto.
Qed.

(** A goroutine goes on in the cache's code. *)
Lemma winv_frame ent nw fr sh thr t c now p now' p' :
  winv (mk_cstate ent nw fr) sh thr -> fr !! t = Some (mk_frame c now p) ->
  link (<[t := mk_frame c now' p']> fr) (thr_st thr) ->
  (forall k e, ranging c = true -> in_cb p' = Some (k, e) -> at_call thr t k e) ->
  (forall e, reads p' = Some e -> is_Some (ent !! e)) ->
  winv (mk_cstate ent nw (<[t := mk_frame c now' p']> fr)) sh thr.
Proof.
  intros [H1 H2 H3 H4 H5] Hf Hl Hcb Hre. split; cbn in *; try done.
  - intros u c1 now1 p1 k e. rewrite lookup_insert_Some. intros [[<- [= <- <- <-]]|[_ Hu]]; eauto.
  - intros u c1 now1 p1 e. rewrite lookup_insert_Some. intros [[<- [= <- <- <-]]|[_ Hu]]; eauto.
Qed.

Lemma winv_local m (x : mev) m' a sh thr :
  mcase m x m' -> x.1 = MLoc a -> a_st (m_map m) = thr_st thr -> foks (c_fr (m_cl m)) ->
  (forall t k e, a = KBeg t k e -> at_call thr t k e) ->
  winv (m_cl m) sh thr -> winv (m_cl m') sh thr.
Proof.
  intros Hm Ha Hst Hok Hbeg Hw.
  assert (Hl : linked deref has_cb m').
  { eapply linked_step; [done|]. split; [|done]. rewrite Hst. apply Hw. }
  destruct Hl as [Hl _].
  destruct Hm; cbn in Ha, Hst, Hbeg, Hw, Hok, Hl |- *; try done; subst st.
  - destruct Hw as [H1 H2 H3 H4 H5]. split; cbn in *; try done.
    + intros u c1 now1 p1 k e. rewrite lookup_insert_Some. intros [[<- [= <- <- <-]]|[_ Hu]]; [|eauto].
      by destruct c.
    + intros u c1 now1 p1 e. rewrite lookup_insert_Some. intros [[<- [= <- <- <-]]|[_ Hu]]; [|eauto].
      by destruct c.
  - eapply (winv_frame _ _ _ _ _ t c now Q_new); [|done|done|done|].
    + eapply winv_ent; [|done]. intros e' [y He]. apply lookup_insert_is_Some. destruct (decide (nw = e')); [by left|right; eauto].
    + intros e' [= <-]. rewrite lookup_insert. eauto.
  - by eapply winv_frame.
  - eapply winv_frame; [done..| |].
    + intros k' e' Hr [= <- <-]. by eapply (wi_cb _ _ _ Hw).
    + intros e' [= <-]. by eapply (wi_fr _ _ _ Hw).
  - eapply winv_frame; [done..| |].
    + intros k' e' Hr [-> ->]%in_cb_after_chk. by eapply (wi_cb _ _ _ Hw).
    + intros e' ->%reads_after_chk. by eapply (wi_fr _ _ _ Hw).
  - eapply winv_frame; [done..| |].
    + intros k' e' Hr [-> ->]%in_cb_after_del. by eapply (wi_cb _ _ _ Hw).
    + intros e'. by rewrite reads_after_del.
  - eapply winv_frame; [done..| |done].
    intros k' e' Hr [= <- <-]. by eapply (wi_cb _ _ _ Hw).
  - destruct Hw as [H1 H2 H3 H4 H5]. split; cbn in *; try done.
    + intros u c1 now1 p1 k e. rewrite lookup_delete_Some. intros [_ ?]. eauto.
    + intros u c1 now1 p1 e. rewrite lookup_delete_Some. intros [_ ?]. eauto.
  - injection Ha as <-. specialize (Hbeg _ _ _ eq_refl). eapply winv_frame; [done..| |].
    + intros k' e' Hr [-> ->]%in_cb_callback. done.
    + intros e' ->%reads_callback. destruct Hbeg as (mc & todo & n & Ht).
      by destruct (wi_thr _ _ _ Hw _ _ _ Ht) as [_ ?].
  - eapply winv_ent; [|done]. intros e' [z He]. apply lookup_insert_is_Some. destruct (decide (e = e')); [by left|right; eauto].
  - eapply winv_ent; [|done]. intros e' [z He]. apply lookup_insert_is_Some. destruct (decide (e = e')); [by left|right; eauto].
Qed.

Lemma peq_true (a b : nat) : peq a b = Some true -> a = b.
Proof. intros [= Hab]. by apply bool_decide_eq_true in Hab. Qed.
Lemma thr_st_insert thr u mc q : thr_st (<[u := (mc, q)]> thr) = <[u := AInv_ mc]> (thr_st thr).
Proof. unfold thr_st. by rewrite fmap_insert. Qed.
Lemma thr_st_same thr u mc q q' : thr !! u = Some (mc, q) -> thr_st (<[u := (mc, q')]> thr) = thr_st thr.
Proof. intros Hu. rewrite thr_st_insert. apply insert_id. unfold thr_st. by rewrite lookup_fmap, Hu. Qed.
Lemma thr_st_delete thr u : thr_st (delete u thr) = delete u (thr_st thr).
Proof. unfold thr_st. by rewrite fmap_delete. Qed.
Lemma link_at fr thr t b mc q : link fr (thr_st thr) -> thr !! tid t b = Some (mc, q) ->
  exists c now p, fr !! t = Some (mk_frame c now p) /\ busy c p b = true /\ mcall_ok c p b mc.
Proof.
  intros Hl Ht. specialize (Hl t b). unfold thr_st in Hl. rewrite lookup_fmap, Ht in Hl. cbn in Hl.
  destruct Hl as (c & now & p & mc' & Hf & Hb & Hm & Hx). cbn in Hx. subst mc'. eauto 10.
Qed.
Lemma link_none fr thr t b c now p : link fr (thr_st thr) -> fr !! t = Some (mk_frame c now p) ->
  busy c p b = false -> thr !! tid t b = None.
Proof.
  intros Hl Hf Hb. destruct (thr !! tid t b) as [[mc q]|] eqn:Ht; [|done].
  destruct (link_at _ _ _ _ _ _ Hl Ht) as (c' & now' & p' & Hf' & Hb' & _).
  rewrite Hf in Hf'. injection Hf' as <- <- <-. congruence.
Qed.
Lemma link_some fr thr t b c now p : link fr (thr_st thr) -> fr !! t = Some (mk_frame c now p) ->
  busy c p b = true -> exists mc q, thr !! tid t b = Some (mc, q) /\ mcall_ok c p b mc.
Proof.
  intros Hl Hf Hb. destruct (thr !! tid t b) as [[mc q]|] eqn:Ht.
  - destruct (link_at _ _ _ _ _ _ Hl Ht) as (c' & now' & p' & Hf' & Hb' & Hm).
    rewrite Hf in Hf'. injection Hf' as <- <- <-. eauto.
  - specialize (Hl t b). unfold thr_st in Hl. rewrite lookup_fmap, Ht in Hl. cbn in Hl.
    specialize (Hl _ _ _ Hf). congruence.
Qed.

Lemma step_events u mc q sh lab o sh' evs :
  step deref 0 peq u mc q sh lab = Some (o, sh', evs) ->
  match q with
  | X_ret r => o = None /\ sh' = sh /\ evs = [ERet u (ret_of mc r)]
  | R_call k e todo n => exists b, lab = LCb b /\ evs = [ECall u k e b] /\ sh' = sh /\ is_Some o
  | _ => evs = [] /\ is_Some o
  end.
Proof.
  intros Hs. destruct q; try (by eapply step_silent; [done|auto]).
  - destruct lab; [by destruct mc..|]. cbn in Hs. exists b. destruct mc, b; simplify_eq; eauto.
  - destruct lab; try by destruct mc. cbn in Hs. by simplify_eq.
Qed.

Lemma winv_call s sh thr u mc s' :
  winv s sh thr -> foks (c_fr s) -> thr !! u = None -> cl_map deref has_cb s (EInv u mc) = Some s' ->
  winv s' sh (<[u := (mc, enter mc)]> thr).
Proof.
  intros Hw Hok Hn Hc. destruct s as [ent nw fr]. cbn in Hc, Hok.
  destruct (fr !! Nat.div2 u) as [[c now p]|] eqn:Hf; [|done].
  destruct (calls_map c p mc) eqn:Hcm; [|done]. cbn in Hc. case_bool_decide as Hu; [|done].
  injection Hc as <-. revert Hf Hu. generalize (Nat.div2 u). intros t Hf ->. pose proof (Hok _ _ _ _ Hf) as Hp.
  unfold set_frame. cbn.
  pose proof Hw as [H1 H2 H3 H4 H5]. cbn in *. split; cbn; try done.
  - rewrite thr_st_insert. eapply link_call; [done..|]. unfold thr_st. by rewrite lookup_fmap, Hn.
  - intros t1 c1 now1 p1 k1 e1 Hf1 Hr Hcb.
    assert (at_call thr t1 k1 e1) as (mc1 & todo & n & Ha).
    { revert Hf1. rewrite lookup_insert_Some. intros [[<- [= <- <- <-]]|[_ Hu1]]; [|eauto].
      eapply H2; [done..|]. by destruct p. }
    exists mc1, todo, n. rewrite lookup_insert_ne; [done|]. intros Heq. by rewrite Heq, Ha in Hn.
  - intros u1 mc1 q1. rewrite lookup_insert_Some. intros [[<- [= <- <-]]|[_ Hu1]]; [|eauto].
    split; [|by destruct mc]. intros q Hq.
    destruct p, c, mc; cbn in Hcm, Hq; try done; simplify_eq; apply bool_decide_eq_true in Hcm as [-> ->]; eauto.
  - intros t1 c1 now1 p1 e1. rewrite lookup_insert_Some. intros [[<- [= <- <- <-]]|[_ Hu1]]; [|eauto].
    by destruct p.
Qed.

Lemma res_from_ret (E : nat -> Prop) mc (r : result) : res_from E mc r -> res_from E mc (ret_of mc r).
Proof. by destruct mc, r. Qed.

Lemma reads_after_ret (E : nat -> Prop) c p mc r p' e :
  fok c p -> mcall_ok c p (inner c p) mc -> after_ret c p r = Some p' -> res_from E mc r ->
  reads p' = Some e -> E e.
Proof.
  intros Hok Hm Hr Hfrom Hre. destruct p; try done.
  - destruct c, r; cbn in Hr; try done; repeat case_match; simplify_eq; cbn in Hre; simplify_eq; try done.
    revert Hre. unfold SyncCacheModel.del. destruct has_cb; [|done]. by intros [= <-].
  - apply after_ret_cad in Hr as (b & -> & ->).
    assert (mc = CCad k e0) as ->.
    { unfold SyncCacheModel.inner, SyncCacheLink.mcall_ok in Hm. destruct (ranging c); done. }
    destruct b; [|by rewrite reads_after_cad in Hre].
    revert Hre. clear Hm Hok. destruct has_cb; [|by rewrite reads_after_cad]. intros [= <-]. done.
Qed.

Lemma in_cb_after_ret c p r p' k e : ranging c = true ->
  after_ret c p r = Some p' -> in_cb p' = Some (k, e) -> in_cb p = Some (k, e) /\ inner c p = true.
Proof.
  intros Hr Ha Hcb. destruct p; try done.
  - destruct c, r; cbn in Ha, Hr; try done; simplify_eq; done.
  - split; [|done]. apply after_ret_cad in Ha as (b & -> & ->). cbn.
    assert (Hcad : forall b, in_cb (after_cad c k0 e0 x b) = Some (k, e) -> Some (k0, e0) = Some (k, e)).
    { intros b' [-> ->]%in_cb_after_cad. done. }
    destruct b; [|by eapply Hcad]. revert Hcb. clear Hr. destruct has_cb; [done|by apply Hcad].
Qed.

Lemma winv_done s sh thr u mc r s' :
  winv s sh thr -> foks (c_fr s) -> thr !! u = Some (mc, X_ret r) ->
  cl_map deref has_cb s (ERet u (ret_of mc r)) = Some s' ->
  winv s' sh (delete u thr).
Proof.
  intros Hw Hok Hn Hc. destruct s as [ent nw fr]. cbn in Hc, Hok.
  destruct (fr !! Nat.div2 u) as [[c now p]|] eqn:Hf; [|done].
  case_bool_decide as Hu; [|done]. destruct (after_ret c p (ret_of mc r)) as [p'|] eqn:Hr; [|done].
  injection Hc as <-. revert Hf Hu. generalize (Nat.div2 u). intros t Hf ->. pose proof (Hok _ _ _ _ Hf) as Hp.
  unfold set_frame. cbn. pose proof Hw as [H1 H2 H3 H4 H5]. cbn in *.
  destruct (link_at _ _ _ _ _ _ H1 Hn) as (c' & now' & p1 & Hf' & Hb & Hm). rewrite Hf in Hf'. injection Hf' as <- <- <-.
  split; cbn; try done.
  - rewrite thr_st_delete. by eapply link_done.
  - intros t1 c1 now1 p1 k1 e1 Hf1 Hr1 Hcb.
    assert (at_call thr t1 k1 e1 /\ tid t1 false <> tid t (inner c p)) as [(mc1 & todo & n & Ha) Hne].
    { revert Hf1. rewrite lookup_insert_Some. intros [[<- [= <- <- <-]]|[Hne Hu1]].
      - destruct (in_cb_after_ret _ _ _ _ _ _ Hr1 Hr Hcb) as [Hcb' Hi]. split; [by eapply H2|].
        rewrite Hi. intros Heq. by apply tid_inj in Heq as [_ ?].
      - split; [by eapply H2|]. intros Heq. by apply tid_inj in Heq as [-> _]. }
    exists mc1, todo, n. by rewrite lookup_delete_ne.
  - intros u1 mc1 q1. rewrite lookup_delete_Some. intros [_ ?]. eauto.
  - intros t1 c1 now1 p1 e1. rewrite lookup_insert_Some. intros [[<- [= <- <- <-]]|[_ Hu1]]; [|eauto].
    eapply (reads_after_ret (fun e => is_Some (ent !! e))); [done..|].
    apply res_from_ret. by destruct (H4 _ _ _ Hn).
Qed.

Lemma winv_back s sh thr u mc k e todo n b o s' :
  winv s sh thr -> foks (c_fr s) -> thr !! u = Some (mc, R_call k e todo n) ->
  step deref 0 peq u mc (R_call k e todo n) sh (LCb b) = Some (Some o, sh, [ECall u k e b]) ->
  cl_map deref has_cb s (ECall u k e b) = Some s' ->
  winv s' sh (<[u := (mc, o)]> thr).
Proof.
  intros Hw Hok Hn Hstep Hc. destruct s as [ent nw fr]. cbn in Hc, Hok.
  destruct (fr !! Nat.div2 u) as [[c now p]|] eqn:Hf; [|done].
  destruct p; try done. case_bool_decide as Hu; [|done]. destruct Hu as (Hu & -> & -> & ->).
  injection Hc as <-. revert Hf Hu. generalize (Nat.div2 u). intros t Hf ->. pose proof (Hok _ _ _ _ Hf) as Hp.
  unfold set_frame. cbn [c_ent c_new c_fr]. pose proof Hw as [H1 H2 H3 H4 H5]. cbn [c_ent c_new c_fr] in *.
  split; cbn [c_ent c_new c_fr]; try done.
  - erewrite thr_st_same by done. destruct Hp as [Hr _].
    eapply link_frame; [done..|]. intros b'. split; [by destruct b'|].
    intros mc' Hmc Hb'. destruct b'; [done|]. by eapply mcall_ranging.
  - intros t1 c1 now1 p1 k1 e1. rewrite lookup_insert_Some. intros [[<- [= <- <- <-]]|[Hne Hu1]]; [done|].
    intros Hr1 Hcb. destruct (H2 _ _ _ _ _ _ Hu1 Hr1 Hcb) as (mc1 & todo1 & n1 & Ha).
    exists mc1, todo1, n1. rewrite lookup_insert_ne; [done|]. intros Heq. by apply (tid_inj t false t1 false) in Heq as [-> _].
  - intros u1 mc1 q1. rewrite lookup_insert_Some. intros [[<- [= <- <-]]|[_ Hu1]]; [|eauto].
    split; [by apply (H4 _ _ _ Hn)|]. destruct mc, b; cbn in Hstep; simplify_eq; done.
  - intros t1 c1 now1 p1 e1. rewrite lookup_insert_Some. intros [[<- [= <- <- <-]]|[_ Hu1]]; [done|eauto].
Qed.

Lemma winv_step w x w' ev :
  winv (w_cl w) (c_sh (w_map w)) (c_thr (w_map w)) -> foks (c_fr (w_cl w)) -> wstep w x = Some (w', ev) ->
  winv (w_cl w') (c_sh (w_map w')) (c_thr (w_map w')).
Proof.
  intros Hw Hok Hs.
  assert (Hloc : forall a s ev, cl_loc veq has_cb (w_cl w) a = Some (s, ev) ->
    (forall t k e, a = KBeg t k e -> at_call (c_thr (w_map w)) t k e) ->
    winv s (c_sh (w_map w)) (c_thr (w_map w))).
  { intros a s ev' Hl Hb. set (st := thr_st (c_thr (w_map w))).
    assert (Hm : mstep deref veq has_cb (mk_m (w_cl w) (mk_astate ∅ st)) (MLoc a, ev') (mk_m s (mk_astate ∅ st))) by done.
    apply mstep_case in Hm. eapply (winv_local _ _ _ a _ (c_thr (w_map w)) Hm); done. }
  destruct x as [a|t|a]; cbn [SyncCacheModel.wstep] in Hs.
  - destruct a; try done;
      (match type of Hs with match ?e with _ => _ end = _ => destruct e as [[s ev']|] eqn:Hl; [|done] end);
      injection Hs as <- <-; by eapply Hloc.
  - destruct (c_thr (w_map w) !! _) as [[mc []]|] eqn:Ht; try done.
    match type of Hs with match ?e with _ => _ end = _ => destruct e as [[s ev']|] eqn:Hl; [|done] end.
    injection Hs as <- <-. eapply Hloc; [done|]. intros ? ? ? [= <- <- <-]. repeat eexists. exact Ht.
  - destruct (w_map w) as [sh thr]. cbn in Hw, Hloc.
    destruct a as [u mc|u lab]; cbn in Hs.
    + destruct (thr !! u) eqn:Hu; [done|].
      match type of Hs with match ?e with _ => _ end = _ => destruct e as [s|] eqn:Hl; [|done] end.
      injection Hs as <- <-. cbn. by eapply winv_call.
    + destruct (thr !! u) as [[mc q]|] eqn:Hu; [|done].
      destruct (step deref 0 peq u mc q sh lab) as [[[o sh'] evs]|] eqn:Hst; [|done].
      pose proof (step_events _ _ _ _ _ _ _ _ Hst) as Hev.
      destruct (wi_thr _ _ _ Hw _ _ _ Hu) as [Hptr Hpc].
      destruct (step_from _ 0 _ _ peq_true _ _ _ _ _ _ _ _ Hst (wi_slots _ _ _ Hw) Hptr Hpc) as [Hsl Hpc'].
      assert (Hsil : evs = [] -> ~ visible_pc q -> is_Some o ->
        winv (w_cl w') (c_sh (w_map w')) (c_thr (w_map w'))).
      { intros -> Hvis [q' ->]. injection Hs as <- <-. cbn. pose proof Hw as [H1 H2 H3 H4 H5]. split; try done.
        - by erewrite thr_st_same.
        - intros t1 c1 now1 p1 k1 e1 Hf1 Hr1 Hcb. destruct (H2 _ _ _ _ _ _ Hf1 Hr1 Hcb) as (mc1 & todo1 & n1 & Ha).
          exists mc1, todo1, n1. rewrite lookup_insert_ne; [done|]. intros ->. rewrite Hu in Ha. simplify_eq. by apply Hvis.
        - intros u1 mc1 q1. rewrite lookup_insert_Some. intros [[<- [= <- <-]]|[_ Hu1]]; [|eauto].
          split; [done|]. by apply Hpc'. }
      destruct q; try (destruct Hev as [? ?]; apply Hsil; [done|cbn; auto|done]).
      * destruct Hev as (b & -> & -> & -> & [q' ->]).
        destruct (cl_map deref has_cb (w_cl w) (ECall u k v b)) as [s|] eqn:Hl; [|done].
        injection Hs as <- <-. cbn. by eapply winv_back.
      * destruct Hev as (-> & -> & ->).
        destruct (cl_map deref has_cb (w_cl w) (ERet u (ret_of mc r))) as [s|] eqn:Hl; [|done].
        injection Hs as <- <-. cbn. by eapply winv_done.
Qed.

Lemma wrun_snoc w0 xs x w tr :
  wrun w0 (xs ++ [x]) = Some (w, tr) ->
  exists w1 tr1 ev, wrun w0 xs = Some (w1, tr1) /\ wstep w1 x = Some (w, ev) /\ tr = tr1 ++ ev.
Proof.
  revert w0 tr. induction xs as [|y xs IH]; intros w0 tr Hr; cbn in Hr.
  - destruct (wstep w0 x) as [[w1 ev]|] eqn:Hs; [|done]. injection Hr as <- <-. exists w0, [], ev.
    by rewrite app_nil_r.
  - destruct (wstep w0 y) as [[w1 ev]|] eqn:Hs; [|done].
    destruct (wrun w1 (xs ++ [x])) as [[w2 tr2]|] eqn:Hr2; [|done]. injection Hr as -> <-.
    destruct (IH _ _ Hr2) as (w3 & tr3 & ev3 & Hr3 & Hs3 & ->). exists w3, (ev ++ tr3), ev3.
    cbn. rewrite Hs, Hr3. by rewrite (assoc_L (++)).
Qed.

Lemma wrun_foks xs w tr : Inhabited K -> wrun w_init xs = Some (w, tr) -> foks (c_fr (w_cl w)).
Proof.
  intros HK Hr. destruct (run_explained _ _ _ _ _ _ HK Hr) as (h & m & Hm & _ & <- & _).
  by destruct (mrun_linked _ _ _ _ _ Hm).
Qed.

Lemma wrun_winv xs w tr : Inhabited K -> wrun w_init xs = Some (w, tr) ->
  winv (w_cl w) (c_sh (w_map w)) (c_thr (w_map w)).
Proof.
  intros HK. revert w tr. induction xs as [|x xs IH] using rev_ind; intros w tr Hr.
  - cbn in Hr. injection Hr as <- <-. cbn. split; cbn.
    + intros t b. unfold thr_st. rewrite fmap_empty, !lookup_empty. done.
    + intros t c now p k e. by rewrite lookup_empty.
    + done.
    + intros u mc pc. by rewrite lookup_empty.
    + intros t c now p e. by rewrite lookup_empty.
  - apply wrun_snoc in Hr as (w1 & tr1 & ev & Hr1 & Hs & _).
    eapply winv_step; [by eapply IH|by eapply wrun_foks|done].
Qed.

(** ** Nobody is stuck *)
Lemma shaped_ret c p mc r :
  fok c p -> busy c p (inner c p) = true -> mcall_ok c p (inner c p) mc -> (p = Q_wait \/ exists k e x, p = Q_cadw k e x) ->
  shaped deref peq mc r -> is_Some (after_ret c p r).
Proof.
  intros Hok Hb Hm Hp Hsh. destruct Hp as [->|(k & e & x & ->)].
  - cbn [SyncCacheModel.inner] in *. unfold SyncCacheLink.mcall_ok in Hm. destruct (ranging c) eqn:Hrg.
    + subst mc. cbn in Hsh. subst r. destruct c; try done; cbn; eauto.
    + destruct c; try done; first [subst mc; destruct Hsh as [m ->]; cbn; by eauto|destruct Hm as [q ->]; destruct Hsh as [m ->]; cbn; repeat case_match; by eauto].
  - assert (mc = CCad k e) as ->.
    { unfold SyncCacheModel.inner, SyncCacheLink.mcall_ok in Hm. destruct (ranging c); done. }
    destruct Hsh as [m ->]. cbn. destruct (m !! k); cbn; eauto.
Qed.

Lemma map_step w u mc q lab o sh' :
  c_thr (w_map w) !! u = Some (mc, q) ->
  step deref 0 peq u mc q (c_sh (w_map w)) lab = Some (o, sh', []) ->
  is_Some (wstep w (XMap (AStep u lab))).
Proof. intros Hu Hs. cbn. rewrite Hu, Hs. destruct o; cbn; eauto. Qed.

Lemma nobody_stuck w xs tr t :
  Inhabited K -> (forall e, exists q, deref q = e) -> wrun w_init xs = Some (w, tr) ->
  is_Some (c_fr (w_cl w) !! t) ->
  (exists x, gor_of x = Some t /\ is_Some (wstep w x)) \/
  (exists u x, Nat.div2 u <> t /\ s_lock (c_sh (w_map w)) = Some u /\ is_Some (c_fr (w_cl w) !! Nat.div2 u) /\
     gor_of x = Some (Nat.div2 u) /\ is_Some (wstep w x)).
Proof.
  intros HK Hde Hr [[c now p] Hf].
  pose proof (wrun_winv _ _ _ HK Hr) as Hw. pose proof (wrun_foks _ _ _ HK Hr) as Hoks.
  pose proof (Hoks _ _ _ _ Hf) as Hok.
  destruct (wrun_map_run _ _ _ _ _ _ _ Hr) as [mtr Hmr]. cbn in Hmr.
  pose proof (run_reach deref 0 peq _ _ _ HK Hmr) as Hg.
  assert (Hlocal : forall l, is_Some (cl_loc veq has_cb (w_cl w) (KLoc t l)) ->
    exists x, gor_of x = Some t /\ is_Some (wstep w x)).
  { intros l [[s ev] Hl]. exists (XLoc (KLoc t l)). split; [done|]. cbn [SyncCacheModel.wstep]. rewrite Hl. eauto. }
  assert (Hcall : forall mc, busy c p (inner c p) = false -> calls_map c p mc = true ->
    exists x, gor_of x = Some t /\ is_Some (wstep w x)).
  { intros mc Hb Hc. exists (XMap (AInv (tid t (inner c p)) mc)). cbn [gor_of SyncCacheModel.wstep act].
    rewrite tid_div2. split; [done|].
    rewrite (link_none _ _ _ _ _ _ _ (wi_link _ _ _ Hw) Hf Hb). cbn. rewrite tid_div2, Hf, Hc.
    rewrite bool_decide_true by done. cbn. eauto. }
  assert (Hwait : p = Q_wait \/ (exists k e x, p = Q_cadw k e x) ->
    (exists x, gor_of x = Some t /\ is_Some (wstep w x)) \/
    (exists u x, Nat.div2 u <> t /\ s_lock (c_sh (w_map w)) = Some u /\ is_Some (c_fr (w_cl w) !! Nat.div2 u) /\
       gor_of x = Some (Nat.div2 u) /\ is_Some (wstep w x))).
  { intros Hp.
    assert (Hb : busy c p (inner c p) = true).
    { destruct Hp as [->|(k & e & x & ->)]; [done|]. cbn. destruct (ranging c) eqn:E; cbn; [by rewrite E|done]. }
    destruct (link_some _ _ _ _ _ _ _ (wi_link _ _ _ Hw) Hf Hb) as (mc & q & Hq & Hm).
    destruct Hg as (h & kof & m & Hc & Hv).
    assert (Hgo : ~ visible_pc q -> (q = P_lock -> s_lock (c_sh (w_map w)) = None) ->
      exists x, gor_of x = Some t /\ is_Some (wstep w x)).
    { intros Hvis Hl. destruct (can_step deref 0 peq _ _ _ _ _ _ _ _ Hc Hq Hl) as (lab & [[[o sh'] evs] Hst]).
      destruct (step_silent _ _ _ _ _ _ _ _ _ _ _ Hst Hvis) as [-> _].
      exists (XMap (AStep (tid t (inner c p)) lab)). cbn [gor_of]. rewrite tid_div2. split; [done|].
      by eapply map_step. }
    destruct (is_lock q) as [->|Hnl].
    { destruct (s_lock (c_sh (w_map w))) as [u|] eqn:Hlk; [|left; apply Hgo; cbn; auto]. right.
      destruct (i_lock2 _ _ _ _ _ _ _ Hc _ Hlk) as [[mu qu] Hu].
      pose proof (i_lock _ _ _ _ _ _ _ Hc _ _ _ Hu) as Hlu.
      assert (Hlq : locked qu = true) by by apply Hlu.
      destruct (tid_of u) as (t' & b' & ->).
      destruct (link_at _ _ _ _ _ _ (wi_link _ _ _ Hw) Hu) as (c' & now' & p' & Hf' & Hb' & Hm').
      destruct (can_step deref 0 peq _ _ _ _ _ _ _ _ Hc Hu) as (lab & [[[o sh'] evs] Hst]); [by intros ->|].
      destruct (step_silent _ _ _ _ _ _ _ _ _ _ _ Hst) as [-> _]; [intros Hvu; by destruct qu|].
      exists (tid t' b'), (XMap (AStep (tid t' b') lab)). cbn [gor_of]. rewrite tid_div2.
      split; [|split; [done|]; split; [by eauto|]; split; [done|by eapply map_step]].
      intros ->. rewrite Hf in Hf'. injection Hf' as <- <- <-.
      destruct (decide (b' = inner c p)) as [->|Hne].
      { rewrite Hq in Hu. injection Hu as <- <-. done. }
      destruct Hp as [->|(k & e & x & ->)]; [by destruct b'|].
      cbn in Hne. destruct (ranging c) eqn:Hrg; cbn in Hne.
      - destruct b'; [done|]. destruct (wi_cb _ _ _ Hw _ _ _ _ _ _ Hf Hrg eq_refl) as (mc1 & todo & n & Ha).
        rewrite Hu in Ha. injection Ha as -> ->. done.
      - destruct b'; [|done]. cbn in Hb'. congruence. }
    left. destruct q; try (by apply Hgo; [cbn; auto|]).
    - (* at the callback *)
      assert (ranging c = true /\ p = Q_wait) as [Hrg ->].
      { destruct Hp as [->|(k' & e & x & ->)].
        - split; [|done]. cbn in Hm. unfold SyncCacheLink.mcall_ok in Hm. destruct (ranging c) eqn:Hrg; [done|].
          pose proof (i_pc _ _ _ _ _ _ _ Hc _ _ _ Hq) as Hpc. cbn in Hpc.
          destruct c; try done; naive_solver.
        - exfalso. pose proof (i_pc _ _ _ _ _ _ _ Hc _ _ _ Hq) as Hpc. cbn in Hpc.
          assert (mc = CCad k' e) as ->.
          { unfold SyncCacheModel.inner, SyncCacheLink.mcall_ok in Hm. destruct (ranging c); done. }
          naive_solver. }
      exists (XBeg t). split; [done|]. cbn [SyncCacheModel.wstep]. cbn [SyncCacheModel.inner] in Hq. rewrite Hq.
      cbn [cl_loc]. rewrite Hf, Hrg. eauto.
    - (* returning *)
      exists (XMap (AStep (tid t (inner c p)) LTick)). cbn [gor_of]. rewrite tid_div2. split; [done|].
      cbn. rewrite Hq. cbn. rewrite tid_div2, Hf. rewrite bool_decide_true by done.
      assert (mc <> CLen) as Hnlen.
      { intros ->. clear -Hm Hp. unfold SyncCacheLink.mcall_ok in Hm. destruct (inner c p); [by destruct p|].
        destruct (ranging c); [done|]. destruct p, c; try done; naive_solver. }
      destruct (shaped_ret c p mc (ret_of mc r)) as [p' ->]; [done..| |].
      + eapply good_shaped; [|done|done]. by exists h, kof, m.
      + eauto. }
  destruct p.
  - left. destruct c; try done; apply (Hlocal (LClock 0)); cbn; rewrite Hf; eauto.
  - left. destruct c; try done; destruct (Hde e) as [q Hq].
    + apply (Hcall (CStore k q)); [done|]. cbn. by rewrite bool_decide_true.
    + apply (Hcall (CLoadOrStore k q)); [done|]. cbn. by rewrite bool_decide_true.
  - left. destruct c; try done.
    + apply (Hcall (CLoad k)); [done|]. cbn. by rewrite bool_decide_true.
    + apply (Hcall (CLoadAndDelete k)); [done|]. cbn. by rewrite bool_decide_true.
    + apply (Hcall (CLoadAndDelete k)); [done|]. cbn. by rewrite bool_decide_true.
    + apply (Hcall (CLoad k)); [done|]. cbn. by rewrite bool_decide_true.
    + assert (Hcb : has_cb = true \/ has_cb = false) by (clear; destruct has_cb; auto).
      destruct Hcb as [Hcb|Hcb]; [apply (Hcall CRange)|apply (Hcall CClear)]; try done; cbn; by rewrite Hcb.
    + by apply (Hcall CRange).
    + by apply (Hcall CRange).
  - apply Hwait. by left.
  - left. apply (Hlocal (LClock 0)). cbn. rewrite Hf. eauto.
  - left. apply (Hlocal (LClock 0)). cbn. rewrite Hf. eauto.
  - left. apply (Hlocal LNone). cbn. rewrite Hf. destruct (wi_fr _ _ _ Hw _ _ _ _ e Hf eq_refl) as [[v x] ->]. eauto.
  - left. apply (Hcall (CCad k e)).
    + cbn. destruct (ranging c) eqn:Hrg; [done|]. cbn. done.
    + cbn. by rewrite bool_decide_true.
  - apply Hwait. right. eauto.
  - left. apply (Hlocal LNone). cbn. rewrite Hf. destruct (wi_fr _ _ _ Hw _ _ _ _ e Hf eq_refl) as [[v y] ->]. eauto.
  - left. apply (Hlocal (LUser true)). cbn. rewrite Hf. eauto.
  - left. destruct Hok as [Hrg _].
    destruct (wi_cb _ _ _ Hw _ _ _ _ _ _ Hf Hrg eq_refl) as (mc & todo & n & Ha).
    destruct (link_at _ _ _ _ _ _ (wi_link _ _ _ Hw) Ha) as (c' & now' & p' & Hf' & Hb' & Hm').
    rewrite Hf in Hf'. injection Hf' as <- <- <-. unfold SyncCacheLink.mcall_ok in Hm'. rewrite Hrg in Hm'. subst mc.
    exists (XMap (AStep (tid t false) (LCb b))). cbn [gor_of]. rewrite tid_div2. split; [done|].
    cbn. cbn in Ha. rewrite Ha. cbn. 
    change (t + (t + 0)) with (tid t false).
    destruct b; cbn [cl_map]; rewrite tid_div2, Hf; rewrite bool_decide_true by done; eauto.
  - left. apply (Hlocal LNone). cbn. rewrite Hf. eauto.
Qed.
End world.
