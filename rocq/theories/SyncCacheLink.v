(** synccache: the steps of a history one by one, and how the cache's goroutines and the calls of the
    map in progress belong together. *)
From Verif Require Import Base RwMapModel RwMapSpec SyncCacheModel SyncCacheSpec SyncCacheHist.

(** ** Goroutine ids *)
Lemma tid_div2 (t : nat) b : Nat.div2 (tid t b) = t.
Proof. destruct b; unfold tid. - apply (Nat.div2_succ_double t). - apply (Nat.div2_double t). Qed.
Lemma tid_inj t b t' b' : tid t b = tid t' b' -> t = t' /\ b = b'.
Proof. destruct b, b'; cbn; intros ?; split; lia || done. Qed.
Lemma tid_of u : exists t b, u = tid t b.
Proof.
  exists (Nat.div2 u), (Nat.odd u). pose proof (Nat.div2_odd u) as Hu.
  destruct (Nat.odd u); cbn in *; lia.
Qed.
Lemma tid_ne t b t' b' : t <> t' \/ b <> b' -> tid t b <> tid t' b'.
Proof. intros Hne [? ?]%tid_inj. by destruct Hne. Qed.

Section link.
Context {K : Type} `{Countable K} {V : Type}.
Context (deref : nat -> nat) (veq : V -> V -> option bool) (has_cb : bool).
Local Notation scall := (scall K V).
Local Notation spc := (spc K).
Local Notation frame := (frame K V).
Local Notation sev := (sev K V).
Local Notation sact := (sact K V).
Local Notation cstate := (cstate K V).
Local Notation status := (status K nat).
Local Notation astate := (astate K nat).
Local Notation item := (item K nat).
Local Notation mcall := (call K nat).
Local Notation result := (result nat).
Local Notation mev := (mev K V).
Local Notation mstate := (mstate K V).
Local Notation mstep := (mstep deref veq has_cb).
Local Notation mrun := (mrun deref veq has_cb).
Local Notation seq_res := (seq_res deref peq).
Local Notation seq_next := (seq_next deref peq).
Local Notation calls_map := (calls_map deref has_cb).
Local Notation after_ret := (after_ret has_cb).
Local Notation after_del := after_del.
Local Notation after_chk := (after_chk veq has_cb).
Local Notation ranging := (ranging has_cb).
Local Notation inner := (inner has_cb).

Implicit Types (h : list mev) (m : mstate) (ent : gmap nat (V * Z)) (nw : nat) (fr : gmap nat frame)
  (mp : gmap K nat) (st : gmap nat status) (c : scall) (p : spc) (mc : mcall) (r : result) (t u e : nat) (k : K).

Definition M ent nw fr mp st : mstate := mk_m (mk_cstate ent nw fr) (mk_astate mp st).

Definition see mp k (vis : gmap K nat) : gmap K nat := match mp !! k with Some v => <[k := v]> vis | None => vis end.

Inductive mcase : mstate -> mev -> mstate -> Prop :=
| M_inv ent nw fr mp st t c :
    fr !! t = None ->
    mcase (M ent nw fr mp st) (MLoc (KInv t c), [SInv t c])
          (M ent nw (<[t := mk_frame c 0 (start c)]> fr) mp st)
| M_new ent nw fr mp st t c now n k v d :
    fr !! t = Some (mk_frame c now Q_new) -> c = SStore k v d \/ c = SLoadOrStore k v d ->
    mcase (M ent nw fr mp st) (MLoc (KLoc t (LClock n)), [SClock t n; SNew t nw v (ms (n + d))])
          (M (<[nw := (v, ms (n + d))]> ent) (S nw) (<[t := mk_frame c now (Q_put nw)]> fr) mp st)
| M_now ent nw fr mp st t c now n :
    fr !! t = Some (mk_frame c now Q_now) ->
    mcase (M ent nw fr mp st) (MLoc (KLoc t (LClock n)), [SClock t n])
          (M ent nw (<[t := mk_frame c (ms n) Q_get]> fr) mp st)
| M_chk ent nw fr mp st t c now k e n :
    fr !! t = Some (mk_frame c now (Q_chk k e)) ->
    mcase (M ent nw fr mp st) (MLoc (KLoc t (LClock n)), [SClock t n])
          (M ent nw (<[t := mk_frame c (ms n) (Q_chk2 k e)]> fr) mp st)
| M_chk2 ent nw fr mp st t c now k e v x :
    fr !! t = Some (mk_frame c now (Q_chk2 k e)) -> ent !! e = Some (v, x) ->
    mcase (M ent nw fr mp st) (MLoc (KLoc t LNone), [SChk t e now x])
          (M ent nw (<[t := mk_frame c now (after_chk c k e v (Z.ltb x now))]> fr) mp st)
| M_del ent nw fr mp st t c now k e x v y :
    fr !! t = Some (mk_frame c now (Q_del k e x)) -> ent !! e = Some (v, y) ->
    mcase (M ent nw fr mp st) (MLoc (KLoc t LNone), [SDel t e v])
          (M ent nw (<[t := mk_frame c now (after_del c k e x)]> fr) mp st)
| M_user ent nw fr mp st t c now k e b :
    fr !! t = Some (mk_frame c now (Q_user k e)) ->
    mcase (M ent nw fr mp st) (MLoc (KLoc t (LUser b)), [SUse t k e b])
          (M ent nw (<[t := mk_frame c now (Q_back k e b)]> fr) mp st)
| M_ret ent nw fr mp st t c now (r : sres) :
    fr !! t = Some (mk_frame c now (Q_ret r)) ->
    mcase (M ent nw fr mp st) (MLoc (KLoc t LNone), [SRet t r]) (M ent nw (delete t fr) mp st)
| M_beg ent nw fr mp st t c now k e :
    fr !! t = Some (mk_frame c now Q_wait) -> ranging c = true ->
    mcase (M ent nw fr mp st) (MLoc (KBeg t k e), [])
          (M ent nw (<[t := mk_frame c now (callback c k e)]> fr) mp st)
| M_set ent nw fr mp st e v x y :
    ent !! e = Some (v, x) ->
    mcase (M ent nw fr mp st) (MLoc (KSet e y), [SSet e y]) (M (<[e := (v, ms y)]> ent) nw fr mp st)
| M_add ent nw fr mp st e v x d :
    ent !! e = Some (v, x) ->
    mcase (M ent nw fr mp st) (MLoc (KAdd e d), [SAdd e d])
          (M (<[e := (v, Z.add x (Z.quot d 1000000))]> ent) nw fr mp st)
| M_call ent nw fr mp st t c now p mc :
    fr !! t = Some (mk_frame c now p) -> calls_map c p mc = true -> st !! tid t (inner c p) = None ->
    mcase (M ent nw fr mp st) (MItem (IInv (tid t (inner c p)) mc), [])
          (M ent nw (<[t := mk_frame c now (inside p)]> fr) mp (<[tid t (inner c p) := AInv_ mc]> st))
| M_done ent nw fr mp st t c now p mc r p' :
    fr !! t = Some (mk_frame c now p) -> st !! tid t (inner c p) = Some (ADone mc r) ->
    after_ret c p r = Some p' ->
    mcase (M ent nw fr mp st) (MItem (IRet (tid t (inner c p)) r), [])
          (M ent nw (<[t := mk_frame c now p']> fr) mp (delete (tid t (inner c p)) st))
| M_back ent nw fr mp st t c now k e b mc ks vis n :
    fr !! t = Some (mk_frame c now (Q_back k e b)) -> st !! tid t false = Some (AIter mc ks vis n) ->
    vis !! k = Some e -> (b = false -> mc = CRange) ->
    mcase (M ent nw fr mp st) (MItem (ICall (tid t false) k e b), [])
          (M ent nw (<[t := mk_frame c now Q_wait]> fr) mp
             (<[tid t false := if b then AIter mc ks (delete k vis) (Z.add n 1) else ADone mc RUnit]> st))
| M_lin ent nw fr mp st u mc :
    st !! u = Some (AInv_ mc) -> atomic_call mc ->
    mcase (M ent nw fr mp st) (MItem (ILin u), [])
          (M ent nw fr (seq_next mp mc) (<[u := ADone mc (seq_res mp mc)]> st))
| M_snap ent nw fr mp st u ks mc :
    st !! u = Some (AInv_ mc) -> range_call mc -> dom mp ⊆ ks ->
    mcase (M ent nw fr mp st) (MItem (ISnap u ks), []) (M ent nw fr mp (<[u := AIter mc ks ∅ 0]> st))
| M_see ent nw fr mp st u k mc ks vis n :
    st !! u = Some (AIter mc ks vis n) -> k ∈ ks ->
    mcase (M ent nw fr mp st) (MItem (ISee u k), [])
          (M ent nw fr mp
             (<[u := AIter mc (ks ∖ {[k]}) (see mp k vis) n]> st))
| M_end ent nw fr mp st u mc n :
    st !! u = Some (AIter mc ∅ ∅ n) ->
    mcase (M ent nw fr mp st) (MItem (IEnd u), [])
          (M ent nw fr mp (<[u := ADone mc (match mc with CSlowLen => RInt n | _ => RUnit end)]> st)).

Lemma mstep_case m x m' : mstep m x m' -> mcase m x m'.
Proof.
  destruct m as [[ent nw fr] [mp st]], m' as [[ent' nw' fr'] [mp' st']], x as [[i|a] ev]; cbn.
  - intros (-> & Ha & Hc). change (mk_m (mk_cstate ent nw fr) (mk_astate mp st)) with (M ent nw fr mp st).
    change (mk_m (mk_cstate ent' nw' fr') (mk_astate mp' st')) with (M ent' nw' fr' mp' st').
    destruct i as [u mc|u r|u k v b|u|u ks|u k|u]; cbn in Ha, Hc;
      try (revert Hc; generalize (Nat.div2 u); intros t Hc).
    + destruct Ha as [Hn [= -> ->]]. destruct (fr !! t) as [[c now p]|] eqn:Hf; [|done].
      destruct (calls_map c p mc) eqn:Hcm; [|done]. cbn in Hc. case_bool_decide as Hu; [|done].
      injection Hc as <- <- <-. subst u. by apply M_call.
    + destruct Ha as [[= -> ->] Ha]. destruct (fr !! t) as [[c now p]|] eqn:Hf; [|done].
      case_bool_decide as Hu; [|done]. destruct (after_ret c p r) as [p'|] eqn:Hr; [|done].
      injection Hc as <- <- <-. destruct Ha as [[mc Ha]|(n & -> & Ha)].
      * subst u. by eapply M_done.
      * exfalso. clear Hu. by destruct p, c.
    + destruct Ha as (mc & ks & vis & n & Ha & Hv & Hb & [= -> ->]).
      destruct (fr !! t) as [[c now []]|] eqn:Hf; try done.
      case_bool_decide as Hu; [|done]. destruct Hu as (Hu & -> & -> & ->). injection Hc as <- <- <-.
      subst u. by eapply M_back.
    + destruct Ha as (mc & Ha & Hc' & [= -> ->]). injection Hc as -> -> ->. by apply M_lin.
    + destruct Ha as (mc & Ha & Hc' & Hd & [= -> ->]). injection Hc as -> -> ->. by apply M_snap.
    + destruct Ha as (mc & ks & vis & n & Ha & Hk & [= -> ->]). injection Hc as -> -> ->. by apply M_see.
    + destruct Ha as (mc & n & Ha & [= -> ->]). injection Hc as -> -> ->. by apply M_end.
  - intros (Hc & [= -> ->]). change (mk_m (mk_cstate ent nw fr) (mk_astate mp st)) with (M ent nw fr mp st).
    change (mk_m (mk_cstate ent' nw' fr') (mk_astate mp st)) with (M ent' nw' fr' mp st).
    destruct a as [t c|t l|t k e|e y|e d]; cbn in Hc.
    + destruct (fr !! t) eqn:Hf; [done|]. injection Hc as <- <- <- <-. by apply M_inv.
    + destruct (fr !! t) as [[c now p]|] eqn:Hf; [|done].
      destruct p, l; try done.
      * destruct c; try done; injection Hc as <- <- <- <-; eapply M_new; eauto.
      * injection Hc as <- <- <- <-. by eapply M_now.
      * injection Hc as <- <- <- <-. by eapply M_chk.
      * destruct (ent !! e) as [[v x]|] eqn:He; [|done]. injection Hc as <- <- <- <-. by eapply M_chk2.
      * destruct (ent !! e) as [[v y]|] eqn:He; [|done]. injection Hc as <- <- <- <-. by eapply M_del.
      * injection Hc as <- <- <- <-. by eapply M_user.
      * injection Hc as <- <- <- <-. by eapply M_ret.
    + destruct (fr !! t) as [[c now []]|] eqn:Hf; try done. destruct (ranging c) eqn:Hr; [|done].
      injection Hc as <- <- <- <-. by apply M_beg.
    + destruct (ent !! e) as [[v x]|] eqn:He; [|done]. injection Hc as <- <- <- <-. by eapply M_set.
    + destruct (ent !! e) as [[v x]|] eqn:He; [|done]. injection Hc as <- <- <- <-. by eapply M_add.
Qed.

(** ** Which goroutine is inside which call of the map *)
Definition busy c p (b : bool) : bool :=
  if b then match p with Q_cadw _ _ _ => ranging c | _ => false end
  else match p with
       | Q_wait | Q_cadw _ _ _ => true
       | Q_chk _ _ | Q_chk2 _ _ | Q_cad _ _ _ | Q_del _ _ _ | Q_user _ _ | Q_back _ _ _ => ranging c
       | _ => false
       end.
Definition mcall_ok c p (b : bool) mc : Prop :=
  if b then match p with Q_cadw k e _ => mc = CCad k e | _ => False end
  else if ranging c then mc = CRange
  else match p, c with
       | Q_cadw k e _, _ => mc = CCad k e
       | Q_wait, SStore k _ _ => exists q, mc = CStore k q
       | Q_wait, SLoadOrStore k _ _ => exists q, mc = CLoadOrStore k q
       | Q_wait, (SLoad k | SCvad k _) => mc = CLoad k
       | Q_wait, (SDelete k | SLoadAndDelete k) => mc = CLoadAndDelete k
       | Q_wait, SClear => mc = CClear
       | _, _ => False
       end.

Definition st_ok (x : status) mc : Prop :=
  match x with
  | AInv_ c => c = mc
  | AIter c _ _ _ => c = mc /\ mc = CRange
  | ADone c r => c = mc /\ match mc with
      | CRange => r = RUnit
      | _ => exists mp0, r = seq_res mp0 c
      end
  end.

Definition link fr st : Prop :=
  forall t b,
    match st !! tid t b with
    | Some x => exists c now p mc, fr !! t = Some (mk_frame c now p) /\ busy c p b = true /\
                  mcall_ok c p b mc /\ st_ok x mc
    | None => forall c now p, fr !! t = Some (mk_frame c now p) -> busy c p b = false
    end.

(** A step of the cache's code that neither begins nor ends a call of the map. *)
Lemma link_frame fr st t c now p c' now' p' :
  link fr st -> fr !! t = Some (mk_frame c now p) ->
  (forall b, busy c' p' b = busy c p b /\ forall mc, mcall_ok c p b mc -> busy c p b = true -> mcall_ok c' p' b mc) ->
  link (<[t := mk_frame c' now' p']> fr) st.
Proof.
  intros Hl Hf Hb u b. specialize (Hl u b). destruct (decide (u = t)) as [->|Hne].
  - rewrite lookup_insert. destruct (Hb b) as [Hb1 Hb2]. destruct (st !! tid t b) as [x|].
    + destruct Hl as (c1 & now1 & p1 & mc & Hf1 & Hb' & Hm & Hx). rewrite Hf in Hf1. injection Hf1 as <- <- <-.
      exists c', now', p', mc. split_and!; try done; [congruence|by apply Hb2].
    + intros c1 now1 p1 [= <- <- <-]. rewrite Hb1. eauto.
  - by rewrite lookup_insert_ne.
Qed.

Lemma callback_busy c k e : ranging c = true ->
  forall b, busy c (callback c k e) b = busy c Q_wait b.
Proof. intros Hr b. destruct c; cbn in *; try done; destruct b; cbn; rewrite ?Hr; done. Qed.

Lemma mcall_ranging c p p' mc : ranging c = true -> mcall_ok c p false mc -> mcall_ok c p' false mc.
Proof. unfold mcall_ok. intros ->. done. Qed.

Definition not_waiting p : Prop := match p with Q_wait | Q_cadw _ _ _ => False | _ => True end.
Lemma link_go fr st t c now p now' p' :
  link fr st -> fr !! t = Some (mk_frame c now p) -> not_waiting p -> not_waiting p' ->
  (busy c p false = busy c p' false) ->
  link (<[t := mk_frame c now' p']> fr) st.
Proof.
  intros Hl Hf Hp Hp' Hb. eapply link_frame; [done..|]. intros [].
  - split; [by destruct p, p'|]. by destruct p.
  - split; [done|]. intros mc Hm Hbt. unfold mcall_ok in *. destruct (ranging c); [done|]. by destruct p, c.
Qed.

Lemma after_chk_nw c k e v x : not_waiting (after_chk c k e v x) /\
  busy c (after_chk c k e v x) false = ranging c.
Proof. unfold SyncCacheModel.after_chk, SyncCacheModel.del. destruct c; cbn; repeat case_match; cbn; try done; congruence. Qed.
Lemma after_cad_nw c k e x b : not_waiting (after_cad c k e x b) /\
  (match c with SClear => has_cb = true | _ => True end -> busy c (after_cad c k e x b) false = ranging c).
Proof. destruct c; cbn; repeat case_match; cbn; split; try done; congruence. Qed.
Lemma after_del_nw c k e x : not_waiting (after_del c k e x) /\
  (match c with SClear => has_cb = true | _ => True end -> busy c (after_del c k e x) false = ranging c).
Proof. destruct c; cbn; repeat case_match; cbn; split; try done; congruence. Qed.

(** ** Where a goroutine inside a call can be *)
Definition cad_ok c k e (x : bool) : Prop :=
  match c with
  | SLoad k' | SLoadOrStore k' _ _ => k' = k /\ x = true
  | SCad k' e' => k' = k /\ e' = e /\ x = false
  | SCvad k' _ => k' = k
  | SRange | STrim => x = true
  | SClear => has_cb = true /\ x = false
  | _ => False
  end.
Definition rok c (r : sres) : Prop :=
  match c, r with
  | (SStore _ _ _ | SDelete _ | SClear | SRange | STrim), SUnit => True
  | (SLoad _ | SLoadAndDelete _), (SNone | SEnt _ true) => True
  | SLoadOrStore _ _ _, SEnt _ _ => True
  | SCad _ _, SBool _ => True
  | SCvad _ _, (SBool _ | SPanic) => True
  | _, _ => False
  end.
Definition fok c p : Prop :=
  match p with
  | Q_new | Q_put _ => match c with SStore _ _ _ | SLoadOrStore _ _ _ => True | _ => False end
  | Q_get => match c with SStore _ _ _ | SLoadOrStore _ _ _ | SCad _ _ => False | _ => True end
  | Q_wait => match c with SCad _ _ => False | _ => True end
  | Q_now => c = STrim
  | Q_chk k e | Q_chk2 k e =>
      match c with
      | SLoad k' | SLoadOrStore k' _ _ | SLoadAndDelete k' | SCvad k' _ => k' = k
      | SRange | STrim => True
      | _ => False
      end
  | Q_cad k e x | Q_cadw k e x => cad_ok c k e x
  | Q_del k e x =>
      has_cb = true /\
      match c with SDelete k' | SLoadAndDelete k' => k' = k | _ => cad_ok c k e x end
  | Q_user k e => c = SRange
  | Q_back k e b => ranging c = true /\ (c <> SRange -> b = true)
  | Q_ret r => rok c r
  end.

Lemma fok_start c : fok c (start c).
Proof. by destruct c. Qed.
Lemma fok_after_cad c k e x b : cad_ok c k e x -> fok c (after_cad c k e x b).
Proof. destruct c; cbn; repeat case_match; cbn; try done; by intros []. Qed.
Lemma fok_after_del c k e x : fok c (Q_del k e x) -> fok c (after_del c k e x).
Proof. destruct c; cbn; repeat case_match; cbn; try done; by intros []. Qed.
Lemma fok_after_chk c k e v x : fok c (Q_chk2 k e) -> fok c (after_chk c k e v x).
Proof. unfold SyncCacheModel.after_chk, SyncCacheModel.del. destruct c; cbn; repeat case_match; cbn; by intuition. Qed.
Lemma fok_callback c k e : ranging c = true -> fok c (callback c k e).
Proof. by destruct c. Qed.
Lemma fok_inside c p mc : fok c p -> calls_map c p mc = true -> fok c (inside p).
Proof. by destruct p, c. Qed.
Lemma after_ret_cad c k e x r p' :
  after_ret c (Q_cadw k e x) r = Some p' ->
  exists b, r = RBool b /\ p' = if b then (if has_cb then Q_del k e x else after_cad c k e x true) else after_cad c k e x false.
Proof. destruct r as [| |b| | |]; destruct c; cbn; try done; intros [= <-]; by exists b. Qed.
Lemma fok_after_ret c p r p' : fok c p -> after_ret c p r = Some p' -> fok c p'.
Proof.
  destruct p; try done.
  - cbn. unfold SyncCacheModel.del. destruct c, r; cbn; try done; repeat case_match; cbn; intros ? [= <-]; cbn; by eauto.
  - intros Hf. assert (Hc : forall b, fok c (after_cad c k e x b)) by (intros; by apply fok_after_cad).
    assert (Hd : has_cb = true -> fok c (Q_del k e x)).
    { intros ?. cbn. split; [done|]. cbn in Hf. by destruct c. }
    intros (b & -> & ->)%after_ret_cad. destruct b; [destruct has_cb; eauto|eauto].
Qed.

Definition foks fr : Prop := forall t c now p, fr !! t = Some (mk_frame c now p) -> fok c p.
Lemma foks_insert fr t c now p : foks fr -> fok c p -> foks (<[t := mk_frame c now p]> fr).
Proof. intros Hf Hp u c' now' p'. rewrite lookup_insert_Some. intros [[_ [= <- <- <-]]|[_ ?]]; eauto. Qed.
Lemma foks_delete fr t : foks fr -> foks (delete t fr).
Proof. intros Hf u c' now' p'. rewrite lookup_delete_Some. intros [_ ?]. eauto. Qed.

Lemma foks_step m x m' : mcase m x m' -> foks (c_fr (m_cl m)) -> foks (c_fr (m_cl m')).
Proof.
  destruct 1; cbn; intros Hf; try done; try (apply foks_insert; [done|]).
  - apply fok_start.
  - cbn. match goal with Hc : _ \/ _ |- _ => by destruct Hc as [-> | ->] end.
  - apply Hf in H0. cbn in H0. subst c. done.
  - by apply Hf in H0.
  - apply fok_after_chk. by eapply Hf.
  - apply fok_after_del. by eapply Hf.
  - apply Hf in H0. cbn in H0. subst c. done.
  - by apply foks_delete.
  - by apply fok_callback.
  - eapply fok_inside; [|done]. by eapply Hf.
  - eapply fok_after_ret; [|done]. by eapply Hf.
  - apply Hf in H0. cbn in H0. destruct H0 as [Hr _]. by destruct c.
Qed.

(** ** The link holds in every history *)
Lemma link_call fr st t c now p mc :
  link fr st -> fr !! t = Some (mk_frame c now p) -> fok c p -> calls_map c p mc = true ->
  st !! tid t (inner c p) = None ->
  link (<[t := mk_frame c now (inside p)]> fr) (<[tid t (inner c p) := AInv_ mc]> st).
Proof.
  intros Hl Hf Hok Hc Hn u b. destruct (decide (u = t)) as [->|Hne].
  2:{ rewrite (lookup_insert_ne st) by (apply tid_ne; auto). rewrite (lookup_insert_ne fr) by done. apply Hl. }
  rewrite (lookup_insert fr). specialize (Hl t b).
  destruct (decide (b = inner c p)) as [->|Hb].
  - rewrite lookup_insert. exists c, now, (inside p), mc. split; [done|].
    destruct p; try done; destruct c; cbn in Hc |- *; destruct mc; try done;
      try (apply bool_decide_eq_true in Hc); try destruct_and!; subst; try done;
      try (clear -Hok Hc; destruct has_cb; cbn in *; by intuition);
      try (pose proof (proj1 Hok) as Hcb; rewrite ?Hcb; cbn; rewrite ?Hcb; done); by eauto.
  - rewrite lookup_insert_ne by (apply tid_ne; auto). destruct (st !! tid t b) as [x|].
    + destruct Hl as (c1 & now1 & p1 & mc1 & Hf1 & Hb1 & Hm1 & Hx1). rewrite Hf in Hf1. injection Hf1 as <- <- <-.
      exists c, now, (inside p), mc1. split; [done|].
      destruct p; try done; unfold SyncCacheModel.inner, busy, mcall_ok in *; cbn [inside] in *;
        destruct b, (ranging c); done.
    + intros c1 now1 p1 [= <- <- <-]. specialize (Hl _ _ _ Hf).
      destruct p; try done; unfold SyncCacheModel.inner, busy in *; cbn [inside] in *;
        destruct b, (ranging c); done.
Qed.

Lemma after_ret_nw c p r p' : fok c p -> after_ret c p r = Some p' ->
  not_waiting p' /\ (p = Q_wait -> busy c p' false = false) /\
  (forall k e x, p = Q_cadw k e x -> busy c p' false = ranging c) /\ ~ not_waiting p.
Proof.
  destruct p; try done.
  - intros _ Hr. assert (not_waiting p' /\ busy c p' false = false) as [Ha Hb]; [|split; [done|]; split; [done|]; split; [done|]; by intros []].
    destruct c, r; cbn in Hr; try done; repeat case_match; injection Hr as <-; try done;
      unfold SyncCacheModel.del, SyncCacheModel.after_del; by repeat case_match.
  - intros Hf. intros (b & -> & ->)%after_ret_cad.
    assert (Hcb : match c with SClear => has_cb = true | _ => True end). { cbn in Hf. destruct c; try done; by destruct Hf. }
    assert (Hb : forall b, not_waiting (after_cad c k e x b) /\ busy c (after_cad c k e x b) false = ranging c).
    { intros b'. destruct (after_cad_nw c k e x b') as [? Hx]. split; [done|by apply Hx]. }
    assert (Hg : forall hc : bool, let p' := if b then if hc then Q_del k e x else after_cad c k e x true else after_cad c k e x false in
      not_waiting p' /\ busy c p' false = ranging c).
    { intros hc. destruct b; [destruct hc|]; [done|..]; apply Hb. }
    destruct (Hg has_cb) as [H1 H2].
    split; [done|]. split; [done|]. split; [done|]. auto.
Qed.

Lemma busy_nw c p : not_waiting p -> busy c p true = false.
Proof. by destruct p. Qed.

Lemma link_done fr st t c now p r p' :
  link fr st -> fr !! t = Some (mk_frame c now p) -> fok c p -> after_ret c p r = Some p' ->
  link (<[t := mk_frame c now p']> fr) (delete (tid t (inner c p)) st).
Proof.
  intros Hl Hf Hok Hr. destruct (after_ret_nw _ _ _ _ Hok Hr) as (Hnw & Hw & Hcw & Hp).
  intros u b. destruct (decide (u = t)) as [->|Hne].
  2:{ rewrite (lookup_delete_ne st) by (apply tid_ne; auto). rewrite (lookup_insert_ne fr) by done. apply Hl. }
  rewrite (lookup_insert fr). specialize (Hl t b).
  destruct (decide (b = inner c p)) as [->|Hb].
  - rewrite lookup_delete. intros c1 now1 p1 [= <- <- <-].
    destruct p; try by destruct Hp; cbn.
    + by apply Hw.
    + unfold SyncCacheModel.inner. destruct (ranging c) eqn:E; [by apply busy_nw|]. by rewrite (Hcw _ _ _ eq_refl).
  - rewrite lookup_delete_ne by (apply tid_ne; auto). destruct (st !! tid t b) as [x|].
    + destruct Hl as (c1 & now1 & p1 & mc1 & Hf1 & Hb1 & Hm1 & Hx1). rewrite Hf in Hf1. injection Hf1 as <- <- <-.
      exists c, now, p', mc1. split; [done|]. destruct b.
      * exfalso. by destruct p.
      * destruct p; try done. cbn in Hb. rewrite (Hcw _ _ _ eq_refl). destruct (ranging c) eqn:E; [|done].
        split; [done|]. split; [|done]. by eapply mcall_ranging.
    + intros c1 now1 p1 [= <- <- <-]. destruct b; [by apply busy_nw|].
      destruct p; try done. exfalso. specialize (Hl _ _ _ Hf). done.
Qed.

Lemma link_status fr st u x y :
  link fr st -> st !! u = Some x -> (forall mc, st_ok x mc -> st_ok y mc) -> link fr (<[u := y]> st).
Proof.
  intros Hl Hx Hy t b. specialize (Hl t b). destruct (decide (u = tid t b)) as [->|Hne].
  - rewrite lookup_insert. rewrite Hx in Hl. destruct Hl as (c1 & now1 & p1 & mc1 & Hf1 & Hb1 & Hm1 & Hx1).
    exists c1, now1, p1, mc1. split_and!; try done. by apply Hy.
  - by rewrite lookup_insert_ne.
Qed.

Definition linked m : Prop := link (c_fr (m_cl m)) (a_st (m_map m)) /\ foks (c_fr (m_cl m)).

Lemma link_call_of fr st t b x : link fr st -> st !! tid t b = Some x ->
  exists c now p mc, fr !! t = Some (mk_frame c now p) /\ busy c p b = true /\ mcall_ok c p b mc /\ st_ok x mc.
Proof. intros Hl Hx. specialize (Hl t b). by rewrite Hx in Hl. Qed.

Lemma mcall_not_slow c p b mc : mcall_ok c p b mc -> range_call mc -> mc = CRange.
Proof.
  unfold mcall_ok. destruct b; [destruct p; try done; by intros ->|].
  destruct (ranging c); [done|]. destruct p, c; try done; naive_solver.
Qed.

Lemma linked_step m x m' : mcase m x m' -> linked m -> linked m'.
Proof.
  intros Hm [Hl Hok]. split; [|by eapply foks_step].
  destruct Hm; cbn in Hl, Hok |- *; try done.
  - (* invocation *)
    intros u b. specialize (Hl u b). destruct (decide (u = t)) as [->|Hne]; [|by rewrite lookup_insert_ne].
    rewrite lookup_insert. destruct (st !! tid t b) as [x|].
    + destruct Hl as (? & ? & ? & ? & ? & _). congruence.
    + intros c1 now1 p1 [= <- <- <-]. by destruct c, b.
  - eapply link_go; [done..|]. by destruct H1 as [-> | ->].
  - eapply link_go; [done..|]. done.
  - by eapply link_go.
  - destruct (after_chk_nw c k e v (Z.ltb x now)) as [Hn Hb]. eapply link_go; [done..|]. by rewrite Hb.
  - pose proof (Hok _ _ _ _ H0) as Hp. destruct (after_del_nw c k e x) as [Hn Hb]. eapply link_go; [done..|].
    rewrite Hb; [done|]. cbn in Hp. destruct c; try done. by destruct Hp.
  - pose proof (Hok _ _ _ _ H0) as Hp. by eapply link_go.
  - (* return *)
    intros u b. specialize (Hl u b). destruct (decide (u = t)) as [->|Hne]; [|by rewrite lookup_delete_ne].
    rewrite lookup_delete. destruct (st !! tid t b) as [x|]; [|done].
    destruct Hl as (c1 & now1 & p1 & mc & Hf & Hb & _). rewrite H0 in Hf. injection Hf as <- <- <-. by destruct b.
  - eapply link_frame; [done..|]. intros b. split; [by apply callback_busy|].
    intros mc Hmc Hb. destruct b; [done|]. by eapply mcall_ranging.
  - by eapply link_call; eauto.
  - by eapply link_done; eauto.
  - (* end of a callback *)
    pose proof (Hok _ _ _ _ H0) as [Hr _].
    eapply (link_status _ _ _ (AIter mc ks vis n)); [|done|].
    + eapply link_frame; [done..|]. intros b'. split; [by destruct b'|].
      intros mc' Hmc Hb'. destruct b'; [done|]. by eapply mcall_ranging.
    + intros mc' [-> ->]. by destruct b.
  - destruct (tid_of u) as (t & b & ->).
    destruct (link_call_of _ _ _ _ _ Hl H0) as (c & now & p & mc' & Hf & Hb & Hmc & Hx). cbn in Hx. subst mc'.
    eapply link_status; [done..|]. intros mc' Hx. cbn in Hx. subst mc'. cbn. split; [done|]. destruct mc; try done; eauto.
  - destruct (tid_of u) as (t & b & ->).
    destruct (link_call_of _ _ _ _ _ Hl H0) as (c & now & p & mc' & Hf & Hb & Hmc & Hx). cbn in Hx. subst mc'.
    apply mcall_not_slow in Hmc; [|done]. subst mc.
    eapply link_status; [done..|]. intros mc' Hx. cbn in Hx. by subst mc'.
  - by eapply link_status.
  - eapply link_status; [done..|]. intros mc' [-> ->]. done.
Qed.

Lemma linked_init : linked m_init.
Proof. split; [|done]. intros t b. cbn. rewrite !lookup_empty. done. Qed.

Lemma mrun_linked h m : mrun m_init h m -> linked m.
Proof.
  revert h m. apply mrun_ind'; [apply linked_init|]. intros h m x m' _ Hl Hs. eapply linked_step; [|done]. by apply mstep_case.
Qed.

(** Invariants, with the cases and the link at hand. *)
Lemma mrun_cases (P : list mev -> mstate -> Prop) :
  P [] m_init ->
  (forall h m x m', mrun m_init h m -> linked m -> mrun m_init (h ++ [x]) m' -> P h m -> mcase m x m' -> P (h ++ [x]) m') ->
  forall h m, mrun m_init h m -> P h m.
Proof.
  intros H0 Hs. apply mrun_ind'; [done|]. intros h m x m' Hr Hp Hx. eapply Hs; try done.
  - by eapply mrun_linked.
  - apply mrun_snoc. eauto.
  - by apply mstep_case.
Qed.

End link.
