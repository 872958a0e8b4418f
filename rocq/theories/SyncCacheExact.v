(** synccache: calls one after the other. *)
From Coq Require Import ZifyBool ZifyNat.
From Verif Require Import Base RwMapModel RwMapSpec SyncCacheModel SyncCacheSpec SyncCacheHist SyncCacheLink SyncCacheExactSpec.

Section exact.
Context {K : Type} `{Countable K} {V : Type}.
Context (deref : nat -> nat) (veq : V -> V -> option bool) (has_cb : bool).
Local Notation scall := (scall K V).
Local Notation spc := (spc K).
Local Notation frame := (frame K V).
Local Notation sev := (sev K V).
Local Notation status := (status K nat).
Local Notation mcall := (call K nat).
Local Notation result := (result nat).
Local Notation mev := (mev K V).
Local Notation mstate := (mstate K V).
Local Notation mstep := (mstep deref veq has_cb).
Local Notation mrun := (mrun deref veq has_cb).
Local Notation mcase := (mcase deref veq has_cb).
Local Notation linked := (linked deref has_cb).
Local Notation seq_res := (seq_res deref peq).
Local Notation seq_next := (seq_next deref peq).
Local Notation calls_map := (calls_map deref has_cb).
Local Notation after_ret := (after_ret has_cb).
Local Notation after_chk := (after_chk veq has_cb).
Local Notation ranging := (ranging has_cb).
Local Notation inner := (inner has_cb).
Local Notation cache := (cache K V).
Local Notation effect := (effect veq has_cb).
Local Notation deletes := (deletes has_cb).
Local Notation ranges := (ranges has_cb).
Local Notation trims := (trims has_cb).
Local Notation behaves := (behaves veq has_cb).

Implicit Types (h : list mev) (m : mstate) (ent : gmap nat (V * Z)) (nw : nat) (fr : gmap nat frame)
  (mp td : gmap K nat) (st : gmap nat status) (c : scall) (p : spc) (mc : mcall) (t u e : nat) (k : K) (s : cache)
  (seg : list sev) (r : sres).

(** ** What remains of a call, at each place, if nobody else is there; [td]: what Range has still to
    visit *)
Inductive big t c : cache -> Z -> gmap K nat -> spc -> list sev -> sres -> cache -> Prop :=
| B_ret s now td r : big t c s now td (Q_ret r) [] r s
| B_new s now td k v d n e seg r s' :
    c = SStore k v d \/ c = SLoadOrStore k v d -> x_ent s !! e = None ->
    big t c (make e v (ms (n + d)) s) now td (Q_put e) seg r s' ->
    big t c s now td Q_new (SClock t n :: SNew t e v (ms (n + d)) :: seg) r s'
| B_now s now td n seg r s' :
    big t c s (ms n) td Q_get seg r s' -> big t c s now td Q_now (SClock t n :: seg) r s'
| B_chk s now td k e n seg r s' :
    big t c s (ms n) td (Q_chk2 k e) seg r s' -> big t c s now td (Q_chk k e) (SClock t n :: seg) r s'
| B_chk2 s now td k e v x seg r s' :
    x_ent s !! e = Some (v, x) -> big t c s now td (after_chk c k e v (Z.ltb x now)) seg r s' ->
    big t c s now td (Q_chk2 k e) (SChk t e now x :: seg) r s'
| B_del s now td k e x v y seg r s' :
    x_ent s !! e = Some (v, y) -> big t c s now td (after_del c k e x) seg r s' ->
    big t c s now td (Q_del k e x) (SDel t e v :: seg) r s'
| B_user s now td k e b seg r s' :
    big t c s now td (Q_back k e b) seg r s' -> big t c s now td (Q_user k e) (SUse t k e b :: seg) r s'
| B_call s now td p mc p' seg r s' :
    calls_map c p mc = true -> atomic_call mc -> after_ret c (inside p) (seq_res (x_map s) mc) = Some p' ->
    big t c (mk_cache (seq_next (x_map s) mc) (x_ent s)) now td p' seg r s' ->
    big t c s now td p seg r s'
| B_range s now td seg r s' :
    ranging c = true -> big t c s now (x_map s) Q_wait seg r s' -> big t c s now td Q_get seg r s'
| B_end s now seg r s' :
    ranging c = true -> big t c s now ∅ (Q_ret SUnit) seg r s' -> big t c s now ∅ Q_wait seg r s'
| B_next s now td k e seg r s' :
    ranging c = true -> big t c s now td (callback c k e) seg r s' -> big t c s now td Q_wait seg r s'
| B_back s now td k e (b : bool) seg r s' :
    td !! k = Some e -> big t c s now (if b then delete k td else ∅) Q_wait seg r s' ->
    big t c s now td (Q_back k e b) seg r s'.

(** A callback of Range ends by going back to it. *)
Definition in_callback p k e : Prop :=
  match p with
  | Q_chk k' e' | Q_chk2 k' e' | Q_cad k' e' _ | Q_del k' e' _ | Q_user k' e' | Q_back k' e' _ => k' = k /\ e' = e
  | _ => False
  end.
Lemma big_todo t c s now td p seg r s' k e : ranging c = true -> big t c s now td p seg r s' ->
  in_callback p k e -> td !! k = Some e.
Proof.
  intros Hr Hb. induction Hb as [| |s now td n seg r s' _ IH|s now td k' e' n seg r s' _ IH|s now td k' e' v x seg r s' _ _ IH
    |s now td k' e' x v y seg r s' _ _ IH|s now td k' e' b seg r s' _ IH
    |s now td p mc p' seg r s' Hcm Hat Haf _ IH| | | |s now td k' e' b seg r s' Htd _ IH]; cbn; intros Hin; try done.
  - apply IH. done.
  - apply IH. destruct c; cbn in Hr |- *; try done; by case_match.
  - apply IH. by destruct c.
  - apply IH. done.
  - apply IH. destruct p; cbn in Hin; try done.
    cbn [inside] in Haf. apply after_ret_cad in Haf as (b & _ & ->).
    destruct b; [destruct has_cb|]; [done|by destruct c..].
  - by destruct Hin as [-> ->].
Qed.

(** ** From the steps of a history *)
Definition todo c (xo : option status) mp : gmap K nat :=
  if ranging c then
    match xo with
    | Some (AInv_ _) => mp
    | Some (AIter _ ks vis _) => vis ∪ filter (fun kv => kv.1 ∈ ks) mp
    | _ => ∅
    end
  else ∅.
Definition waits c p : bool :=
  match p with Q_cadw _ _ _ => true | Q_wait => negb (ranging c) | _ => false end.

Definition claim t c ent mp now p st seg r s' : Prop :=
  let td := todo c (st !! tid t false) mp in
  if waits c p then
    match st !! tid t (inner c p) with
    | Some (AInv_ mc) => exists p', after_ret c p (seq_res mp mc) = Some p' /\
        big t c (mk_cache (seq_next mp mc) ent) now td p' seg r s'
    | Some (ADone mc rr) => exists p', after_ret c p rr = Some p' /\ big t c (mk_cache mp ent) now td p' seg r s'
    | _ => False
    end
  else big t c (mk_cache mp ent) now td p seg r s'.

Definition alone t c now p m : Prop :=
  linked m /\ c_fr (m_cl m) = {[t := mk_frame c now p]} /\
  (forall e, c_new (m_cl m) <= e -> c_ent (m_cl m) !! e = None) /\
  (forall mc ks vis n, a_st (m_map m) !! tid t false = Some (AIter mc ks vis n) -> forall k, k ∈ ks -> vis !! k = None).
Definition idle m : Prop :=
  linked m /\ c_fr (m_cl m) = ∅ /\ (forall e, c_new (m_cl m) <= e -> c_ent (m_cl m) !! e = None).
Definition cache_of m : cache := mk_cache (map_of m) (c_ent (m_cl m)).

Lemma todo_see c mc ks vis n mp k : k ∈ ks -> (forall k, k ∈ ks -> vis !! k = None) ->
  todo c (Some (AIter mc (ks ∖ {[k]}) (see mp k vis) n)) mp = todo c (Some (AIter mc ks vis n)) mp.
Proof.
  intros Hk Hd. unfold todo. destruct (ranging c); [|done].
  apply map_eq. intros k'. rewrite !lookup_union. unfold see.
  assert (Hfil : forall (ks' : gset K), filter (fun kv : K * nat => kv.1 ∈ ks') mp !! k' = if decide (k' ∈ ks') then mp !! k' else None).
  { intros ks'. rewrite map_filter_lookup. destruct (mp !! k') as [e|]; cbn; [|by case_decide].
    destruct (decide (k' ∈ ks')); [by rewrite option_guard_True|by rewrite option_guard_False]. }
  rewrite !Hfil. destruct (decide (k' = k)) as [->|Hne].
  - rewrite (decide_False (P := k ∈ ks ∖ {[k]})) by set_solver. rewrite (decide_True (P := k ∈ ks)) by done.
    destruct (mp !! k) as [e|] eqn:Em; rewrite ?lookup_insert, ?(Hd _ Hk); done.
  - assert ((if decide (k' ∈ ks ∖ {[k]}) then mp !! k' else None) = (if decide (k' ∈ ks) then mp !! k' else None)) as ->.
    { destruct (decide (k' ∈ ks)); [rewrite decide_True by set_solver|rewrite decide_False by set_solver]; done. }
    destruct (mp !! k) as [e|]; [by rewrite lookup_insert_ne|done].
Qed.
Lemma todo_snap c mc mc' ks n mp : dom mp ⊆ ks ->
  todo c (Some (AIter mc ks ∅ n)) mp = todo c (Some (AInv_ mc')) mp.
Proof.
  intros Hd. unfold todo. destruct (ranging c); [|done]. rewrite (left_id_L ∅ (∪)).
  apply map_filter_id. intros k e Hk. cbn. apply Hd. apply elem_of_dom. eauto.
Qed.
Lemma todo_end c mc mc' rr n mp : todo c (Some (AIter mc ∅ ∅ n)) mp = todo c (Some (ADone mc' rr)) mp.
Proof.
  unfold todo. destruct (ranging c); [|done]. rewrite (left_id_L ∅ (∪)).
  apply map_filter_empty_iff. intros k e _. cbn. set_solver.
Qed.
Lemma todo_back c mc ks vis n n' mp k : (forall k, k ∈ ks -> vis !! k = None) -> is_Some (vis !! k) ->
  todo c (Some (AIter mc ks (delete k vis) n')) mp = delete k (todo c (Some (AIter mc ks vis n)) mp).
Proof.
  intros Hd [e He]. unfold todo. destruct (ranging c); [|by rewrite delete_empty].
  rewrite delete_union. f_equal. symmetry. apply delete_notin. apply map_filter_lookup_None. right.
  intros e' _ Hin. cbn in Hin. rewrite (Hd _ Hin) in He. done.
Qed.
(** The callback takes out the entry it is called on. *)
Lemma todo_cad c xo mp k e : todo c xo (seq_next mp (CCad k e)) = todo c xo mp \/
  todo c xo (seq_next mp (CCad k e)) !! k = None.
Proof.
  cbn. destruct (mp !! k) as [e'|] eqn:Em; [|by left]. unfold peq. case_bool_decide; [|by left].
  unfold todo. destruct (ranging c); [|by left]. destruct xo as [[mc|mc rr|mc ks vis n]|]; try by left.
  - right. apply lookup_delete.
  - destruct (decide (k ∈ ks)) as [Hin|Hin].
    + destruct (vis !! k) as [e2|] eqn:Ev.
      * left. apply map_eq. intros k'. rewrite !lookup_union, !map_filter_lookup.
        destruct (decide (k' = k)) as [->|].
        { rewrite Ev, lookup_delete, Em. cbn. by rewrite option_guard_True. }
        by rewrite lookup_delete_ne.
      * right. rewrite lookup_union, Ev, map_filter_lookup, lookup_delete. done.
    + left. apply map_eq. intros k'. rewrite !lookup_union, !map_filter_lookup.
      destruct (decide (k' = k)) as [->|]; [|by rewrite lookup_delete_ne].
      rewrite lookup_delete, Em. cbn. by rewrite option_guard_False.
Qed.

Lemma todo_nr c xo mp : ranging c = false -> todo c xo mp = ∅.
Proof. unfold todo. by intros ->. Qed.
Local Arguments tid : simpl never.
Local Arguments claim : simpl never.
Local Arguments todo : simpl never.
Definition claim_of t c now p m seg r s' : Prop :=
  claim t c (c_ent (m_cl m)) (map_of m) now p (a_st (m_map m)) seg r s'.
Definition plain_ev (ev : sev) : Prop :=
  match ev with SInv _ _ | SRet _ _ | SSet _ _ | SAdd _ _ => False | _ => True end.

Lemma claim_nw t c ent mp now p st seg r s' : not_waiting p ->
  claim t c ent mp now p st seg r s' = big t c (mk_cache mp ent) now (todo c (st !! tid t false) mp) p seg r s'.
Proof. unfold claim. by destruct p. Qed.

Lemma alone_sole m t c now p t' c' now' p' : alone t c now p m ->
  c_fr (m_cl m) !! t' = Some (mk_frame c' now' p') -> t' = t /\ c' = c /\ now' = now /\ p' = p.
Proof.
  intros (_ & -> & _) [<- [= <- <- <-]]%lookup_singleton_Some. done.
Qed.
Lemma alone_status m t c now p t' b x : alone t c now p m -> a_st (m_map m) !! tid t' b = Some x ->
  t' = t /\ busy has_cb c p b = true /\ exists mc, mcall_ok has_cb c p b mc /\ st_ok deref x mc.
Proof.
  intros Ha Hx. destruct (link_call_of _ _ _ _ _ _ _ (proj1 (proj1 Ha)) Hx) as (c1 & now1 & p1 & mc & Hf & Hb & Hm & Hs).
  destruct (alone_sole _ _ _ _ _ _ _ _ _ Ha Hf) as (-> & -> & -> & ->). eauto.
Qed.

Lemma claim_outer t c ent mp now p st x y seg r s' : ranging c = true -> st !! tid t false = Some x ->
  todo c (Some y) mp = todo c (Some x) mp ->
  claim t c ent mp now p (<[tid t false := y]> st) seg r s' -> claim t c ent mp now p st seg r s'.
Proof.
  intros Er Hx Ht. unfold claim. rewrite lookup_insert, Ht, Hx. destruct (waits c p) eqn:Ew; [|done].
  destruct p; try done; cbn in Ew; [by rewrite Er in Ew|]. unfold SyncCacheModel.inner. rewrite Er.
  by rewrite lookup_insert_ne by (apply tid_ne; by right).
Qed.

Lemma claim_step m x m' t c now p : alone t c now p m -> mcase m x m' ->
  (forall t' c', SInv t' c' ∉ x.2) -> (forall e y, SSet e y ∉ x.2) -> (forall e y, SAdd e y ∉ x.2) ->
  (exists r, x.2 = [SRet t r] /\ p = Q_ret r /\ idle m' /\ cache_of m' = cache_of m) \/
  (Forall plain_ev x.2 /\ exists now' p', alone t c now' p' m' /\
     forall seg r s', claim_of t c now' p' m' seg r s' -> claim_of t c now p m (x.2 ++ seg) r s').
Proof.
  intros Hal Hm Hi Hs Had.
  assert (Hl' : linked m') by (eapply linked_step; [done|apply Hal]).
  assert (Hgo : forall now' p', c_fr (m_cl m') = {[t := mk_frame c now' p']} ->
    (forall e, c_new (m_cl m') <= e -> c_ent (m_cl m') !! e = None) ->
    (forall mc ks vis n, a_st (m_map m') !! tid t false = Some (AIter mc ks vis n) -> forall k, k ∈ ks -> vis !! k = None) ->
    alone t c now' p' m') by (intros; by split_and!).
  pose proof Hal as (Hl & Hfr & Hnew & Hdis).
  assert (Hfo : fok has_cb c p). { eapply (proj2 Hl t). rewrite Hfr. apply lookup_singleton. }
  destruct Hm; cbn in Hi, Hs, Had, Hfr, Hnew, Hdis;
    repeat match goal with
    | Hf : ?f !! ?u = Some (mk_frame ?c1 ?n1 ?p1) |- _ =>
        destruct (alone_sole _ _ _ _ _ u c1 n1 p1 Hal Hf) as (-> & -> & -> & <-); clear Hf
    end; match goal with Hx : ?f = {[t := _]} |- _ => subst f end.
  - exfalso. eapply Hi. by left.
  - right. split; [by repeat constructor|]. exists now, (Q_put nw). split.
    + apply Hgo; cbn; [by rewrite insert_singleton| |done].
      intros e He. rewrite lookup_insert_ne by lia. apply Hnew. lia.
    + intros seg r s'. unfold claim_of. cbn. rewrite !claim_nw by done. intros Hb.
      eapply B_new; [done|by apply Hnew|]. exact Hb.
  - right. split; [by repeat constructor|]. eexists _, _. split.
    + apply Hgo; cbn; [by rewrite insert_singleton|done|done].
    + intros seg r s'. unfold claim_of. cbn. rewrite !claim_nw by done. apply B_now.
  - right. split; [by repeat constructor|]. eexists _, _. split.
    + apply Hgo; cbn; [by rewrite insert_singleton|done|done].
    + intros seg r s'. unfold claim_of. cbn. rewrite !claim_nw by done. apply B_chk.
  - right. split; [by repeat constructor|]. eexists _, _. split.
    + apply Hgo; cbn; [by rewrite insert_singleton|done|done].
    + intros seg r s'. unfold claim_of. cbn. rewrite !claim_nw by (done || apply after_chk_nw). by apply B_chk2.
  - right. split; [by repeat constructor|]. eexists _, _. split.
    + apply Hgo; cbn; [by rewrite insert_singleton|done|done].
    + intros seg r s'. unfold claim_of. cbn. rewrite !claim_nw by (done || by eapply after_del_nw). by eapply B_del.
  - right. split; [by repeat constructor|]. eexists _, _. split.
    + apply Hgo; cbn; [by rewrite insert_singleton|done|done].
    + intros seg r s'. unfold claim_of. cbn. rewrite !claim_nw by done. apply B_user.
  - left. eexists. split; [done|]. split; [done|]. split; [|done]. split; [done|]. split; [|done].
    cbn. by rewrite delete_singleton.
  - right. split; [by constructor|]. eexists _, _. split.
    + apply Hgo; cbn; [by rewrite insert_singleton|done|done].
    + intros seg r s'. unfold claim_of. cbn. rewrite claim_nw by by destruct c.
      unfold claim. cbn [waits]. replace (negb (ranging c)) with false by (by rewrite H1). by apply B_next.
  - exfalso. eapply Hs. by left.
  - exfalso. eapply Had. by left.
  - (* a call of the map *)
    right. split; [by constructor|]. exists now, (inside p0). split.
    + apply Hgo; cbn; [by rewrite insert_singleton|done|].
      intros mc' ks vis n. destruct (decide (tid t (inner c p0) = tid t false)) as [->|Hne].
      * by rewrite lookup_insert.
      * rewrite lookup_insert_ne by done. apply Hdis.
    + intros seg r s'. unfold claim_of. cbn. rewrite (claim_nw t c ent mp now p0) by by destruct p0.
      destruct (ranging c) eqn:Er.
      * destruct p0; try done; try (by destruct c).
        -- assert (mc = CRange) as ->. { cbn in H1. destruct c, mc; cbn in *; try done; by rewrite Er in *. }
           unfold claim, waits, SyncCacheModel.inside, SyncCacheModel.inner. rewrite Er, lookup_insert. cbn.
           unfold todo at 1. rewrite Er. by apply B_range.
        -- assert (mc = CCad k e) as -> by (destruct mc; cbn in H1; try done; by apply bool_decide_eq_true in H1 as [-> ->]).
           unfold claim. cbn [inside waits]. unfold SyncCacheModel.inner. rewrite Er, lookup_insert.
           rewrite lookup_insert_ne by (apply tid_ne; by right). intros (p' & Hp' & Hb). by eapply B_call.
      * assert (Hw : waits c (inside p0) = true) by (destruct p0; try done; cbn; by rewrite Er).
        unfold claim. rewrite Hw.
        assert (Hin : inner c (inside p0) = inner c p0) by by destruct p0.
        rewrite Hin, lookup_insert. rewrite !todo_nr by done. intros (p' & Hp' & Hb). eapply B_call; [done| |done|done].
        destruct p0; try done; destruct c, mc; cbn in *; try done; by rewrite Er in *.
  - (* its return *)
    pose proof (after_ret_nw _ _ _ _ _ Hfo H2) as (Hnw & _ & _ & Hw).
    right. split; [by constructor|]. exists now, p'. split.
    + apply Hgo; cbn; [by rewrite insert_singleton|done|].
      intros mc' ks vis n Hx. apply lookup_delete_Some in Hx as [_ Hx]. by eapply Hdis.
    + intros seg r' s'. unfold claim_of. cbn. rewrite claim_nw by done. unfold claim.
      destruct (waits c p0) eqn:Ewt.
      * rewrite H1. intros Hb. exists p'. split; [done|].
        destruct (ranging c) eqn:Er; [|by rewrite !todo_nr in * by done].
        destruct p0; try done; [cbn in Ewt; by rewrite Er in Ewt|].
        unfold SyncCacheModel.inner in Hb. rewrite Er, lookup_delete_ne in Hb by (apply tid_ne; by right). done.
      * destruct p0; try by destruct Hw. cbn in Ewt. apply negb_false_iff in Ewt.
        unfold SyncCacheModel.inner in *. rewrite H1, lookup_delete. unfold todo. rewrite Ewt.
        assert (p' = Q_ret SUnit) as -> by (destruct c, r; cbn in *; try done; simplify_eq; done).
        by apply B_end.
  - (* the end of a callback *)
    right. split; [by constructor|]. exists now, Q_wait. split.
    + apply Hgo; cbn; [by rewrite insert_singleton|done|].
      intros mc' ks' vis' n'. rewrite lookup_insert. destruct b; [|done]. intros [= <- <- <- <-] k' Hk'.
      apply lookup_delete_None. right. by eapply Hdis.
    + intros seg r s'. unfold claim_of. cbn. rewrite (claim_nw t c ent mp now (Q_back k e b)) by done.
      destruct Hfo as [Er _]. unfold claim. cbn [waits]. replace (negb (ranging c)) with false by by rewrite Er.
      rewrite lookup_insert, H1. intros Hb. apply B_back.
      * unfold todo. rewrite Er. by apply lookup_union_Some_l.
      * destruct b; [erewrite <- todo_back; [done|by eapply Hdis|by eexists]|].
        unfold todo in Hb. by rewrite Er in Hb.
  - (* a call of the map takes effect *)
    destruct (tid_of u) as (t' & b & ->).
    destruct (alone_status _ _ _ _ _ t' b _ Hal H0) as (-> & Hbz & mc' & Hmc & Hst). cbn in Hst. subst mc'.
    right. split; [by constructor|]. exists now, p. split.
    + apply Hgo; cbn; [done|done|].
      intros mc' ks vis n. destruct (decide (tid t b = tid t false)) as [->|Hne].
      * by rewrite lookup_insert.
      * rewrite lookup_insert_ne by done. apply Hdis.
    + intros seg r s'. unfold claim_of. cbn. unfold claim.
      assert (waits c p = true /\ inner c p = b) as [Hw Hin].
      { unfold mcall_ok in Hmc. destruct b.
        - by destruct p.
        - destruct (ranging c) eqn:Er; [by subst mc|]. destruct p; cbn in *; try done; by rewrite Er in *. }
      rewrite Hw, Hin, lookup_insert, H0. intros (p' & Hp' & Hb). exists p'. split; [done|].
      destruct (ranging c) eqn:Er; [|by rewrite !todo_nr in * by done].
      destruct b; [|unfold mcall_ok in Hmc; rewrite Er in Hmc; by subst mc].
      rewrite lookup_insert_ne in Hb by (apply tid_ne; by right).
      destruct p; try done. cbn in Hmc. subst mc.
      destruct (todo_cad c (st !! tid t false) mp k e) as [E|E]; [by rewrite E in Hb|]. exfalso.
      eapply big_todo in Hb; [|done|]; [rewrite E in Hb; done|].
      apply after_ret_cad in Hp' as (b & _ & ->). destruct b; [destruct has_cb|]; [done|by destruct c..].
  - destruct (tid_of u) as (t' & b & ->).
    destruct (alone_status _ _ _ _ _ t' b _ Hal H0) as (-> & Hbz & mc' & Hmc & Hst). cbn in Hst. subst mc'.
    right. split; [by constructor|]. exists now, p.
    assert (mc = CRange) as -> by by eapply mcall_not_slow.
    assert (b = false) as ->. { destruct b; [|done]. cbn in Hmc. by destruct p. }
    split.
    + apply Hgo; cbn; [done|done|]. intros mc' ks' vis n. rewrite lookup_insert. intros [= <- <- <- <-] k _. done.
    + intros seg r s'. unfold claim_of. cbn. eapply claim_outer; [|done|by apply todo_snap].
      unfold mcall_ok in Hmc. destruct (ranging c); [done|]. destruct p, c; try done; by destruct Hmc.
  - destruct (tid_of u) as (t' & b & ->).
    destruct (alone_status _ _ _ _ _ t' b _ Hal H0) as (-> & Hbz & mc' & Hmc & Hst). cbn in Hst. destruct Hst as [<- ->].
    right. split; [by constructor|]. exists now, p.
    assert (b = false) as ->. { destruct b; [|done]. cbn in Hmc. by destruct p. }
    split.
    + apply Hgo; cbn; [done|done|]. intros mc' ks' vis' n'. rewrite lookup_insert. intros [= <- <- <- <-] k' Hk'.
      unfold see. assert (vis !! k' = None) by (eapply Hdis; [done|set_solver]).
      destruct (mp !! k); [rewrite lookup_insert_ne by set_solver|]; done.
    + intros seg r s'. unfold claim_of. cbn. eapply claim_outer; [|done|apply todo_see; [done|by eapply Hdis]].
      unfold mcall_ok in Hmc. destruct (ranging c); [done|]. destruct p, c; try done; by destruct Hmc.
  - destruct (tid_of u) as (t' & b & ->).
    destruct (alone_status _ _ _ _ _ t' b _ Hal H0) as (-> & Hbz & mc' & Hmc & Hst). cbn in Hst. destruct Hst as [<- ->].
    right. split; [by constructor|]. exists now, p.
    assert (b = false) as ->. { destruct b; [|done]. cbn in Hmc. by destruct p. }
    split.
    + apply Hgo; cbn; [done|done|]. intros mc' ks' vis' n'. by rewrite lookup_insert.
    + intros seg r s'. unfold claim_of. cbn. eapply claim_outer; [|done|symmetry; apply todo_end].
      unfold mcall_ok in Hmc. destruct (ranging c); [done|]. destruct p, c; try done; by destruct Hmc.
Qed.

(** ** A call from its beginning to its end *)
Lemma one_by_one_plain b (l tr : list sev) : Forall plain_ev l -> one_by_one b (l ++ tr) <-> one_by_one b tr.
Proof. induction 1 as [|ev l Hev _ IH]; [done|]. by destruct ev. Qed.
Lemma one_no m x m' (tr : list sev) : mcase m x m' -> one_by_one true (x.2 ++ tr) ->
  (forall t' c', SInv t' c' ∉ x.2) /\ (forall e y, SSet e y ∉ x.2) /\ (forall e y, SAdd e y ∉ x.2).
Proof.
  destruct 1; cbn; intros Ho; try (by destruct Ho); split_and!; intros ? ?;
    rewrite ?elem_of_cons, elem_of_nil; naive_solver.
Qed.

Lemma solo_rest h m m' t c now p : alone t c now p m -> mrun m h m' -> one_by_one true (trace h) ->
  c_fr (m_cl m') = ∅ ->
  exists h1 h2 m1 seg r, h = h1 ++ h2 /\ h1 <> [] /\ mrun m1 h2 m' /\ trace h1 = seg ++ [SRet t r] /\
    idle m1 /\ claim_of t c now p m seg r (cache_of m1) /\ one_by_one false (trace h2).
Proof.
  revert m now p. induction h as [|x h IH]; intros m now p Hal Hr Ho He.
  { cbn in Hr. subst m'. exfalso. destruct Hal as (_ & Hf & _). rewrite Hf in He. by apply (map_non_empty_singleton t (mk_frame c now p)) in He. }
  destruct Hr as (m1 & Hs & Hr). apply mstep_case in Hs. rewrite trace_cons in Ho.
  destruct (one_no _ _ _ _ Hs Ho) as (N1 & N2 & N3).
  destruct (claim_step _ _ _ _ _ _ _ Hal Hs N1 N2 N3) as [(r & Hx & -> & Hid & Hc)|(Hpl & now' & p' & Hal' & Hcl)].
  - exists [x], h, m1, [], r. rewrite Hx in Ho. split_and!; try done.
    + unfold trace. cbn. by rewrite Hx.
    + unfold claim_of. rewrite claim_nw by done. rewrite Hc. apply B_ret.
  - rewrite one_by_one_plain in Ho by done.
    destruct (IH _ _ _ Hal' Hr Ho He) as (h1 & h2 & m2 & seg & r & -> & Hn & Hr2 & Ht & Hid & Hc & Ho2).
    exists (x :: h1), h2, m2, (x.2 ++ seg), r. split_and!; try done.
    + by rewrite trace_cons, Ht, (assoc_L (++)).
    + by apply Hcl.
Qed.

Lemma idle_step m x m' : idle m -> mcase m x m' ->
  (exists t c, x.2 = [SInv t c] /\ alone t c 0%Z (start c) m' /\ cache_of m' = cache_of m /\ forall b, a_st (m_map m') !! tid t b = None) \/
  (idle m' /\ exists e v y, x_ent (cache_of m) !! e = Some (v, y) /\
    ((exists at_, x.2 = [SSet e at_] /\ cache_of m' = make e v (ms at_) (cache_of m)) \/
     (exists d, x.2 = [SAdd e d] /\ cache_of m' = make e v (Z.add y (Z.quot d 1000000)) (cache_of m)))).
Proof.
  intros Hid Hm. pose proof Hid as (Hl & Hf & Hnew).
  assert (Hst : forall u, a_st (m_map m) !! u = None).
  { intros u. destruct (tid_of u) as (t & b & ->). pose proof (proj1 Hl t b) as Hx. rewrite Hf, lookup_empty in Hx.
    destruct (a_st (m_map m) !! tid t b); [|done]. by destruct Hx as (? & ? & ? & ? & ? & _). }
  assert (Hl' : linked m') by by eapply linked_step.
  destruct Hm; cbn in Hf, Hnew, Hst; subst;
    try match goal with H : ∅ !! _ = Some _ |- _ => by rewrite lookup_empty in H end;
    try match goal with H : _ !! _ = Some _ |- _ => by rewrite Hst in H end.
  - left. exists t, c. split; [done|]. split; [|split; [done|]; intros b; apply Hst].
    split; [done|]. split; [done|]. split; [done|]. cbn. intros mc ks vis n Hx. by rewrite Hst in Hx.
  - right. split.
    { split; [done|]. split; [done|]. cbn. intros e' He'. rewrite lookup_insert_ne; [by apply Hnew|].
      intros <-. rewrite Hnew in H0 by done. done. }
    exists e, v, x. split; [done|]. left. by exists y.
  - right. split.
    { split; [done|]. split; [done|]. cbn. intros e' He'. rewrite lookup_insert_ne; [by apply Hnew|].
      intros <-. rewrite Hnew in H0 by done. done. }
    exists e, v, x. split; [done|]. right. by exists d.
Qed.
End exact.
