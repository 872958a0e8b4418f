(** rwmap: a goroutine inside a call can go on, and finishes if left alone. *)
From Coq Require Import ZifyBool ZifyNat.
From Verif Require Import Base RwMapModel RwMapSpec RwMapInv RwMapFrame RwMapMoves RwMapMoves2 RwMapStep RwMapStep2 RwMapStep3 RwMapLin.

Section progress.
Context {K : Type} `{Countable K} {V : Type}.
Context (deref : nat -> V) (zero : V) (veq : V -> V -> option bool).
Local Notation call := (call K V).
Local Notation result := (result V).
Local Notation pc := (pc K V).
Local Notation shared := (shared K).
Local Notation hitem := (hitem (K := K) (V := V)).
Local Notation astate := (astate K V).
Local Notation item := (item K V).
Local Notation astep := (astep deref veq).
Local Notation arun := (arun deref veq).
Local Notation hrun := (hrun deref veq).
Local Notation hstep := (hstep deref veq).
Local Notation core := (core deref veq).
Local Notation good := (good deref veq).
Local Notation slot_val := (slot_val deref).
Local Notation pcinv := (pcinv deref veq).
Local Notation seq_res := (seq_res deref veq).
Local Notation seq_next := (seq_next deref veq).
Local Notation op_ok := (op_ok deref veq).

Implicit Types (s : shared) (thr : gmap nat (call * pc)) (h : list hitem) (c : call) (p : pc).

Lemma can_step s thr h kof m t c p :
  core s thr h kof m -> thr !! t = Some (c, p) -> (p = P_lock -> s_lock s = None) ->
  exists lab, is_Some (step deref zero veq t c p s lab).
Proof.
  intros Hc Ht Hl. pose proof (i_pc _ _ _ _ _ _ _ Hc _ _ _ Ht) as Hp.
  assert (Hmap : forall todo : gmap K nat, todo = ∅ \/ exists k e, todo !! k = Some e).
  { intros todo. induction todo as [|k e todo _ _] using map_ind; [by left|right]. exists k, e. by rewrite lookup_insert. }
  destruct p; cbn in Hp;
    try (exists LTick; cbn; by eauto).
  - exists LTick. cbn. unfold step_read, goto. destruct c; try done; repeat (case_match || case_decide); eauto.
  - exists LTick. cbn. rewrite Hl by done. unfold goto. eauto.
  - exists LTick. cbn. unfold step_read2, goto. destruct c; try done; repeat (case_match || case_decide); eauto.
  - destruct Hp as (k & Hk & _). exists LTick. cbn. unfold step_dirty, add_key, goto.
    destruct c; try done; repeat (case_match || case_decide); eauto.
  - exists LTick. cbn. unfold dirty_store, goto. repeat case_match; eauto.
  - exists LTick. cbn. unfold goto. repeat case_match; eauto.
  - destruct (Hmap todo) as [->|(k & e & Hk)].
    + exists LTick. cbn. unfold goto. rewrite decide_True by done. eauto.
    + exists (LKey k). cbn. unfold goto. rewrite Hk. eauto.
  - exists LTick. cbn. unfold dirty_store, goto. repeat case_match; eauto.
  - exists LTick. cbn. unfold goto. repeat case_match; eauto.
  - destruct Hp as (Hst & _). exists LTick. cbn. unfold dirty_store, goto.
    destruct c; cbn in Hst |- *; try done; repeat case_match; eauto.
  - exists LTick. destruct o; cbn; unfold goto; eauto.
  - destruct Hp as (Hk & _). exists LTick. cbn. unfold step_load, goto. destruct c; try done; repeat case_match; eauto.
  - exists LTick. cbn. unfold goto. case_decide; eauto.
  - destruct (Hmap todo) as [->|(k & e & Hk)].
    + exists LTick. cbn. unfold goto. rewrite decide_True by done. eauto.
    + exists (LKey k). cbn. unfold goto. rewrite Hk. eauto.
  - exists LTick. cbn. unfold goto. case_match; eauto.
  - exists (LCb true). cbn. destruct c; eauto.
Qed.

(** How many more steps a goroutine makes if nobody interferes. *)
Definition stores (c : call) : bool :=
  match c with CStore _ _ | CSwap _ _ | CLoadOrStore _ _ => true | _ => false end.
Definition w_lock (s : shared) : nat := 12 + 4 * size (s_rd s) + 3 * size (dirty_map s).
Definition w_load (c : call) (e : nat) (m : mode) (s : shared) : nat :=
  match m, s_ent s e with
  | Fast, SExp => if stores c then S (w_lock s) else 6
  | _, _ => 6
  end.
Definition weight (c : call) (p : pc) (s : shared) : nat :=
  match p with
  | X_ret _ => 1
  | P_len _ _ | P_getlen => 2
  | P_un _ => 3
  | P_une None => 2
  | P_une (Some _) => 7
  | P_miss _ | P_swap _ | P_new => 4
  | P_amend => 5
  | P_dl todo => 6 + 4 * size todo
  | P_dlx _ e todo => 6 + 4 * size todo + match s_ent s e with SNil => 2 | _ => 1 end
  | P_dlc _ e todo => 6 + 4 * size todo + match s_ent s e with SNil => 1 | _ => 2 end
  | P_dirty => 10 + 4 * size (s_rd s)
  | P_unexp _ => 7
  | P_clr2 => 4
  | P_clr => 5
  | R_next todo _ => 2 + 3 * size todo
  | R_load _ _ todo _ => 4 + 3 * size todo
  | R_call _ _ todo _ => 3 + 3 * size todo
  | P_unr m => 3 + 3 * size m
  | P_prom => 4 + 3 * size (dirty_map s)
  | P_read2 => 11 + 4 * size (s_rd s) + 3 * size (dirty_map s)
  | P_lock => w_lock s
  | P_read => 15 + 4 * size (s_rd s) + 3 * size (dirty_map s)
  | E_load e m => w_load c e m s
  | E_cas e x m => if decide (s_ent s e = x) then 5 else S (w_load c e m s)
  end.

Lemma weight_pos c p s : 0 < weight c p s.
Proof. destruct p as [| | | | | | | | | | | | |[]| | | | | | | | | | | | ]; cbn; unfold w_lock, w_load; repeat (case_match || case_decide); lia. Qed.

Lemma w_after c m r s : weight c (after c m r) s <= 4.
Proof. destruct m; cbn; [|lia..]. unfold finish. case_decide; cbn; lia. Qed.
Lemma w_after_panic c m s : weight c (after_panic m) s <= 4.
Proof. destruct m; cbn; lia. Qed.
Lemma w_load_ge c e m s : 6 <= w_load c e m s <= 13 + 4 * size (s_rd s) + 3 * size (dirty_map s).
Proof. unfold w_load, w_lock. destruct m, (s_ent s e), (stores c); lia. Qed.

Lemma weight_step s thr h kof m t c p lab p' s' ev :
  core s thr h kof m -> thr !! t = Some (c, p) ->
  step deref zero veq t c p s lab = Some (Some p', s', ev) -> weight c p' s' < weight c p s.
Proof.
  intros Hc Ht Hstep. pose proof (i_pc _ _ _ _ _ _ _ Hc _ _ _ Ht) as Hp. clear Hc Ht.
  assert (Hds : forall k e q s0 s1 p1 ev1, dirty_store k e q s0 = Some (Some p1, s1, ev1) ->
    (p1 = q /\ s_ent s1 = s_ent s0) \/ p1 = X_ret RPanic).
  { intros k e q s0 s1 p1 ev1. unfold dirty_store, goto. destruct (s_dirty s0); intros [= <- <- <-]; [by left|by right]. }
  destruct p; try (destruct lab as [|kl|b]; [|discriminate Hstep|discriminate Hstep]); cbn in Hp; cbn [step] in Hstep.
  - unfold step_read, goto in Hstep.
    destruct c; try done; repeat (case_match || case_decide); simplify_eq; cbn; unfold w_lock; try lia;
      try (case_match; unfold w_lock; lia).
  - destruct (s_lock s); [done|]. unfold goto in Hstep. simplify_eq. unfold weight, w_lock, dirty_map. cbn. lia.
  - unfold step_read2, goto in Hstep.
    destruct c; try done; repeat (case_match || case_decide); simplify_eq; cbn; unfold w_load; try lia.
  - unfold step_dirty, add_key, goto in Hstep.
    destruct c; try done; repeat (case_match || case_decide); simplify_eq; cbn; unfold w_load; try lia; case_match; lia.
  - unfold goto in Hstep. destruct (s_ent s e) eqn:Ee; [| destruct (call_key c); [apply Hds in Hstep as [[-> _]| ->]|]|];
      simplify_eq; cbn; try lia; destruct c; cbn; unfold w_load; lia.
  - unfold goto in Hstep. destruct (s_ent s e), (call_ptr c); simplify_eq; cbn; lia.
  - destruct lab as [|kl|b]; [case_decide; [|done]|destruct (todo !! kl) as [e|] eqn:Ek; [|done]|done];
      unfold goto in Hstep; simplify_eq; cbn.
    + rewrite map_size_empty. lia.
    + pose proof (map_size_delete_Some kl todo (mk_is_Some _ _ Ek)). assert (size todo <> 0) by (intros E; apply map_size_empty_inv in E; by subst todo).
      destruct (s_ent _ _); lia.
  - unfold goto in Hstep. destruct (s_ent s e) eqn:Ee; [| |apply Hds in Hstep as [[-> _]| ->]];
      simplify_eq; cbn; rewrite ?Ee; lia.
  - unfold goto in Hstep. destruct (s_ent s e) eqn:Ee; simplify_eq; cbn; rewrite ?Ee; lia.
  - unfold goto in Hstep. simplify_eq. cbn. lia.
  - destruct (call_key c), (call_ptr c); try done. apply Hds in Hstep as [[-> _]| ->]; cbn; lia.
  - unfold goto in Hstep. simplify_eq. cbn. lia.
  - unfold goto in Hstep. simplify_eq. unfold finish. case_decide; cbn; lia.
  - destruct o, lab; unfold goto in Hstep; simplify_eq; cbn; try lia.
    unfold w_load. cbn. destruct Hp as [Hf _]. destruct (s_ent s n); try lia.
    destruct c; cbn in *; try done; lia.
  - unfold goto in Hstep. simplify_eq. cbn. lia.
  - unfold goto in Hstep. simplify_eq. cbn. lia.
  - unfold goto in Hstep. simplify_eq. cbn. lia.
  - unfold goto in Hstep. simplify_eq. cbn. lia.
  - pose proof (w_load_ge c e m0 s) as Hge. cbn [weight].
    assert (Hfin : forall r, weight c (after c m0 r) s < w_load c e m0 s) by (intros r; pose proof (w_after c m0 r s); lia).
    assert (Hpan : weight c (after_panic m0) s < w_load c e m0 s) by (pose proof (w_after_panic c m0 s); lia).
    assert (Hcas : forall x, s_ent s e = x -> weight c (E_cas e x m0) s < w_load c e m0 s).
    { intros x Hx. cbn. rewrite decide_True by done. lia. }
    assert (Hlk : m0 = Fast -> stores c = true -> s_ent s e = SExp -> weight c P_lock s < w_load c e m0 s).
    { intros -> Hs He. cbn. unfold w_load. rewrite He, Hs. lia. }
    unfold step_load, goto in Hstep. destruct Hp as (_ & _ & Hmo).
    destruct c; try done; repeat case_match; simplify_eq; eauto.
    + apply Hlk; [|done..]. destruct m0; [done|by destruct Hmo..].
    + apply Hlk; [|done..]. destruct m0; [done|by destruct Hmo..].
  - unfold goto in Hstep. cbn. case_decide; simplify_eq; [|cbn; lia]. pose proof (w_after c m0 (cas_result deref c (s_ent s e)) (set_ent e (cas_new c) s)). lia.
  - unfold goto in Hstep. simplify_eq. cbn. lia.
  - destruct lab as [|kl|b]; [case_decide; [|done]|destruct (todo !! kl) as [e|] eqn:Ek; [|done]|done];
      unfold goto in Hstep; simplify_eq; cbn.
    + lia.
    + pose proof (map_size_delete_Some kl todo (mk_is_Some _ _ Ek)). assert (size todo <> 0) by (intros E; apply map_size_empty_inv in E; by subst todo). lia.
  - unfold goto in Hstep. destruct (slot_val (s_ent s e)); simplify_eq; cbn; lia.
  - destruct lab as [|kl|b]; [by destruct c|by destruct c|]. destruct c, b; simplify_eq; cbn; lia.
  - unfold goto in Hstep. simplify_eq. cbn. lia.
  - done.
Qed.

Lemma step_lock t c p s lab op s' ev :
  step deref zero veq t c p s lab = Some (op, s', ev) ->
  s_lock s = None \/ s_lock s = Some t -> s_lock s' = None \/ s_lock s' = Some t.
Proof.
  intros Hstep Hl.
  destruct p as [| | | | | | | | | | | | |[]| | | | | | | | | | | | ], lab; cbn in Hstep; try done;
    unfold step_read, step_read2, step_dirty, step_load, add_key, dirty_store, goto in Hstep;
    repeat (case_match || case_decide); simplify_eq; cbn; auto; try (unfold missLocked, promote; case_decide; cbn; auto).
Qed.

(** ** Executions *)
Local Notation run := (run deref zero veq).
Local Notation act := (act deref zero veq).
Local Notation config := (config K V).

Lemma run_reach (acts : list (action K V)) (cf : config) tr :
  Inhabited K -> run new_config acts = Some (cf, tr) -> good (c_sh cf) (c_thr cf) tr.
Proof. intros HK Hr. eapply run_good in Hr; [|by apply new_good]. done. Qed.

Lemma act_step (cf : config) t c p lab :
  c_thr cf !! t = Some (c, p) -> is_Some (step deref zero veq t c p (c_sh cf) lab) ->
  is_Some (act cf (AStep t lab)).
Proof. intros Ht [[[op s'] ev] Hs]. cbn. rewrite Ht, Hs. destruct op; eauto. Qed.

Lemma is_lock p : p = P_lock \/ p <> P_lock.
Proof. destruct p; first [by left|right; discriminate]. Qed.

(** A goroutine inside a call can go on, or it waits for the mutex and the goroutine that holds it
    can go on. *)
Lemma good_goes_on (cf : config) tr t :
  good (c_sh cf) (c_thr cf) tr -> is_Some (c_thr cf !! t) ->
  (exists lab, is_Some (act cf (AStep t lab))) \/
  (exists u lab, u <> t /\ s_lock (c_sh cf) = Some u /\ is_Some (act cf (AStep u lab))).
Proof.
  intros (h & kof & m & Hc & _) [[c p] Ht].
  assert (Hgo : (p = P_lock -> s_lock (c_sh cf) = None) -> exists lab, is_Some (act cf (AStep t lab))).
  { intros Hl. destruct (can_step _ _ _ _ _ _ _ _ Hc Ht Hl) as [lab Hlab]. exists lab. by eapply act_step. }
  destruct (s_lock (c_sh cf)) as [u|] eqn:Hl; [|left; by apply Hgo].
  destruct (is_lock p) as [->|Hne]; [right|left; by apply Hgo].
  destruct (i_lock2 _ _ _ _ _ _ _ Hc _ Hl) as [[cu pu] Hu].
  pose proof (i_lock _ _ _ _ _ _ _ Hc _ _ _ Hu) as Hlk.
  assert (Hpu : pu <> P_lock). { intros ->. destruct Hlk as [_ Hlk]. by specialize (Hlk Hl). }
  destruct (can_step _ _ _ _ _ _ _ _ Hc Hu) as [lab Hlab]; [done|].
  exists u, lab. split; [|split; [done|by eapply act_step]].
  intros ->. rewrite Ht in Hu. by simplify_eq.
Qed.

(** A goroutine left alone, with the mutex free or its own, finishes its call: there is a bound on
    the number of its steps, and until the call has returned it can make another one. *)
Lemma good_finishes (labs : list (label K)) (cf cf' : config) tr t c p ev :
  good (c_sh cf) (c_thr cf) tr -> c_thr cf !! t = Some (c, p) ->
  s_lock (c_sh cf) = None \/ s_lock (c_sh cf) = Some t ->
  run cf (AStep t <$> labs) = Some (cf', ev) ->
  length labs <= weight c p (c_sh cf) /\
  (c_thr cf' !! t = None \/ exists lab, is_Some (act cf' (AStep t lab))).
Proof.
  revert cf tr p ev. induction labs as [|lab labs IH]; intros cf tr p ev Hg Ht Hl Hr.
  - cbn in Hr. injection Hr as <- <-. split; [cbn; lia|]. right.
    destruct (good_goes_on _ _ _ Hg (mk_is_Some _ _ Ht)) as [?|(u & lab & Hne & Hu & _)]; [done|].
    destruct Hl; congruence.
  - rewrite fmap_cons in Hr. cbn [RwMapModel.run] in Hr.
    destruct (act cf (AStep t lab)) as [[cf1 ev1]|] eqn:Ha; [|done].
    destruct (run cf1 (AStep t <$> labs)) as [[cf2 evs]|] eqn:Hr1; [|done]. injection Hr as -> <-.
    pose proof (act_good _ _ _ _ _ _ _ _ Hg Ha) as Hg1.
    cbn in Ha. rewrite Ht in Ha.
    destruct (step deref zero veq t c p (c_sh cf) lab) as [[[[p'|] s'] ev']|] eqn:Hs; [| |done]; injection Ha as <- <-.
    + destruct Hg as (h & kof & m & Hc & _). pose proof (weight_step _ _ _ _ _ _ _ _ _ _ _ _ Hc Ht Hs) as Hw.
      assert (Hl' : s_lock s' = None \/ s_lock s' = Some t) by (eapply step_lock; done).
      assert (Ht' : <[t := (c, p')]> (c_thr cf) !! t = Some (c, p')) by apply lookup_insert.
      destruct (IH _ _ p' evs Hg1 Ht' Hl' Hr1) as [Hlen Hfin].
      cbn in Hlen |- *. split; [lia|done].
    + destruct labs as [|lab2 labs].
      * cbn in Hr1. injection Hr1 as <- <-. cbn. rewrite lookup_delete. split; [|by left].
        pose proof (weight_pos c p (c_sh cf)). lia.
      * rewrite fmap_cons in Hr1. cbn in Hr1. by rewrite lookup_delete in Hr1.
Qed.

End progress.
