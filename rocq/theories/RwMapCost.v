(** Proofs about the cost of executions of rwmap. *)
From Coq Require Import ZifyBool ZifyNat.
From Verif Require Import Base RwMapModel RwMapCostSpec.

(** The sum of [f] over the entries of a map. *)
Definition sumf {A} (f : A -> nat) (m : gmap nat A) : nat := map_fold (fun _ x z => f x + z) 0 m.
Lemma sumf_empty {A} (f : A -> nat) : sumf f ∅ = 0.
Proof. apply map_fold_empty. Qed.
Lemma sumf_insert {A} (f : A -> nat) i x m : m !! i = None -> sumf f (<[i := x]> m) = f x + sumf f m.
Proof. intros Hi. unfold sumf. rewrite map_fold_insert_L; [done| |done]. intros. lia. Qed.
Lemma sumf_delete {A} (f : A -> nat) i x m : m !! i = Some x -> sumf f m = f x + sumf f (delete i m).
Proof. intros Hi. rewrite <- (insert_delete m i x) at 1 by done. apply sumf_insert, lookup_delete. Qed.
Lemma sumf_update {A} (f : A -> nat) i x y m : m !! i = Some x -> sumf f (<[i := y]> m) + f x = f y + sumf f m.
Proof.
  intros Hi. rewrite <- insert_delete_insert, sumf_insert by apply lookup_delete.
  rewrite (sumf_delete f i x m Hi). lia.
Qed.

Section cost.
Context {K : Type} `{Countable K} {V : Type}.
Context (deref : nat -> V) (zero : V) (veq : V -> V -> option bool).
Local Notation act := (act deref zero veq).
Local Notation run := (run deref zero veq).
Local Notation step := (step deref zero veq).
Local Notation total := (total deref zero veq).
Implicit Types (cf : config K V) (s : shared K) (c : call K V) (p : pc K V).

(** How many entries dirtyLocked may still copy because of past misses. *)
Definition pot s : nat :=
  match s_dirty s with Some _ => s_misses s | None => size (s_rd s) + s_misses s end.

Lemma pot_miss s : pot (missLocked s) <= pot s + 1.
Proof.
  unfold missLocked, pot, promote, dirty_map. destruct (s_dirty s) as [d|] eqn:Ed; case_decide; cbn; rewrite ?Ed; try lia.
Qed.
Lemma pot_prom s : pot (promote s) = size (dirty_map s).
Proof. unfold pot, promote, dirty_map. cbn. lia. Qed.
Lemma pot_lock l s : pot (set_lock l s) = pot s.
Proof. done. Qed.
Lemma pot_ent e x s : pot (set_ent e x s) = pot s.
Proof. done. Qed.
Lemma pot_len n s : pot (set_len n s) = pot s.
Proof. done. Qed.

(** The calls that look a key up and do not add it. *)
Definition looks c : bool :=
  match c with CLoad _ | CLoadAndDelete _ | CDelete _ | CCad _ _ => true | _ => false end.
(** A bound on the steps that a call still takes, apart from failing compare-and-swaps. *)
Definition rank (c : call K V) (p : pc K V) : nat :=
  match p with
  | X_ret _ => 1
  | P_len _ _ | P_getlen => 2
  | P_un _ => 3
  | P_miss _ => 7
  | P_swap _ | P_clr2 | P_new => 4
  | P_clr | P_amend => 5
  | P_dl todo => 6 + 3 * size todo
  | P_dlx _ _ todo => 8 + 3 * size todo
  | P_dlc _ _ todo => 7 + 3 * size todo
  | R_next todo _ => 2 + 3 * size todo
  | R_load _ _ todo _ => 4 + 3 * size todo
  | R_call _ _ todo _ => 3 + 3 * size todo
  | P_unr m => 3 + 3 * size m
  | P_prom => 4
  | E_cas _ _ m =>
      match c, m with
      | (CStore _ _ | CSwap _ _), _ | CLoadOrStore _ _, Fast | CCas _ _ _, Fast => 13
      | _, Fast => 3
      | _, _ => 8
      end
  | E_load _ m =>
      match c, m with
      | (CStore _ _ | CSwap _ _), _ | CLoadOrStore _ _, Fast | CCas _ _ _, Fast => 14
      | _, Fast => 4
      | _, _ => 9
      end
  | P_une _ => if looks c then 5 else 15
  | P_unexp _ | P_dirty => 10
  | P_read2 => 11
  | P_lock => 12
  | P_read => 15
  end.
(** Whether the call may still count a miss. *)
Definition mrank (c : call K V) (p : pc K V) : nat :=
  match p with
  | P_une _ | E_load _ Fast | E_cas _ _ Fast => if looks c then 0 else 1
  | P_read | P_lock | P_read2 | P_dirty | P_unexp _ | P_miss _ | E_load _ _ | E_cas _ _ _ => 1
  | P_dl todo | P_dlx _ _ todo | P_dlc _ _ todo => size todo
  | _ => 0
  end.

Definition orank (f : call K V -> pc K V -> nat) c (o : option (pc K V)) : nat :=
  match o with Some p => f c p | None => 0 end.

Lemma size_del k e (m : gmap K nat) : m !! k = Some e -> size m = S (size (delete k m)).
Proof.
  intros Hk. rewrite <- (insert_delete m k e) at 1 by done. by rewrite map_size_insert_None by apply lookup_delete.
Qed.

Lemma size_todo (todo : gmap K nat) k e : todo !! k = Some e -> size todo = S (size (delete k todo)).
Proof. apply size_del. Qed.

Ltac fin :=
  repeat match goal with
  | H : Some _ = Some _ |- _ => injection H as <- <- <-
  | H : None = Some _ |- _ => discriminate H
  | H : goto _ _ = Some _ |- _ => unfold goto in H
  end.

Lemma rank_finish c r : rank c (finish c r) <= 2.
Proof. unfold finish. case_decide; cbn; lia. Qed.
Lemma mrank_finish c r : mrank c (finish c r) = 0.
Proof. unfold finish. by case_decide. Qed.
Lemma rank_after c m r : rank c (after c m r) <= match m with Fast => 2 | _ => 7 end.
Proof. destruct m; cbn; [apply rank_finish|lia|lia]. Qed.
Lemma mrank_after c m r : mrank c (after c m r) <= match m with LckMiss => 1 | _ => 0 end.
Proof. destruct m; cbn; [by rewrite mrank_finish|lia|lia]. Qed.

Lemma add_key_cost s o s' ev c :
  add_key s = Some (o, s', ev) ->
  orank rank c o + 3 * pot s' + 1 <= 10 + 3 * pot s /\ orank mrank c o + pot s' <= pot s.
Proof.
  unfold add_key, goto. intros Hs. destruct (s_am s); fin; cbn [orank rank mrank]; [lia|].
  destruct (s_dirty s) eqn:Ed; fin; cbn [orank rank mrank]; [lia|].
  unfold pot. rewrite Ed. cbn. lia.
Qed.

Lemma step_cost cf t c p lab o s' ev :
  c_thr cf !! t = Some (c, p) -> step t c p (c_sh cf) lab = Some (o, s', ev) ->
  orank rank c o + 3 * pot s' + 1 <=
    rank c p + 3 * pot (c_sh cf) + 6 * ranged cf (AStep t lab) + 2 * cas_fails cf (AStep t lab) /\
  orank mrank c o + pot s' + is_copy cf (AStep t lab) <= mrank c p + pot (c_sh cf) + ranged cf (AStep t lab).
Proof.
  intros Ht Hs. unfold ranged, cas_fails, is_copy. rewrite !Ht. set (s := c_sh cf) in *. clearbody s.
  assert (Hdel : forall k, pot (missLocked (set_dirty (delete k <$> s_dirty s) s)) <= pot s + 1).
  { intros k. etrans; [apply pot_miss|]. unfold pot. cbn. destruct (s_dirty s); cbn; lia. }
  pose proof (pot_miss s) as Hm.
  destruct p, lab; cbn [RwMapModel.step] in Hs; fin.
  all: try (match goal with o : option nat |- _ => by destruct o end).
  - (* P_read *) unfold step_read, goto in Hs. clear Hdel Hm.
    destruct c; repeat case_match; fin; cbn [orank rank mrank looks]; lia.
  - (* P_lock *) destruct (s_lock s); fin. cbn [orank rank mrank]. rewrite pot_lock. destruct c; lia.
  - (* P_read2 *) unfold step_read2, goto in Hs. clear Hdel Hm.
    destruct c; repeat case_match; fin; cbn [orank rank mrank looks]; lia.
  - (* P_dirty *) unfold step_dirty in Hs.
    destruct c as [k|k q|k q|k q|k|k|k old q|k old| | | |]; fin; try (specialize (Hdel k)); cbn [looks orank rank mrank] in *; try lia.
    + destruct (dirty_map s !! k); fin; [cbn [orank rank mrank]; lia|].
      destruct (add_key_cost _ _ _ _ (CStore k q) Hs). lia.
    + destruct (dirty_map s !! k); fin; [cbn [orank rank mrank]; lia|].
      destruct (add_key_cost _ _ _ _ (CSwap k q) Hs). lia.
    + destruct (dirty_map s !! k); fin; [cbn [orank rank mrank]; lia|].
      destruct (add_key_cost _ _ _ _ (CLoadOrStore k q) Hs). lia.
    + destruct (dirty_map s !! k); fin; cbn [orank rank mrank]; lia.
  - (* P_unexp *) clear Hdel Hm. unfold dirty_store, goto in Hs.
    assert (forall d, s_dirty s = Some d -> forall k, pot (set_dirty (Some (<[k := e]> d)) s) = pot s) as Hd.
    { intros d Hd k. unfold pot. cbn. by rewrite Hd. }
    destruct (s_ent s e); fin; try (destruct c; fin; cbn [orank rank mrank looks]; lia).
    destruct (call_key c) as [k|]; fin; [|destruct c; fin; cbn [orank rank mrank looks]; lia].
    destruct (s_dirty (set_ent e SNil s)) as [d|] eqn:Ed; fin; [|cbn [orank rank mrank]; rewrite pot_ent; lia].
    cbn in Ed. change (pot (set_dirty (Some (<[k:=e]> d)) (set_ent e SNil s))) with (pot (set_dirty (Some (<[k := e]> d)) s)).
    rewrite (Hd d Ed k). destruct c; cbn [orank rank mrank looks]; lia.
  - (* P_swap *) clear Hdel Hm. destruct (s_ent s e), (call_ptr c); fin; cbn [orank rank mrank]; rewrite ?pot_ent; lia.
  - (* P_dl *) case_decide; fin. cbn [orank rank mrank]. destruct c; lia.
  - destruct (todo !! k) as [e|] eqn:Ek; fin. pose proof (size_del _ _ _ Ek). cbn [orank rank mrank]. destruct c; lia.
  - (* P_dlx *) clear Hdel Hm. destruct (s_ent s e); fin; cbn [orank rank mrank]; [destruct c; lia|destruct c; lia|].
    unfold dirty_store, goto in Hs. destruct (s_dirty s) as [d|] eqn:Ed; fin; cbn [orank rank mrank]; [|destruct c; lia].
    assert (pot (set_dirty (Some (<[k:=e]> d)) s) = pot s) as -> by (unfold pot; cbn; by rewrite Ed). destruct c; lia.
  - (* P_dlc *) clear Hdel Hm. destruct (s_ent s e); fin; cbn [orank rank mrank]; rewrite ?pot_ent; case_decide; try done; destruct c; lia.
  - (* P_amend *) cbn [orank rank mrank]. change (pot (set_read (s_rd s) true s)) with (pot s). destruct c; lia.
  - (* P_new *) clear Hdel Hm. destruct (call_key c) as [k|], (call_ptr c) as [q|]; fin.
    unfold dirty_store, goto in Hs. destruct (s_dirty (new_entry q s)) as [d|] eqn:Ed; fin; cbn [orank rank mrank].
    + assert (pot (set_dirty (Some (<[k:=s_next s]> d)) (new_entry q s)) = pot s) as ->.
      { unfold pot. cbn. cbn in Ed. by rewrite Ed. }
      destruct c; lia.
    + change (pot (new_entry q s)) with (pot s). destruct c; lia.
  - (* P_miss *) cbn [orank rank mrank]. destruct c; lia.
  - (* P_un *) cbn [orank]. pose proof (rank_finish c r). rewrite mrank_finish, pot_lock. cbn [rank mrank]. destruct c; lia.
  - (* P_une *) clear Hdel Hm. destruct o0 as [e|]; fin; cbn [orank rank mrank]; rewrite pot_lock; destruct c; cbn [looks]; lia.
  - (* P_prom *) cbn [orank rank mrank]. rewrite pot_prom. unfold dirty_map. destruct (s_dirty s); rewrite ?map_size_empty; destruct c; lia.
  - (* P_unr *) cbn [orank rank mrank]. rewrite pot_lock. destruct c; lia.
  - (* P_clr *) cbn [orank rank mrank]. assert (pot (set_read ∅ false s) <= pot s).
    { unfold pot. cbn. destruct (s_dirty s); rewrite ?map_size_empty; lia. }
    destruct c; lia.
  - (* P_clr2 *) cbn [orank rank mrank].
    match goal with |- context [pot ?x] => assert (pot x <= pot s) end.
    { unfold pot. cbn. destruct (s_dirty s); cbn; lia. }
    destruct c; lia.
  - (* E_load *) clear Hdel Hm. unfold step_load, goto in Hs.
    pose proof (fun r => rank_after c m r) as Ha. pose proof (fun r => mrank_after c m r) as Hb.
    assert (Hp : forall c, rank c (after_panic m) <= match m with Fast => 1 | _ => 3 end /\ mrank c (after_panic m) = 0).
    { intros c0. destruct m; cbn; lia. }
    destruct c as [k|k q|k q|k q|k|k|k old q|k old| | | |]; fin; cbn [orank looks].
    + specialize (Ha (RVal (slot_val deref (s_ent s e)))). specialize (Hb (RVal (slot_val deref (s_ent s e)))).
      cbn [rank mrank looks]. destruct m; lia.
    + destruct (s_ent s e); fin; cbn [orank rank mrank looks]; destruct m; lia.
    + destruct (s_ent s e); fin; cbn [orank rank mrank looks]; destruct m; lia.
    + destruct (s_ent s e) as [| |q'].
      * fin; cbn [orank rank mrank looks]; destruct m; lia.
      * specialize (Ha (RLos zero false)). specialize (Hb (RLos zero false)).
        destruct m; fin; cbn [orank] in *; cbn [rank mrank looks] in *; lia.
      * fin. specialize (Ha (RLos (deref q') true)). specialize (Hb (RLos (deref q') true)).
        cbn [orank]. cbn [rank mrank looks]. destruct m; lia.
    + specialize (Ha (RVal None)). specialize (Hb (RVal None)).
      destruct (s_ent s e); fin; cbn [orank]; try (cbn [rank mrank looks]; destruct m; lia).
    + specialize (Ha (RVal None)). specialize (Hb (RVal None)).
      destruct (s_ent s e); fin; cbn [orank]; try (cbn [rank mrank looks]; destruct m; lia).
    + specialize (Ha (RBool false)). specialize (Hb (RBool false)). destruct (Hp (CCas k old q)).
      destruct (s_ent s e) as [| |q']; fin; [| |destruct (veq (deref q') old) as [[]|]; fin]; cbn [orank]; cbn [rank mrank looks]; destruct m; lia.
    + specialize (Ha (RBool false)). specialize (Hb (RBool false)). destruct (Hp (CCad k old)).
      destruct (s_ent s e) as [| |q']; fin; [| |destruct (veq (deref q') old) as [[]|]; fin]; cbn [orank]; cbn [rank mrank looks]; destruct m; lia.
  - (* E_cas *) clear Hdel Hm.
    destruct (decide (s_ent s e = x)); fin; cbn [orank rank mrank looks].
    + pose proof (rank_after c m (cas_result deref c x)) as Ha. pose proof (mrank_after c m (cas_result deref c x)) as Hb.
      rewrite pot_ent. destruct c, m; cbn [looks]; lia.
    + destruct c, m; cbn [looks]; lia.
  - (* P_len *) cbn [orank rank mrank]. rewrite pot_len. destruct c; lia.
  - (* R_next *) case_decide; fin. cbn [orank rank mrank]. destruct c; lia.
  - destruct (todo !! k) as [e|] eqn:Ek; fin. pose proof (size_del _ _ _ Ek). cbn [orank rank mrank]. destruct c; lia.
  - (* R_load *) destruct (slot_val deref (s_ent s e)); fin; cbn [orank rank mrank]; destruct c; lia.
  - (* R_call *) destruct c, b; fin; cbn [orank rank mrank]; lia.
  - (* P_getlen *) cbn [orank rank mrank]. destruct c; lia.
  - (* X_ret *) cbn [orank rank mrank]. destruct c; lia.
Qed.

Definition ranks (f : call K V -> pc K V -> nat) cf : nat := sumf (fun x => f x.1 x.2) (c_thr cf).

Lemma act_cost cf a cf' ev :
  act cf a = Some (cf', ev) ->
  ranks rank cf' + 3 * pot (c_sh cf') + is_step cf a <=
    ranks rank cf + 3 * pot (c_sh cf) + 15 * is_call cf a + 6 * ranged cf a + 2 * cas_fails cf a /\
  ranks mrank cf' + pot (c_sh cf') + is_copy cf a <=
    ranks mrank cf + pot (c_sh cf) + is_call cf a + ranged cf a.
Proof.
  intros Ha. destruct a as [t c|t lab]; cbn [RwMapModel.act] in Ha.
  - destruct (c_thr cf !! t) eqn:Et; [done|]. injection Ha as <- <-. unfold ranks. cbn [c_thr c_sh].
    rewrite !sumf_insert by done. cbn. destruct c; cbn; lia.
  - destruct (c_thr cf !! t) as [[c p]|] eqn:Et; [|done].
    destruct (step t c p (c_sh cf) lab) as [[[o s'] ev']|] eqn:Es; [|done].
    destruct (step_cost _ _ _ _ _ _ _ _ Et Es) as [H1 H2].
    assert (Hr : forall f, ranks f cf' + f c p = ranks f cf + orank f c o).
    { intros f. unfold ranks. destruct o as [p'|]; injection Ha as <- <-; cbn [c_thr orank].
      - pose proof (sumf_update (fun x => f x.1 x.2) t (c, p) (c, p') _ Et) as Hu. cbn in Hu. lia.
      - rewrite (sumf_delete _ t (c, p) (c_thr cf) Et). cbn. lia. }
    assert (c_sh cf' = s') as ->. { destruct o; by injection Ha as <- <-. }
    pose proof (Hr rank). pose proof (Hr mrank). cbn [is_step is_call]. lia.
Qed.

Lemma run_cost acts cf cf' tr :
  run cf acts = Some (cf', tr) ->
  ranks rank cf' + 3 * pot (c_sh cf') + total is_step cf acts <=
    ranks rank cf + 3 * pot (c_sh cf) + 15 * total is_call cf acts + 6 * total ranged cf acts + 2 * total cas_fails cf acts /\
  ranks mrank cf' + pot (c_sh cf') + total is_copy cf acts <=
    ranks mrank cf + pot (c_sh cf) + total is_call cf acts + total ranged cf acts.
Proof.
  revert cf tr. induction acts as [|a acts IH]; intros cf tr; cbn [RwMapModel.run RwMapCostSpec.total].
  { intros [= <- <-]. lia. }
  destruct (act cf a) as [[cf1 ev]|] eqn:Ea; [|done].
  destruct (run cf1 acts) as [[cf2 evs]|] eqn:Er; [|done]. intros [= <- <-].
  destruct (act_cost _ _ _ _ Ea). destruct (IH _ _ Er). lia.
Qed.

Lemma new_cost : ranks rank (new_config (K := K) (V := V)) + ranks mrank (new_config (K := K) (V := V)) + pot new_shared = 0.
Proof. unfold ranks. cbn. rewrite !sumf_empty. unfold pot. cbn. by rewrite map_size_empty. Qed.

(** ** One call at a time *)
(** Nobody interferes between loading a pointer and the compare-and-swap. *)
Definition calm cf : Prop :=
  c_thr cf = ∅ \/
  exists t c p, c_thr cf = {[t := (c, p)]} /\
    match p with
    | E_cas e x _ => s_ent (c_sh cf) e = x
    | P_dlc _ e _ => s_ent (c_sh cf) e = SNil
    | _ => True
    end.

Lemma step_calm t c p s lab p' s' ev :
  step t c p s lab = Some (Some p', s', ev) ->
  match p with E_cas e x _ => s_ent s e = x | P_dlc _ e _ => s_ent s e = SNil | _ => True end ->
  match p' with E_cas e x _ => s_ent s' e = x | P_dlc _ e _ => s_ent s' e = SNil | _ => True end.
Proof.
  assert (Hf : forall c r, match finish c r with E_cas _ _ _ | P_dlc _ _ _ => False | _ => True end).
  { intros c0 r. unfold finish. by case_decide. }
  assert (Haf : forall c m r, match after c m r with E_cas _ _ _ | P_dlc _ _ _ => False | _ => True end).
  { intros c0 m r. destruct m; try done. apply Hf. }
  intros Hs Hp. destruct p, lab; cbn [RwMapModel.step] in Hs; try done.
  - unfold step_read, goto in Hs. destruct c; repeat case_match; simplify_eq; done.
  - unfold goto in Hs. destruct (s_lock s); by simplify_eq.
  - unfold step_read2, goto in Hs. destruct c; repeat case_match; simplify_eq; done.
  - unfold step_dirty, add_key, goto in Hs. destruct c; try done; try (by simplify_eq);
      (destruct (dirty_map s !! k); [by simplify_eq|]); try (by simplify_eq);
      (destruct (s_am s); [by simplify_eq|]); destruct (s_dirty s); by simplify_eq.
  - unfold dirty_store, goto in Hs. destruct (s_ent s e), (call_key c), (s_dirty (set_ent e SNil s)), c; by simplify_eq.
  - unfold goto in Hs. destruct (s_ent s e), (call_ptr c); by simplify_eq.
  - unfold goto in Hs. case_decide; by simplify_eq.
  - unfold goto in Hs. destruct (todo !! k); by simplify_eq.
  - unfold dirty_store, goto in Hs. destruct (s_ent s e) eqn:Ee; [by simplify_eq|by simplify_eq|]. destruct (s_dirty s); by simplify_eq.
  - unfold goto in Hs. rewrite Hp in Hs. by simplify_eq.
  - unfold goto in Hs. by simplify_eq.
  - unfold dirty_store, goto in Hs. destruct (call_key c), (call_ptr c) as [q|]; try done.
    destruct (s_dirty (new_entry q s)); by simplify_eq.
  - unfold goto in Hs. by simplify_eq.
  - unfold goto in Hs. injection Hs as <- <- <-. specialize (Hf c r). by destruct (finish c r).
  - unfold goto in Hs. destruct o; by simplify_eq.
  - destruct o; done.
  - destruct o; done.
  - unfold goto in Hs. by simplify_eq.
  - unfold goto in Hs. by simplify_eq.
  - unfold goto in Hs. by simplify_eq.
  - unfold goto in Hs. by simplify_eq.
  - unfold step_load, goto in Hs.
    assert (Hpa : match after_panic (K := K) (V := V) m with E_cas _ _ _ | P_dlc _ _ _ => False | _ => True end) by (by destruct m).
    assert (forall r, Some (Some (after c m r), s, @nil (event K V)) = Some (Some p', s', ev) ->
      match p' with E_cas e x _ => s_ent s' e = x | P_dlc _ e _ => s_ent s' e = SNil | _ => True end) as Hq.
    { intros r Hr. injection Hr as <- <- <-. specialize (Haf c m r). by destruct (after c m r). }
    destruct c; try done; try (by eapply Hq).
    + destruct (s_ent s e) eqn:Ee; by simplify_eq.
    + destruct (s_ent s e) eqn:Ee; by simplify_eq.
    + destruct (s_ent s e) eqn:Ee; [by simplify_eq|destruct m; first [by simplify_eq|by eapply Hq]|by eapply Hq].
    + destruct (s_ent s e) eqn:Ee; [by eapply Hq|by eapply Hq|by simplify_eq].
    + destruct (s_ent s e) eqn:Ee; [by eapply Hq|by eapply Hq|by simplify_eq].
    + destruct (s_ent s e) as [| |q'] eqn:Ee; [by eapply Hq|by eapply Hq|].
      destruct (veq (deref q') old) as [[]|]; [by simplify_eq|by eapply Hq|]. injection Hs as <- <- <-. by destruct (after_panic m).
    + destruct (s_ent s e) as [| |q'] eqn:Ee; [by eapply Hq|by eapply Hq|].
      destruct (veq (deref q') old) as [[]|]; [by simplify_eq|by eapply Hq|]. injection Hs as <- <- <-. by destruct (after_panic m).
  - unfold goto in Hs. rewrite decide_True in Hs by done. injection Hs as <- <- <-.
    specialize (Haf c m (cas_result deref c x)). by destruct (after c m _).
  - unfold goto in Hs. by simplify_eq.
  - unfold goto in Hs. case_decide; by simplify_eq.
  - unfold goto in Hs. destruct (todo !! k); by simplify_eq.
  - unfold goto in Hs. destruct (slot_val deref (s_ent s e)); by simplify_eq.
  - destruct c, b; by simplify_eq.
  - unfold goto in Hs. by simplify_eq.
Qed.

Lemma act_calm cf a cf' ev :
  calm cf -> act cf a = Some (cf', ev) -> match a with AInv _ _ => c_thr cf = ∅ | AStep _ _ => True end ->
  calm cf' /\ cas_fails cf a = 0.
Proof.
  intros Hc Ha Ho. destruct a as [t c|t lab]; cbn [RwMapModel.act] in Ha.
  - rewrite Ho, lookup_empty in Ha. injection Ha as <- <-. split; [|done]. right. exists t, c, (enter c).
    split; [done|]. by destruct c.
  - destruct Hc as [Hc|(t1 & c & p & Hc & Hp)]; [by rewrite Hc, lookup_empty in Ha|].
    destruct (c_thr cf !! t) as [[c1 p1]|] eqn:Et; [|done].
    assert (t1 = t /\ c1 = c /\ p1 = p) as (-> & -> & ->).
    { rewrite Hc in Et. apply lookup_singleton_Some in Et as [-> ?]. by simplify_eq. }
    split.
    + destruct (step t c p (c_sh cf) lab) as [[[[p'|] s'] ev']|] eqn:Es; [| |done]; injection Ha as <- <-.
      * right. exists t, c, p'. split; [cbn; by rewrite Hc, insert_singleton|]. by eapply step_calm.
      * left. cbn. by rewrite Hc, delete_singleton.
    + unfold cas_fails. destruct lab; [|done|done]. rewrite Et. destruct p; try done; by rewrite decide_True.
Qed.

Lemma run_calm acts cf cf' tr :
  calm cf -> run cf acts = Some (cf', tr) -> one_at_a_time deref zero veq cf acts -> total cas_fails cf acts = 0.
Proof.
  revert cf tr. induction acts as [|a acts IH]; intros cf tr Hc; cbn [RwMapModel.run RwMapCostSpec.total one_at_a_time]; [done|].
  destruct (act cf a) as [[cf1 ev]|] eqn:Ea; [|done].
  destruct (run cf1 acts) as [[cf2 evs]|] eqn:Er; [|done]. intros [= -> <-] [H1 H2].
  destruct (act_calm _ _ _ _ Hc Ea H1) as [Hc1 ->]. eapply IH; [exact Hc1|exact Er|exact H2].
Qed.

(** ** Without Range *)
Definition rangeless cf : Prop :=
  forall t c p, c_thr cf !! t = Some (c, p) -> c <> CRange /\ c <> CSlowLen /\ p <> P_prom.

Lemma step_rangeless t c p s lab p' s' ev :
  step t c p s lab = Some (Some p', s', ev) -> c <> CRange /\ c <> CSlowLen -> p' <> P_prom.
Proof.
  assert (Hf : forall c r, finish (K := K) (V := V) c r <> P_prom).
  { intros c0 r. unfold finish. by case_decide. }
  assert (Haf : forall c m r, after (K := K) (V := V) c m r <> P_prom).
  { intros c0 m r. destruct m; try done. apply Hf. }
  intros Hs [H1 H2] ->. destruct p, lab; cbn [RwMapModel.step] in Hs; try done.
  - unfold step_read, goto in Hs. destruct c; repeat case_match; simplify_eq.
  - unfold goto in Hs. destruct (s_lock s); by simplify_eq.
  - unfold step_read2, goto in Hs. destruct c; repeat case_match; simplify_eq; done.
  - unfold step_dirty, add_key, goto in Hs. destruct c; try done; try (by simplify_eq);
      (destruct (dirty_map s !! k); [by simplify_eq|]); try (by simplify_eq);
      (destruct (s_am s); [by simplify_eq|]); destruct (s_dirty s); by simplify_eq.
  - unfold dirty_store, goto in Hs. destruct (s_ent s e), (call_key c), (s_dirty (set_ent e SNil s)), c; by simplify_eq.
  - unfold goto in Hs. destruct (s_ent s e), (call_ptr c); by simplify_eq.
  - unfold goto in Hs. case_decide; by simplify_eq.
  - unfold goto in Hs. destruct (todo !! k); by simplify_eq.
  - unfold dirty_store, goto in Hs. destruct (s_ent s e) eqn:Ee; [by simplify_eq|by simplify_eq|]. destruct (s_dirty s); by simplify_eq.
  - unfold goto in Hs. destruct (s_ent s e); by simplify_eq.
  - unfold dirty_store, goto in Hs. destruct (call_key c), (call_ptr c) as [q|]; try done.
    destruct (s_dirty (new_entry q s)); by simplify_eq.
  - unfold goto in Hs. injection Hs as Hs _ _. by apply Hf in Hs.
  - unfold goto in Hs. destruct o; by simplify_eq.
  - by destruct o.
  - by destruct o.
  - unfold step_load, goto in Hs.
    assert (Hpa : after_panic (K := K) (V := V) m <> P_prom) by (by destruct m).
    destruct c; repeat case_match; try done; injection Hs as Hs _ _; try done; try (by apply Haf in Hs); by apply Hf in Hs.
  - unfold goto in Hs. case_decide; [|done]. injection Hs as Hs _ _. by apply Haf in Hs.
  - unfold goto in Hs. case_decide; by simplify_eq.
  - unfold goto in Hs. destruct (todo !! k); by simplify_eq.
  - unfold goto in Hs. destruct (slot_val deref (s_ent s e)); by simplify_eq.
  - destruct c, b; by simplify_eq.
Qed.

Lemma run_rangeless acts cf cf' tr :
  rangeless cf -> run cf acts = Some (cf', tr) -> no_ranges acts -> total ranged cf acts = 0.
Proof.
  revert cf tr. induction acts as [|a acts IH]; intros cf tr Hc; cbn [RwMapModel.run RwMapCostSpec.total]; [done|].
  destruct (act cf a) as [[cf1 ev]|] eqn:Ea; [|done].
  destruct (run cf1 acts) as [[cf2 evs]|] eqn:Er; [|done]. intros [= -> <-] Hn.
  rewrite (IH cf1 evs); [| |exact Er|intros t c Hi; apply (Hn t c); by right].
  - destruct a as [t c|t lab]; [done|]. unfold ranged. destruct lab; [|done|done].
    destruct (c_thr cf !! t) as [[c p]|] eqn:Et; [|done]. destruct (Hc _ _ _ Et) as (H1 & H2 & H3).
    destruct c, p; done.
  - destruct a as [t c|t lab]; cbn [RwMapModel.act] in Ea.
    + destruct (c_thr cf !! t); [done|]. injection Ea as <- <-. intros t1 c1 p1. cbn [c_thr].
      destruct (decide (t1 = t)) as [->|Hne].
      * rewrite lookup_insert. intros [= <- <-]. destruct (Hn t c) as [H1 H2]; [by left|]. split; [done|]. split; [done|]. by destruct c.
      * rewrite lookup_insert_ne by done. apply Hc.
    + destruct (c_thr cf !! t) as [[c p]|] eqn:Et; [|done]. destruct (Hc _ _ _ Et) as (H1 & H2 & H3).
      destruct (step t c p (c_sh cf) lab) as [[[[p'|] s'] ev']|] eqn:Es; [| |done]; injection Ea as <- <-; intros t1 c1 p1; cbn [c_thr].
      * destruct (decide (t1 = t)) as [->|Hne].
        -- rewrite lookup_insert. intros [= <- <-]. split; [done|]. split; [done|]. by eapply step_rangeless.
        -- rewrite lookup_insert_ne by done. apply Hc.
      * intros Hl. apply lookup_delete_Some in Hl as [_ Hl]. by eapply Hc.
Qed.
End cost.
