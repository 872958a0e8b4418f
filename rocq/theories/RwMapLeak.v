(** rwmap: with CompareAndDelete the map can grow without bound. *)
From Coq Require Import ZifyBool ZifyNat.
From Verif Require Import Base RwMapModel RwMapSpec RwMapInv RwMapLen RwMapMemSpec RwMapLetGoSpec.

Section leak.
Context (deref : nat -> nat) (zero : nat) (veq : nat -> nat -> option bool).
Local Notation config := (config nat nat).
Local Notation run := (run (K := nat) deref zero veq).
Local Notation step := (step (K := nat) deref zero veq).

Lemma run_step s c p p' s' ev acts cf tr :
  step 1 c p s LTick = Some (Some p', s', ev) -> run (mk_config s' {[1 := (c, p')]}) acts = Some (cf, tr) ->
  run (mk_config s {[1 := (c, p)]}) (AStep 1 LTick :: acts) = Some (cf, ev ++ tr).
Proof.
  intros Hs Hr. cbn [RwMapModel.run act c_thr c_sh]. rewrite lookup_singleton, Hs, insert_singleton, Hr. done.
Qed.
Lemma run_last s c p s' ev acts cf tr :
  step 1 c p s LTick = Some (None, s', ev) -> run (mk_config s' ∅) acts = Some (cf, tr) ->
  run (mk_config s {[1 := (c, p)]}) (AStep 1 LTick :: acts) = Some (cf, ev ++ tr).
Proof.
  intros Hs Hr. cbn [RwMapModel.run act c_thr c_sh]. rewrite lookup_singleton, Hs, delete_singleton, Hr. done.
Qed.
Lemma run_inv s c acts cf tr :
  run (mk_config s {[1 := (c, enter c)]}) acts = Some (cf, tr) ->
  run (mk_config s ∅) (AInv 1 c :: acts) = Some (cf, [EInv 1 c] ++ tr).
Proof.
  intros Hr. cbn [RwMapModel.run act c_thr c_sh]. rewrite lookup_empty, insert_empty, Hr. done.
Qed.

Fixpoint dmap (i : nat) : gmap nat nat :=
  match i with 0 => {[0 := 0]} | S j => <[S j := S j]> (dmap j) end.
Fixpoint ents (i : nat) : nat -> slot :=
  match i with
  | 0 => <[0 := SPtr 50]> (fun _ => SNil)
  | S j => <[S j := SNil]> (<[S j := SPtr 50]> (ents j))
  end.
Definition after_ (i : nat) : shared nat := mk_shared ∅ true (Some (dmap i)) (ents i) (S i) i 1 None.

Lemma dmap_lookup i k : dmap i !! k = if decide (k <= i) then Some k else None.
Proof.
  induction i as [|i IH]; cbn.
  - destruct k; [done|]. rewrite lookup_singleton_ne by lia. done.
  - destruct (decide (k = S i)) as [->|Hk]; [rewrite lookup_insert, decide_True by lia; done|].
    rewrite lookup_insert_ne, IH by lia. repeat case_decide; try done; lia.
Qed.
Lemma dmap_size i : size (dmap i) = S i.
Proof.
  induction i as [|i IH]; [done|]. cbn. rewrite map_size_insert_None, IH; [done|].
  rewrite dmap_lookup, decide_False by lia. done.
Qed.
Lemma ents_0 i : ents i 0 = SPtr 50.
Proof. induction i as [|i IH]; cbn; [done|]. rewrite !fn_lookup_insert_ne by lia. done. Qed.
Lemma ents_later i k : 1 <= k -> ents i k = SNil.
Proof.
  intros Hk. induction i as [|i IH]; cbn; [rewrite fn_lookup_insert_ne by lia; done|].
  destruct (decide (k = S i)) as [->|Hne]; [by rewrite fn_lookup_insert|]. by rewrite !fn_lookup_insert_ne by lia.
Qed.

Definition ticks_ (n : nat) : list (action nat nat) := replicate n (AStep 1 LTick).
Definition store_acts (k : nat) := AInv 1 (CStore k 50) :: ticks_ 8.
Definition cad_acts (k : nat) := AInv 1 (CCad k 50) :: ticks_ 9.

Section round.
Context (d : gmap nat nat) (f : nat -> slot) (k n m : nat) (l : Z).
Context (Hveq : veq (deref 50) 50 = Some true).

Lemma round_store acts cf tr : d !! k = None ->
  run (mk_config (mk_shared ∅ true (Some (<[k := n]> d)) (<[n := SPtr 50]> f) (S n) m (l + 1) None) ∅) acts = Some (cf, tr) ->
  run (mk_config (mk_shared ∅ true (Some d) f n m l None) ∅) (store_acts k ++ acts) =
    Some (cf, [EInv 1 (CStore k 50); ERet 1 RUnit] ++ tr).
Proof.
  intros Hd Hr. unfold store_acts, ticks_. cbn [app replicate].
  eapply (run_inv _ _ _ _ (ERet 1 RUnit :: tr)).
  eapply (run_step _ _ _ P_lock _ []); [reflexivity|].
  eapply (run_step _ _ _ P_read2 _ []); [reflexivity|].
  eapply (run_step _ _ _ P_dirty _ []); [reflexivity|].
  eapply (run_step _ _ _ P_new _ []).
  { cbn. unfold dirty_map. cbn. rewrite Hd. reflexivity. }
  eapply (run_step _ _ _ _ _ []); [reflexivity|].
  eapply (run_step _ _ _ _ _ []); [reflexivity|].
  eapply (run_step _ _ _ _ _ []); [reflexivity|].
  eapply (run_last _ _ _ _ [_]); [reflexivity|].
  exact Hr.
Qed.

Lemma round_cad acts cf tr : S m < size (<[k := n]> d) ->
  run (mk_config (mk_shared ∅ true (Some (<[k := n]> d)) (<[n := SNil]> (<[n := SPtr 50]> f)) (S n) (S m) (l + -1) None) ∅) acts = Some (cf, tr) ->
  run (mk_config (mk_shared ∅ true (Some (<[k := n]> d)) (<[n := SPtr 50]> f) (S n) m l None) ∅) (cad_acts k ++ acts) =
    Some (cf, [EInv 1 (CCad k 50); ERet 1 (RBool true)] ++ tr).
Proof.
  intros Hsz Hr. unfold cad_acts, ticks_. cbn [app replicate].
  eapply (run_inv _ _ _ _ (ERet 1 (RBool true) :: tr)).
  eapply (run_step _ _ _ P_lock _ []); [reflexivity|].
  eapply (run_step _ _ _ P_read2 _ []); [reflexivity|].
  eapply (run_step _ _ _ P_dirty _ []); [reflexivity|].
  eapply (run_step _ _ _ (P_une (Some n)) _ []).
  { cbn -[missLocked]. unfold dirty_map, missLocked. cbn. unfold dirty_map. cbn. rewrite lookup_insert.
    rewrite decide_True by done. reflexivity. }
  eapply (run_step _ _ _ (E_load n Fast) _ []); [reflexivity|].
  eapply (run_step _ _ _ (E_cas n (SPtr 50) Fast) _ []).
  { cbn. rewrite fn_lookup_insert, Hveq. reflexivity. }
  eapply (run_step _ _ _ (P_len (RBool true) (-1)) _ []).
  { cbn. rewrite fn_lookup_insert, decide_True by done. reflexivity. }
  eapply (run_step _ _ _ _ _ []); [reflexivity|].
  eapply (run_last _ _ _ _ [_]); [reflexivity|].
  exact Hr.
Qed.
End round.

Lemma round i acts cf tr : veq (deref 50) 50 = Some true ->
  run (mk_config (after_ (S i)) ∅) acts = Some (cf, tr) ->
  run (mk_config (after_ i) ∅) (store_acts (S i) ++ cad_acts (S i) ++ acts) =
    Some (cf, [EInv 1 (CStore (S i) 50); ERet 1 RUnit; EInv 1 (CCad (S i) 50); ERet 1 (RBool true)] ++ tr).
Proof.
  intros Hveq Hr.
  assert (Hdn : dmap i !! S i = None) by (rewrite dmap_lookup, decide_False by lia; done).
  eapply (round_store (dmap i) _ _ _ _ _ _ _ ([EInv 1 (CCad (S i) 50); ERet 1 (RBool true)] ++ tr) Hdn).
  eapply (round_cad (dmap i) _ _ _ _ _ Hveq).
  - rewrite map_size_insert_None, dmap_size by done. lia.
  - exact Hr.
Qed.

Fixpoint rounds (i n : nat) : list (action nat nat) :=
  match n with 0 => [] | S m => store_acts (S i) ++ cad_acts (S i) ++ rounds (S i) m end.

Lemma run_rounds n i : veq (deref 50) 50 = Some true ->
  run (mk_config (after_ i) ∅) (rounds i n) = Some (mk_config (after_ (i + n)) ∅,
    seq (S i) n ≫= (fun k => [EInv 1 (CStore k 50); ERet 1 RUnit; EInv 1 (CCad k 50); ERet 1 (RBool true)])).
Proof.
  intros Hv. revert i. induction n as [|n IH]; intros i; [cbn; by rewrite Nat.add_0_r|].
  cbn [rounds seq mbind list_bind]. rewrite (round i _ _ _ Hv (IH (S i))). by rewrite Nat.add_succ_comm.
Qed.

Lemma run_churn n : veq (deref 50) 50 = Some true ->
  run new_config (AInv 1 (CStore 0 50) :: ticks_ 10 ++ rounds 0 n) = Some (mk_config (after_ n) ∅, churn n).
Proof.
  intros Hv. unfold churn, new_config, ticks_. cbn [app replicate].
  eapply (run_inv _ _ _ _ (ERet 1 RUnit :: _)).
  eapply (run_step _ _ _ P_lock _ []); [reflexivity|].
  eapply (run_step _ _ _ P_read2 _ []); [reflexivity|].
  eapply (run_step _ _ _ P_dirty _ []); [reflexivity|].
  eapply (run_step _ _ _ (P_dl ∅) _ []); [reflexivity|].
  eapply (run_step _ _ _ P_amend _ []); [reflexivity|].
  eapply (run_step _ _ _ P_new _ []); [reflexivity|].
  eapply (run_step _ _ _ _ _ []); [reflexivity|].
  eapply (run_step _ _ _ _ _ []); [reflexivity|].
  eapply (run_step _ _ _ _ _ []); [reflexivity|].
  eapply (run_last _ _ _ _ [_]); [reflexivity|].
  apply (run_rounds n 0 Hv).
Qed.

Lemma after_contents n : contents deref (after_ n) = {[0 := deref 50]}.
Proof.
  apply map_eq. intros k. rewrite contents_lookup. unfold emap, dirty_map. cbn.
  rewrite map_empty_union, dmap_lookup. destruct k as [|k].
  - rewrite decide_True by lia. cbn. by rewrite ents_0, lookup_singleton.
  - rewrite lookup_singleton_ne by lia. case_decide; [|done]. cbn. by rewrite ents_later by lia.
Qed.

Lemma leak n : veq (deref 50) 50 = Some true ->
  exists acts (cf : config), run new_config acts = Some (cf, churn n) /\ c_thr cf = ∅ /\
    contents deref (c_sh cf) = {[0 := deref 50]} /\ forall k, k <= n -> keeps_key (c_sh cf) k.
Proof.
  intros Hv. eexists _, _. split; [by apply run_churn|]. split; [done|]. split; [apply after_contents|].
  intros k Hk. right. apply elem_of_dom. exists k. unfold dirty_map. cbn. rewrite dmap_lookup, decide_True by lia. done.
Qed.
End leak.
