(** synccache: every call returns (C93); callbacks may use the cache (C95). *)
From Verif Require Import Base RwMapModel SyncCacheModel SyncCacheSpec SyncCacheTermSpec SyncCacheTerm SyncCacheProperties.

(** From any state that can be reached, if no new calls are made, all calls return, whatever the
    schedule, the clock, the callbacks, and the changes of expirations between the steps.  In
    particular the loop of LoadOrStore ends.  (Every value has an address, or the map could not store
    it.) *)
Theorem C93_all_return :
  forall (K : Type) (EqK : EqDecision K) (CountK : Countable K) (V : Type) (deref : nat -> nat)
    (veq : V -> V -> option bool) (has_cb : bool) (w : world K V) xs tr,
  Inhabited K -> (forall e, exists q, deref q = e) -> wrun deref veq has_cb w_init xs = Some (w, tr) ->
  all_return deref veq has_cb w.
Proof. intros. by eapply world_returns. Qed.
Print Assumptions C93_all_return.

(** Goroutine 2 is in LoadOrStore and is about to try again, goroutine 3 is in a Range, deleting an
    expired entry. *)
Example C93_ex : exists xs w tr, wrun (K := nat) (V := nat) (fun p => p) xveq true w_init xs = Some (w, tr) /\
  c_fr (w_cl w) !! 2 = Some (mk_frame (SLoadOrStore 5 51 1000000%Z) 5%Z Q_new) /\
  c_fr (w_cl w) !! 3 = Some (mk_frame SRange 5%Z (Q_cadw 6 2 true)) /\
  SDel 2 1 50 ∈ tr /\ all_return (fun p => p) xveq true w.
Proof.
  set (xs := xplay true w_init [Do 1 0 (SStore 5 50 1000000); Do 1 0 (SStore 6 60 1000000);
    Call 2 (SLoadOrStore 5 51 1000000); Go 2 5000000 23; Call 3 SRange; Go 3 5000000 12]).
  assert (Hx : (fun x => (c_fr (w_cl x.1) !! 2, c_fr (w_cl x.1) !! 3, x.2 !! (length x.2 - 4))) <$>
    xrun true w_init xs = Some (Some (mk_frame (SLoadOrStore 5 51 1000000%Z) 5%Z Q_new),
      Some (mk_frame SRange 5%Z (Q_cadw 6 2 true)), Some (SDel 2 1 50)))
    by (vm_compute; reflexivity).
  exists xs. unfold xrun in Hx. destruct (wrun _ _ _ _ _) as [[w tr]|] eqn:E; [|done].
  cbn [fmap option_fmap option_map fst snd] in Hx.
  injection Hx as H1 H2 H3. exists w, tr. split_and!; [done|done|done| |].
  - by eapply elem_of_list_lookup_2.
  - apply (C93_all_return nat _ _ nat (fun p => p) xveq true w xs tr); [apply _|by eauto|done].
Qed.

(** ** C95 *)
(** From any state that can be reached, if no new calls are made and the goroutines that are in
    deletedCallback or in the f of a Range stay there, all other calls return or get to such a
    callback as well.  So callbacks may use the cache: the calls they make, which are calls of other
    goroutines in the model, return. *)
Theorem C95_callbacks_may_use_the_cache :
  forall (K : Type) (EqK : EqDecision K) (CountK : Countable K) (V : Type) (deref : nat -> nat)
    (veq : V -> V -> option bool) (has_cb : bool) (w : world K V) xs tr,
  Inhabited K -> (forall e, exists q, deref q = e) -> wrun deref veq has_cb w_init xs = Some (w, tr) ->
  return_meanwhile deref veq has_cb w.
Proof. intros. by eapply world_meanwhile. Qed.
Print Assumptions C95_callbacks_may_use_the_cache.

(** Nobody in a callback holds the mutex of the map. *)
Theorem C95_no_lock_in_callback :
  forall (K : Type) (EqK : EqDecision K) (CountK : Countable K) (V : Type) (deref : nat -> nat)
    (veq : V -> V -> option bool) (has_cb : bool) (w : world K V) xs tr u,
  Inhabited K -> wrun deref veq has_cb w_init xs = Some (w, tr) ->
  s_lock (c_sh (w_map w)) = Some u -> ~ in_callback w (Nat.div2 u).
Proof. intros. by eapply lock_no_callback. Qed.
Print Assumptions C95_no_lock_in_callback.

(** Goroutine 2 is in deletedCallback, called by a Delete; from there a Store is made, which holds the
    mutex of the map. *)
Example C95_ex : exists xs w tr, wrun (K := nat) (V := nat) (fun p => p) xveq true w_init xs = Some (w, tr) /\
  in_callback w 2 /\ s_lock (c_sh (w_map w)) = Some (tid 3 false) /\ return_meanwhile (fun p => p) xveq true w.
Proof.
  set (ys := xplay true w_init [Do 1 0 (SStore 5 50 1000000); Call 2 (SDelete 5); Go 2 0 10; Call 3 (SStore 6 60 1000000); Go 3 0 5]).
  assert (Hx : (fun x => (at_callback <$> (c_fr (w_cl x.1) !! 2), s_lock (c_sh (w_map x.1)))) <$>
    xrun true w_init ys = Some (Some true, Some (tid 3 false))) by (vm_compute; reflexivity).
  exists ys. unfold xrun in Hx. destruct (wrun _ _ _ _ _) as [[w tr]|] eqn:E; [|done].
  cbn [fmap option_fmap option_map fst snd] in Hx.
  injection Hx as H1 H2. exists w, tr. split_and!; [done| |done|].
  - destruct (c_fr (w_cl w) !! 2) as [f|] eqn:Ef; [|done]. injection H1 as H1. by eapply at_callback_spec.
  - apply (C95_callbacks_may_use_the_cache nat _ _ nat (fun p => p) xveq true w ys tr); [apply _|by eauto|done].
Qed.
