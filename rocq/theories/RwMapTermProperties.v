(** rwmap: every call returns (C90); which calls are wait-free (C91); callbacks may use the map (C94). *)
From Coq Require Import ZifyBool ZifyNat.
From Verif Require Import Base RwMapModel RwMapSpec RwMapInv RwMapTermSpec RwMapProgress RwMapLen RwMapTerm RwMapProperties.

(** ** C90 *)
(** From any state that can be reached, if no new calls are made, all calls return, whatever the
    schedule and the orders of iteration, provided the callbacks of Range return. *)
Theorem C90_all_return {K} `{Countable K} {V} (deref : nat -> V) (zero : V) veq acts (cf : config K V) tr :
  Inhabited K -> run deref zero veq new_config acts = Some (cf, tr) -> all_return deref zero veq cf.
Proof. intros HK Hr. eapply good_returns. by eapply run_reach. Qed.
Print Assumptions C90_all_return.

(** So no execution goes on forever with finitely many calls. *)
Theorem C90_no_livelock {K} `{Countable K} {V} (deref : nat -> V) (zero : V) veq (cfs : nat -> config K V) :
  (forall i, exists t lab ev, act deref zero veq (cfs i) (AStep t lab) = Some (cfs (S i), ev)) -> False.
Proof.
  intros Hs. assert (forall cf i, cf = cfs i -> False) as Hn; [|by eapply (Hn _ 0)].
  intros cf. induction (ticks_wf deref zero veq cf) as [cf _ IH]. intros i ->.
  eapply (IH (cfs (S i))); [|done]. apply Hs.
Qed.
Print Assumptions C90_no_livelock.

(** Two Swaps of the same key have loaded the entry's pointer, a Store holds the mutex, another waits
    for it, and a LoadAndDelete is about to fail: five calls in progress. *)
Definition ex90 : list (action nat nat) :=
  calls_ 1 (CStore 5 50) ++ calls_ 1 (CLoad 6) ++ AInv 1 (CSwap 5 51) :: ticks 1 2 ++ AInv 2 (CSwap 5 52) :: ticks 2 2 ++
  AInv 3 (CLoadAndDelete 5) :: ticks 3 2 ++ ticks 2 1 ++ AInv 4 (CStore 6 60) :: ticks 4 4 ++ AInv 5 (CStore 7 70) :: ticks 5 3.
Example C90_ex : exists acts (cf : config nat nat) tr, ex_run acts = Some (cf, tr) /\
  c_thr cf !! 1 = Some (CSwap 5 51, E_cas 0 (SPtr 50) Fast) /\ c_thr cf !! 3 = Some (CLoadAndDelete 5, E_cas 0 (SPtr 50) Fast) /\
  s_ent (c_sh cf) 0 = SPtr 52 /\ c_thr cf !! 5 = Some (CStore 7 70, P_lock) /\ s_lock (c_sh cf) = Some 4 /\
  all_return ex_deref 0 ex_veq cf.
Proof.
  set (acts := play new_config ex90).
  assert (Hx : (fun x => (c_thr x.1 !! 1, c_thr x.1 !! 3, s_ent (c_sh x.1) 0, c_thr x.1 !! 5, s_lock (c_sh x.1))) <$> ex_run acts =
    Some (Some (CSwap 5 51, E_cas 0 (SPtr 50) Fast), Some (CLoadAndDelete 5, E_cas 0 (SPtr 50) Fast), SPtr 52,
          Some (CStore 7 70, P_lock), Some 4)) by (vm_compute; reflexivity).
  exists acts. destruct (ex_run acts) as [[cf tr]|] eqn:Er; [|done]. cbn [fmap option_fmap option_map fst] in Hx.
  injection Hx as H1 H2 H3 H4 H5. exists cf, tr.
  split; [reflexivity|]. split; [exact H1|]. split; [exact H2|]. split; [exact H3|]. split; [exact H4|]. split; [exact H5|].
  eapply (C90_all_return ex_deref 0 ex_veq acts cf tr); [exact _|exact Er].
Qed.

(** ** C91 *)
(** Load, Len and Clear make at most 7 steps each (besides waiting for the mutex), whatever the
    others do. *)
Theorem C91_no_retries {K} `{Countable K} {V} (deref : nat -> V) (zero : V) veq (cf cf1 cf2 : config K V) t c ev acts tr :
  (exists k, c = CLoad k) \/ c = CLen \/ c = CClear ->
  act deref zero veq cf (AInv t c) = Some (cf1, ev) -> run deref zero veq cf1 acts = Some (cf2, tr) ->
  (forall r, ERet t r ∉ tr) -> own t acts < 7.
Proof.
  intros Hc Ha Hr Hn. cbn [act] in Ha. destruct (c_thr cf !! t); [done|]. injection Ha as <- <-.
  assert (own t acts < left_ c (enter c)) as Ho.
  { eapply plain_run; [| | |exact Hr|exact Hn]; [apply lookup_insert|..]; destruct Hc as [[k ->]|[->| ->]]; cbn; try done; lia. }
  destruct Hc as [[k ->]|[->| ->]]; cbn in Ho; lia.
Qed.
Print Assumptions C91_no_retries.

(** The bound is reached. *)
Example C91_ex : exists acts tr (cf : config nat nat),
  run (K := nat) ex_deref 0 ex_veq new_config (AInv 1 (CStore 5 50) :: ticks 1 10 ++ AInv 2 (CLoad 5) :: acts) = Some (cf, tr) /\
  own 2 acts = 7 /\ ERet 2 (RVal (Some 50)) ∈ tr.
Proof.
  exists (ticks 2 7).
  assert (Hx : snd <$> ex_run (AInv 1 (CStore 5 50) :: ticks 1 10 ++ AInv 2 (CLoad 5) :: ticks 2 7) =
    Some [EInv 1 (CStore 5 50); ERet 1 RUnit; EInv 2 (CLoad 5); ERet 2 (RVal (Some 50))]) by (vm_compute; reflexivity).
  unfold ex_run in Hx. destruct (run _ _ _ _ _) as [[cf tr]|]; [|done]. cbn in Hx. injection Hx as ->.
  eexists _, _. split; [done|]. split; [done|]. set_solver.
Qed.

(** The other calls that change the map may be overtaken again and again: for every [n] there is an
    execution in which one Store makes more than [n] steps while [n] Swaps of another goroutine
    return, and the Store still has not. *)
Lemma run_one {K} `{Countable K} {V} (deref : nat -> V) zero veq (cf cf1 cf2 : config K V) a acts ev evs :
  act deref zero veq cf a = Some (cf1, ev) -> run deref zero veq cf1 acts = Some (cf2, evs) ->
  run deref zero veq cf (a :: acts) = Some (cf2, ev ++ evs).
Proof. intros Ha Hr. cbn [run]. by rewrite Ha, Hr. Qed.
Lemma act_one {K} `{Countable K} {V} (deref : nat -> V) zero veq s thr t (c : call K V) p lab p' s' ev :
  thr !! t = Some (c, p) -> step deref zero veq t c p s lab = Some (Some p', s', ev) ->
  act deref zero veq (mk_config s thr) (AStep t lab) = Some (mk_config s' (<[t := (c, p')]> thr), ev).
Proof. intros Ht Hs. cbn [act c_thr c_sh]. by rewrite Ht, Hs. Qed.

Lemma overtaken n : forall (s : shared nat) p, s_rd s !! 5 = Some 0 -> s_ent s 0 = SPtr p -> p = 50 \/ p = 51 ->
  exists acts cf tr, run (K := nat) ex_deref 0 ex_veq (mk_config s {[1 := (CStore 5 52, E_load 0 Fast)]}) acts = Some (cf, tr) /\
    c_thr cf !! 1 = Some (CStore 5 52, E_load 0 Fast) /\ own 1 acts = 2 * n /\ returned 1 tr = 0 /\ returned 2 tr = n.
Proof.
  induction n as [|n IH]; intros s p Hr He Hp.
  { exists [], (mk_config s {[1 := (CStore 5 52, E_load 0 Fast)]}), []. done. }
  set (q := 101 - p).
  assert (Hq : (q = 50 \/ q = 51) /\ q <> p) by (unfold q; lia). destruct Hq as [Hq Hne].
  destruct (IH (set_ent 0 (SPtr q) s) q) as (acts & cf & tr & Hrun & Ht & Ho & Hn1 & Hn); [done|by cbn; rewrite fn_lookup_insert|done|].
  exists (AStep 1 LTick :: AInv 2 (CSwap 5 q) :: ticks 2 4 ++ AStep 1 LTick :: acts), cf.
  eexists. split; [|split; [exact Ht|]].
  - eapply run_one. { apply act_one with (p' := E_cas 0 (SPtr p) Fast) (s' := s) (ev := []) (1 := lookup_singleton _ _). cbn. by rewrite He. }
    rewrite insert_singleton. eapply run_one. { cbn [act c_thr c_sh]. by rewrite lookup_singleton_ne. }
    cbn [c_sh c_thr enter].
    eapply run_one. { apply act_one with (p' := E_load 0 Fast) (s' := s) (ev := []) (1 := lookup_insert _ _ _). cbn. by rewrite Hr. }
    rewrite insert_insert.
    eapply run_one. { apply act_one with (p' := E_cas 0 (SPtr p) Fast) (s' := s) (ev := []) (1 := lookup_insert _ _ _). cbn. by rewrite He. }
    rewrite insert_insert.
    eapply run_one. { apply act_one with (p' := X_ret (RVal (Some p))) (s' := set_ent 0 (SPtr q) s) (ev := []) (1 := lookup_insert _ _ _).
      cbn [step]. by rewrite decide_True. }
    rewrite insert_insert.
    eapply run_one. { cbn [act c_thr c_sh]. rewrite lookup_insert. cbn [step]. reflexivity. }
    rewrite delete_insert by (by rewrite lookup_singleton_ne).
    eapply run_one. { apply act_one with (p' := E_load 0 Fast) (s' := set_ent 0 (SPtr q) s) (ev := []) (1 := lookup_singleton _ _).
      cbn [step]. rewrite decide_False; [done|]. cbn. rewrite fn_lookup_insert. congruence. }
    rewrite insert_singleton. exact Hrun.
  - split; [cbn [own ticks replicate app]; rewrite !decide_True, !decide_False by done; rewrite Ho; lia|].
    cbn [returned app]. rewrite (decide_False (P := 2 = 1)), (decide_True (P := 2 = 2)) by done. rewrite Hn1, Hn. done.
Qed.

Theorem C91_wait_free_refuted : forall n, exists acts (cf : config nat nat) tr, ex_run acts = Some (cf, tr) /\
  EInv 1 (CStore 5 52) ∈ tr /\ returned 1 tr = 0 /\ own 1 acts > n /\ returned 2 tr = n.
Proof.
  intros n. set (acts0 := play new_config (calls_ 3 (CStore 5 50) ++ calls_ 3 (CLoad 6) ++ [AInv 1 (CStore 5 52); AStep 1 LTick])).
  assert (Hx : (fun x => (map_to_list (c_thr x.1), s_rd (c_sh x.1) !! 5, s_ent (c_sh x.1) 0, x.2)) <$> ex_run acts0 =
    Some ([(1, (CStore 5 52, E_load 0 Fast))], Some 0, SPtr 50,
          [EInv 3 (CStore 5 50); ERet 3 RUnit; EInv 3 (CLoad 6); ERet 3 (RVal None); EInv 1 (CStore 5 52)]))
    by (vm_compute; reflexivity).
  assert (Ho0 : own 1 acts0 = 1) by (vm_compute; reflexivity). clearbody acts0.
  destruct (ex_run acts0) as [[cf0 tr0]|] eqn:E0; [|done]. cbn [fmap option_fmap option_map fst snd] in Hx.
  injection Hx as H1 H2 H3 H4.
  assert (Ht : c_thr cf0 = {[1 := (CStore 5 52, E_load 0 Fast)]}).
  { rewrite <- (list_to_map_to_list (M := gmap nat) (c_thr cf0)), H1. done. }
  destruct (overtaken n (c_sh cf0) 50 H2 H3) as (acts & cf & tr & Hr & _ & Ho & Hn1 & Hn2); [by left|].
  exists (acts0 ++ acts), cf, (tr0 ++ tr). split.
  { unfold ex_run in *. rewrite run_app, E0. rewrite <- Ht in Hr. destruct cf0. cbn in Hr |- *. by rewrite Hr. }
  rewrite H4. split; [cbn [app]; do 4 apply elem_of_list_further; apply elem_of_list_here|]. split; [cbn; by rewrite Hn1|]. split; [|cbn; by rewrite Hn2].
  assert (own 1 (acts0 ++ acts) = own 1 acts0 + own 1 acts) as ->; [|rewrite Ho, Ho0; lia].
  clear. induction acts0 as [|[] l IH]; cbn; [done|done|]. rewrite IH. lia.
Qed.
Print Assumptions C91_wait_free_refuted.

(** ** C94 *)
(** From any state that can be reached, if no new calls are made and the goroutines that are in the
    callback of a Range stay there, all other calls return or get to such a callback as well.  So a
    callback may use the map: the calls it makes, which are calls of other goroutines in the model,
    return. *)
Theorem C94_callbacks_may_use_the_map {K} `{Countable K} {V} (deref : nat -> V) (zero : V) veq acts (cf : config K V) tr :
  Inhabited K -> run deref zero veq new_config acts = Some (cf, tr) -> return_meanwhile deref zero veq cf.
Proof. intros HK Hr. eapply good_meanwhile. by eapply run_reach. Qed.
Print Assumptions C94_callbacks_may_use_the_map.

(** Nobody in a callback holds the mutex. *)
Theorem C94_no_lock_in_callback {K} `{Countable K} {V} (deref : nat -> V) (zero : V) veq acts (cf : config K V) tr t :
  Inhabited K -> run deref zero veq new_config acts = Some (cf, tr) -> in_callback cf t -> s_lock (c_sh cf) <> Some t.
Proof.
  intros HK Hr (k & v & todo & n & E) Hl. destruct (run_reach _ _ _ _ _ _ HK Hr) as (h & kof & m & Hc & _).
  by apply (i_lock _ _ _ _ _ _ _ Hc _ _ _ E) in Hl.
Qed.
Print Assumptions C94_no_lock_in_callback.

(** Goroutine 1 is in the callback of its Range; from there a Store is made, which is in the middle of
    copying the map, with the mutex. *)
Definition ex94 : list (action nat nat) :=
  calls_ 1 (CStore 5 50) ++ calls_ 1 (CLoad 6) ++ AInv 1 CRange :: ticks 1 1 ++ AStep 1 (LKey 5) :: ticks 1 1 ++
  AInv 2 (CStore 6 60) :: ticks 2 4.
Example C94_ex : exists acts (cf : config nat nat) tr, ex_run acts = Some (cf, tr) /\
  in_callback cf 1 /\ s_lock (c_sh cf) = Some 2 /\ return_meanwhile ex_deref 0 ex_veq cf.
Proof.
  set (acts := play new_config ex94).
  assert (Hx : (fun x => (at_callback <$> (c_thr x.1 !! 1), s_lock (c_sh x.1))) <$> ex_run acts = Some (Some true, Some 2))
    by (vm_compute; reflexivity).
  exists acts. destruct (ex_run acts) as [[cf tr]|] eqn:Er; [|done]. cbn [fmap option_fmap option_map fst] in Hx.
  injection Hx as H1 H2. exists cf, tr.
  split; [reflexivity|]. split; [|split; [exact H2|]].
  - destruct (c_thr cf !! 1) as [x|] eqn:E; [|done]. injection H1 as H1. by eapply at_callback_spec.
  - eapply (C94_callbacks_may_use_the_map ex_deref 0 ex_veq acts cf tr); [exact _|exact Er].
Qed.
