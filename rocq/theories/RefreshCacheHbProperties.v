(** refreshcache: refreshes happen before the calls that return what they made (C179). *)
From Verif Require Import Base RefreshCacheModel RefreshCacheRaceSpec RefreshCacheProperties RefreshCacheHbSpec RefreshCacheHb.

Section claims.
Context {T E F : Type} (zero : T) (maxAge errAge : Z) (f0 : option F).
Local Notation hact := (hact zero maxAge errAge).
Local Notation hrun := (hrun zero maxAge errAge).
Implicit Types (h : hist T E F).

(** Every execution of the machine is the execution of a history. *)
Theorem C179_histories acts (cf : config T E F) tr :
  run zero maxAge errAge (new_config zero f0) acts = Some (cf, tr) ->
  exists h, hrun (new_hist zero f0) acts = Some (h, tr) /\ h_cf h = cf.
Proof. intros Hr. by apply (hrun_total zero maxAge errAge acts (new_hist zero f0)). Qed.

(** When Get, Refresh or Raw returns a value, the end of the refresh function that made it happens
    before; so it is with errors. *)
Theorem C179_values acts h h' tr t lab ev v :
  hrun (new_hist zero f0) acts = Some (h, tr) -> hact h (AStep t lab) = Some (h', ev) ->
  EReturn t (RGet v None) ∈ ev \/ (exists e, EReturn t (RRaw v e) ∈ ev) -> value_before zero h' t v.
Proof.
  intros Hr Ha He. apply (hrun_inv _ _ _ f0) in Hr; [|exact (new_inv zero f0)].
  pose proof (hact_shows _ _ _ _ _ _ _ _ _ Hr Ha) as Hsh.
  destruct He as [He|[e He]]; specialize (Hsh _ He); cbn in Hsh; [apply Hsh|]. by destruct Hsh as (_ & ? & _).
Qed.
Theorem C179_errors acts h h' tr t lab ev v e :
  hrun (new_hist zero f0) acts = Some (h, tr) -> hact h (AStep t lab) = Some (h', ev) ->
  EReturn t (RGet v (Some e)) ∈ ev \/ EReturn t (RRaw v (Some e)) ∈ ev -> before h' t (failed e).
Proof.
  intros Hr Ha He. apply (hrun_inv _ _ _ f0) in Hr; [|exact (new_inv zero f0)].
  pose proof (hact_shows _ _ _ _ _ _ _ _ _ Hr Ha) as Hsh.
  destruct He as [He|He]; specialize (Hsh _ He); cbn in Hsh; apply Hsh.
Qed.

(** When a refresh function starts, the call that handed it to the cache (or the constructor) and the
    end of the refresh that made the OldVal it gets happen before. *)
Theorem C179_refreshes acts h h' tr t lab ev f old :
  hrun (new_hist zero f0) acts = Some (h, tr) -> hact h (AStep t lab) = Some (h', ev) ->
  EStart t f old ∈ ev -> (f0 = Some f \/ before h' t (gave f)) /\ value_before zero h' t old.
Proof.
  intros Hr Ha He. apply (hrun_inv _ _ _ f0) in Hr; [|exact (new_inv zero f0)].
  pose proof (hact_shows _ _ _ _ _ _ _ _ _ Hr Ha _ He) as (_ & H1 & H2). split; [exact H1|exact H2].
Qed.
(** So it is with clear functions. *)
Theorem C179_clears acts h h' tr t lab ev f old :
  hrun (new_hist zero f0) acts = Some (h, tr) -> hact h (AStep t lab) = Some (h', ev) ->
  EKStart t f old ∈ ev -> before h' t (gave_clear f) /\ value_before zero h' t old.
Proof.
  intros Hr Ha He. apply (hrun_inv _ _ _ f0) in Hr; [|exact (new_inv zero f0)].
  pose proof (hact_shows _ _ _ _ _ _ _ _ _ Hr Ha _ He) as (_ & H1 & H2). split; [exact H1|exact H2].
Qed.
End claims.
Print Assumptions C179_histories.
Print Assumptions C179_values.
Print Assumptions C179_errors.
Print Assumptions C179_refreshes.
Print Assumptions C179_clears.

(** Goroutine 1 refreshes twice; goroutine 2 begins a Get in between and loads the data of the first
    refresh (item 2): it does not know of the second one (item 4), which has ended, too. *)
Definition ex179 : list (action Z nat nat) :=
  [AInv 1 (CSetRefresh (Some 7)); AStep 1 LTick; AStep 1 LTick;
   AInv 1 CWRefresh; AStep 1 LTick; AStep 1 LTick; AStep 1 LTick; AStep 1 (LRef (OOk 70%Z)); AStep 1 LTick; AStep 1 (LNow 5);
   AStep 1 LTick; AStep 1 LTick; AStep 1 LTick; AStep 1 LTick;
   AInv 2 CWGet; AStep 2 LTick; AStep 2 LTick; AStep 2 (LNow 6); AStep 2 LTick;
   AInv 1 CWRefresh; AStep 1 LTick; AStep 1 LTick; AStep 1 LTick; AStep 1 (LRef (OOk 71%Z)); AStep 1 LTick].
Example C179_ex : exists h h' tr,
  hrun (T := Z) (E := nat) (F := nat) 0%Z (10^9) 0 (new_hist 0%Z (Some 0)) ex179 = Some (h, tr) /\
  hact 0%Z (10^9) 0 h (AStep 2 LTick) = Some (h', [EReturn 2 (RGet 70%Z None)]) /\
  h_items h = [(1, ICall (CSetRefresh (Some 7))); (1, ICall CWRefresh); (1, IEnd (OOk 70%Z)); (2, ICall CWGet);
               (1, ICall CWRefresh); (1, IEnd (OOk 71%Z))] /\
  2 ∈ h_thr h' 2 /\ 0 ∈ h_thr h' 2 /\ 5 ∉ h_thr h' 2.
Proof.
  assert (Hx : (fun x => (h_items x.1, elements (h_thr x.1 2), c_thr (h_cf x.1) 2)) <$>
      hrun (T := Z) (E := nat) (F := nat) 0%Z (10^9) 0 (new_hist 0%Z (Some 0)) ex179 =
    Some ([(1, ICall (CSetRefresh (Some 7))); (1, ICall CWRefresh); (1, IEnd (OOk 70%Z)); (2, ICall CWGet);
               (1, ICall CWRefresh); (1, IEnd (OOk 71%Z))], [0; 1; 3; 2], Some (X_ret (RGet 70%Z None)))) by (vm_compute; reflexivity).
  destruct (hrun _ _ _ _ ex179) as [[h tr]|]; [|discriminate Hx].
  cbn [fmap option_fmap option_map fst] in Hx. injection Hx as H1 H2 H3.
  assert (H5 : forall n, n ∈ h_thr h 2 <-> n ∈ [0; 1; 3; 2]) by (intros n; by rewrite <- elem_of_elements, H2).
  assert (H6 : exists h', hact 0%Z (10^9) 0 h (AStep 2 LTick) = Some (h', [EReturn 2 (RGet 70%Z None)]) /\
     h_thr h' 2 = h_thr h 2 ∪ ∅ ∪ ∅).
  { unfold hact. cbn [act]. rewrite H3. cbn [step observes accesses writes ends]. eexists. split; [reflexivity|].
    cbn [h_thr]. apply fn_lookup_insert. }
  destruct H6 as (h' & H6 & H7). exists h, h', tr.
  split; [reflexivity|]. split; [exact H6|]. split; [exact H1|].
  rewrite H7. assert (H8 : forall n, n ∈ h_thr h 2 ∪ ∅ ∪ ∅ <-> n ∈ [0; 1; 3; 2]) by (intros n; rewrite <- H5; set_solver).
  rewrite !H8. split; [set_solver|]. split; [set_solver|]. rewrite !elem_of_cons, elem_of_nil. lia.
Qed.
