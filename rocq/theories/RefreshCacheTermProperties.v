(** The refresh cache: every call returns (C92); whether the user's functions may use the cache (C96). *)
From Coq Require Import ZifyBool ZifyNat.
From Verif Require Import Base RefreshCacheModel RefreshCacheSpec RefreshCacheProofs RefreshCacheTermSpec RefreshCacheTerm RefreshCacheProperties.

Section theorems.
Context {T E F : Type} (zero : T) (maxAge errAge : Z).

(** From any state that can be reached, if no new calls are made, all calls return, whatever the
    schedule, the clock, and the outcome of the user's functions (panics included), provided the
    user's functions end. *)
Theorem C92_all_return (f0 : option F) acts (cf : config T E F) tr :
  run zero maxAge errAge (new_config zero f0) acts = Some (cf, tr) -> all_return zero maxAge errAge cf.
Proof.
  intros Hr. destruct (run_bounded _ _ _ _ _ _ _ Hr) as [n Hn]. eapply reach_returns; [exact Hr|exact Hn|]. apply Nat.lt_succ_diag_r.
Qed.

(** No call makes more than 19 steps (besides waiting for the mutex), whatever the others do: no
    call ever retries. *)
Theorem C92_no_retries (cf cf1 cf2 : config T E F) t c ev acts tr :
  act zero maxAge errAge cf (AInv t c) = Some (cf1, ev) -> run zero maxAge errAge cf1 acts = Some (cf2, tr) ->
  (forall r, EReturn t r ∉ tr) -> own t acts < 19.
Proof.
  intros Ha Hr Hn. cbn [act] in Ha. destruct (c_thr cf t); [done|]. injection Ha as <- <-.
  assert (own t acts < to_go (enter c : pc T E F)) as Ho.
  { eapply own_bound; [|exact Hr|exact Hn]. cbn. by rewrite fn_lookup_insert. }
  destruct c as [| |[]| | | | | | | |]; cbn in Ho; lia.
Qed.
End theorems.
Print Assumptions C92_all_return.
Print Assumptions C92_no_retries.

(** Goroutine 1 waits for the mutex, goroutine 0 holds it and runs the refresh function. *)
Example C92_ex : exists cf, crun (10^9)%Z 0%Z cnew (take 14 stampede) = Some (cf, trace (10^9)%Z 0%Z (take 14 stampede)) /\
  c_thr cf 1 = Some (G_lock (Some 1)) /\ c_thr cf 0 = Some (C_run 1 0%Z) /\ s_lock (c_sh cf) = Some 0 /\
  all_return 0%Z (10^9)%Z 0%Z cf.
Proof.
  assert (exists cf, crun (10^9)%Z 0%Z cnew (take 14 stampede) = Some (cf, trace (10^9)%Z 0%Z (take 14 stampede)) /\
    c_thr cf 1 = Some (G_lock (Some 1)) /\ c_thr cf 0 = Some (C_run 1 0%Z) /\ s_lock (c_sh cf) = Some 0) as (cf & H & H1 & H2 & H3).
  { eexists. split; [vm_compute; reflexivity|]. split_and!; vm_compute; reflexivity. }
  exists cf. split_and!; [exact H|exact H1|exact H2|exact H3|]. eapply (C92_all_return 0%Z (10^9)%Z 0%Z (Some 0)); exact H.
Qed.

(** ** C96 *)
Section theorems96.
Context {T E F : Type} (zero : T) (maxAge errAge : Z).

(** From any state that can be reached, if no new calls are made and the goroutines that are in
    a function of the user stay there, all other calls return, get to such a function, or wait for
    the mutex, and this only while the mutex is held by a goroutine in the refresh function.  So the
    clear function may use the cache as anybody else. *)
Theorem C96_meanwhile (f0 : option F) acts (cf : config T E F) tr :
  run zero maxAge errAge (new_config zero f0) acts = Some (cf, tr) -> return_meanwhile zero maxAge errAge cf.
Proof.
  intros Hr. destruct (run_bounded _ _ _ _ _ _ _ Hr) as [n Hn]. eapply reach_meanwhile; [exact Hr|exact Hn|]. apply Nat.lt_succ_diag_r.
Qed.

(** The refresh function may not: as long as goroutine [t] is in it, a Refresh made by [u] (which
    stands for the call inside the function) does not return, nor does a Get that has come to wait
    for the mutex. *)
Theorem C96_waiting (f0 : option F) pre (cf : config T E F) tr0 t u acts cf' tr :
  run zero maxAge errAge (new_config zero f0) pre = Some (cf, tr0) -> in_refresh cf t -> waiting cf u ->
  run zero maxAge errAge cf acts = Some (cf', tr) -> (forall lab, AStep t lab ∉ acts) ->
  waiting cf' u /\ forall r, EReturn u r ∉ tr.
Proof.
  intros Hpre (f & old & Ht) (g & Hu) Hr Hn. destruct Hu as [Hu|Hu].
  - destruct (locked_stays _ _ _ _ _ _ _ _ _ _ _ _ _ _ _ Hpre Ht Hu (ex_intro _ g (or_introl eq_refl)) Hr Hn) as [H1 H2].
    split; [|done]. exists g. by left.
  - destruct (locked_stays _ _ _ _ _ _ _ _ _ _ _ _ _ _ _ Hpre Ht Hu (ex_intro _ g (or_intror eq_refl)) Hr Hn) as [H1 H2].
    split; [|done]. exists g. by right.
Qed.
Theorem C96_refresh_function_refuted (f0 : option F) pre (cf : config T E F) tr0 t u g acts cf' tr :
  run zero maxAge errAge (new_config zero f0) pre = Some (cf, tr0) -> in_refresh cf t ->
  run zero maxAge errAge cf (AInv u (CRefresh g) :: acts) = Some (cf', tr) -> (forall lab, AStep t lab ∉ acts) ->
  waiting cf' u /\ forall r, EReturn u r ∉ tr.
Proof.
  intros Hpre Ht Hr Hn. cbn [run] in Hr. destruct (act zero maxAge errAge cf (AInv u (CRefresh g))) as [[cf1 ev]|] eqn:Ha; [|done].
  destruct (run zero maxAge errAge cf1 acts) as [[cf2 evs]|] eqn:Hr1; [|done]. injection Hr as -> <-.
  assert (Hpre' : run zero maxAge errAge (new_config zero f0) (pre ++ [AInv u (CRefresh g)]) = Some (cf1, tr0 ++ ev)).
  { rewrite run_app, Hpre. cbn [run]. rewrite Ha. by rewrite app_nil_r. }
  cbn [act] in Ha. destruct (c_thr cf u) eqn:Eu; [done|]. injection Ha as <- <-.
  destruct (C96_waiting _ _ _ _ t u acts cf' evs Hpre') as [H1 H2]; [| |done|done|].
  - destruct Ht as (f & old & Ht). exists f, old. cbn. rewrite fn_lookup_insert_ne; [done|]. intros ->. congruence.
  - exists g. right. cbn. by rewrite fn_lookup_insert.
  - split; [done|]. intros r Hi. apply elem_of_app in Hi as [Hi|Hi]; [|by apply (H2 r)].
    apply elem_of_list_singleton in Hi. done.
Qed.
End theorems96.
Print Assumptions C96_meanwhile.
Print Assumptions C96_waiting.
Print Assumptions C96_refresh_function_refuted.

(** Goroutine 0 is in the refresh function of its Get, and makes a Get from there (goroutine 1 here):
    nothing can happen any more without a result of that function. *)
Example C96_ex : exists cf, crun (10^9)%Z 0%Z cnew (take 14 stampede) = Some (cf, trace (10^9)%Z 0%Z (take 14 stampede)) /\
  in_refresh cf 0 /\ waiting cf 1 /\ return_meanwhile 0%Z (10^9)%Z 0%Z cf /\
  (forall acts cf' tr, run 0%Z (10^9)%Z 0%Z cf acts = Some (cf', tr) -> (forall lab, AStep 0 lab ∉ acts) ->
     waiting cf' 1 /\ forall r, EReturn 1 r ∉ tr).
Proof.
  destruct C92_ex as (cf & H & H1 & H2 & _). exists cf.
  assert (in_refresh cf 0) by (unfold in_refresh; eauto). assert (waiting cf 1) by (exists (Some 1); by left).
  split_and!; [exact H|done|done| |].
  - eapply (C96_meanwhile 0%Z (10^9)%Z 0%Z (Some 0)); exact H.
  - intros acts cf' tr Hr Hn. eapply (C96_waiting 0%Z (10^9)%Z 0%Z (Some 0)); [exact H|done|done|exact Hr|exact Hn].
Qed.
