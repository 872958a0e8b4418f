(** C123, C124: the functions, contexts and arguments of the refresh cache. *)
From Verif Require Import Base RefreshCacheModel RefreshCacheSpec RefreshCacheProofs
  RefreshCacheProperties RefreshCacheCallSpec RefreshCacheCalls.

Section properties.
Context {T E F : Type} (zero : T) (maxAge errAge : Z).
Local Notation event := (event T E F).
Local Notation config := (config T E F).

(** C123.  Whatever the goroutines do: a refresh function runs only inside a call of Get or
    Refresh, and it is the function (with the context and the arguments) of that very call, or,
    for the calls without a function, one that was given to the constructor or to
    SetRefreshFunc. *)
Theorem C123_refresh_functions (f0 : option F) acts (cf : config) (tr1 : list event) t f old tr2 :
  run zero maxAge errAge (new_config zero f0) acts = Some (cf, tr1 ++ EStart t f old :: tr2) ->
  exists c, current t tr1 = Some c /\ may_refresh f0 tr1 c (Some f).
Proof. intros [_ H]%cinv_run. by apply (H tr1 (EStart t f old) tr2). Qed.

(** The same for clear functions and Clear. *)
Theorem C123_clear_functions (f0 : option F) acts (cf : config) (tr1 : list event) t f old tr2 :
  run zero maxAge errAge (new_config zero f0) acts = Some (cf, tr1 ++ EKStart t f old :: tr2) ->
  exists c, current t tr1 = Some c /\ may_clear tr1 c (Some f).
Proof. intros [_ H]%cinv_run. by apply (H tr1 (EKStart t f old) tr2). Qed.

(** Every return ends a call, and its result is of the kind of that call: only Get, Refresh and
    Clear can panic. *)
Theorem C123_results (f0 : option F) acts (cf : config) (tr1 : list event) t r tr2 :
  run zero maxAge errAge (new_config zero f0) acts = Some (cf, tr1 ++ EReturn t r :: tr2) ->
  exists c, current t tr1 = Some c /\ fits c r.
Proof. intros [_ H]%cinv_run. by apply (H tr1 (EReturn t r) tr2). Qed.

End properties.

Print Assumptions C123_refresh_functions.
Print Assumptions C123_clear_functions.
Print Assumptions C123_results.

(** ** Examples *)

(** Goroutine 0 gets with function 1 while goroutine 1 sets function 5 and refreshes with it
    afterwards; goroutine 2 clears with function 8. *)
Local Definition ex_calls : list (action Z nat nat) :=
  take 10 (get_refresh 0 now now now (OOk 7%Z)) ++
  (AInv 1 (CSetRefresh (Some 5)) :: (AStep 1 <$> [LTick; LTick])) ++
  drop 10 (get_refresh 0 now now now (OOk 7%Z)) ++
  (AInv 1 CWRefresh :: (AStep 1 <$> [LTick; LTick; LTick; LRef (OOk 9%Z); LTick; LNow now; LTick;
                                     LTick; LTick; LTick])) ++
  (AInv 2 (CClear (Some 8)) :: (AStep 2 <$> [LTick; LTick; LClr (KRet None); LTick])).

Example C123_example :
  omap (fun e => match e with
                 | EStart t f old | EKStart t f old => Some (t, f, old)
                 | _ => None
                 end) (trace (10^9)%Z 0%Z ex_calls) = [(0, 1, 0%Z); (1, 5, 7%Z); (2, 8, 9%Z)] /\
  (exists k, trace (10^9)%Z 0%Z ex_calls !! k = Some (EStart 1 5 7%Z) /\
     current 1 (take k (trace (10^9)%Z 0%Z ex_calls)) = Some CWRefresh /\
     may_refresh (Some 0) (take k (trace (10^9)%Z 0%Z ex_calls)) CWRefresh (Some 5)) /\
  (exists k, trace (10^9)%Z 0%Z ex_calls !! k = Some (EKStart 2 8 9%Z) /\
     current 2 (take k (trace (10^9)%Z 0%Z ex_calls)) = Some (CClear (Some 8)) /\
     may_clear (take k (trace (10^9)%Z 0%Z ex_calls)) (CClear (Some 8)) (Some 8)).
Proof.
  split; [vm_compute; reflexivity|]. split.
  - assert (exists k, trace (10^9)%Z 0%Z ex_calls !! k = Some (EStart 1 5 7%Z) /\
     current 1 (take k (trace (10^9)%Z 0%Z ex_calls)) = Some CWRefresh) as (k&Hk&Hc).
    { exists 14. split; vm_compute; reflexivity. }
    exists k. split; [exact Hk|]. split; [exact Hc|].
    destruct (run_cut (10^9)%Z 0%Z ex_calls k _ ltac:(vm_compute; reflexivity) Hk) as [cf H].
    apply C123_refresh_functions in H as (c&H1&H2). rewrite Hc in H1. injection H1 as <-. exact H2.
  - exists 22. split; [vm_compute; reflexivity|]. split; vm_compute; reflexivity.
Qed.

(** C124 is false: the value that Get returns need not be one that was produced with the
    arguments of the call.  Get with the arguments 1 fetches 7; Get with the arguments 2 returns
    the 7 without an error, although no function was ever called with the arguments 2 (functions
    are the pairs of the one function and these arguments). *)
Local Definition get_arg (t : nat) (x : nat) (n : Z) : list (action Z nat nat) :=
  AInv t (CGet (Some x)) :: (AStep t <$> [LTick; LNow n; LTick; LTick]).

Theorem C124_arguments_refuted :
  exists maxAge errAge acts cf (tr1 : list (event Z nat nat)) t x v tr2,
    crun maxAge errAge cnew acts = Some (cf, tr1 ++ EReturn t (RGet v None) :: tr2) /\
    maxAge = (10^9)%Z /\ errAge = 0%Z /\ readings (fun n => n ∈ [now; now + 1]%Z) tr1 /\
    no_panic tr1 /\
    current t tr1 = Some (CGet (Some x)) /\
    v = 7%Z /\ starts tr1 = [(1, 0%Z)] /\ finishes tr1 = [OOk 7%Z] /\ x = 2.
Proof.
  destruct (run_cut (10^9)%Z 0%Z (get_refresh 0 now now now (OOk 7%Z) ++ get_arg 1 2 (now + 1)) 12
              (EReturn 1 (RGet 7%Z None))) as [cf H]; [vm_compute; reflexivity..|].
  eexists _, _, _, cf, _, 1, 2, 7%Z, _. split; [exact H|].
  split; [done|]. split; [done|].
  split; [apply readings_in_ok; vm_compute; reflexivity|].
  split; [apply no_panics_ok; vm_compute; reflexivity|].
  split; [vm_compute; reflexivity|]. split; [done|].
  split; [vm_compute; reflexivity|]. split; [vm_compute; reflexivity|done].
Qed.

Print Assumptions C124_arguments_refuted.
