(** What it means that calls of the refresh cache return. *)
From Verif Require Import Base RefreshCacheModel RefreshCacheSpec.

Section spec.
Context {T E F : Type} (zero : T) (maxAge errAge : Z).
Local Notation act := (act zero maxAge errAge).

(** Whatever the goroutines inside a call do next, as long as nobody makes a new call, sooner or
    later all calls have returned: either there are none, or some goroutine can take a step and
    after every possible step the same holds. *)
Inductive all_return (cf : config T E F) : Prop :=
| ar_none : (forall t, c_thr cf t = None) -> all_return cf
| ar_step : (exists t lab, is_Some (act cf (AStep t lab))) ->
    (forall t lab cf' ev, act cf (AStep t lab) = Some (cf', ev) -> all_return cf') -> all_return cf.

(** How many steps of an execution are steps of [t]. *)
Fixpoint own (t : nat) (acts : list (action T E F)) : nat :=
  match acts with
  | [] => 0
  | AStep u _ :: acts => (if decide (u = t) then 1 else 0) + own t acts
  | AInv _ _ :: acts => own t acts
  end.

(** Goroutine [t] is in the user's refresh function or clear function. *)
Definition in_refresh (cf : config T E F) (t : nat) : Prop := exists f old, c_thr cf t = Some (C_run f old).
Definition in_function (cf : config T E F) (t : nat) : Prop :=
  in_refresh cf t \/ exists f old, c_thr cf t = Some (K_run f old).

(** The same as [all_return], while the goroutines inside a function of the user stay there: in
    the end every goroutine in a call is in such a function, or it waits for the mutex and the one
    that holds the mutex is in the refresh function. *)
Inductive return_meanwhile (cf : config T E F) : Prop :=
| rm_done : (forall t, is_Some (c_thr cf t) -> in_function cf t \/
      (waiting cf t /\ exists u, s_lock (c_sh cf) = Some u /\ in_refresh cf u)) -> return_meanwhile cf
| rm_step : (exists t lab, ~ in_function cf t /\ is_Some (act cf (AStep t lab))) ->
    (forall t lab cf' ev, ~ in_function cf t -> act cf (AStep t lab) = Some (cf', ev) -> return_meanwhile cf') ->
    return_meanwhile cf.
End spec.
