(** What it means that calls of the synccache return. *)
From Verif Require Import Base RwMapModel SyncCacheModel SyncCacheSpec.

Section spec.
Context {K : Type} `{Countable K} {V : Type}.
Context (deref : nat -> nat) (veq : V -> V -> option bool) (has_cb : bool).
Local Notation wstep := (wstep deref veq has_cb).
Local Notation wrun := (wrun deref veq has_cb).

(** A step of a call under way; a change of an expiration. *)
Definition goes_on (x : wact K V) : Prop :=
  match x with XLoc (KInv _ _ | KSet _ _ | KAdd _ _) => False | _ => True end.
Definition adjusts (x : wact K V) : Prop :=
  match x with XLoc (KSet _ _ | KAdd _ _) => True | _ => False end.

(** Whatever the goroutines inside a call do next, as long as nobody makes a new call, sooner or
    later all calls have returned: either there are none, or some goroutine can take a step and
    after every possible step the same holds.  Before every step expirations may be changed. *)
Inductive all_return (w : world K V) : Prop :=
| ar_none : c_fr (w_cl w) = ∅ -> all_return w
| ar_step : (exists x, goes_on x /\ is_Some (wstep w x)) ->
    (forall xs w1 tr x w' ev, Forall adjusts xs -> wrun w xs = Some (w1, tr) ->
       goes_on x -> wstep w1 x = Some (w', ev) -> all_return w') -> all_return w.

(** Goroutine [t] is in deletedCallback or in the f of its Range. *)
Definition in_callback (w : world K V) (t : nat) : Prop :=
  exists c now p, c_fr (w_cl w) !! t = Some (mk_frame c now p) /\
    match p with Q_del _ _ _ | Q_user _ _ => True | _ => False end.

(** The same as [all_return], while the goroutines inside a callback stay there. *)
Inductive return_meanwhile (w : world K V) : Prop :=
| rm_done : (forall t, is_Some (c_fr (w_cl w) !! t) -> in_callback w t) -> return_meanwhile w
| rm_step : (exists x, goes_on x /\ (forall t, gor_of x = Some t -> ~ in_callback w t) /\ is_Some (wstep w x)) ->
    (forall xs w1 tr x w' ev, Forall adjusts xs -> wrun w xs = Some (w1, tr) ->
       goes_on x -> (forall t, gor_of x = Some t -> ~ in_callback w t) -> wstep w1 x = Some (w', ev) -> return_meanwhile w') ->
    return_meanwhile w.
End spec.
