(** What it means that calls of rwmap return. *)
From Verif Require Import Base RwMapModel.

Section spec.
Context {K : Type} `{Countable K} {V : Type}.
Context (deref : nat -> V) (zero : V) (veq : V -> V -> option bool).
Local Notation act := (act deref zero veq).

(** Whatever the goroutines inside a call do next, as long as nobody makes a new call, sooner or
    later all calls have returned: either there are none, or some goroutine can take a step and
    after every possible step the same holds. *)
Inductive all_return (cf : config K V) : Prop :=
| ar_none : c_thr cf = ∅ -> all_return cf
| ar_step : (exists t lab, is_Some (act cf (AStep t lab))) ->
    (forall t lab cf' ev, act cf (AStep t lab) = Some (cf', ev) -> all_return cf') -> all_return cf.

(** How many steps of an execution are steps of [t]; how many calls of [t] return. *)
Fixpoint own (t : nat) (acts : list (action K V)) : nat :=
  match acts with
  | [] => 0
  | AStep u _ :: acts => (if decide (u = t) then 1 else 0) + own t acts
  | AInv _ _ :: acts => own t acts
  end.
Fixpoint returned (t : nat) (tr : list (event K V)) : nat :=
  match tr with
  | [] => 0
  | ERet u _ :: tr => (if decide (u = t) then 1 else 0) + returned t tr
  | _ :: tr => returned t tr
  end.

(** Goroutine [t] is in the callback of its Range. *)
Definition in_callback (cf : config K V) (t : nat) : Prop :=
  exists k v todo n, c_thr cf !! t = Some (CRange, R_call k v todo n).

(** The same as [all_return], while the goroutines inside a callback stay there. *)
Inductive return_meanwhile (cf : config K V) : Prop :=
| rm_done : (forall t, is_Some (c_thr cf !! t) -> in_callback cf t) -> return_meanwhile cf
| rm_step : (exists t lab, ~ in_callback cf t /\ is_Some (act cf (AStep t lab))) ->
    (forall t lab cf' ev, ~ in_callback cf t -> act cf (AStep t lab) = Some (cf', ev) -> return_meanwhile cf') ->
    return_meanwhile cf.
End spec.
