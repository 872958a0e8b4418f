(** How old the values returned by Get can be. *)
From Verif Require Import Base RefreshCacheModel RefreshCacheSpec.
Local Open Scope Z_scope.

Section spec.
Context {T E F : Type}.
Local Notation event := (event T E F).

(** Goroutine [t], in the events [call] of its call, had a reason to take the value held after [x] for
    fresh: a success is recorded in [x] that was less than [maxAge] old at a clock reading of the call
    (any success at all if [maxAge] is negative). *)
Definition fresh_by (maxAge : Z) (t : nat) (call x : list event) : Prop :=
  (maxAge < 0 /\ exists u l, 0 < l /\ ESucc u l ∈ x) \/
  exists n u l, ENow t n ∈ call /\ n - l < maxAge /\ ESucc u l ∈ x.

(** [x] ends with the refresh function of [t] returning [v], in the events after the first [i]. *)
Definition own_refresh (t : nat) (v : T) (i : nat) (x : list event) : Prop :=
  exists a, x = a ++ [EFinish t (OOk v)] /\ (i <= length a)%nat.

(** Every success recorded in [tr] is recorded in [x] ([tr] and [x] being prefixes of one trace). *)
Definition covers (x tr : list event) : Prop :=
  forall a u n b, tr = a ++ ESucc u n :: b -> (length a < length x)%nat.
End spec.
