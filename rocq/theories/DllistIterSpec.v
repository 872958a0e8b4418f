(** Range of dllist with a callback that calls methods of lists and elements. *)
From Verif Require Import Base DllistModel DllistSpec.

(** The part of a sequence that follows e; nothing if e is not in it. *)
Fixpoint after (e : nat) (s : list nat) : list nat :=
  match s with [] => [] | x :: s => if decide (x = e) then s else after e s end.

Section spec.
  Context {T : Type} (zero : T).
  Notation W := (dworld T).

  (** The callback does nothing to the lists but make calls with good handles, and does not clear or
      sort the list under the element it is given. *)
  Definition good_callback {A} (f : option nat -> A -> M W (bool * A)) : Prop :=
    forall x a r w w', reached zero w -> live (dabs w) x -> f (Some x) a w = Ok (r, w') ->
      (exists h, dl_history zero w h w') /\ live (dabs w') x.

  (** One turn of the loop: the lists before it, the element given to the callback, the lists after it. *)
  Record turn := mk_turn { t_before : W; t_elem : nat; t_after : W }.
  (** The loop over list l is about to give e to the callback; it goes on to the element that follows e
      in the list after that turn. *)
  Inductive turns {A} (l : nat) (f : option nat -> A -> M W (bool * A)) : W -> nat -> A -> list turn -> bool -> A -> W -> Prop :=
  | t_stop w e a a1 w1 : f (Some e) a w = Ok ((false, a1), w1) -> turns l f w e a [mk_turn w e w1] false a1 w1
  | t_end w e a a1 w1 : f (Some e) a w = Ok ((true, a1), w1) -> after e (dseq (dabs w1) l) = [] ->
      turns l f w e a [mk_turn w e w1] true a1 w1
  | t_go w e a a1 w1 e' s ts b a2 w2 : f (Some e) a w = Ok ((true, a1), w1) -> after e (dseq (dabs w1) l) = e' :: s ->
      turns l f w1 e' a1 ts b a2 w2 -> turns l f w e a (mk_turn w e w1 :: ts) b a2 w2.
End spec.
Arguments turn : clear implicits.
