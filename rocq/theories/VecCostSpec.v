(** What the searches of vec look at: vocabulary for C169. *)
From Verif Require Import Base VecModel VecSpec.

(** The comparison [c'] says of the elements of [l'] at the positions [I] what [c] says of those of [l]. *)
Definition same_at {T} (I : list nat) (l : list T) (c : T -> res Z) (l' : list T) (c' : T -> res Z) : Prop :=
  length l' = length l /\
  forall i x, i ∈ I -> l !! i = Some x -> exists x', l' !! i = Some x' /\ c' x' = c x.

(** The answer, or the panic, of a call, the world left aside. *)
Definition answer {W A} (r : res (A * W)) : res A :=
  match r with Ok (a, _) => Ok a | Panic => Panic | NoFuel => NoFuel end.
Definition is_ok {A} (r : res A) : Prop := exists a, r = Ok a.
