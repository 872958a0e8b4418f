(** Vocabulary for the comparators a vector picks for itself. *)
From Verif Require Import Base.

(** A weak order on the elements with [P]. *)
Definition swo_on {T} (P : T -> Prop) (lt : T -> T -> bool) : Prop :=
  (forall a, P a -> lt a a = false) /\
  (forall a b c, P a -> P b -> P c -> lt a b = true -> lt b c = true -> lt a c = true) /\
  (forall a b c, P a -> P b -> P c -> lt a b = false -> lt b a = false -> lt b c = false -> lt c b = false ->
     lt a c = false /\ lt c a = false).
