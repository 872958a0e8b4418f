(** Comparators that are no weak order, or one only on the elements at hand: vocabulary for C134-C137. *)
From Verif Require Import Base VecModel VecSpec VecAutoSpec.
Local Open Scope Z_scope.

(** The equality is that of the order, on the values in P. *)
Definition matches_on {T} (P : T -> Prop) (lt eq : T -> T -> bool) : Prop :=
  forall a b, P a -> P b -> eq a b = negb (lt a b) && negb (lt b a).

(** The elements of l at the positions p. *)
Definition at_positions {A} (l : list A) (p : list nat) : list A := omap (fun i => l !! i) p.
(** Two comparisons answer alike on the elements of l and on those of l', when elements at different
    positions are compared. *)
Definition alike {A B} (f : A -> A -> Z) (l : list A) (g : B -> B -> Z) (l' : list B) : Prop :=
  length l = length l' /\ forall i j a b a' b', i <> j -> l !! i = Some a -> l !! j = Some b -> l' !! i = Some a' -> l' !! j = Some b' ->
    f a b = g a' b'.
(** A sorting function that moves the elements about and learns of them only by comparing those at
    different positions (as slices.SortFunc and slices.SortStableFunc do: their random numbers depend on
    the length alone): if the answers are alike the elements go to the same places, whatever they are. *)
Definition by_comparing (srt : forall A, (A -> A -> Z) -> list A -> list A) : Prop :=
  forall A B (f : A -> A -> Z) (g : B -> B -> Z) l l', alike f l g l' ->
    exists p, p ≡ₚ seq 0 (length l) /\ srt A f l = at_positions l p /\ srt B g l' = at_positions l' p.
