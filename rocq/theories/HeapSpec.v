(** Specification vocabulary for heaps: independent of the model. *)
From Verif Require Import Base.

(** A strict weak order: what Go's sort and heap packages require of [Less]. *)
Definition strict_weak {A} (less : A -> A -> bool) : Prop :=
  (forall x, less x x = false) /\
  (forall x y z, less x y = true -> less y z = true -> less x z = true) /\
  (forall x y z, less x y = false -> less y z = false -> less x z = false).

(** Heap order: no element is less than its parent (index (c-1)/2). *)
Definition heap_ordered {A} (less : A -> A -> bool) (l : list A) : Prop :=
  forall c x y, 0 < c -> l !! c = Some x -> l !! ((c - 1) / 2) = Some y ->
    less x y = false.

(** [x] is a least element of [l]: nothing in [l] is less. *)
Definition least {A} (less : A -> A -> bool) (x : A) (l : list A) : Prop :=
  forall y, y ∈ l -> less y x = false.

(** No later element is less than an earlier one. *)
Definition in_order {A} (less : A -> A -> bool) (l : list A) : Prop :=
  forall i j x y, i < j -> l !! i = Some x -> l !! j = Some y -> less y x = false.

(** What a priority queue may do: the bag [b] changes by exactly the pushed and
    popped elements and a pop takes a least one. *)
Inductive pq_behaves {A} (less : A -> A -> bool) :
  list A -> list (option A) -> list A -> list A -> Prop :=
| pq_nil b : pq_behaves less b [] [] b
| pq_push b b1 x evs outs b2 :
    b1 ≡ₚ x :: b -> pq_behaves less b1 evs outs b2 ->
    pq_behaves less b (Some x :: evs) outs b2
| pq_pop b b1 x evs outs b2 :
    b ≡ₚ x :: b1 -> least less x b -> pq_behaves less b1 evs outs b2 ->
    pq_behaves less b (None :: evs) (x :: outs) b2.

(** Every Pop of the history happens on a non-empty queue, counting from [n] elements. *)
Fixpoint pops_allowed {A} (n : nat) (evs : list (option A)) : Prop :=
  match evs with
  | [] => True
  | Some _ :: evs => pops_allowed (S n) evs
  | None :: evs => exists m, n = S m /\ pops_allowed m evs
  end.

(** The same bag discipline when elements can also be removed or replaced: a bag
    event sequence in which [take x] takes out some element [x], and pops take a
    least one. Used for histories with Remove and Fix. *)
Inductive bag_event (A : Type) := EvAdd (x : A) | EvPopLeast (x : A) | EvTake (x : A).
Arguments EvAdd {A} x.
Arguments EvPopLeast {A} x.
Arguments EvTake {A} x.

Inductive bag_behaves {A} (less : A -> A -> bool) : list A -> list (bag_event A) -> list A -> Prop :=
| bag_nil b b' : b ≡ₚ b' -> bag_behaves less b [] b'
| bag_add b x evs b2 : bag_behaves less (x :: b) evs b2 -> bag_behaves less b (EvAdd x :: evs) b2
| bag_pop b b1 x evs b2 :
    b ≡ₚ x :: b1 -> least less x b -> bag_behaves less b1 evs b2 ->
    bag_behaves less b (EvPopLeast x :: evs) b2
| bag_take b b1 x evs b2 :
    b ≡ₚ x :: b1 -> bag_behaves less b1 evs b2 -> bag_behaves less b (EvTake x :: evs) b2.
