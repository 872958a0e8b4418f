(** What an implementation of heap.Interface has to do (the comment of container/heap, which the
    package copies), and what it costs. *)
From Verif Require Import Base HeapIface.
Local Open Scope Z_scope.

(** [rep s l]: the implementation in state [s] holds the elements [l], the one with index [i]
    being [l !! i].  [Less] compares the elements at two indices by [less], [Swap] exchanges them,
    [Push] adds an element that the implementation [admits] at index [Len()], [Pop] removes the
    one with index [Len() - 1].  Apart from that they may do what they like to the state. *)
Record implements {S A} (I : iface S A) (less : A -> A -> bool) (rep : S -> list A -> Prop)
    (admits : A -> list A -> Prop) : Prop := {
  im_len : forall s l, rep s l -> i_len I s = Z.of_nat (length l);
  im_less : forall s l i j x y, rep s l -> l !! i = Some x -> l !! j = Some y ->
    exists s', i_less I (Z.of_nat i) (Z.of_nat j) s = Ok (less x y, s') /\ rep s' l;
  im_swap : forall s l i j x y, rep s l -> l !! i = Some x -> l !! j = Some y ->
    exists s', i_swap I (Z.of_nat i) (Z.of_nat j) s = Ok s' /\ rep s' (<[j := x]> (<[i := y]> l));
  im_push : forall s l x, rep s l -> admits x l -> exists s', i_push I x s = Ok s' /\ rep s' (l ++ [x]);
  im_pop : forall s l x, rep s (l ++ [x]) -> exists s', i_pop I s = Ok (x, s') /\ rep s' l
}.

(** [l] is [l0] after a change of the element with index [i]: all other elements compare as before. *)
Definition changed_at {A} (i : nat) (less0 : A -> A -> bool) (l0 : list A) (less : A -> A -> bool)
    (l : list A) : Prop :=
  length l = length l0 /\
  forall a b x0 y0 x y, a <> i -> b <> i -> l0 !! a = Some x0 -> l0 !! b = Some y0 ->
    l !! a = Some x -> l !! b = Some y -> less x y = less0 x0 y0.

(** No more elements than an [int] can count. *)
Definition fits (n : nat) : Prop := Z.of_nat n < 2^63.

(** The items of the example: every one is there once and knows its index. *)
Definition items_hold (prio : nat -> Z) (q : items) (l : list nat) : Prop :=
  q_items q = l /\ NoDup l /\ (forall x, q_prio q x = prio x) /\
  forall i x, l !! i = Some x -> q_index q x = Z.of_nat i.
(** The higher priority comes first. *)
Definition by_prio (prio : nat -> Z) (x y : nat) : bool := prio y <? prio x.
Definition with_prio (prio : nat -> Z) (x : nat) (p : Z) (y : nat) : Z :=
  if Nat.eqb y x then p else prio y.

(** [c'] comes after [c] with at most [a] comparisons and [b] swaps in between. *)
Definition within {S} (c c' : counted S) (a b : nat) : Prop :=
  (c_less c' <= c_less c + a)%nat /\ (c_swap c' <= c_swap c + b)%nat.
