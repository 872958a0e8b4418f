(** Specification vocabulary for maps and sets: abstract maps are functions. *)
From Verif Require Import Base.

(** [==] of a key type without NaN. *)
Definition equivb {K} (eqb : K -> K -> bool) : Prop :=
  (forall x, eqb x x = true) /\
  (forall x y, eqb x y = true -> eqb y x = true) /\
  (forall x y z, eqb x y = true -> eqb y z = true -> eqb x z = true).

(** [l] lists each member of [P] exactly once (members that are [==] count as one). *)
Definition lists_members {K} (eqb : K -> K -> bool) (P : K -> Prop) (l : list K) : Prop :=
  (forall k, P k <-> exists k', k' ∈ l /\ eqb k' k = true) /\
  (forall i j x y, l !! i = Some x -> l !! j = Some y -> eqb x y = true -> i = j).

(** [l] lists each entry of the map [m] exactly once. *)
Definition lists_entries {K V} (eqb : K -> K -> bool) (m : K -> option V) (l : list (K * V)) : Prop :=
  (forall k v, m k = Some v <-> exists k', (k', v) ∈ l /\ eqb k' k = true) /\
  (forall i j x y, l !! i = Some x -> l !! j = Some y -> eqb x.1 y.1 = true -> i = j).

(** [m] updated at the keys [==] to [k]. *)
Definition fupd {K V} (eqb : K -> K -> bool) (m : K -> option V) (k : K) (o : option V) : K -> option V :=
  fun k' => if eqb k k' then o else m k'.

(** [f] overridden by [g] *)
Definition over {K V} (f g : K -> option V) : K -> option V :=
  fun k => match g k with Some v => Some v | None => f k end.

(** The part of a list a loop visits whose body returns [f x] (false stops it). *)
Fixpoint visited {A} (f : A -> bool) (l : list A) : list A :=
  match l with
  | [] => []
  | x :: l' => if f x then x :: visited f l' else [x]
  end.
