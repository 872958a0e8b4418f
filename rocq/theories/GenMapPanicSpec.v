(** Vocabulary for GenMap callbacks that panic. *)
From Verif Require Import Base GoMap.

Section spec.
  Context {K V : Type} (eqb : K -> K -> bool).

  (** What holds of [==] of every Go type, NaN or not. *)
  Definition go_eq : Prop :=
    (forall x y, eqb x y = true -> eqb y x = true) /\
    (forall x y z, eqb x y = true -> eqb y z = true -> eqb x z = true).
  (** No key is there twice (NaN may be). *)
  Definition distinct (l : list (K * V)) : Prop :=
    forall i j x y, l !! i = Some x -> l !! j = Some y -> eqb (fst x) (fst y) = true -> i = j.
  (** The entry goes if the function says so, and its key can be deleted at all. *)
  Definition goes (del : K -> V -> option bool) (e : K * V) : bool :=
    match del (fst e) (snd e) with Some true => eqb (fst e) (fst e) | _ => false end.
  Definition stay (del : K -> V -> option bool) (l : list (K * V)) : list (K * V) :=
    List.filter (fun e => negb (goes del e)) l.
  (** No other map differs. *)
  Definition only_changes (m : ref) (w w' : world K V) : Prop :=
    next w' = next w /\ forall r, r <> m -> content w' r = content w r.
  (** All maps are the same (the iteration counter of the model may differ). *)
  Definition same_maps (w w' : world K V) : Prop := tables w' = tables w /\ next w' = next w.
  (** The callback that returns false where [f] panics, having done what [f] did until then. *)
  Definition to_false {S} (f : K -> V -> S -> world K V -> option (bool * S) * world K V)
    (k : K) (v : V) (s : S) : world K V -> option (bool * S) * world K V :=
    fun w => match f k v s w with (None, w') => (Some (false, s), w') | r => r end.
End spec.
