(** Range of lhashmap with a callback that calls methods of the map: where the loop stands. *)
From Verif Require Import Base GoMap DllistModel LHashMapModel LHashMapSpec.

Section spec.
  Context {K V : Type} (eqb : K -> K -> bool) (upd : bool) (zero_k : K) (zero : V).
  Notation entries := (list (K * V)).
  Notation W := (lhm K V).
  Notation history := (list (lh_call K V * lh_res K V)).

  (** Where the entry with key k is. *)
  Fixpoint position (k : K) (s : entries) : option nat :=
    match s with [] => None | x :: s => if eqb x.1 k then Some 0 else S <$> position k s end.

  (** The loop stands at entry number i of the map, or at one that was removed, or at one that the map
      had before Clear and that was followed by [rest] then. *)
  Inductive cursor := At (i : nat) | Gone | Cleared (rest : entries).
  (** Entry number j goes to the front: where entry number i is now. *)
  Definition to_front (j i : nat) : nat := if Nat.eqb i j then 0 else if Nat.ltb i j then S i else i.
  (** What a call on a map with entries s does to the place of the loop. *)
  Definition shift (s : entries) (c : lh_call K V) (p : cursor) : cursor :=
    match p with
    | At i =>
        match c with
        | LLoad k => match position k s with Some j => At (to_front j i) | None => At i end
        | LStore k _ => match position k s with Some j => At (to_front j i) | None => At (S i) end
        | LRemove k =>
            match position k s with
            | Some j => if Nat.eqb i j then Gone else if Nat.ltb j i then At (i - 1) else At i
            | None => At i
            end
        | LClear => Cleared (drop (S i) s)
        | LLen | LRange _ => At i
        end
    | p => p
    end.
  (** The calls of one turn. *)
  Inductive shifts : entries -> cursor -> history -> entries -> cursor -> Prop :=
  | sh_nil s p : shifts s p [] s p
  | sh_cons s p c r s1 h s2 p2 : lh_does eqb zero s s1 c r -> one_each eqb s1 -> shifts s1 (shift s c p) h s2 p2 ->
      shifts s p ((c, r) :: h) s2 p2.
  (** The next entry, and where the loop stands then. *)
  Definition advance (s : entries) (p : cursor) : option ((K * V) * cursor) :=
    match p with
    | At i => (fun x => (x, At (S i))) <$> s !! S i
    | Gone | Cleared [] => None
    | Cleared (x :: rest) => Some (x, Cleared rest)
    end.

  (** One turn: the map before it, the entry given to the callback, the calls it makes. *)
  Record turn := mk_turn { t_map : W; t_entry : K * V; t_calls : history }.
  (** The loop, standing at p, is about to give entry x to the callback. *)
  Inductive turns {A} (f : K -> V -> A -> M W (bool * A)) : W -> cursor -> K * V -> A -> list turn -> A -> W -> Prop :=
  | t_stop w p x a h a1 w1 p1 : f x.1 x.2 a w = Ok ((false, a1), w1) -> lh_steps eqb upd zero w h w1 ->
      shifts (labs zero_k zero w) p h (labs zero_k zero w1) p1 ->
      turns f w p x a [mk_turn w x h] a1 w1
  | t_end w p x a h a1 w1 p1 : f x.1 x.2 a w = Ok ((true, a1), w1) -> lh_steps eqb upd zero w h w1 ->
      shifts (labs zero_k zero w) p h (labs zero_k zero w1) p1 -> advance (labs zero_k zero w1) p1 = None ->
      turns f w p x a [mk_turn w x h] a1 w1
  | t_go w p x a h a1 w1 p1 y q ts a2 w2 : f x.1 x.2 a w = Ok ((true, a1), w1) -> lh_steps eqb upd zero w h w1 ->
      shifts (labs zero_k zero w) p h (labs zero_k zero w1) p1 -> advance (labs zero_k zero w1) p1 = Some (y, q) ->
      turns f w1 q y a1 ts a2 w2 ->
      turns f w p x a (mk_turn w x h :: ts) a2 w2.

  (** The callback does nothing to the map but call its methods, and the calls h that it makes when it
      is given entry x meet [R x h]. *)
  Definition makes {A} (f : K -> V -> A -> M W (bool * A)) (R : K * V -> history -> Prop) : Prop :=
    forall x a r w w', lh_reached eqb upd zero_k zero w -> f x.1 x.2 a w = Ok (r, w') ->
      exists h, lh_steps eqb upd zero w h w' /\ R x h.

  (** The call gets or stores an entry with key k / has to do with key k. *)
  Definition refreshes (k : K) (c : lh_call K V) : Prop :=
    match c with LLoad k' | LStore k' _ => eqb k k' = true | _ => False end.
  Definition touches (k : K) (c : lh_call K V) : Prop :=
    match c with LLoad k' | LStore k' _ | LRemove k' => eqb k k' = true | LClear => True | _ => False end.
  Definition removes (k : K) (c : lh_call K V) : Prop :=
    match c with LRemove k' => eqb k k' = true | LClear => True | _ => False end.
End spec.
Arguments cursor : clear implicits. Arguments turn : clear implicits.
