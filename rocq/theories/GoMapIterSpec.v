(** Vocabulary for claims about a range loop whose body changes the maps. It mentions only
    which entries a map has in which state, not how the loop keeps track of them. *)
From Verif Require Import Base GoMap GoMapIter.

Section spec.
  Context {K V : Type} (eqb : K -> K -> bool).
  Notation W := (world K V).
  Implicit Types (w : W) (m : ref) (k : K).

  (** The map [m] has an entry whose key is [==] to [k]. *)
  Definition has_key m k w : Prop := exists k' v, (k', v) ∈ content w m /\ eqb k' k = true.

  (** The states reached in the turns [ts], in order. *)
  Definition worlds_in (ts : list (turn (K := K) (V := V))) : list W := concat (map t_worlds ts).
  (** The state in which turn number [i] starts, if the loop starts in [w]. *)
  Definition world_at w ts (i : nat) : W := List.last (worlds_in (take i ts)) w.
  (** The states from the start of turn [i] to the start of turn [j]. *)
  Definition worlds_between ts (i j : nat) : list W := worlds_in (take (j - i) (drop i ts)).

  (** From one state to the next the map [m] gets no new key. *)
  Definition no_new_key m (ws : list W) : Prop :=
    forall i w1 w2, ws !! i = Some w1 -> ws !! S i = Some w2 ->
    forall k, has_key m k w2 -> has_key m k w1.

  (** [k] is produced in some turn. *)
  Definition produced k (ts : list (turn (K := K) (V := V))) : Prop := exists t, t ∈ ts /\ eqb (t_key t) k = true.

  (** [m] has the same entries (possibly in another place of the table) in both states. *)
  Definition same_entries m w w' : Prop := content w m ≡ₚ content w' m.
End spec.

(** A callback given as one computation on the maps, as in GoMap.v, seen as a program that
    makes a single call: the computation itself. *)
Section callback.
  Context {K V S : Type} (f : K -> V -> S -> M (world K V) (bool * S)).
  Definition run_callback (c : K * V * S) (w : world K V) : option (bool * S) * world K V :=
    match f c.1.1 c.1.2 c.2 w with
    | Ok (r, w') => (Some r, w')
    | _ => (None, w)
    end.
  Definition one_call (k : K) (v : V) (s : S) : prog (K := K) (V := V) (bool * S) :=
    PDo (k, v, s) (fun o : option (bool * S) => PRet (default (false, s) o)).
End callback.

(** The entries produced, in order. *)
Definition entries_of {K V} (ts : list (turn (K := K) (V := V))) : list (K * V) :=
  map (fun t => (t_key t, t_val t)) ts.

(** The callback that deletes the entry it is given, by the call [del], if [p] says so, and goes on. *)
Definition delete_if {K V C R} (p : K -> V -> bool) (del : K -> C) (k : K) (v : V) (_ : unit)
  : prog (K := K) (V := V) (R := R) (bool * unit) :=
  if p k v then PDo (del k) (fun _ => PRet (true, tt)) else PRet (true, tt).
