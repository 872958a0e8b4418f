(** rwmap: how far Len can be off when calls overlap a Clear. *)
From Verif Require Import Base RwMapModel RwMapSpec.

Section spec.
Context {K : Type} `{Countable K} {V : Type}.
Context (deref : nat -> V) (zero : V) (veq : V -> V -> option bool).

(** The step of Clear that sets the counter to 0 (rwmap/rwmap.go line 527). *)
Definition zeroes (cf : config K V) (a : action K V) : bool :=
  match a with
  | AStep t _ => match c_thr cf !! t with Some (_, P_clr2) => true | _ => false end
  | AInv _ _ => false
  end.

(** The number of calls that may add or remove a key and that were in progress when the counter was
    set to 0 for the last time; [n] if it was not set to 0 in this execution. *)
Fixpoint at_last_clear (cf : config K V) (acts : list (action K V)) (n : nat) : nat :=
  match acts with
  | [] => n
  | a :: acts =>
      match act deref zero veq cf a with
      | Some (cf', _) =>
          at_last_clear cf' acts (if zeroes cf a then changing_now (c_thr cf) else n)
      | None => n
      end
  end.

End spec.
