(** rwmap: keys that are not used any more. *)
From Verif Require Import Base RwMapModel RwMapSpec RwMapMemSpec.

Section spec.
Context {K : Type} `{Countable K} {V : Type}.
Context (deref : nat -> V) (zero : V) (veq : V -> V -> option bool).

(** The call may put the key [k] into the map. *)
Definition stores_key (k : K) (c : call K V) : Prop :=
  match c with CStore k' _ | CSwap k' _ | CLoadOrStore k' _ => k' = k | _ => False end.

(** How often [read.amended] went from true to false: the promotions of [dirty] (and the Clears) that
    happened while there were keys that are only in [dirty]. *)
Fixpoint promotions (cf : config K V) (acts : list (action K V)) : nat :=
  match acts with
  | [] => 0
  | a :: rest =>
      match act deref zero veq cf a with
      | None => 0
      | Some (cf', _) =>
          (if s_am (c_sh cf) then if s_am (c_sh cf') then 0 else 1 else 0) + promotions cf' rest
      end
  end.
End spec.

(** One goroutine stores the key 0; then it stores a key and deletes it again with CompareAndDelete, for
    the keys 1 to [n] one after the other.  At most two keys are in the map at any time. *)
Definition churn (n : nat) : list (event nat nat) :=
  [EInv 1 (CStore 0 50); ERet 1 RUnit] ++
  seq 1 n ≫= (fun k => [EInv 1 (CStore k 50); ERet 1 RUnit; EInv 1 (CCad k 50); ERet 1 (RBool true)]).
