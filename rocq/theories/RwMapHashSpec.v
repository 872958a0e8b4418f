(** rwmap with keys that cannot be hashed: what is said of the executions. *)
From Verif Require Import Base RwMapModel RwMapHashModel.

Section spec.
Context {K : Type} `{Countable K} {V : Type}.
(** The events of the calls with keys that can be hashed, and of those without a key. *)
Definition hashed (tr : list (hevent K V)) : list (event K V) :=
  tr ≫= (fun ev => match ev with HEv ev => [ev] | _ => [] end).
(** The trace without the calls of Len; [l]: the goroutines inside one. *)
Fixpoint drop_len (l : gset nat) (tr : list (event K V)) : list (event K V) :=
  match tr with
  | [] => []
  | EInv t CLen :: tr => drop_len ({[t]} ∪ l) tr
  | ERet t r :: tr => if decide (t ∈ l) then drop_len (l ∖ {[t]}) tr else ERet t r :: drop_len l tr
  | ev :: tr => ev :: drop_len l tr
  end.
(** The same state, but for the counter *)
Definition but_len (s s' : shared K) : Prop := set_len 0 s = set_len 0 s'.
(** No call is under way. *)
Definition hquiet (hc : hconfig K V) : Prop := c_thr (h_cf hc) = ∅ /\ h_bad hc = ∅.
(** What such a call adds to the counter *)
Definition miscounted (b : bcall) : Z := match b with BStore | BSwap | BLoadOrStore => 1%Z | _ => 0%Z end.
(** How many Stores, Swaps and LoadOrStores with such keys there were *)
Fixpoint failed_stores (tr : list (hevent K V)) : Z :=
  match tr with [] => 0%Z | HCall _ b :: tr => (miscounted b + failed_stores tr)%Z | _ :: tr => failed_stores tr end.
(** A call with such a key, made by [t] alone from beginning to end *)
Definition bad_alone (t : nat) (b : bcall) : list (haction K V) :=
  [HInv t b; HStep t; HStep t] ++ (match b with BStore | BSwap | BLoadOrStore => [HStep t] | _ => [] end).
End spec.
