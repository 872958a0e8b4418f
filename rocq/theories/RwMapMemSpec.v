(** rwmap: what the fields of the map keep from the garbage collector, and moments of a call. *)
From Verif Require Import Base RwMapModel RwMapSpec.

Section spec.
Context {K : Type} `{Countable K} {V : Type}.
Context (deref : nat -> V) (zero : V) (veq : V -> V -> option bool).

(** From the map the pointer [p] to a value can be reached, in the entry of key [k] in [read] or in
    [dirty]. *)
Definition keeps_value (s : shared K) (k : K) (p : nat) : Prop :=
  exists e, (s_rd s !! k = Some e \/ dirty_map s !! k = Some e) /\ s_ent s e = SPtr p.
(** The key [k] is in [read] or in [dirty]. *)
Definition keeps_key (s : shared K) (k : K) : Prop := k ∈ dom (s_rd s) \/ k ∈ dom (dirty_map s).

(** No Clear is between rwmap.go:521 and rwmap.go:524. *)
Definition no_half_clear (cf : config K V) : Prop := forall t c, c_thr cf !! t <> Some (c, P_clr2).

(** At a moment of the call [c] of goroutine [t], which began in [cf1] and did [acts], the pairs in the
    map were [m]. *)
Definition at_moment (cf1 : config K V) (t : nat) (c : call K V) (acts : list (action K V)) (m : gmap K V) : Prop :=
  exists a1 a2 cf tr, acts = a1 ++ a2 /\ run deref zero veq cf1 (AInv t c :: a1) = Some (cf, tr) /\
    contents deref (c_sh cf) = m.

(** The pairs a Range handed out. *)
Definition handed (t : nat) (tr : list (event K V)) : list (K * V) :=
  tr ≫= (fun ev => match ev with ECall t' k v _ => if decide (t' = t) then [(k, v)] else [] | _ => [] end).

(** [tr] is a call of [t] from its beginning to its end. *)
Definition whole_call (t : nat) (c : call K V) (r : result V) (tr : list (event K V)) : Prop :=
  exists tr', tr = EInv t c :: tr' ++ [ERet t r] /\ forall r', ERet t r' ∉ tr'.
End spec.
