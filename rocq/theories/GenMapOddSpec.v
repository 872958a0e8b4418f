(** Vocabulary for claims about maps whose entries have numbers. *)
From Verif Require Import Base GoMap GenMapModel GoMapIter GenMapOddModel.

(** The program does not make the call [c]. *)
Fixpoint never {K V C R A} (c : C) (p : @prog K V C R A) : Prop :=
  match p with
  | PRet _ => True
  | PDo c' k => c' <> c /\ forall r, never c (k r)
  | PRange m f s k => (forall k v s, never c (f k v s)) /\ forall r, never c (k r)
  end.

Section spec.
  Context {K V : Type} (eqb : K -> K -> bool).
  Notation IK := (nat * K)%type.
  Notation W := (world IK V).

  (** The maps without the numbers. *)
  Definition plain_entry (e : IK * V) : K * V := (e.1.2, e.2).
  Definition plain (w : W) : world K V := World (map plain_entry <$> tables w) (next w) (its w).

  (** No two entries of a map have the same number. *)
  Definition numbers_ok (w : W) : Prop := forall n, NoDup (map (fun e => e.1.1) (content w (Some n))).

  (** The calls that remove entries. *)
  Definition removing (c : gm_call K V) : bool :=
    match c with GDelete _ _ | GLoadAndDelete _ _ | GDeleteFunc _ _ | GClear _ => true | _ => false end.
  (** The map [m] has an entry with the number [j]. *)
  Definition has_number (m : ref) (j : nat) (w : W) : Prop := exists k v, ((j, k), v) ∈ content w m.

  (** The callback that stores the key and value it is given and goes on. *)
  Definition store_again (m : ref) (k : K) (v : V) (_ : unit)
    : prog (K := K) (V := V) (C := gm_call K V) (R := gm_res K V) (bool * unit) :=
    PDo (GStore m k v) (fun _ => PRet (true, tt)).
End spec.
