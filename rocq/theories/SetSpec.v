(** Specification of set: what each call does to a family of mathematical sets. *)
From Verif Require Import Base GoMap GoMapSpec SetModel.

(** [count] sets exist, named 0, 1, ...; [mem s r v]: the set value [r] has the member [v]. *)
Record sstate (T : Type) := SState { count : nat; mem : ref -> T -> Prop }.
Arguments SState {T}. Arguments count {T}. Arguments mem {T}.

Definition s_unchanged {T} (s s' : sstate T) : Prop :=
  count s' = count s /\ forall r v, mem s' r v <-> mem s r v.
Definition s_becomes {T} (s s' : sstate T) (n : nat) (P : T -> Prop) : Prop :=
  count s' = count s /\
  (forall v, mem s' (Some n) v <-> P v) /\ (forall r v, r <> Some n -> mem s' r v <-> mem s r v).
Definition s_created {T} (s s' : sstate T) (n : nat) (P : T -> Prop) : Prop :=
  n = count s /\ count s' = S (count s) /\
  (forall v, mem s' (Some n) v <-> P v) /\ (forall r v, r <> Some n -> mem s' r v <-> mem s r v).

Section spec.
  Context {T : Type} (eqb : T -> T -> bool).
  Implicit Types (s : sstate T) (a : ref) (b : bool).

  (** [v] is one of [vs], up to [==]. *)
  Definition among (vs : list T) (v : T) : Prop := exists x, x ∈ vs /\ eqb x v = true.

  Inductive set_does s s' : set_call T -> set_res T -> Prop :=
  | e_New n : s_created s s' n (fun _ => False) -> set_does s s' SNew (SRef (Some n))
  | e_Len a l : s_unchanged s s' -> lists_members eqb (mem s a) l ->
      set_does s s' (SLen a) (SInt (length l))
  | e_Slice a l : s_unchanged s s' -> lists_members eqb (mem s a) l ->
      set_does s s' (SSlice a) (SList l)
  | e_Clone m n : s_created s s' n (mem s (Some m)) -> set_does s s' (SClone (Some m)) (SRef (Some n))
  | e_Clone_nil : s_unchanged s s' -> set_does s s' (SClone None) (SRef None)
  | e_Push n vs : s_becomes s s' n (fun v => mem s (Some n) v \/ among vs v) ->
      set_does s s' (SPush (Some n) vs) (SRef (Some n))
  | e_Push_nil : s_unchanged s s' -> set_does s s' (SPush None []) (SRef None)
  | e_Push_panic vs : s_unchanged s s' -> vs <> [] -> set_does s s' (SPush None vs) SPanic
  | e_Insert n v b : (b = true <-> ~ mem s (Some n) v) ->
      s_becomes s s' n (fun x => mem s (Some n) x \/ eqb v x = true) ->
      set_does s s' (SInsert (Some n) v) (SBool b)
  | e_Insert_nil v : s_unchanged s s' -> set_does s s' (SInsert None v) SPanic
  | e_Contain a v b : s_unchanged s s' -> (b = true <-> mem s a v) ->
      set_does s s' (SContain a v) (SBool b)
  | e_Remove n v b : (b = true <-> mem s (Some n) v) ->
      s_becomes s s' n (fun x => mem s (Some n) x /\ eqb v x = false) ->
      set_does s s' (SRemove (Some n) v) (SBool b)
  | e_Remove_nil v : s_unchanged s s' -> set_does s s' (SRemove None v) (SBool false)
  | e_ContainAndRemove n v b : (b = true <-> mem s (Some n) v) ->
      s_becomes s s' n (fun x => mem s (Some n) x /\ eqb v x = false) ->
      set_does s s' (SContainAndRemove (Some n) v) (SBool b)
  | e_ContainAndRemove_nil v : s_unchanged s s' -> set_does s s' (SContainAndRemove None v) (SBool false)
  | e_IsEmpty a b : s_unchanged s s' -> (b = true <-> forall v, ~ mem s a v) ->
      set_does s s' (SIsEmpty a) (SBool b)
  | e_Clear n : s_becomes s s' n (fun _ => False) -> set_does s s' (SClear (Some n)) (SRef (Some n))
  | e_Clear_nil : s_unchanged s s' -> set_does s s' (SClear None) (SRef None)
  | e_CopyFrom n a : s_becomes s s' n (fun v => mem s (Some n) v \/ mem s a v) ->
      set_does s s' (SCopyFrom (Some n) a) (SRef (Some n))
  | e_CopyFrom_nil a : s_unchanged s s' -> (forall v, ~ mem s a v) ->
      set_does s s' (SCopyFrom None a) (SRef None)
  | e_CopyFrom_panic a : s_unchanged s s' -> ~ (forall v, ~ mem s a v) ->
      set_does s s' (SCopyFrom None a) SPanic
  | e_Range a f l : s_unchanged s s' -> lists_members eqb (mem s a) l ->
      set_does s s' (SRange a f) (SList (visited f l))
  | e_Equal a c b : s_unchanged s s' -> (b = true <-> forall v, mem s a v <-> mem s c v) ->
      set_does s s' (SEqual a c) (SBool b)
  | e_IsSubSet a c b : s_unchanged s s' -> (b = true <-> forall v, mem s a v -> mem s c v) ->
      set_does s s' (SIsSubSet a c) (SBool b)
  | e_IsSupperSet a c b : s_unchanged s s' ->
      (* what the code does, not what its comment says *)
      (b = true <-> ~ (forall v, mem s c v -> mem s a v)) ->
      set_does s s' (SIsSupperSet a c) (SBool b)
  | e_Difference a c n : s_created s s' n (fun v => mem s a v /\ ~ mem s c v) ->
      set_does s s' (SDifference a c) (SRef (Some n))
  | e_SymmetricDifference a c n :
      s_created s s' n (fun v => (mem s a v /\ ~ mem s c v) \/ (mem s c v /\ ~ mem s a v)) ->
      set_does s s' (SSymmetricDifference a c) (SRef (Some n))
  | e_Intersection a c n : s_created s s' n (fun v => mem s a v /\ mem s c v) ->
      set_does s s' (SIntersection a c) (SRef (Some n))
  | e_Union a cs n : s_created s s' n (fun v => mem s a v \/ exists c, c ∈ cs /\ mem s c v) ->
      set_does s s' (SUnion a cs) (SRef (Some n)).

  Inductive set_behaves s : list (set_call T * set_res T) -> sstate T -> Prop :=
  | sb_nil s' : s_unchanged s s' -> set_behaves s [] s'
  | sb_cons s1 c r h s2 : set_does s s1 c r -> set_behaves s1 h s2 -> set_behaves s ((c, r) :: h) s2.
End spec.
