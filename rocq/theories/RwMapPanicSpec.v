(** rwmap with Range callbacks that panic, the panic being recovered by the caller of Range.

    rwmap.go:497-505 calls the callback without holding the mutex, with nothing deferred: the panic ends
    the call of Range and does nothing else. *)
From Verif Require Import Base RwMapModel.

Section spec.
Context {K : Type} `{Countable K} {V : Type}.
Context (deref : nat -> V) (zero : V) (veq : V -> V -> option bool).

(** An action of RwMapModel.v, or the callback of the Range of [t] panics. *)
Inductive paction : Type := PAct (a : action K V) | PPanic (t : nat).
(** An event of RwMapModel.v, or the end of a Range whose callback was given the pair and panicked. *)
Inductive pevent : Type := PEv (ev : event K V) | PEnd (t : nat) (k : K) (v : V).

(** The callback of SlowLen (lines 535-538) does not panic. *)
Definition pact (cf : config K V) (a : paction) : option (config K V * list pevent) :=
  match a with
  | PAct a => match act deref zero veq cf a with Some (cf', ev) => Some (cf', PEv <$> ev) | None => None end
  | PPanic t =>
      match c_thr cf !! t with
      | Some (CRange, R_call k v _ _) => Some (mk_config (c_sh cf) (delete t (c_thr cf)), [PEnd t k v])
      | _ => None
      end
  end.
Fixpoint prun (cf : config K V) (acts : list paction) : option (config K V * list pevent) :=
  match acts with
  | [] => Some (cf, [])
  | a :: rest =>
      match pact cf a with
      | None => None
      | Some (cf1, ev) =>
          match prun cf1 rest with
          | None => None
          | Some (cf2, evs) => Some (cf2, ev ++ evs)
          end
      end
  end.

(** The trace in which the callbacks return false instead of panicking. *)
Definition as_false (tr : list pevent) : list (event K V) :=
  tr ≫= (fun ev => match ev with PEv ev => [ev] | PEnd t k v => [ECall t k v false; ERet t RUnit] end).
End spec.
Arguments paction : clear implicits. Arguments pevent : clear implicits.

(** ** Calls that found their key in the read map *)
Section fast.
Context {K : Type} `{Countable K} {V : Type}.
(** Load, LoadAndDelete, Delete, CompareAndSwap, CompareAndDelete. *)
Definition reads_or_removes (c : call K V) : Prop :=
  match c with CLoad _ | CLoadAndDelete _ | CDelete _ | CCas _ _ _ | CCad _ _ => True | _ => False end.
(** Goroutine [t] is in the call [c] of that kind, has found the entry of its key in the read map
    (rwmap.go:125, 287, 394, 431) and goes on with the entry. *)
Definition found_in_read (cf : config K V) (t : nat) (c : call K V) : Prop :=
  reads_or_removes c /\ exists e, c_thr cf !! t = Some (c, E_load e Fast).
(** Goroutine [t] has found the read map to be complete (rwmap.go:478-479) and begins to go through it. *)
Definition ranges_read (cf : config K V) (t : nat) (c : call K V) : Prop :=
  (c = CRange \/ c = CSlowLen) /\ exists todo, c_thr cf !! t = Some (c, R_next todo 0).
(** The number of steps of [t]. *)
Fixpoint steps_of (t : nat) (acts : list (action K V)) : nat :=
  match acts with
  | [] => 0
  | AStep u _ :: acts => (if Nat.eqb u t then 1 else 0) + steps_of t acts
  | AInv _ _ :: acts => steps_of t acts
  end.
(** The goroutine holds the mutex. *)
Definition holds_lock (cf : config K V) (t : nat) : Prop := s_lock (c_sh cf) = Some t.
End fast.
