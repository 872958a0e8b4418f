(** synccache: how often LoadOrStore goes around its loop. *)
From Verif Require Import Base RwMapModel SyncCacheModel.

Section spec.
Context {K V : Type}.
Local Notation sev := (sev K V).

(** The entries goroutine [t] made in the course of [tr]: LoadOrStore makes one each time around
    (synccache.go:95). *)
Definition entries_of (t : nat) (tr : list sev) : list nat :=
  tr ≫= (fun ev => match ev with SNew t' e _ _ => if decide (t' = t) then [e] else [] | _ => [] end).
(** Those made by others. *)
Definition entries_not_of (t : nat) (tr : list sev) : list nat :=
  tr ≫= (fun ev => match ev with SNew t' e _ _ => if decide (t' = t) then [] else [e] | _ => [] end).
Definition entries_in (tr : list sev) : list nat :=
  tr ≫= (fun ev => match ev with SNew _ e _ _ => [e] | _ => [] end).

(** At the end of [tr1 ++ SInv t c :: tr2], goroutine [t] is inside the call [c]. *)
Definition still_in (t : nat) (tr2 : list sev) : Prop := forall r, SRet t r ∉ tr2.

(** The readings of the clock, in order. *)
Definition clock_readings (tr : list sev) : list Z :=
  tr ≫= (fun ev => match ev with SClock _ n => [n] | _ => [] end).

(** Goroutine [t] found the entry [e] expired. *)
Definition saw_expired (t e : nat) (tr : list sev) : Prop :=
  exists now x, SChk t e now x ∈ tr /\ Z.lt x now.
End spec.
