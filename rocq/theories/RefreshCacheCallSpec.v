(** Which user function a call of the refresh cache may run.  A function here stands for the Go
    function together with the context and the arguments that the call hands to it, so that "the
    function of the call" is the function with the context and the arguments of that call. *)
From Verif Require Import Base RefreshCacheModel.

Section spec.
Context {T E F : Type} (f0 : option F).
Local Notation event := (event T E F).

(** The call goroutine [t] is in after the trace. *)
Definition current (t : nat) (tr : list event) : option (call F) :=
  foldl (fun c e => match e with
                    | EInv u d => if Nat.eqb u t then Some d else c
                    | EReturn u _ => if Nat.eqb u t then None else c
                    | _ => c
                    end) None tr.

(** [f] was given to the constructor, or to a SetRefreshFunc that has been called; [f] was given
    to a SetClearFunc that has been called. *)
Definition set_as_refresh (tr : list event) (f : option F) : Prop :=
  f = f0 \/ exists u, EInv u (CSetRefresh f) ∈ tr.
Definition set_as_clear (tr : list event) (f : option F) : Prop :=
  exists u, EInv u (CSetClear f) ∈ tr.

(** The call [c] may run [f] as refresh function, as clear function. *)
Definition may_refresh (tr : list event) (c : call F) (f : option F) : Prop :=
  match c with
  | CGet g | CRefresh g => f = g
  | CWGet | CWRefresh => set_as_refresh tr f
  | _ => False
  end.
Definition may_clear (tr : list event) (c : call F) (f : option F) : Prop :=
  match c with
  | CClear g => f = g
  | CWClear => set_as_clear tr f
  | _ => False
  end.

(** What a call may return. *)
Definition fits (c : call F) (r : result T E) : Prop :=
  match c, r with
  | (CGet _ | CRefresh _ | CWGet | CWRefresh), (RGet _ _ | RPanic) => True
  | (CClear _ | CWClear), (RClear _ | RPanic) => True
  | CRaw, RRaw _ _ => True
  | (CLast | CLastErr), RTime _ => True
  | (CSetRefresh _ | CSetClear _), RUnit => True
  | _, _ => False
  end.

End spec.
