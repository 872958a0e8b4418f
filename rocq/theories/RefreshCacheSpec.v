(** What the refresh-cache theorems talk about: the observable trace of an execution. *)
From Verif Require Import Base RefreshCacheModel.
Local Open Scope Z_scope.

Section spec.
Context {T E F : Type} (zero : T).
Local Notation event := (event T E F).

(** Which goroutine's refresh function is running after the trace. *)
Definition running (tr : list event) : option nat :=
  foldl (fun r e => match e with
                    | EStart t _ _ => Some t
                    | EFinish _ _ => None
                    | _ => r
                    end) None tr.

(** Which goroutine is between starting a refresh and having recorded its outcome. *)
Definition in_flight (tr : list event) : option nat :=
  foldl (fun r e => match e with
                    | EStart t _ _ => Some t
                    | EFinish t _ => Some t
                    | EUnlock _ => None
                    | _ => r
                    end) None tr.

(** The value of the last refresh that ended well; a panicking one counts as having returned
    the zero value (this is what the code does, see C62). *)
Definition recorded (tr : list event) : T :=
  foldl (fun v e => match e with
                    | EFinish _ (OOk w) => w
                    | EFinish _ OPanic => zero
                    | _ => v
                    end) zero tr.

(** The error of the last failing refresh. *)
Definition last_error (tr : list event) : option E :=
  foldl (fun x e => match e with
                    | EFinish _ (OErr _ e) => Some e
                    | _ => x
                    end) None tr.

(** Time stamp of the last success, 0 if there was none or a failure or Clear came later. *)
Definition success_time (tr : list event) : Z :=
  foldl (fun x e => match e with
                    | ESucc _ n => n
                    | EFail _ _ => 0
                    | EClear _ => 0
                    | _ => x
                    end) 0 tr.

(** Time stamp of the last failure, 0 if there was none or a success came later. *)
Definition failure_time (tr : list event) : Z :=
  foldl (fun x e => match e with
                    | ESucc _ _ => 0
                    | EFail _ n => n
                    | _ => x
                    end) 0 tr.

(** [v] was returned by a refresh function with a nil error, and the refresh started in [tr]. *)
Definition produced (tr : list event) (v : T) : Prop :=
  exists u f old a b c, tr = a ++ EStart u f old :: b ++ EFinish u (OOk v) :: c.

Definition no_panic (tr : list event) : Prop := forall t, EFinish t OPanic ∉ tr.

(** All clock readings satisfy [P]; all clock readings of goroutine [t] do. *)
Definition readings (P : Z -> Prop) (tr : list event) : Prop := forall t n, ENow t n ∈ tr -> P n.
Definition readings_of (t : nat) (P : Z -> Prop) (tr : list event) : Prop :=
  forall n, ENow t n ∈ tr -> P n.

(** The freshness rules of the documentation: a success at [last] is good at time [n]; a failure
    at [last] still counts at time [n]. *)
Definition fresh_at (maxAge last n : Z) : Prop := (maxAge < 0 /\ 0 < last) \/ n - last < maxAge.
Definition err_fresh_at (errAge last n : Z) : Prop := 0 < errAge /\ n - last < errAge.

(** The refreshes started, and how refreshes ended. *)
Definition starts (tr : list event) : list (F * T) :=
  omap (fun e => match e with EStart _ f old => Some (f, old) | _ => None end) tr.
Definition finishes (tr : list event) : list (outcome T E) :=
  omap (fun e => match e with EFinish _ o => Some o | _ => None end) tr.

(** Goroutine [t] makes the call [c] and runs until it returns [r], while the others stand
    still; [tr] is what is observed in between. *)
Definition alone (maxAge errAge : Z) (cf : config T E F) (t : nat) (c : call F)
    (cf' : config T E F) (tr : list event) (r : result T E) : Prop :=
  exists labs, run zero maxAge errAge cf (AInv t c :: (AStep t <$> labs)) =
               Some (cf', EInv t c :: tr ++ [EReturn t r]).

(** What recording the outcome [o] at time [n] does to the cache. *)
Definition after_record (o : outcome T E) (n : Z) (s s' : shared T E F) : Prop :=
  s_lock s' = None /\ s_ref s' = s_ref s /\ s_clr s' = s_clr s /\
  match o with
  | OOk v => s_data s' = v /\ s_last s' = n /\ s_lasterr s' = 0 /\ s_err s' = s_err s
  | OErr _ e => s_data s' = s_data s /\ s_last s' = 0 /\ s_lasterr s' = n /\ s_err s' = Some e
  | OPanic => s_data s' = zero /\ s_last s' = n /\ s_lasterr s' = 0 /\ s_err s' = s_err s
  end.

(** What Get or Refresh gives back when its refresh function ended with [o]. *)
Definition result_of (o : outcome T E) : result T E :=
  match o with
  | OOk v => RGet v None
  | OErr v e => RGet v (Some e)
  | OPanic => RPanic
  end.

(** The call refreshed once: the function [f] was called exactly once, with the stored value as
    OldVal, it ended with [o], the outcome was recorded under a clock reading [n] taken in the
    call, and [r] is what the function gave.  (Calling a nil function is a refresh that panics.) *)
Definition refreshed (f : option F) (t : nat) (s s' : shared T E F) (evs : list event)
    (r : result T E) : Prop :=
  exists o n, after_record o n s s' /\ r = result_of o /\ ENow t n ∈ evs /\
    finishes evs = [o] /\
    match f with
    | Some g => starts evs = [(g, s_data s)]
    | None => starts evs = [] /\ o = OPanic
    end.

(** The call did not refresh and changed nothing. *)
Definition cached (s s' : shared T E F) (evs : list event) : Prop :=
  s' = s /\ starts evs = [] /\ finishes evs = [].

(** Goroutine [t] can take a step. *)
Definition can_move (maxAge errAge : Z) (cf : config T E F) (t : nat) : Prop :=
  exists lab cf' ev, act zero maxAge errAge cf (AStep t lab) = Some (cf', ev).

(** Goroutine [t] waits for the mutex in Get or Refresh. *)
Definition waiting (cf : config T E F) (t : nat) : Prop :=
  exists f, c_thr cf t = Some (G_lock f) \/ c_thr cf t = Some (R_lock f).

End spec.
