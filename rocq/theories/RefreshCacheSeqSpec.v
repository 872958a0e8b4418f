(** The refresh cache used by one call at a time, described without goroutines, locks and steps. *)
From Verif Require Import Base RefreshCacheModel RefreshCacheSpec.
Local Open Scope Z_scope.

Section spec.
Context {T E F : Type} (zero : T) (maxAge errAge : Z).

(** What a cache holds: the value, the error, the times of the last success and failure (0: none),
    and the two functions. *)
Record cache : Type := mk_cache {
  k_val : T;
  k_err : option E;
  k_succ : Z;
  k_fail : Z;
  k_ref : option F;
  k_clr : option F
}.

(** A call of one of the user's functions, with the old value it is handed. *)
Inductive user_call : Type :=
| UserRefresh (f : F) (old : T)
| UserClear (f : F) (old : T).

(** A refresh at time [n] by the function [f] that ends with [o]. *)
Definition record (o : outcome T E) (n : Z) (k : cache) : cache :=
  match o with
  | OOk v => mk_cache v (k_err k) n 0 (k_ref k) (k_clr k)
  | OErr _ e => mk_cache (k_val k) (Some e) 0 n (k_ref k) (k_clr k)
  | OPanic => mk_cache zero (k_err k) n 0 (k_ref k) (k_clr k)
  end.

Definition refreshes (n : Z) (k : cache) (f : option F) (k' : cache) (us : list user_call)
    (r : result T E) : Prop :=
  exists o, k' = record o n k /\ r = result_of o /\
    match f with
    | Some g => us = [UserRefresh g (k_val k)]
    | None => us = [] /\ o = OPanic
    end.

Definition gets (n : Z) (k : cache) (f : option F) (k' : cache) (us : list user_call)
    (r : result T E) : Prop :=
  (fresh_at maxAge (k_succ k) n -> k' = k /\ us = [] /\ r = RGet (k_val k) None) /\
  (~ fresh_at maxAge (k_succ k) n -> err_fresh_at errAge (k_fail k) n ->
     k' = k /\ us = [] /\ r = RGet zero (k_err k)) /\
  (~ fresh_at maxAge (k_succ k) n -> ~ err_fresh_at errAge (k_fail k) n ->
     refreshes n k f k' us r).

Definition raws (n : Z) (k : cache) (r : result T E) : Prop :=
  (fresh_at maxAge (k_succ k) n -> r = RRaw (k_val k) None) /\
  (~ fresh_at maxAge (k_succ k) n -> err_fresh_at errAge (k_fail k) n -> r = RRaw zero (k_err k)) /\
  (~ fresh_at maxAge (k_succ k) n -> ~ err_fresh_at errAge (k_fail k) n ->
     r = RRaw (k_val k) (k_err k)).

Definition clears (k : cache) (f : option F) (k' : cache) (us : list user_call) (r : result T E)
    : Prop :=
  k' = mk_cache (k_val k) (k_err k) 0 (k_fail k) (k_ref k) (k_clr k) /\
  match f with
  | Some g => us = [UserClear g (k_val k)] /\ ((exists e, r = RClear e) \/ r = RPanic)
  | None => us = [] /\ r = RClear None
  end.

(** The call [c] made at time [n] on the cache [k]: what the cache is afterwards, which user
    functions are called, and what the call returns. *)
Definition does (n : Z) (k : cache) (c : call F) (k' : cache) (us : list user_call)
    (r : result T E) : Prop :=
  match c with
  | CGet f => gets n k f k' us r
  | CWGet => gets n k (k_ref k) k' us r
  | CRefresh f => refreshes n k f k' us r
  | CWRefresh => refreshes n k (k_ref k) k' us r
  | CClear f => clears k f k' us r
  | CWClear => clears k (k_clr k) k' us r
  | CRaw => k' = k /\ us = [] /\ raws n k r
  | CLast => k' = k /\ us = [] /\ r = RTime (k_succ k)
  | CLastErr => k' = k /\ us = [] /\ r = RTime (k_fail k)
  | CSetRefresh f => k' = mk_cache (k_val k) (k_err k) (k_succ k) (k_fail k) f (k_clr k) /\
                     us = [] /\ r = RUnit
  | CSetClear f => k' = mk_cache (k_val k) (k_err k) (k_succ k) (k_fail k) (k_ref k) f /\
                   us = [] /\ r = RUnit
  end.

(** A new cache. *)
Definition new_cache (f : option F) : cache := mk_cache zero None 0 0 f None.

(** One call after the other: per call its time, the call, the user functions it called and its
    result. *)
Fixpoint history (k : cache) (h : list (Z * call F * list user_call * result T E)) (k' : cache)
    : Prop :=
  match h with
  | [] => k' = k
  | (n, c, us, r) :: h' => exists k1, does n k c k1 us r /\ history k1 h' k'
  end.

(** The same in the model: every call is made by some goroutine and runs to its return before
    the next one starts, and its clock readings are all [n]. *)
Definition user_calls (evs : list (event T E F)) : list user_call :=
  omap (fun e => match e with
                 | EStart _ f old => Some (UserRefresh f old)
                 | EKStart _ f old => Some (UserClear f old)
                 | _ => None
                 end) evs.

Fixpoint one_by_one (cf : config T E F) (h : list (Z * call F * list user_call * result T E))
    (cf' : config T E F) : Prop :=
  match h with
  | [] => cf' = cf
  | (n, c, us, r) :: h' => exists t cf1 evs,
      alone zero maxAge errAge cf t c cf1 evs r /\ readings_of t (fun x => x = n) evs /\
      us = user_calls evs /\ one_by_one cf1 h' cf'
  end.

(** What the fields of the model hold. *)
Definition cache_of (s : shared T E F) : cache :=
  mk_cache (s_data s) (s_err s) (s_last s) (s_lasterr s)
    (default None (s_ref s)) (default None (s_clr s)).

(** The ends of clear functions among the labels of a call. *)
Definition clear_ends (labs : list (label T E)) : list (clear_outcome E) :=
  omap (fun l => match l with LClr o => Some o | _ => None end) labs.

(** [t] is inside a call of SetRefreshFunc, of SetClearFunc. *)
Definition setting_refresh (cf : config T E F) (t : nat) : Prop :=
  exists f, c_thr cf t = Some (X_setref f).
Definition setting_clear (cf : config T E F) (t : nat) : Prop :=
  exists f, c_thr cf t = Some (X_setclr f).

End spec.

Arguments cache : clear implicits.
Arguments user_call : clear implicits.
