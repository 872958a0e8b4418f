(** Model of /repo/refreshcache/refreshcache.go (and of refreshcache0, refreshcache1, whose
    code is the same except for the extra arguments handed to the user functions; these
    arguments influence nothing but the outcome of the user function, which is arbitrary here).

    Any number of goroutines use one cache.  Each goroutine runs one call at a time; every
    load, store, lock, unlock and clock reading of the Go code is one step, and the steps of
    different goroutines interleave arbitrarily.

    Simplifications, in one place:
    - int64 is [Z]: differences of clock readings do not overflow for clocks between 1970
      and 2262.
    - [r.last] and [r.lastErr] are read without [atomic] under the lock (lines 108 and 111)
      although other goroutines write them atomically; such a read is one step here.
    - the Go memory model is taken to be sequentially consistent, as it is for the atomic
      operations and the mutex used.
    - user functions do not call back into the locking methods of the same cache (Get or
      Refresh from inside a refresh function deadlocks on the mutex); calls of the other methods
      are covered, as they may happen as steps of another goroutine.
    - only caches made by the constructors are considered.
    - the clock is arbitrary: every reading is an arbitrary number chosen by the environment,
      not even monotone.  Theorems that need more say so. *)
From Verif Require Import Base.
Local Open Scope Z_scope.

Section model.
(** [T]: cached values; [E]: non-nil errors; [F]: user functions ([None] is the nil func). *)
Context {T E F : Type} (zero : T).

(** How a call of the user's refresh function ends: [data, nil], [data, err], or a panic
    ([runtime.Goexit] runs the same deferred closure as a panic). *)
Inductive outcome : Type :=
| OOk (v : T)
| OErr (v : T) (e : E)
| OPanic.

(** How a call of the user's clear function ends. *)
Inductive clear_outcome : Type :=
| KRet (e : option E)
| KPanic.

(** Lines 64-72 and 14-18: the shared fields.  [s_err]: the error [err] points to ([None] is
    nil); [s_data]: the value [data] points to; [s_lock]: the holder of the mutex; [s_ref],
    [s_clr]: the two function pointers of the wrapper ([None]: nil pointer, [Some f]: pointer
    to the possibly nil function [f]).  [maxAge] and [errAge] never change after construction. *)
Record shared : Type := mk_shared {
  s_err : option E;
  s_data : T;
  s_last : Z;
  s_lasterr : Z;
  s_lock : option nat;
  s_ref : option (option F);
  s_clr : option (option F)
}.

Definition set_err (e : option E) (s : shared) : shared :=
  mk_shared e (s_data s) (s_last s) (s_lasterr s) (s_lock s) (s_ref s) (s_clr s).
Definition set_data (v : T) (s : shared) : shared :=
  mk_shared (s_err s) v (s_last s) (s_lasterr s) (s_lock s) (s_ref s) (s_clr s).
Definition set_last (z : Z) (s : shared) : shared :=
  mk_shared (s_err s) (s_data s) z (s_lasterr s) (s_lock s) (s_ref s) (s_clr s).
Definition set_lasterr (z : Z) (s : shared) : shared :=
  mk_shared (s_err s) (s_data s) (s_last s) z (s_lock s) (s_ref s) (s_clr s).
Definition set_lock (l : option nat) (s : shared) : shared :=
  mk_shared (s_err s) (s_data s) (s_last s) (s_lasterr s) l (s_ref s) (s_clr s).
Definition set_ref (f : option (option F)) (s : shared) : shared :=
  mk_shared (s_err s) (s_data s) (s_last s) (s_lasterr s) (s_lock s) f (s_clr s).
Definition set_clr (f : option (option F)) (s : shared) : shared :=
  mk_shared (s_err s) (s_data s) (s_last s) (s_lasterr s) (s_lock s) (s_ref s) f.

(** Lines 20-26 and 82-92: a new cache (with [f] set as refresh function by the wrapper). *)
Definition new_shared (f : option F) : shared :=
  mk_shared None zero 0 0 None (Some f) None.

(** The calls of the API. [C...] of RefreshData take the function as an argument, [CW...] of
    RefreshCache use the stored one. *)
Inductive call : Type :=
| CGet (f : option F)
| CRefresh (f : option F)
| CClear (f : option F)
| CRaw
| CLast
| CLastErr
| CWGet
| CWRefresh
| CWClear
| CSetRefresh (f : option F)
| CSetClear (f : option F).

(** Results: of Get / Refresh, of Raw, of Clear, of Last / LastErr, of the setters, and a
    panic that leaves the call. *)
Inductive result : Type :=
| RGet (v : T) (e : option E)
| RRaw (v : T) (e : option E)
| RClear (e : option E)
| RTime (z : Z)
| RUnit
| RPanic.

(** Where a goroutine is.  The names: [G] - Get before the lock, [L] - Get holding the lock,
    [C] - calling the refresh function, [D] - in the deferred closure, [U] - about to unlock,
    [K] - Clear, [W] - Raw, [X] - accessors and wrapper. *)
Inductive pc : Type :=
| G_last (f : option F)                 (* line 99: load last *)
| G_fresh (f : option F) (l : Z)        (* line 100: the test *)
| G_data                                (* line 101: load data *)
| G_err0 (f : option F)                 (* line 103: errAge > 0 && time.Now() *)
| G_err1 (f : option F) (n : Z)         (* line 103: load lastErr, test *)
| G_err                                 (* line 104: load err *)
| G_lock (f : option F)                 (* line 106 *)
| L_last (f : option F)                 (* line 108: r.maxAge < 0 && r.last > 0 *)
| L_now (f : option F)                  (* line 108: time.Now() *)
| L_fresh (f : option F) (n : Z)        (* line 108: read r.last, test *)
| L_data                                (* line 109 *)
| L_err0 (f : option F)                 (* line 111 *)
| L_err1 (f : option F) (n : Z)         (* line 111 *)
| L_err                                 (* line 112 *)
| R_lock (f : option F)                 (* line 129 *)
| C_old (f : option F)                  (* lines 125, 142: load data, call *)
| C_run (f : F) (old : T)               (* the refresh function is running *)
| D_data (r : result) (v : T)           (* lines 116, 133 *)
| D_now (r : result)                    (* lines 117, 134: time.Now() *)
| D_last (r : result) (n : Z)           (* lines 117, 134: store last *)
| D_lasterr0 (r : result)               (* lines 118, 135 *)
| D_err (r : result) (e : E)            (* lines 120, 137 *)
| D_enow (r : result)                   (* lines 121, 138: time.Now() *)
| D_lasterr (r : result) (n : Z)        (* lines 121, 138: store lastErr *)
| D_last0 (r : result)                  (* lines 122, 139 *)
| U_unlock (r : result)                 (* lines 107, 130 *)
| K_old (f : F)                         (* line 147: load data *)
| K_last (k : option (F * T))           (* lines 148, 151: store last *)
| K_run (f : F) (old : T)               (* line 149: the clear function is running *)
| W_last                                (* line 180 *)
| W_fresh (l : Z)                       (* line 181 *)
| W_data                                (* line 182 *)
| W_err0                                (* line 184 *)
| W_err1 (n : Z)                        (* line 184 *)
| W_err                                 (* line 185 *)
| W_data2                               (* line 187: load data *)
| W_err2 (v : T)                        (* line 187: load err *)
| X_last                                (* line 156 *)
| X_lasterr                             (* line 164 *)
| X_get                                 (* line 49: load RefreshFunc *)
| X_refresh                             (* line 53 *)
| X_clear                               (* lines 29-33, 61 *)
| X_setref (f : option F)               (* line 45 *)
| X_setclr (f : option F)               (* line 37 *)
| X_ret (r : result).                   (* the call is about to return [r] *)

(** What the environment supplies in a step: nothing, a clock reading, the end of the refresh
    function, the end of the clear function. *)
Inductive label : Type :=
| LTick
| LNow (n : Z)
| LRef (o : outcome)
| LClr (o : clear_outcome).

(** What is observed: calls and returns, start and end of refresh functions, clock readings,
    locking, the moments when a success or a failure is recorded with its time stamp, and the
    moment Clear resets [last]. *)
Inductive event : Type :=
| EInv (t : nat) (c : call)
| EReturn (t : nat) (r : result)
| EStart (t : nat) (f : F) (old : T)
| EFinish (t : nat) (o : outcome)
| ENow (t : nat) (n : Z)
| ELock (t : nat)
| EUnlock (t : nat)
| ESucc (t : nat) (n : Z)
| EFail (t : nat) (n : Z)
| EClear (t : nat)
| EKStart (t : nat) (f : F) (old : T).

(** Lines 99, 106, 129, 146, 180 etc.: where a call starts. *)
Definition enter (c : call) : pc :=
  match c with
  | CGet f => G_last f
  | CRefresh f => R_lock f
  | CClear (Some f) => K_old f
  | CClear None => K_last None
  | CRaw => W_last
  | CLast => X_last
  | CLastErr => X_lasterr
  | CWGet => X_get
  | CWRefresh => X_refresh
  | CWClear => X_clear
  | CSetRefresh f => X_setref f
  | CSetClear f => X_setclr f
  end.

(** After the refresh function: the deferred closure decides on [err == nil]; a panic leaves
    the named results at their zero values, [data] = zero and [err] = nil, so the closure takes
    the first branch. *)
Definition after (o : outcome) : pc :=
  match o with
  | OOk v => D_data (RGet v None) v
  | OErr v e => D_err (RGet v (Some e)) e
  | OPanic => D_data RPanic zero
  end.

Context (maxAge errAge : Z).

(** One step of goroutine [t]; [None]: not possible (the lock is taken, or the label does not
    fit).  In the result [None] in place of a pc means that the call has returned. *)
Definition step (t : nat) (p : pc) (s : shared) (lab : label)
    : option (option pc * shared * list event) :=
  match p, lab with
  (* Get, lines 98-126 *)
  | G_last f, LTick => Some (Some (G_fresh f (s_last s)), s, [])
  | G_fresh f l, LTick =>
      if (maxAge <? 0) && (0 <? l) then Some (Some G_data, s, []) else None
  | G_fresh f l, LNow n =>
      if (maxAge <? 0) && (0 <? l) then None
      else if n - l <? maxAge then Some (Some G_data, s, [ENow t n])
      else Some (Some (G_err0 f), s, [ENow t n])
  | G_data, LTick => Some (Some (X_ret (RGet (s_data s) None)), s, [])
  | G_err0 f, LTick => if 0 <? errAge then None else Some (Some (G_lock f), s, [])
  | G_err0 f, LNow n => if 0 <? errAge then Some (Some (G_err1 f n), s, [ENow t n]) else None
  | G_err1 f n, LTick =>
      if n - s_lasterr s <? errAge then Some (Some G_err, s, []) else Some (Some (G_lock f), s, [])
  | G_err, LTick => Some (Some (X_ret (RGet zero (s_err s))), s, [])
  | G_lock f, LTick =>
      match s_lock s with
      | None => Some (Some (L_last f), set_lock (Some t) s, [ELock t])
      | Some _ => None
      end
  | L_last f, LTick =>
      if (maxAge <? 0) && (0 <? s_last s) then Some (Some L_data, s, [])
      else Some (Some (L_now f), s, [])
  | L_now f, LNow n => Some (Some (L_fresh f n), s, [ENow t n])
  | L_fresh f n, LTick =>
      if n - s_last s <? maxAge then Some (Some L_data, s, []) else Some (Some (L_err0 f), s, [])
  | L_data, LTick => Some (Some (U_unlock (RGet (s_data s) None)), s, [])
  | L_err0 f, LTick => if 0 <? errAge then None else Some (Some (C_old f), s, [])
  | L_err0 f, LNow n => if 0 <? errAge then Some (Some (L_err1 f n), s, [ENow t n]) else None
  | L_err1 f n, LTick =>
      if n - s_lasterr s <? errAge then Some (Some L_err, s, []) else Some (Some (C_old f), s, [])
  | L_err, LTick => Some (Some (U_unlock (RGet zero (s_err s))), s, [])
  (* Refresh, lines 128-143 *)
  | R_lock f, LTick =>
      match s_lock s with
      | None => Some (Some (C_old f), set_lock (Some t) s, [ELock t])
      | Some _ => None
      end
  (* the call of the refresh function and the deferred closure, lines 114-125, 131-142 *)
  | C_old (Some f), LTick => Some (Some (C_run f (s_data s)), s, [EStart t f (s_data s)])
  | C_old None, LTick =>      (* calling the nil function panics *)
      Some (Some (after OPanic), s, [EFinish t OPanic])
  | C_run f old, LRef o => Some (Some (after o), s, [EFinish t o])
  | D_data r v, LTick => Some (Some (D_now r), set_data v s, [])
  | D_now r, LNow n => Some (Some (D_last r n), s, [ENow t n])
  | D_last r n, LTick => Some (Some (D_lasterr0 r), set_last n s, [ESucc t n])
  | D_lasterr0 r, LTick => Some (Some (U_unlock r), set_lasterr 0 s, [])
  | D_err r e, LTick => Some (Some (D_enow r), set_err (Some e) s, [])
  | D_enow r, LNow n => Some (Some (D_lasterr r n), s, [ENow t n])
  | D_lasterr r n, LTick => Some (Some (D_last0 r), set_lasterr n s, [EFail t n])
  | D_last0 r, LTick => Some (Some (U_unlock r), set_last 0 s, [])
  | U_unlock r, LTick => Some (Some (X_ret r), set_lock None s, [EUnlock t])
  (* Clear, lines 145-153 *)
  | K_old f, LTick => Some (Some (K_last (Some (f, s_data s))), s, [])
  | K_last None, LTick => Some (Some (X_ret (RClear None)), set_last 0 s, [EClear t])
  | K_last (Some (f, old)), LTick =>
      Some (Some (K_run f old), set_last 0 s, [EClear t; EKStart t f old])
  | K_run f old, LClr (KRet e) => Some (Some (X_ret (RClear e)), s, [])
  | K_run f old, LClr KPanic => Some (Some (X_ret RPanic), s, [])
  (* Raw, lines 179-188 *)
  | W_last, LTick => Some (Some (W_fresh (s_last s)), s, [])
  | W_fresh l, LTick =>
      if (maxAge <? 0) && (0 <? l) then Some (Some W_data, s, []) else None
  | W_fresh l, LNow n =>
      if (maxAge <? 0) && (0 <? l) then None
      else if n - l <? maxAge then Some (Some W_data, s, [ENow t n])
      else Some (Some W_err0, s, [ENow t n])
  | W_data, LTick => Some (Some (X_ret (RRaw (s_data s) None)), s, [])
  | W_err0, LTick => if 0 <? errAge then None else Some (Some W_data2, s, [])
  | W_err0, LNow n => if 0 <? errAge then Some (Some (W_err1 n), s, [ENow t n]) else None
  | W_err1 n, LTick =>
      if n - s_lasterr s <? errAge then Some (Some W_err, s, []) else Some (Some W_data2, s, [])
  | W_err, LTick => Some (Some (X_ret (RRaw zero (s_err s))), s, [])
  | W_data2, LTick => Some (Some (W_err2 (s_data s)), s, [])
  | W_err2 v, LTick => Some (Some (X_ret (RRaw v (s_err s))), s, [])
  (* accessors, lines 155-169, and the wrapper, lines 28-62 *)
  | X_last, LTick => Some (Some (X_ret (RTime (s_last s))), s, [])
  | X_lasterr, LTick => Some (Some (X_ret (RTime (s_lasterr s))), s, [])
  | X_get, LTick =>
      match s_ref s with
      | Some f => Some (Some (G_last f), s, [])
      | None => Some (Some (X_ret RPanic), s, [])
      end
  | X_refresh, LTick =>
      match s_ref s with
      | Some f => Some (Some (R_lock f), s, [])
      | None => Some (Some (X_ret RPanic), s, [])
      end
  | X_clear, LTick =>
      match s_clr s with
      | Some (Some f) => Some (Some (K_old f), s, [])
      | _ => Some (Some (K_last None), s, [])
      end
  | X_setref f, LTick => Some (Some (X_ret RUnit), set_ref (Some f) s, [])
  | X_setclr f, LTick => Some (Some (X_ret RUnit), set_clr (Some f) s, [])
  | X_ret r, LTick => Some (None, s, [EReturn t r])
  | _, _ => None
  end.

(** The whole program: the shared fields and the goroutines, [None] being a goroutine that is
    not inside a call. *)
Record config : Type := mk_config { c_sh : shared; c_thr : nat -> option pc }.

Definition new_config (f : option F) : config := mk_config (new_shared f) (fun _ => None).

(** What happens next: goroutine [t] makes a call, or takes a step. *)
Inductive action : Type :=
| AInv (t : nat) (c : call)
| AStep (t : nat) (lab : label).

Definition act (cf : config) (a : action) : option (config * list event) :=
  match a with
  | AInv t c =>
      match c_thr cf t with
      | None => Some (mk_config (c_sh cf) (<[t := Some (enter c)]> (c_thr cf)), [EInv t c])
      | Some _ => None
      end
  | AStep t lab =>
      match c_thr cf t with
      | None => None
      | Some p =>
          match step t p (c_sh cf) lab with
          | None => None
          | Some (p', s', ev) => Some (mk_config s' (<[t := p']> (c_thr cf)), ev)
          end
      end
  end.

(** An execution: a list of actions; [None] if one of them is impossible. *)
Fixpoint run (cf : config) (acts : list action) : option (config * list event) :=
  match acts with
  | [] => Some (cf, [])
  | a :: rest =>
      match act cf a with
      | None => None
      | Some (cf1, ev) =>
          match run cf1 rest with
          | None => None
          | Some (cf2, evs) => Some (cf2, ev ++ evs)
          end
      end
  end.

End model.

Arguments outcome : clear implicits.
Arguments clear_outcome : clear implicits.
Arguments shared : clear implicits.
Arguments call : clear implicits.
Arguments result : clear implicits.
Arguments pc : clear implicits.
Arguments label : clear implicits.
Arguments event : clear implicits.
Arguments config : clear implicits.
Arguments action : clear implicits.
