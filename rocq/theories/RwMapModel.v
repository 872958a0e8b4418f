(** Model of /repo/rwmap/rwmap.go.

    Any number of goroutines use one map.  Each goroutine runs one call at a time, and the steps
    of different goroutines interleave arbitrarily.  A step touches at most one thing that other
    goroutines may touch without holding [mu]: the field [read], the pointer [p] of one entry, the
    counter [len], or the mutex itself.  Accesses to [dirty] and [misses], which happen only while
    [mu] is held, are merged into neighbouring steps of the same goroutine.

    Simplifications, in one place:
    - the Go memory model is taken to be sequentially consistent, as it is for the atomic
      operations and the mutex used ([m.len = 0] in Clear, line 527, is a plain store; it is one
      step here).
    - [==] on keys is equality (no NaN keys, no interface keys with incomparable dynamic types).
    - a map [read.m] is never written once it is reachable from [read] (line 547 and 490 drop the
      other reference), so [read] holds a plain finite map, and lookups in it belong to the step
      that loads [read].
    - [m.read] is stored only while [mu] is held; the local copy [read] a goroutine made under the
      lock is therefore read again from the state.
    - pointers to values are numbers, [deref] gives the value a pointer points to.  A pointer is
      written before it is published and never afterwards.  Different calls may use equal pointers
      (as they do for values of size zero).
    - [reflect.Value.Equal] is an arbitrary function, with [None] for its panics.
    - misses, len and the number of entries are unbounded.
    - the callback of Range does not panic.  Calls it makes on the map are calls of another
      goroutine that happen meanwhile (Range holds no lock then). *)
From Verif Require Import Base.

(** Lines 84-106: what the field [p] of an entry holds. *)
Inductive slot : Type := SNil | SExp | SPtr (p : nat).
Global Instance slot_eq_dec : EqDecision slot.
Proof. solve_decision. Defined.

Section model.
Context {K : Type} `{Countable K} {V : Type}.
Context (deref : nat -> V) (zero : V) (veq : V -> V -> option bool).

(** Lines 36-72 and the entries (lines 84-106), which are numbers; entries from [s_next] on are
    not allocated yet.  [s_lock] is the goroutine holding [mu]. *)
Record shared : Type := mk_shared {
  s_rd : gmap K nat;
  s_am : bool;
  s_dirty : option (gmap K nat);
  s_ent : nat -> slot;
  s_next : nat;
  s_misses : nat;
  s_len : Z;
  s_lock : option nat }.

Definition set_read (m : gmap K nat) (a : bool) (s : shared) : shared :=
  mk_shared m a (s_dirty s) (s_ent s) (s_next s) (s_misses s) (s_len s) (s_lock s).
Definition set_dirty (d : option (gmap K nat)) (s : shared) : shared :=
  mk_shared (s_rd s) (s_am s) d (s_ent s) (s_next s) (s_misses s) (s_len s) (s_lock s).
Definition set_ent (e : nat) (x : slot) (s : shared) : shared :=
  mk_shared (s_rd s) (s_am s) (s_dirty s) (<[e := x]> (s_ent s)) (s_next s) (s_misses s) (s_len s) (s_lock s).
Definition set_misses (n : nat) (s : shared) : shared :=
  mk_shared (s_rd s) (s_am s) (s_dirty s) (s_ent s) (s_next s) n (s_len s) (s_lock s).
Definition set_len (n : Z) (s : shared) : shared :=
  mk_shared (s_rd s) (s_am s) (s_dirty s) (s_ent s) (s_next s) (s_misses s) n (s_lock s).
Definition set_lock (l : option nat) (s : shared) : shared :=
  mk_shared (s_rd s) (s_am s) (s_dirty s) (s_ent s) (s_next s) (s_misses s) (s_len s) l.

(** Lines 108-112: a new entry holding [p]. *)
Definition new_entry (p : nat) (s : shared) : shared :=
  mk_shared (s_rd s) (s_am s) (s_dirty s) (<[s_next s := SPtr p]> (s_ent s)) (S (s_next s))
            (s_misses s) (s_len s) (s_lock s).

(** The zero RWMap. *)
Definition new_shared : shared := mk_shared ∅ false None (fun _ => SNil) 0 0 0 None.

(** The calls of the API.  The argument [p] of a storing call points to the value. *)
Inductive call : Type :=
| CLoad (k : K)
| CStore (k : K) (p : nat)
| CSwap (k : K) (p : nat)
| CLoadOrStore (k : K) (p : nat)
| CLoadAndDelete (k : K)
| CDelete (k : K)
| CCas (k : K) (old : V) (p : nat)
| CCad (k : K) (old : V)
| CClear
| CRange
| CSlowLen
| CLen.

(** Results: [RVal] stands for (value, ok) of Load, LoadAndDelete and Swap, [None] being
    (zero, false); [RLos] for (actual, loaded); [RPanic] for a panic that leaves the call. *)
Inductive result : Type :=
| RVal (o : option V)
| RLos (v : V) (loaded : bool)
| RBool (b : bool)
| RInt (n : Z)
| RUnit
| RPanic.

(** How an operation on an entry was reached: without the lock, under the lock, or under the lock
    with missLocked to follow. *)
Inductive mode : Type := Fast | Lck | LckMiss.

(** Where a goroutine is. *)
Inductive pc : Type :=
| P_read                                  (* 125, 214, 287, 350, 394, 431, 479, 510 *)
| P_lock                                  (* 128, 222, 290, 360, 401, 434, 485, 516 *)
| P_read2                                 (* 132, 223, 291, 361, 403, 435, 486, 519 *)
| P_dirty                                 (* 135, 229, 294, 372, 407, 438 *)
| P_unexp (e : nat)                       (* 225, 363 *)
| P_swap (e : nat)                        (* 368, 373 *)
| P_dl (todo : gmap K nat)                (* 559: the loop of dirtyLocked *)
| P_dlx (k : K) (e : nat) (todo : gmap K nat)  (* 567, 572 *)
| P_dlc (k : K) (e : nat) (todo : gmap K nat)  (* 569 *)
| P_amend                                 (* 237, 382 *)
| P_new                                   (* 239, 384 *)
| P_miss (r : result)                     (* 231, 415: missLocked, then unlock *)
| P_un (r : result)                       (* 242, 386, 402, 517: unlock, then finish with r *)
| P_une (o : option nat)                  (* 141, 301, 448: unlock, then use the entry *)
| P_prom                                  (* 488-492 *)
| P_unr (m : gmap K nat)                  (* 494 *)
| P_clr                                   (* 521 *)
| P_clr2                                  (* 524-527 *)
| E_load (e : nat) (m : mode)             (* 150, 169, 182, 253, 269, 316, 332, 452 *)
| E_cas (e : nat) (x : slot) (m : mode)   (* 179, 266, 320, 336, 456 *)
| P_len (r : result) (d : Z)              (* 210, 284, 347, 428 *)
| R_next (todo : gmap K nat) (n : Z)      (* 497: the loop of Range *)
| R_load (k : K) (e : nat) (todo : gmap K nat) (n : Z)  (* 498, 150 *)
| R_call (k : K) (v : V) (todo : gmap K nat) (n : Z)    (* 502 *)
| P_getlen                                (* 531 *)
| X_ret (r : result).                     (* the call is about to return r *)

(** What the environment supplies in a step: nothing, the next key of a map iteration (Go iterates
    in an arbitrary order), what the callback of Range returns. *)
Inductive label : Type := LTick | LKey (k : K) | LCb (b : bool).

(** What is observed: calls, returns, and the calls of Range's callback with their result. *)
Inductive event : Type :=
| EInv (t : nat) (c : call)
| ERet (t : nat) (r : result)
| ECall (t : nat) (k : K) (v : V) (b : bool).

Definition enter (c : call) : pc :=
  match c with CLen => P_getlen | _ => P_read end.

(** Lines 149-155: the value of an entry. *)
Definition slot_val (x : slot) : option V :=
  match x with SPtr p => Some (deref p) | _ => None end.

(** Store (line 159) and Delete (line 311) drop the results of Swap and LoadAndDelete. *)
Definition ret_of (c : call) (r : result) : result :=
  match c, r with
  | (CStore _ _ | CDelete _), RVal _ => RUnit
  | _, _ => r
  end.

(** The deferred closures of lines 208-212, 282-286, 345-349, 426-430. *)
Definition delta (c : call) (r : result) : Z :=
  match c, r with
  | (CStore _ _ | CSwap _ _), RVal None => 1
  | CLoadOrStore _ _, RLos _ false => 1
  | (CLoadAndDelete _ | CDelete _), RVal (Some _) => -1
  | CCad _ _, RBool true => -1
  | _, _ => 0
  end.
Definition finish (c : call) (r : result) : pc :=
  if decide (delta c r = 0%Z) then X_ret r else P_len r (delta c r).
Definition after (c : call) (m : mode) (r : result) : pc :=
  match m with Fast => finish c r | Lck => P_un r | LckMiss => P_miss r end.
(** A panic skips missLocked; the deferred Unlock of line 402 runs. *)
Definition after_panic (m : mode) : pc :=
  match m with Fast => X_ret RPanic | _ => P_un RPanic end.

(** The result when the key is not there (lines 143, 306, 399, 405, 460). *)
Definition absent (c : call) : result :=
  match c with CCas _ _ _ | CCad _ _ => RBool false | _ => RVal None end.

(** Lines 542-550. *)
Definition dirty_map (s : shared) : gmap K nat := match s_dirty s with Some d => d | None => ∅ end.
Definition promote (s : shared) : shared :=
  set_misses 0 (set_dirty None (set_read (dirty_map s) false s)).
Definition missLocked (s : shared) : shared :=
  if decide (S (s_misses s) < size (dirty_map s)) then set_misses (S (s_misses s)) s
  else promote s.

(** A step that only looks; a step that also changes the shared state. *)
Definition goto (p : pc) (s : shared) : option (option pc * shared * list event) := Some (Some p, s, []).

(** Lines 233-239 and 376-384: adding the key, up to where the new entry is stored. *)
Definition add_key (s : shared) : option (option pc * shared * list event) :=
  if s_am s then goto P_new s
  else match s_dirty s with
       | Some _ => goto P_amend s                            (* lines 553-555 *)
       | None => goto (P_dl (s_rd s)) (set_dirty (Some ∅) s) (* lines 557-558 *)
       end.

(** The first load of [read], without the lock. *)
Definition step_read (c : call) (s : shared) : option (option pc * shared * list event) :=
  match c with
  | CLoad k | CLoadAndDelete k | CDelete k | CCas k _ _ | CCad k _ =>
      match s_rd s !! k with
      | Some e => goto (E_load e Fast) s
      | None => if s_am s then goto P_lock s else goto (X_ret (absent c)) s
      end
  | CStore k _ | CSwap k _ | CLoadOrStore k _ =>
      match s_rd s !! k with
      | Some e => goto (E_load e Fast) s
      | None => goto P_lock s
      end
  | CClear => if decide (s_rd s = ∅ /\ s_am s = false) then goto (X_ret RUnit) s else goto P_lock s
  | CRange | CSlowLen => if s_am s then goto P_lock s else goto (R_next (s_rd s) 0) s
  | CLen => None
  end.

(** The second load of [read], with the lock. *)
Definition step_read2 (c : call) (s : shared) : option (option pc * shared * list event) :=
  match c with
  | CLoad k | CLoadAndDelete k | CDelete k | CCad k _ =>
      match s_rd s !! k with
      | Some e => goto (P_une (Some e)) s
      | None => if s_am s then goto P_dirty s else goto (P_une None) s
      end
  | CStore k _ | CSwap k _ | CLoadOrStore k _ =>
      match s_rd s !! k with
      | Some e => goto (P_unexp e) s
      | None => goto P_dirty s
      end
  | CCas k _ _ =>
      match s_rd s !! k with
      | Some e => goto (E_load e Lck) s
      | None => goto P_dirty s
      end
  | CClear => if decide (s_rd s = ∅ /\ s_am s = false) then goto P_clr2 s else goto P_clr s
  | CRange | CSlowLen => if s_am s then goto P_prom s else goto (P_unr (s_rd s)) s
  | CLen => None
  end.

(** The lookup in [dirty] and what follows without touching anything else that is shared. *)
Definition step_dirty (c : call) (s : shared) : option (option pc * shared * list event) :=
  match c with
  | CLoad k | CCad k _ => goto (P_une (dirty_map s !! k)) (missLocked s)
  | CLoadAndDelete k | CDelete k =>
      goto (P_une (dirty_map s !! k)) (missLocked (set_dirty (delete k <$> s_dirty s) s))
  | CStore k _ | CSwap k _ =>
      match dirty_map s !! k with
      | Some e => goto (P_swap e) s
      | None => add_key s
      end
  | CLoadOrStore k _ =>
      match dirty_map s !! k with
      | Some e => goto (E_load e LckMiss) s
      | None => add_key s
      end
  | CCas k _ _ =>
      match dirty_map s !! k with
      | Some e => goto (E_load e LckMiss) s
      | None => goto (P_un (RBool false)) s
      end
  | _ => None
  end.

(** Loading [e.p] and deciding what to do: load (149-155), tryCompareAndSwap (168-186),
    tryLoadOrStore (252-277), delete (314-324), trySwap (330-340), the loop of CompareAndDelete
    (451-459). *)
Definition step_load (c : call) (e : nat) (m : mode) (s : shared) : option (option pc * shared * list event) :=
  let x := s_ent s e in
  match c with
  | CLoad _ => goto (after c m (RVal (slot_val x))) s
  | CStore _ _ | CSwap _ _ =>
      match x with SExp => goto P_lock s | _ => goto (E_cas e x m) s end
  | CLoadOrStore _ _ =>
      match x with
      | SExp => match m with Fast => goto P_lock s | _ => goto (after c m (RLos zero false)) s end
      | SPtr q => goto (after c m (RLos (deref q) true)) s
      | SNil => goto (E_cas e x m) s
      end
  | CLoadAndDelete _ | CDelete _ =>
      match x with SPtr q => goto (E_cas e x m) s | _ => goto (after c m (RVal None)) s end
  | CCas _ old _ | CCad _ old =>
      match x with
      | SPtr q =>
          match veq (deref q) old with
          | Some true => goto (E_cas e x m) s
          | Some false => goto (after c m (RBool false)) s
          | None => goto (after_panic m) s
          end
      | _ => goto (after c m (RBool false)) s
      end
  | _ => None
  end.

(** What a successful compare-and-swap of [e.p] stores, and the result of the call. *)
Definition cas_new (c : call) : slot :=
  match c with
  | CStore _ p | CSwap _ p | CLoadOrStore _ p | CCas _ _ p => SPtr p
  | _ => SNil
  end.
Definition cas_result (c : call) (x : slot) : result :=
  match c with
  | CLoadOrStore _ p => RLos (deref p) false
  | CCas _ _ _ | CCad _ _ => RBool true
  | _ => RVal (slot_val x)
  end.

Definition call_key (c : call) : option K :=
  match c with
  | CLoad k | CStore k _ | CSwap k _ | CLoadOrStore k _ | CLoadAndDelete k | CDelete k
  | CCas k _ _ | CCad k _ => Some k
  | _ => None
  end.
Definition call_ptr (c : call) : option nat :=
  match c with CStore _ p | CSwap _ p | CLoadOrStore _ p | CCas _ _ p => Some p | _ => None end.

(** [m.dirty[key] = e]: panics, without unlocking, if [m.dirty] is nil. *)
Definition dirty_store (k : K) (e : nat) (p : pc) (s : shared) : option (option pc * shared * list event) :=
  match s_dirty s with
  | Some d => goto p (set_dirty (Some (<[k := e]> d)) s)
  | None => goto (X_ret RPanic) s
  end.

(** One step of goroutine [t], which is inside the call [c]; [None]: not possible.  In the result
    [None] in place of a pc means that the call has returned. *)
Definition step (t : nat) (c : call) (p : pc) (s : shared) (lab : label)
    : option (option pc * shared * list event) :=
  match p, lab with
  | P_read, LTick => step_read c s
  | P_lock, LTick =>
      match s_lock s with
      | None => goto P_read2 (set_lock (Some t) s)
      | Some _ => None
      end
  | P_read2, LTick => step_read2 c s
  | P_dirty, LTick => step_dirty c s
  | P_unexp e, LTick =>
      (* lines 193-195; then 226, 366 *)
      let next := match c with CLoadOrStore _ _ => E_load e Lck | _ => P_swap e end in
      match s_ent s e, call_key c with
      | SExp, Some k => dirty_store k e next (set_ent e SNil s)
      | _, _ => goto next s
      end
  | P_swap e, LTick =>
      (* lines 200-202; [*v] of an expunged entry would read memory of another type *)
      match s_ent s e, call_ptr c with
      | SExp, _ | _, None => goto (X_ret RPanic) s
      | x, Some q => goto (P_un (RVal (slot_val x))) (set_ent e (SPtr q) s)
      end
  | P_dl todo, LTick => if decide (todo = ∅) then goto P_amend s else None
  | P_dl todo, LKey k =>
      match todo !! k with
      | Some e => goto (P_dlx k e (delete k todo)) s
      | None => None
      end
  | P_dlx k e todo, LTick =>
      match s_ent s e with
      | SNil => goto (P_dlc k e todo) s
      | SExp => goto (P_dl todo) s
      | SPtr _ => dirty_store k e (P_dl todo) s
      end
  | P_dlc k e todo, LTick =>
      match s_ent s e with
      | SNil => goto (P_dl todo) (set_ent e SExp s)
      | _ => goto (P_dlx k e todo) s
      end
  | P_amend, LTick => goto P_new (set_read (s_rd s) true s)
  | P_new, LTick =>
      match call_key c, call_ptr c with
      | Some k, Some q =>
          dirty_store k (s_next s)
            (P_un (match c with CLoadOrStore _ _ => RLos (deref q) false | _ => RVal None end))
            (new_entry q s)
      | _, _ => None
      end
  | P_miss r, LTick => goto (P_un r) (missLocked s)
  | P_un r, LTick => goto (finish c r) (set_lock None s)
  | P_une (Some e), LTick => goto (E_load e Fast) (set_lock None s)
  | P_une None, LTick => goto (X_ret (absent c)) (set_lock None s)
  | P_prom, LTick => goto (P_unr (dirty_map s)) (promote s)
  | P_unr m, LTick => goto (R_next m 0) (set_lock None s)
  | P_clr, LTick => goto P_clr2 (set_read ∅ false s)
  | P_clr2, LTick =>
      goto (P_un RUnit) (set_len 0 (set_misses 0 (set_dirty ((fun _ => ∅) <$> s_dirty s) s)))
  | E_load e m, LTick => step_load c e m s
  | E_cas e x m, LTick =>
      if decide (s_ent s e = x) then goto (after c m (cas_result c x)) (set_ent e (cas_new c) s)
      else goto (E_load e m) s
  | P_len r d, LTick => goto (X_ret r) (set_len (s_len s + d) s)
  | R_next todo n, LTick =>
      if decide (todo = ∅) then goto (X_ret (match c with CSlowLen => RInt n | _ => RUnit end)) s
      else None
  | R_next todo n, LKey k =>
      match todo !! k with
      | Some e => goto (R_load k e (delete k todo) n) s
      | None => None
      end
  | R_load k e todo n, LTick =>
      match slot_val (s_ent s e) with
      | Some v => goto (R_call k v todo n) s
      | None => goto (R_next todo n) s
      end
  | R_call k v todo n, LCb b =>
      match c, b with
      | CSlowLen, false => None               (* lines 535-538: the callback counts *)
      | _, true => Some (Some (R_next todo (n + 1)), s, [ECall t k v true])
      | _, false => Some (Some (X_ret RUnit), s, [ECall t k v false])
      end
  | P_getlen, LTick => goto (X_ret (RInt (s_len s))) s
  | X_ret r, LTick => Some (None, s, [ERet t (ret_of c r)])
  | _, _ => None
  end.

(** The whole program: the shared state and the goroutines inside a call. *)
Record config : Type := mk_config { c_sh : shared; c_thr : gmap nat (call * pc) }.

Definition new_config : config := mk_config new_shared ∅.

(** What happens next: goroutine [t] makes a call, or takes a step. *)
Inductive action : Type :=
| AInv (t : nat) (c : call)
| AStep (t : nat) (lab : label).

Definition act (cf : config) (a : action) : option (config * list event) :=
  match a with
  | AInv t c =>
      match c_thr cf !! t with
      | None => Some (mk_config (c_sh cf) (<[t := (c, enter c)]> (c_thr cf)), [EInv t c])
      | Some _ => None
      end
  | AStep t lab =>
      match c_thr cf !! t with
      | None => None
      | Some (c, p) =>
          match step t c p (c_sh cf) lab with
          | None => None
          | Some (Some p', s', ev) => Some (mk_config s' (<[t := (c, p')]> (c_thr cf)), ev)
          | Some (None, s', ev) => Some (mk_config s' (delete t (c_thr cf)), ev)
          end
      end
  end.

(** An execution: a list of actions; [None] if one of them is impossible. *)
Fixpoint run (cf : config) (acts : list action) : option (config * list event) :=
  match acts with
  | [] => Some (cf, [])
  | a :: rest =>
      match act cf a with
      | None => None
      | Some (cf1, ev) =>
          match run cf1 rest with
          | None => None
          | Some (cf2, evs) => Some (cf2, ev ++ evs)
          end
      end
  end.

End model.

Arguments shared K {_ _}.
Arguments call : clear implicits.
Arguments result : clear implicits.
Arguments pc K {_ _} V.
Arguments label : clear implicits.
Arguments event : clear implicits.
Arguments config K {_ _} V.
Arguments action : clear implicits.
