(** Model of /repo/synccache/synccache.go and item.go, on top of the model of rwmap.

    Any number of goroutines use one cache.  A step of a goroutine is a step of the cache's own code
    (a clock reading, an atomic load of an expiration, a call of a callback, entering or leaving a call)
    or one step of rwmap's code, as in RwMapModel.v.

    Simplifications, besides those of rwmap:
    - an entry [*Entry[V]] is a number; 0 is nil.  The table [c_ent] gives value and expiration of the
      entries of this cache.
    - the clock is arbitrary: every reading gives any number of nanoseconds since 1970 (it may go
      backwards).  Numbers are unbounded: [time.Add], AddExpiration and UnixMilli do not overflow.
    - deletedCallback and the f of Range do not panic.  Calls of the cache they make are calls of other
      goroutines that happen meanwhile.
    - AddExpiration and SetExpiration (item.go:28-34) may happen at any moment on any entry of the cache.
    - [reflect.Value.Equal] on values is an arbitrary function, with [None] for its panics; on pointers
      it is equality.
    - the registry [caches] and the ticker (lines 12-34, 45-65) are modelled separately, see
      SyncCacheRegistry.v; trim (lines 67-75) is a call like the others. *)
From Verif Require Import Base RwMapModel.
Local Open Scope Z_scope.

(** item.go:15, 25 and time.UnixMilli: milliseconds, rounded down. *)
Definition ms (ns : Z) : Z := ns / 1000000.

Section model.
Context {K : Type} `{Countable K} {V : Type}.
Context (deref : nat -> nat) (veq : V -> V -> option bool) (has_cb : bool).

(** rwmap's comparison, for [*Entry[V]]. *)
Definition peq (a b : nat) : option bool := Some (bool_decide (a = b)).

(** The calls.  A duration is in nanoseconds. *)
Inductive scall : Type :=
| SStore (k : K) (v : V) (d : Z)          (* 77-79 *)
| SLoad (k : K)                           (* 81-91 *)
| SLoadOrStore (k : K) (v : V) (d : Z)    (* 93-107 *)
| SDelete (k : K)                         (* 109-113 *)
| SLoadAndDelete (k : K)                  (* 115-130 *)
| SCad (k : K) (e : nat)                  (* 132-137 *)
| SCvad (k : K) (v : V)                   (* 139-144 *)
| SClear                                  (* 146-155 *)
| SRange                                  (* 157-165 *)
| STrim.                                  (* 67-75 *)

(** [SEnt e b] is (e, b), [SNone] is (nil, false). *)
Inductive sres : Type :=
| SUnit
| SNone
| SEnt (e : nat) (loaded : bool)
| SBool (b : bool)
| SPanic.

(** Where a goroutine is.  [x]: CompareAndDelete is called because the entry had expired. *)
Inductive spc : Type :=
| Q_new                                   (* 78, 95: NewEntry *)
| Q_put (e : nat)                         (* 78, 95 *)
| Q_get                                   (* 69, 82, 110, 116, 148, 151, 158 *)
| Q_wait                                  (* inside one of those calls of rwmap *)
| Q_now                                   (* 68 *)
| Q_chk (k : K) (e : nat)                 (* 86, 99, 120, 159: IsExpired reads the clock *)
| Q_chk2 (k : K) (e : nat)                (* 70, and IsExpired: loads the expiration *)
| Q_cad (k : K) (e : nat) (x : bool)      (* 133 *)
| Q_cadw (k : K) (e : nat) (x : bool)     (* inside CompareAndDelete of rwmap *)
| Q_del (k : K) (e : nat) (x : bool)      (* 111, 122, 127, 134: deletedCallback *)
| Q_user (k : K) (e : nat)                (* 160: f *)
| Q_back (k : K) (e : nat) (b : bool)     (* 73, 153, 160, 163: back to Range of rwmap *)
| Q_ret (r : sres).

(** A goroutine inside a call: the call, the last clock reading in milliseconds, and where it is. *)
Record frame : Type := mk_frame { f_call : scall; f_now : Z; f_pc : spc }.

Record cstate : Type := mk_cstate {
  c_ent : gmap nat (V * Z);
  c_new : nat;                            (* entries from here on do not exist yet *)
  c_fr : gmap nat frame }.

Definition c_init : cstate := mk_cstate ∅ 1 ∅.

(** What is observed: calls and returns; a reading of the clock (nanoseconds); a new entry, with value
    and expiration; a comparison of a clock reading with the expiration of an entry (milliseconds); a
    call of deletedCallback on the value of an entry; a call of the f of Range with its result;
    SetExpiration and AddExpiration. *)
Inductive sev : Type :=
| SInv (t : nat) (c : scall)
| SRet (t : nat) (r : sres)
| SClock (t : nat) (now : Z)
| SNew (t : nat) (e : nat) (v : V) (exp : Z)
| SChk (t : nat) (e : nat) (now exp : Z)
| SDel (t : nat) (e : nat) (v : V)
| SUse (t : nat) (k : K) (e : nat) (b : bool)
| SSet (e : nat) (at_ : Z)
| SAdd (e : nat) (d : Z).

(** What the environment supplies: nothing, a clock reading, what f returns. *)
Inductive slab : Type := LNone | LClock (now : Z) | LUser (b : bool).

(** Actions of the cache's code; a goroutine starts the callback it passes to Range of rwmap. *)
Inductive sact : Type :=
| KInv (t : nat) (c : scall)
| KLoc (t : nat) (l : slab)
| KBeg (t : nat) (k : K) (e : nat)
| KSet (e : nat) (at_ : Z)                (* SetExpiration, item.go:32-34 *)
| KAdd (e : nat) (d : Z).                 (* AddExpiration, item.go:28-30 *)

Definition start (c : scall) : spc :=
  match c with
  | SStore _ _ _ | SLoadOrStore _ _ _ => Q_new
  | SCad k e => Q_cad k e false
  | STrim => Q_now
  | _ => Q_get
  end.

Definition ranging (c : scall) : bool :=
  match c with SClear => has_cb | SRange | STrim => true | _ => false end.

(** Lines 102-105, 90, 136, 141-143, 72-73, 153, 163: after CompareAndDelete, with result [b]. *)
Definition after_cad (c : scall) (k : K) (e : nat) (x b : bool) : spc :=
  match c with
  | SLoad _ => Q_ret SNone
  | SLoadOrStore _ _ _ => if b then Q_new else Q_ret (SEnt e true)
  | SCad _ _ => Q_ret (SBool b)
  | SCvad _ _ => Q_ret (SBool (if x then false else b))
  | SClear | SRange | STrim => Q_back k e true
  | _ => Q_ret SUnit
  end.
(** After deletedCallback. *)
Definition after_del (c : scall) (k : K) (e : nat) (x : bool) : spc :=
  match c with
  | SDelete _ => Q_ret SUnit
  | SLoadAndDelete _ => Q_ret (if x then SNone else SEnt e true)
  | _ => after_cad c k e x true
  end.
Definition del (c : scall) (k : K) (e : nat) (x : bool) : spc :=
  if has_cb then Q_del k e x else after_del c k e x.

(** After the comparison of an expiration with the clock; [x]: expired; [v]: the value of the entry. *)
Definition after_chk (c : scall) (k : K) (e : nat) (v : V) (x : bool) : spc :=
  match c with
  | SLoad _ | SLoadOrStore _ _ _ => if x then Q_cad k e true else Q_ret (SEnt e true)
  | SLoadAndDelete _ => del c k e x
  | SCvad _ v0 =>
      if x then Q_cad k e true
      else match veq v0 v with
           | Some true => Q_cad k e false
           | Some false => Q_ret (SBool false)
           | None => Q_ret SPanic
           end
  | SRange => if x then Q_cad k e true else Q_user k e
  | _ => if x then Q_cad k e true else Q_back k e true
  end.

(** The beginning of the callback passed to Range of rwmap. *)
Definition callback (c : scall) (k : K) (e : nat) : spc :=
  match c with SRange => Q_chk k e | STrim => Q_chk2 k e | _ => Q_cad k e false end.

Definition set_frame (t : nat) (c : scall) (now : Z) (p : spc) (s : cstate) : cstate :=
  mk_cstate (c_ent s) (c_new s) (<[t := mk_frame c now p]> (c_fr s)).

Definition cl_loc (s : cstate) (a : sact) : option (cstate * list sev) :=
  match a with
  | KInv t c =>
      match c_fr s !! t with
      | None => Some (set_frame t c 0 (start c) s, [SInv t c])
      | Some _ => None
      end
  | KBeg t k e =>
      match c_fr s !! t with
      | Some (mk_frame c now Q_wait) =>
          if ranging c then Some (set_frame t c now (callback c k e) s, []) else None
      | _ => None
      end
  | KSet e at_ =>
      match c_ent s !! e with
      | Some (v, _) => Some (mk_cstate (<[e := (v, ms at_)]> (c_ent s)) (c_new s) (c_fr s), [SSet e at_])
      | None => None
      end
  | KAdd e d =>
      match c_ent s !! e with
      | Some (v, x) => Some (mk_cstate (<[e := (v, x + Z.quot d 1000000)]> (c_ent s)) (c_new s) (c_fr s),
                            [SAdd e d])
      | None => None
      end
  | KLoc t l =>
      match c_fr s !! t with
      | None => None
      | Some (mk_frame c now p) =>
          match p, l with
          | Q_new, LClock n =>
              match c with
              | SStore _ v d | SLoadOrStore _ v d =>
                  (* item.go:13-18 *)
                  let e := c_new s in
                  Some (mk_cstate (<[e := (v, ms (n + d))]> (c_ent s)) (S e)
                                  (<[t := mk_frame c now (Q_put e)]> (c_fr s)),
                        [SClock t n; SNew t e v (ms (n + d))])
              | _ => None
              end
          | Q_now, LClock n => Some (set_frame t c (ms n) Q_get s, [SClock t n])
          | Q_chk k e, LClock n => Some (set_frame t c (ms n) (Q_chk2 k e) s, [SClock t n])
          | Q_chk2 k e, LNone =>
              (* item.go:25, line 70: now > expiration *)
              match c_ent s !! e with
              | Some (v, x) =>
                  Some (set_frame t c now (after_chk c k e v (x <? now)) s, [SChk t e now x])
              | None => None
              end
          | Q_del k e x, LNone =>
              match c_ent s !! e with
              | Some (v, _) => Some (set_frame t c now (after_del c k e x) s, [SDel t e v])
              | None => None
              end
          | Q_user k e, LUser b => Some (set_frame t c now (Q_back k e b) s, [SUse t k e b])
          | Q_ret r, LNone => Some (mk_cstate (c_ent s) (c_new s) (delete t (c_fr s)), [SRet t r])
          | _, _ => None
          end
      end
  end.

(** ** Calls of rwmap *)
(** Goroutine [t] is goroutine [2t] of rwmap, and [2t+1] in calls it makes from the callback of
    Range.  [calls_map c p mc]: at [p] the code of [c] calls [mc]. *)
Definition calls_map (c : scall) (p : spc) (mc : call K nat) : bool :=
  match p, c, mc with
  | Q_put e, SStore k _ _, CStore k' q => bool_decide (k' = k /\ deref q = e)
  | Q_put e, SLoadOrStore k _ _, CLoadOrStore k' q => bool_decide (k' = k /\ deref q = e)
  | Q_get, (SLoad k | SCvad k _), CLoad k' => bool_decide (k' = k)
  | Q_get, (SDelete k | SLoadAndDelete k), CLoadAndDelete k' => bool_decide (k' = k)
  | Q_get, SClear, CClear => negb has_cb
  | Q_get, SClear, CRange => has_cb
  | Q_get, (SRange | STrim), CRange => true
  | Q_cad k e _, _, CCad k' e' => bool_decide (k' = k /\ e' = e)
  | _, _, _ => false
  end.
Definition inside (p : spc) : spc :=
  match p with Q_cad k e x => Q_cadw k e x | _ => Q_wait end.
(** The call is made from a callback of Range of rwmap. *)
Definition inner (c : scall) (p : spc) : bool :=
  match p with Q_cad _ _ _ | Q_cadw _ _ _ => ranging c | _ => false end.
Definition tid (t : nat) (b : bool) : nat := if b then S (2 * t) else 2 * t.

(** What the code does with the result. *)
Definition after_ret (c : scall) (p : spc) (r : result nat) : option spc :=
  match p, c, r with
  | Q_wait, SStore _ _ _, RUnit => Some (Q_ret SUnit)
  | Q_wait, SLoadOrStore k _ _, RLos e loaded =>
      Some (if loaded then Q_chk k e else Q_ret (SEnt e false))
  | Q_wait, SLoad k, RVal o => Some (match o with Some e => Q_chk k e | None => Q_ret SNone end)
  | Q_wait, SCvad k _, RVal o => Some (match o with Some e => Q_chk k e | None => Q_ret (SBool false) end)
  | Q_wait, SDelete k, RVal o => Some (match o with Some e => del c k e false | None => Q_ret SUnit end)
  | Q_wait, SLoadAndDelete k, RVal o => Some (match o with Some e => Q_chk k e | None => Q_ret SNone end)
  | Q_wait, (SClear | SRange | STrim), RUnit => Some (Q_ret SUnit)
  | Q_cadw k e x, _, RBool b =>
      Some (if b then (if has_cb then Q_del k e x else after_cad c k e x true) else after_cad c k e x false)
  | _, _, _ => None
  end.

(** The effect of an event of rwmap on the cache's code. *)
Definition cl_map (s : cstate) (ev : event K nat) : option cstate :=
  match ev with
  | EInv u mc =>
      let t := Nat.div2 u in
      match c_fr s !! t with
      | Some (mk_frame c now p) =>
          if calls_map c p mc && bool_decide (u = tid t (inner c p))
          then Some (set_frame t c now (inside p) s) else None
      | None => None
      end
  | ERet u r =>
      let t := Nat.div2 u in
      match c_fr s !! t with
      | Some (mk_frame c now p) =>
          if bool_decide (u = tid t (inner c p))
          then match after_ret c p r with Some p' => Some (set_frame t c now p' s) | None => None end
          else None
      | None => None
      end
  | ECall u k e b =>
      let t := Nat.div2 u in
      match c_fr s !! t with
      | Some (mk_frame c now (Q_back k' e' b')) =>
          if bool_decide (u = tid t false /\ k' = k /\ e' = e /\ b' = b)
          then Some (set_frame t c now Q_wait s) else None
      | _ => None
      end
  end.

(** ** The cache and its map together *)
Record world : Type := mk_world { w_cl : cstate; w_map : config K nat }.
Definition w_init : world := mk_world c_init new_config.

(** An action: of the cache's code; the callback of Range of rwmap begins, which it does when
    rwmap is at the call of the callback; a step of rwmap. *)
Inductive wact : Type :=
| XLoc (a : sact)
| XBeg (t : nat)
| XMap (a : action K nat).

Definition wstep (w : world) (x : wact) : option (world * list sev) :=
  match x with
  | XLoc (KBeg _ _ _) => None
  | XLoc a =>
      match cl_loc (w_cl w) a with
      | Some (s, ev) => Some (mk_world s (w_map w), ev)
      | None => None
      end
  | XBeg t =>
      match c_thr (w_map w) !! tid t false with
      | Some (_, R_call k e _ _) =>
          match cl_loc (w_cl w) (KBeg t k e) with
          | Some (s, ev) => Some (mk_world s (w_map w), ev)
          | None => None
          end
      | _ => None
      end
  | XMap a =>
      match act deref O peq (w_map w) a with
      | Some (cf, []) => Some (mk_world (w_cl w) cf, [])
      | Some (cf, ev :: _) =>
          match cl_map (w_cl w) ev with
          | Some s => Some (mk_world s cf, [])
          | None => None
          end
      | None => None
      end
  end.

Fixpoint wrun (w : world) (xs : list wact) : option (world * list sev) :=
  match xs with
  | [] => Some (w, [])
  | x :: xs =>
      match wstep w x with
      | None => None
      | Some (w1, ev) =>
          match wrun w1 xs with
          | None => None
          | Some (w2, evs) => Some (w2, ev ++ evs)
          end
      end
  end.

End model.

Arguments scall : clear implicits.
Arguments spc : clear implicits.
Arguments frame : clear implicits.
Arguments cstate : clear implicits.
Arguments sev : clear implicits.
Arguments sact : clear implicits.
Arguments world K {_ _} V.
Arguments wact : clear implicits.
