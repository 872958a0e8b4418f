(** Model of the background trimming of synccache, synccache.go:12-34 and 49-65: the registry
    [caches], [startOnce], the ticker and the goroutine that trims.

    Simplifications:
    - The registry is an atomic set of caches: Store and Delete of rwmap take effect at one moment of the
      call (C67), and Range fixes a set of keys that contains those in the map and then looks at each of
      them (the object of RwMapSpec.v, with which C78 is proved as well).
    - key.trim() (lines 67-75) is one stay of the goroutine in the cache, of any duration: it includes the
      calls of deletedCallback.  What it does to the cache is C75.
    - The options of NewSyncCache are the cache [c]; they run before it is registered.
    - The clock is in nanoseconds and can advance by any amount between any two steps. *)
From Verif Require Import Base.
Local Open Scope Z_scope.

(** The calls, on caches named by numbers. *)
Inductive tcall : Type :=
| CNew (c : nat) (trimTime : Z)
| CStart (c : nat)
| CClose (c : nat).

(** Where a goroutine in a call is.  sync.Once.Do: load done (fast path); lock; load done again; run the
    function; store done; unlock. *)
Inductive tpc : Type :=
| PStore (c : nat)      (* line 59 *)
| PDelete (c : nat)     (* line 64 *)
| PFast                 (* line 22: o.done.Load() *)
| PLock                 (* o.m.Lock() *)
| PCheck                (* o.done.Load() *)
| PGo                   (* line 23: go func() *)
| PDone                 (* o.done.Store(1) *)
| PUnlock               (* o.m.Unlock() *)
| PRet.

(** Where a trimming goroutine is. *)
Inductive gpc : Type :=
| GNew                              (* line 24: before time.NewTicker *)
| GWait                             (* line 26: receive from ticker.C *)
| GRange                            (* line 27: Range is called *)
| GIter (ks : gset nat)             (* Range has still to look at these keys *)
| GTrim (c : nat) (ks : gset nat).  (* line 28: in key.trim() *)

(** Its ticker: when it ticks next, and whether the channel (of capacity 1) holds a tick. *)
Record trimmer : Type := Trimmer { g_next : Z; g_buf : bool; g_pc : gpc }.

Record tstate : Type := TState {
  t_reg : gset nat;            (* caches *)
  t_done : bool;               (* startOnce.done *)
  t_lock : option nat;         (* who holds startOnce.m *)
  t_thr : gmap nat tpc;        (* goroutines in a call *)
  t_gos : list trimmer;        (* trimming goroutines *)
  t_now : Z                    (* the clock *)
}.
Definition tnew (now : Z) : tstate := TState ∅ false None ∅ [] now.

Inductive tevent : Type :=
| ECall (t : nat) (c : tcall)      (* goroutine t calls *)
| EReturn (t : nat)                (* its call returns *)
| EPass (i : nat)                  (* trimming goroutine i receives a tick *)
| ETrim (i : nat) (c : nat)        (* it begins to trim c *)
| ETrimmed (i : nat) (c : nat)     (* trim of c has returned *)
| EEnd (i : nat).                  (* the Range has returned *)

Inductive taction : Type :=
| ACall (t : nat) (c : tcall)
| AGo (t : nat)                    (* a step of goroutine t *)
| AGather (i : nat) (ks : gset nat) (* Range of trimming goroutine i fixes its keys *)
| ALook (i : nat) (c : nat)        (* it looks at c *)
| ATrim (i : nat)                  (* another step of it *)
| ATick (i : nat)                  (* its ticker ticks *)
| ATime (d : Z).                   (* time passes *)

(** line 24 *)
Definition period : Z := 5 * 10 ^ 9.

Definition set_thr (t : nat) (p : tpc) (s : tstate) : tstate :=
  TState (t_reg s) (t_done s) (t_lock s) (<[t := p]> (t_thr s)) (t_gos s) (t_now s).
Definition set_go (i : nat) (g : trimmer) (s : tstate) : tstate :=
  TState (t_reg s) (t_done s) (t_lock s) (t_thr s) (<[i := g]> (t_gos s)) (t_now s).

(** NewSyncCache: lines 49-56 (trimTime is not used); Start: 58-61; Close: 63-65. *)
Definition entry (c : tcall) : tpc :=
  match c with CNew c _ => PStore c | CStart c => PStore c | CClose c => PDelete c end.

Definition go_step (t : nat) (p : tpc) (s : tstate) : option (tstate * option tevent) :=
  match p with
  | PStore c =>
      Some (TState (t_reg s ∪ {[c]}) (t_done s) (t_lock s) (<[t := PFast]> (t_thr s)) (t_gos s) (t_now s), None)
  | PDelete c =>
      Some (TState (t_reg s ∖ {[c]}) (t_done s) (t_lock s) (<[t := PRet]> (t_thr s)) (t_gos s) (t_now s), None)
  | PFast => Some (set_thr t (if t_done s then PRet else PLock) s, None)
  | PLock =>
      match t_lock s with
      | Some _ => None
      | None => Some (TState (t_reg s) (t_done s) (Some t) (<[t := PCheck]> (t_thr s)) (t_gos s) (t_now s), None)
      end
  | PCheck => Some (set_thr t (if t_done s then PUnlock else PGo) s, None)
  | PGo =>
      Some (TState (t_reg s) (t_done s) (t_lock s) (<[t := PDone]> (t_thr s))
              (t_gos s ++ [Trimmer 0 false GNew]) (t_now s), None)
  | PDone => Some (TState (t_reg s) true (t_lock s) (<[t := PUnlock]> (t_thr s)) (t_gos s) (t_now s), None)
  | PUnlock => Some (TState (t_reg s) (t_done s) None (<[t := PRet]> (t_thr s)) (t_gos s) (t_now s), None)
  | PRet =>
      Some (TState (t_reg s) (t_done s) (t_lock s) (delete t (t_thr s)) (t_gos s) (t_now s), Some (EReturn t))
  end.

Definition tstep (s : tstate) (a : taction) : option (tstate * option tevent) :=
  match a with
  | ACall t c =>
      match t_thr s !! t with
      | Some _ => None
      | None => Some (set_thr t (entry c) s, Some (ECall t c))
      end
  | AGo t => match t_thr s !! t with Some p => go_step t p s | None => None end
  | AGather i ks =>
      match t_gos s !! i with
      | Some (Trimmer n b GRange) =>
          if decide (t_reg s ⊆ ks) then Some (set_go i (Trimmer n b (GIter ks)) s, None) else None
      | _ => None
      end
  | ALook i c =>
      match t_gos s !! i with
      | Some (Trimmer n b (GIter ks)) =>
          if decide (c ∈ ks) then
            if decide (c ∈ t_reg s) then Some (set_go i (Trimmer n b (GTrim c (ks ∖ {[c]}))) s, Some (ETrim i c))
            else Some (set_go i (Trimmer n b (GIter (ks ∖ {[c]}))) s, None)
          else None
      | _ => None
      end
  | ATrim i =>
      match t_gos s !! i with
      | Some (Trimmer n b GNew) => Some (set_go i (Trimmer (t_now s + period) false GWait) s, None)
      | Some (Trimmer n true GWait) => Some (set_go i (Trimmer n false GRange) s, Some (EPass i))
      | Some (Trimmer n b (GIter ks)) =>
          if decide (ks = ∅) then Some (set_go i (Trimmer n b GWait) s, Some (EEnd i)) else None
      | Some (Trimmer n b (GTrim c ks)) => Some (set_go i (Trimmer n b (GIter ks)) s, Some (ETrimmed i c))
      | _ => None
      end
  | ATick i =>
      match t_gos s !! i with
      | Some (Trimmer n b GNew) => None
      | Some (Trimmer n b p) =>
          if n <=? t_now s then
            Some (set_go i (Trimmer (n + period * (1 + (t_now s - n) / period)) true p) s, None)
          else None
      | None => None
      end
  | ATime d =>
      if 0 <=? d then Some (TState (t_reg s) (t_done s) (t_lock s) (t_thr s) (t_gos s) (t_now s + d), None)
      else None
  end.

Fixpoint trun (s : tstate) (l : list taction) : option (tstate * list tevent) :=
  match l with
  | [] => Some (s, [])
  | a :: l =>
      match tstep s a with
      | None => None
      | Some (s1, e) =>
          match trun s1 l with
          | None => None
          | Some (s2, tr) => Some (s2, option_list e ++ tr)
          end
      end
  end.
