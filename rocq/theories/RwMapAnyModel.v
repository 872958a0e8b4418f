(** Model of /repo/rwmap/rwmap.go used by one goroutine, for every key type: the [==] of the keys need not
    be reflexive (NaN) and [==] keys need not be the same (0 and -0).

    - [read.m] and [dirty] are Go maps from keys to entries, as in GoMap.v; entries have numbers, [a_slot]
      says what their p points to.
    - With one goroutine the mutex is free, a CompareAndSwap after a Load succeeds, and reading [read] again
      under the mutex gives what it gave before; the second lookups are left out.
    - The zero value that goes with ok = false is left out of the results (None).
    - [veq] is reflect's Equal on values. *)
From Verif Require Import Base GoMap.

(** entry.p, lines 85-106: nil, expunged, or a pointer to a value. *)
Inductive aslot (V : Type) := ANil | AExp | APtr (v : V).
Arguments ANil {V}. Arguments AExp {V}. Arguments APtr {V}.

(** RWMap, lines 36-70; the read pointer that is still nil is an empty map.  [a_new]: the next number of an
    entry; [a_its]: iterations over maps so far. *)
Record amap (K V : Type) := mk_amap {
  a_read : list (K * nat); a_amended : bool; a_dirty : option (list (K * nat));
  a_len : Z; a_misses : nat; a_slot : nat -> aslot V; a_new : nat; a_its : nat
}.
Arguments mk_amap {K V}. Arguments a_read {K V}. Arguments a_amended {K V}. Arguments a_dirty {K V}.
Arguments a_len {K V}. Arguments a_misses {K V}. Arguments a_slot {K V}. Arguments a_new {K V}. Arguments a_its {K V}.

Section model.
  Context {K V : Type} (eqb : K -> K -> bool) (upd : bool) (veq : V -> V -> bool).
  (** Order of the n-th iteration over a map. *)
  Context (ord : nat -> list (K * nat) -> list (K * nat)).
  Notation W := (amap K V).
  Notation find := (mlookup eqb).

  Definition set_read (r : list (K * nat)) (b : bool) (s : W) : W :=
    mk_amap r b (a_dirty s) (a_len s) (a_misses s) (a_slot s) (a_new s) (a_its s).
  Definition set_dirty (d : option (list (K * nat))) (s : W) : W :=
    mk_amap (a_read s) (a_amended s) d (a_len s) (a_misses s) (a_slot s) (a_new s) (a_its s).
  Definition set_len (n : Z) (s : W) : W :=
    mk_amap (a_read s) (a_amended s) (a_dirty s) n (a_misses s) (a_slot s) (a_new s) (a_its s).
  Definition set_misses (n : nat) (s : W) : W :=
    mk_amap (a_read s) (a_amended s) (a_dirty s) (a_len s) n (a_slot s) (a_new s) (a_its s).
  Definition set_slot (e : nat) (x : aslot V) (s : W) : W :=
    mk_amap (a_read s) (a_amended s) (a_dirty s) (a_len s) (a_misses s) (<[e := x]> (a_slot s)) (a_new s) (a_its s).

  Definition gets {A} (f : W -> A) : M W A := fun s => Ok (f s, s).
  Definition modify (f : W -> W) : M W unit := fun s => Ok (tt, f s).
  (** Lookup and len in a nil map are those in an empty one. *)
  Definition dirty_map (s : W) : list (K * nat) := match a_dirty s with Some d => d | None => [] end.
  (** m.dirty[key] = e: panics if m.dirty is nil. *)
  Definition dirty_set (k : K) (e : nat) : M W unit := fun s =>
    match a_dirty s with Some d => Ok (tt, set_dirty (Some (mset eqb upd d k e)) s) | None => Panic end.
  (** delete(m.dirty, key) *)
  Definition dirty_del (k : K) : M W unit :=
    modify (fun s => set_dirty (match a_dirty s with Some d => Some (mdel eqb d k) | None => None end) s).
  (** newEntry, lines 108-112 *)
  Definition newEntry (v : V) : M W nat := fun s =>
    Ok (a_new s, mk_amap (a_read s) (a_amended s) (a_dirty s) (a_len s) (a_misses s) (<[a_new s := APtr v]> (a_slot s)) (S (a_new s)) (a_its s)).
  (** for k, e := range m *)
  Definition iterate (m : list (K * nat)) : M W (list (K * nat)) := fun s =>
    Ok (ord (a_its s) m, mk_amap (a_read s) (a_amended s) (a_dirty s) (a_len s) (a_misses s) (a_slot s) (a_new s) (S (a_its s))).

  (** Lines 547-549 (missLocked) and 487-490 (Range): dirty becomes read. *)
  Definition promote : M W unit := modify (fun s => set_misses 0 (set_dirty None (set_read (dirty_map s) false s))).
  (** missLocked, lines 542-550 *)
  Definition missLocked : M W unit :=
    modify (fun s => set_misses (S (a_misses s)) s) ;;;
    s <- gets id ;;
    if a_misses s <? length (dirty_map s) then ret tt else promote.

  (** tryExpungeLocked, lines 566-575 *)
  Definition tryExpungeLocked (e : nat) : M W bool :=
    x <- gets (fun s => a_slot s e) ;;
    match x with
    | ANil => modify (set_slot e AExp) ;;; ret true
    | AExp => ret true
    | APtr _ => ret false
    end.
  Fixpoint dirty_loop (es : list (K * nat)) : M W unit :=
    match es with
    | [] => ret tt
    | (k, e) :: es => b <- tryExpungeLocked e ;; (if (b : bool) then ret tt else dirty_set k e) ;;; dirty_loop es
    end.
  (** dirtyLocked, lines 552-564 *)
  Definition dirtyLocked : M W unit :=
    s <- gets id ;;
    match a_dirty s with
    | Some _ => ret tt
    | None => modify (set_dirty (Some [])) ;;; es <- iterate (a_read s) ;; dirty_loop es
    end.
  (** Lines 231-239 and 375-382: a key that is in neither map. *)
  Definition add_new (k : K) (v : V) : M W unit :=
    s <- gets id ;;
    (if a_amended s then ret tt else dirtyLocked ;;; modify (fun s1 => set_read (a_read s) true s1)) ;;;
    e <- newEntry v ;; dirty_set k e.
  (** m.len += n *)
  Definition add_len (n : Z) : M W unit := modify (fun s => set_len (a_len s + n) s).

  (** load, lines 149-155 *)
  Definition e_load (e : nat) : M W (option V) :=
    gets (fun s => match a_slot s e with APtr v => Some v | _ => None end).
  (** delete, lines 314-324 *)
  Definition e_delete (e : nat) : M W (option V) :=
    o <- e_load e ;; match o with Some v => modify (set_slot e ANil) ;;; ret (Some v) | None => ret None end.
  (** Swap of p, lines 200-202 and 330-340: None if it was nil (not used when it is expunged). *)
  Definition e_swap (e : nat) (v : V) : M W (option V) :=
    o <- e_load e ;; modify (set_slot e (APtr v)) ;;; ret o.
  (** unexpungeLocked and what follows it, lines 193-195, 224-226 and 361-365. *)
  Definition unexpunge (k : K) (e : nat) : M W unit :=
    x <- gets (fun s => a_slot s e) ;;
    match x with AExp => modify (set_slot e ANil) ;;; dirty_set k e | _ => ret tt end.
  (** tryLoadOrStore of an entry that is not expunged, lines 252-277. *)
  Definition e_loadOrStore (e : nat) (v : V) : M W (V * bool) :=
    o <- e_load e ;; match o with Some w => ret (w, true) | None => modify (set_slot e (APtr v)) ;;; ret (v, false) end.
  (** tryCompareAndSwap, lines 168-187 *)
  Definition e_cas (e : nat) (old new : V) : M W bool :=
    o <- e_load e ;;
    match o with Some w => if veq w old then modify (set_slot e (APtr new)) ;;; ret true else ret false | None => ret false end.

  (** Load, lines 124-147 *)
  Definition Load (k : K) : M W (option V) :=
    s <- gets id ;;
    match find (a_read s) k with
    | Some e => e_load e
    | None =>
        if a_amended s then missLocked ;;; match find (dirty_map s) k with Some e => e_load e | None => ret None end
        else ret None
    end.
  (** Swap, lines 344-387 *)
  Definition Swap (k : K) (v : V) : M W (option V) :=
    s <- gets id ;;
    o <- match find (a_read s) k with
         | Some e => unexpunge k e ;;; e_swap e v
         | None =>
             match find (dirty_map s) k with
             | Some e => e_swap e v
             | None => add_new k v ;;; ret None
             end
         end ;;
    match o with Some _ => ret tt | None => add_len 1 end ;;; ret o.
  (** Store, lines 158-160 *)
  Definition Store (k : K) (v : V) : M W unit := Swap k v ;;; ret tt.
  (** LoadOrStore, lines 207-244 *)
  Definition LoadOrStore (k : K) (v : V) : M W (V * bool) :=
    s <- gets id ;;
    r <- match find (a_read s) k with
         | Some e => unexpunge k e ;;; e_loadOrStore e v
         | None =>
             match find (dirty_map s) k with
             | Some e => r <- e_loadOrStore e v ;; missLocked ;;; ret r
             | None => add_new k v ;;; ret (v, false)
             end
         end ;;
    (if snd r then ret tt else add_len 1) ;;; ret r.
  (** LoadAndDelete, lines 281-307 *)
  Definition LoadAndDelete (k : K) : M W (option V) :=
    s <- gets id ;;
    o <- match find (a_read s) k with
         | Some e => e_delete e
         | None =>
             if a_amended s then
               dirty_del k ;;; missLocked ;;; match find (dirty_map s) k with Some e => e_delete e | None => ret None end
             else ret None
         end ;;
    match o with Some _ => add_len (-1) | None => ret tt end ;;; ret o.
  (** Delete, lines 310-312 *)
  Definition Delete (k : K) : M W unit := LoadAndDelete k ;;; ret tt.
  (** CompareAndSwap, lines 393-418 *)
  Definition CompareAndSwap (k : K) (old new : V) : M W bool :=
    s <- gets id ;;
    match find (a_read s) k with
    | Some e => e_cas e old new
    | None =>
        if a_amended s then
          match find (dirty_map s) k with Some e => b <- e_cas e old new ;; missLocked ;;; ret b | None => ret false end
        else ret false
    end.
  (** CompareAndDelete, lines 425-461 *)
  Definition CompareAndDelete (k : K) (old : V) : M W bool :=
    s <- gets id ;;
    o <- match find (a_read s) k with
         | Some e => ret (Some e)
         | None => if a_amended s then missLocked ;;; ret (find (dirty_map s) k) else ret None
         end ;;
    b <- match o with
         | Some e =>
             x <- e_load e ;;
             match x with Some w => if veq w old then modify (set_slot e ANil) ;;; ret true else ret false | None => ret false end
         | None => ret false
         end ;;
    (if (b : bool) then add_len (-1) else ret tt) ;;; ret b.
  (** Range, lines 474-505, with a callback that does not use the map; it returns the pairs the callback gets. *)
  Fixpoint range_loop (f : K -> V -> bool) (es : list (K * nat)) : M W (list (K * V)) :=
    match es with
    | [] => ret []
    | (k, e) :: es =>
        o <- e_load e ;;
        match o with
        | None => range_loop f es
        | Some v => if f k v then l <- range_loop f es ;; ret ((k, v) :: l) else ret [(k, v)]
        end
    end.
  Definition Range (f : K -> V -> bool) : M W (list (K * V)) :=
    s <- gets id ;;
    (if a_amended s then promote else ret tt) ;;;
    s1 <- gets id ;; es <- iterate (a_read s1) ;; range_loop f es.
  (** Clear, lines 509-528 *)
  Definition Clear : M W unit :=
    s <- gets id ;;
    if (Nat.eqb (length (a_read s)) 0 && negb (a_amended s))%bool then ret tt
    else
      (if ((0 <? length (a_read s)) || a_amended s)%bool then modify (set_read [] false) else ret tt) ;;;
      modify (fun s => set_dirty (match a_dirty s with Some _ => Some [] | None => None end) s) ;;;
      modify (set_misses 0) ;;; modify (set_len 0).
  (** Len, lines 530-532 *)
  Definition Len : M W Z := gets a_len.
  (** SlowLen, lines 534-540 *)
  Definition SlowLen : M W Z := l <- Range (fun _ _ => true) ;; ret (Z.of_nat (length l)).

  (** The zero RWMap. *)
  Definition zero_map : W := mk_amap [] false None 0 0 (fun _ => ANil) 0 0.
End model.
