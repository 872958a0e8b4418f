(** Model of /repo/synccache/synccache.go and item.go used by one goroutine, for every key type, on top of
    RwMapAnyModel.v: the [==] of the keys need not be reflexive (NaN) and [==] keys need not be the same.

    - An entry [*Entry[V]] is a number; [c_ent] gives its value and its expiration in milliseconds.
    - The clock is arbitrary.  In one call it is read at most once for each entry (by NewEntry or by
      IsExpired) and once by trim: [now e] is the reading, in nanoseconds, made for entry e, and [now 0] the
      one of trim; entries have numbers from 1 on.
    - Numbers are unbounded (see C112).
    - deletedCallback and the f of Range do not use the cache and do not panic; [c_log] is what they were
      called with.  [reflect.Value.Equal] does not panic (see C176).
    - trim, which the background goroutine calls, is a call like the others.  The registry is not modelled
      here. *)
From Verif Require Import Base GoMap RwMapAnyModel.
Local Open Scope Z_scope.

Inductive c_event (K V : Type) := EDel (v : V) | EUse (k : K) (e : nat).
Arguments EDel {K V}. Arguments EUse {K V}.

(** SyncCache, lines 36-39, and the entries. *)
Record cache (K V : Type) := mk_cache {
  c_map : amap K nat; c_ent : nat -> V * Z; c_new : nat; c_log : list (c_event K V)
}.
Arguments mk_cache {K V}. Arguments c_map {K V}. Arguments c_ent {K V}. Arguments c_new {K V}. Arguments c_log {K V}.

(** time.UnixMilli: milliseconds, rounded down. *)
Definition milli (ns : Z) : Z := ns / 1000000.

Section model.
  Context {K V : Type} (eqb : K -> K -> bool) (upd : bool) (veq : V -> V -> bool) (has_cb : bool).
  Context (ord : nat -> list (K * nat) -> list (K * nat)).
  Notation C := (cache K V).

  (** A call of rwmap. *)
  Definition on_map {A} (m : M (amap K nat) A) : M C A := fun c =>
    match m (c_map c) with
    | Ok (a, s) => Ok (a, mk_cache s (c_ent c) (c_new c) (c_log c))
    | Panic => Panic
    | NoFuel => NoFuel
    end.
  Definition log (ev : c_event K V) : M C unit := fun c =>
    Ok (tt, mk_cache (c_map c) (c_ent c) (c_new c) (c_log c ++ [ev])).
  Definition ent (e : nat) : M C (V * Z) := fun c => Ok (c_ent c e, c).

  Section clock.
  Context (now : nat -> Z).

  (** NewEntry, item.go:13-18 *)
  Definition NewEntry (v : V) (d : Z) : M C nat := fun c =>
    let e := c_new c in Ok (e, mk_cache (c_map c) (<[e := (v, milli (now e + d))]> (c_ent c)) (S e) (c_log c)).
  (** IsExpired, item.go:24-26 *)
  Definition IsExpired (e : nat) : M C bool := x <- ent e ;; ret (snd x <? milli (now e)).

  (** Lines 110-112, 121-123, 126-128, 133-135 *)
  Definition deleted (e : nat) : M C unit :=
    if has_cb then x <- ent e ;; log (EDel (fst x)) else ret tt.

  (** CompareAndDelete, lines 132-137; on pointers reflect's Equal is equality. *)
  Definition c_CompareAndDelete (k : K) (e : nat) : M C bool :=
    b <- on_map (CompareAndDelete eqb Nat.eqb k e) ;;
    (if (b : bool) then deleted e else ret tt) ;;; ret b.

  (** rwmap's Range (rwmap.go:474-505) with the callbacks of the cache. *)
  Fixpoint loop (body : K -> nat -> M C bool) (es : list (K * nat)) : M C unit :=
    match es with
    | [] => ret tt
    | (k, a) :: es =>
        o <- on_map (e_load a) ;;
        match o with
        | None => loop body es
        | Some e => b <- body k e ;; if (b : bool) then loop body es else ret tt
        end
    end.
  Definition map_Range (body : K -> nat -> M C bool) : M C unit :=
    es <- on_map (s <- gets id ;; (if a_amended s then promote else ret tt) ;;; s1 <- gets id ;; iterate ord (a_read s1)) ;;
    loop body es.

  (** trim, lines 67-75 *)
  Definition c_trim : M C unit :=
    map_Range (fun k e =>
      x <- ent e ;;
      (if snd x <? milli (now 0%nat) then c_CompareAndDelete k e ;;; ret tt else ret tt) ;;; ret true).
  (** Store, lines 77-79 *)
  Definition c_Store (k : K) (v : V) (d : Z) : M C unit :=
    e <- NewEntry v d ;; on_map (Store eqb upd ord k e).
  (** Load, lines 81-91 *)
  Definition c_Load (k : K) : M C (option nat) :=
    o <- on_map (Load eqb k) ;;
    match o with
    | None => ret None
    | Some e =>
        x <- IsExpired e ;;
        if (x : bool) then c_CompareAndDelete k e ;;; ret None else ret (Some e)
    end.
  (** LoadOrStore, lines 93-107: at most [fuel] times around the loop. *)
  Fixpoint c_LoadOrStore (fuel : nat) (k : K) (v : V) (d : Z) : M C (nat * bool) :=
    match fuel with
    | O => nofuel
    | S fuel =>
        e0 <- NewEntry v d ;;
        r <- on_map (LoadOrStore eqb upd ord k e0) ;;
        let '(e, loaded) := r in
        if (loaded : bool) then
          x <- IsExpired e ;;
          if (x : bool) then
            b <- c_CompareAndDelete k e ;;
            if (b : bool) then c_LoadOrStore fuel k v d else ret (e, true)
          else ret (e, true)
        else ret (e, false)
    end.
  (** Delete, lines 109-113 *)
  Definition c_Delete (k : K) : M C unit :=
    o <- on_map (LoadAndDelete eqb k) ;;
    match o with Some e => deleted e | None => ret tt end.
  (** LoadAndDelete, lines 115-130 *)
  Definition c_LoadAndDelete (k : K) : M C (option nat) :=
    o <- on_map (LoadAndDelete eqb k) ;;
    match o with
    | None => ret None
    | Some e =>
        x <- IsExpired e ;;
        deleted e ;;; ret (if (x : bool) then None else Some e)
    end.
  (** CompareValueAndDelete, lines 139-144 *)
  Definition c_CompareValueAndDelete (k : K) (v : V) : M C bool :=
    o <- c_Load k ;;
    match o with
    | Some e => x <- ent e ;; if veq v (fst x) then c_CompareAndDelete k e else ret false
    | None => ret false
    end.
  (** Clear, lines 146-155 *)
  Definition c_Clear : M C unit :=
    if has_cb then map_Range (fun k e => c_CompareAndDelete k e ;;; ret true) else on_map Clear.
  (** Range, lines 157-165 *)
  Definition c_Range (f : K -> nat -> bool) : M C unit :=
    map_Range (fun k e =>
      x <- IsExpired e ;;
      if (x : bool) then c_CompareAndDelete k e ;;; ret true else log (EUse k e) ;;; ret (f k e)).
  End clock.

  (** SetExpiration to [t] nanoseconds and AddExpiration of [d] nanoseconds, item.go:28-34;
      Duration.Milliseconds rounds towards zero. *)
  Definition SetExpiration (e : nat) (t : Z) : M C unit := fun c =>
    Ok (tt, mk_cache (c_map c) (<[e := (fst (c_ent c e), milli t)]> (c_ent c)) (c_new c) (c_log c)).
  Definition AddExpiration (e : nat) (d : Z) : M C unit := fun c =>
    Ok (tt, mk_cache (c_map c) (<[e := (fst (c_ent c e), snd (c_ent c e) + Z.quot d 1000000)]> (c_ent c)) (c_new c) (c_log c)).

  (** A new cache, lines 49-56; [v0] is the value of entries that do not exist yet. *)
  Definition new_cache (v0 : V) : C := mk_cache zero_map (fun _ => (v0, 0)) 1 [].
End model.
