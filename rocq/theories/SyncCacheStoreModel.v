(** Model of /repo/synccache/synccache.go used by one goroutine, with a deletedCallback that stores into the
    same cache; for every key type.

    As SyncCacheAnyModel.v, but the cache has a deletedCallback, and called with v it makes the calls
    Store(k, v', d) for the (k, v', d) of [stores v], one after the other.  (Store does not call
    deletedCallback.)  So an entry can be made and looked at in the same call: [now e] is the reading of the
    clock when entry e is made, [chk e] the one when it is looked at (IsExpired; at most once in one call), and
    [chk 0] the one of trim. *)
From Verif Require Import Base GoMap RwMapAnyModel SyncCacheAnyModel.
Local Open Scope Z_scope.

Section model.
  Context {K V : Type} (eqb : K -> K -> bool) (upd : bool) (veq : V -> V -> bool).
  Context (ord : nat -> list (K * nat) -> list (K * nat)).
  Context (stores : V -> list (K * V * Z)).
  Notation C := (cache K V).
  Context (now chk : nat -> Z).

  Fixpoint store_all (l : list (K * V * Z)) : M C unit :=
    match l with
    | [] => ret tt
    | (k, v, d) :: l => c_Store eqb upd ord now k v d ;;; store_all l
    end.
  (** Lines 110-112, 121-123, 126-128, 133-135 *)
  Definition deleted_s (e : nat) : M C unit :=
    x <- ent e ;; log (EDel (fst x)) ;;; store_all (stores (fst x)).
  (** CompareAndDelete, lines 132-137 *)
  Definition s_CompareAndDelete (k : K) (e : nat) : M C bool :=
    b <- on_map (CompareAndDelete eqb Nat.eqb k e) ;;
    (if (b : bool) then deleted_s e else ret tt) ;;; ret b.
  (** Load, lines 81-91 *)
  Definition s_Load (k : K) : M C (option nat) :=
    o <- on_map (Load eqb k) ;;
    match o with
    | None => ret None
    | Some e =>
        x <- IsExpired chk e ;;
        if (x : bool) then s_CompareAndDelete k e ;;; ret None else ret (Some e)
    end.
  (** LoadOrStore, lines 93-107: at most [fuel] times around the loop. *)
  Fixpoint s_LoadOrStore (fuel : nat) (k : K) (v : V) (d : Z) : M C (nat * bool) :=
    match fuel with
    | O => nofuel
    | S fuel =>
        e0 <- NewEntry now v d ;;
        r <- on_map (LoadOrStore eqb upd ord k e0) ;;
        let '(e, loaded) := r in
        if (loaded : bool) then
          x <- IsExpired chk e ;;
          if (x : bool) then
            b <- s_CompareAndDelete k e ;;
            if (b : bool) then s_LoadOrStore fuel k v d else ret (e, true)
          else ret (e, true)
        else ret (e, false)
    end.
  (** Delete, lines 109-113 *)
  Definition s_Delete (k : K) : M C unit :=
    o <- on_map (LoadAndDelete eqb k) ;;
    match o with Some e => deleted_s e | None => ret tt end.
  (** LoadAndDelete, lines 115-130 *)
  Definition s_LoadAndDelete (k : K) : M C (option nat) :=
    o <- on_map (LoadAndDelete eqb k) ;;
    match o with
    | None => ret None
    | Some e =>
        x <- IsExpired chk e ;;
        deleted_s e ;;; ret (if (x : bool) then None else Some e)
    end.
  (** CompareValueAndDelete, lines 139-144 *)
  Definition s_CompareValueAndDelete (k : K) (v : V) : M C bool :=
    o <- s_Load k ;;
    match o with
    | Some e => x <- ent e ;; if veq v (fst x) then s_CompareAndDelete k e else ret false
    | None => ret false
    end.
  (** trim, lines 67-75 *)
  Definition s_trim : M C unit :=
    map_Range ord (fun k e =>
      x <- ent e ;;
      (if snd x <? milli (chk 0%nat) then s_CompareAndDelete k e ;;; ret tt else ret tt) ;;; ret true).
  (** Clear, lines 146-155 *)
  Definition s_Clear : M C unit :=
    map_Range ord (fun k e => s_CompareAndDelete k e ;;; ret true).
  (** Range, lines 157-165 *)
  Definition s_Range (f : K -> nat -> bool) : M C unit :=
    map_Range ord (fun k e =>
      x <- IsExpired chk e ;;
      if (x : bool) then s_CompareAndDelete k e ;;; ret true else log (EUse k e) ;;; ret (f k e)).
End model.
