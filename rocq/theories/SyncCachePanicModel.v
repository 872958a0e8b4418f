(** Model of /repo/synccache/synccache.go used by one goroutine, with a deletedCallback that panics on some
    values, the panic being recovered by the caller; for every key type.

    As SyncCacheAnyModel.v, but the cache has a deletedCallback, and called with v it panics if [panics v].
    Nothing is deferred in synccache.go or rwmap.go, so the panic ends the call where it is: a call gives
    [None] then, and the cache it leaves.  (trim is called by the background goroutine, where nothing
    recovers a panic; here it is a call like the others.) *)
From Verif Require Import Base GoMap RwMapAnyModel SyncCacheAnyModel.
Local Open Scope Z_scope.

Section model.
  Context {K V : Type} (eqb : K -> K -> bool) (upd : bool) (veq : V -> V -> bool).
  Context (ord : nat -> list (K * nat) -> list (K * nat)).
  Context (panics : V -> bool).
  Notation C := (cache K V).
  Context (now : nat -> Z).

  (** Code that may panic, followed by other such code. *)
  Definition andthen {A B} (m : M C (option A)) (f : A -> M C (option B)) : M C (option B) :=
    o <- m ;; match o with Some a => f a | None => ret None end.

  (** Lines 110-112, 121-123, 126-128, 133-135 *)
  Definition deleted_p (e : nat) : M C (option unit) :=
    x <- ent e ;; log (EDel (fst x)) ;;; ret (if panics (fst x) then None else Some tt).
  (** CompareAndDelete, lines 132-137 *)
  Definition p_CompareAndDelete (k : K) (e : nat) : M C (option bool) :=
    b <- on_map (CompareAndDelete eqb Nat.eqb k e) ;;
    if (b : bool) then andthen (deleted_p e) (fun _ => ret (Some true)) else ret (Some false).
  (** Load, lines 81-91 *)
  Definition p_Load (k : K) : M C (option (option nat)) :=
    o <- on_map (Load eqb k) ;;
    match o with
    | None => ret (Some None)
    | Some e =>
        x <- IsExpired now e ;;
        if (x : bool) then andthen (p_CompareAndDelete k e) (fun _ => ret (Some None)) else ret (Some (Some e))
    end.
  (** LoadOrStore, lines 93-107: at most [fuel] times around the loop. *)
  Fixpoint p_LoadOrStore (fuel : nat) (k : K) (v : V) (d : Z) : M C (option (nat * bool)) :=
    match fuel with
    | O => nofuel
    | S fuel =>
        e0 <- NewEntry now v d ;;
        r <- on_map (LoadOrStore eqb upd ord k e0) ;;
        let '(e, loaded) := r in
        if (loaded : bool) then
          x <- IsExpired now e ;;
          if (x : bool) then
            andthen (p_CompareAndDelete k e) (fun b =>
            if (b : bool) then p_LoadOrStore fuel k v d else ret (Some (e, true)))
          else ret (Some (e, true))
        else ret (Some (e, false))
    end.
  (** Delete, lines 109-113 *)
  Definition p_Delete (k : K) : M C (option unit) :=
    o <- on_map (LoadAndDelete eqb k) ;;
    match o with Some e => deleted_p e | None => ret (Some tt) end.
  (** LoadAndDelete, lines 115-130 *)
  Definition p_LoadAndDelete (k : K) : M C (option (option nat)) :=
    o <- on_map (LoadAndDelete eqb k) ;;
    match o with
    | None => ret (Some None)
    | Some e =>
        x <- IsExpired now e ;;
        andthen (deleted_p e) (fun _ => ret (Some (if (x : bool) then None else Some e)))
    end.
  (** CompareValueAndDelete, lines 139-144 *)
  Definition p_CompareValueAndDelete (k : K) (v : V) : M C (option bool) :=
    andthen (p_Load k) (fun o =>
    match o with
    | Some e => x <- ent e ;; if veq v (fst x) then p_CompareAndDelete k e else ret (Some false)
    | None => ret (Some false)
    end).

  (** rwmap's Range (rwmap.go:474-505). *)
  Fixpoint loop_p (body : K -> nat -> M C (option bool)) (es : list (K * nat)) : M C (option unit) :=
    match es with
    | [] => ret (Some tt)
    | (k, a) :: es =>
        o <- on_map (e_load a) ;;
        match o with
        | None => loop_p body es
        | Some e => andthen (body k e) (fun b => if (b : bool) then loop_p body es else ret (Some tt))
        end
    end.
  Definition map_Range_p (body : K -> nat -> M C (option bool)) : M C (option unit) :=
    es <- on_map (s <- gets id ;; (if a_amended s then promote else ret tt) ;;; s1 <- gets id ;; iterate ord (a_read s1)) ;;
    loop_p body es.
  (** trim, lines 67-75 *)
  Definition p_trim : M C (option unit) :=
    map_Range_p (fun k e =>
      x <- ent e ;;
      if snd x <? milli (now 0%nat) then andthen (p_CompareAndDelete k e) (fun _ => ret (Some true)) else ret (Some true)).
  (** Clear, lines 146-155 *)
  Definition p_Clear : M C (option unit) :=
    map_Range_p (fun k e => andthen (p_CompareAndDelete k e) (fun _ => ret (Some true))).
  (** Range, lines 157-165; its callback may panic too ([None]). *)
  Definition p_Range (f : K -> nat -> option bool) : M C (option unit) :=
    map_Range_p (fun k e =>
      x <- IsExpired now e ;;
      if (x : bool) then andthen (p_CompareAndDelete k e) (fun _ => ret (Some true)) else log (EUse k e) ;;; ret (f k e)).
End model.
