(** GenMap (/repo/genmap/genmap.go) with keys that need not be equal to themselves, and its Range with
    callbacks that change the map.

    GoMapIter.v tells the entries of a map apart by their keys. Entries with the key NaN cannot be told
    apart so. Here every entry has a number, and the loop of GoMapIter.v is used with these: the map has keys
    [nat * K], and [==] of its keys in that loop is that of the numbers. Lookups, assignments and deletes
    use the [==] of [K]. C216_agree shows that without the numbers the calls are those of GenMapModel.v.

    Simplification, as in GoMap.v: the loops in CopyTo, CopyFrom, Clone, DeleteFunc and EqualFunc go over the
    entries there are when they start (a map with NaN copied onto itself might go on further). *)
From Verif Require Import Base GoMap GenMapModel GoMapIter.

Section model.
  Context {K V : Type} (eqb : K -> K -> bool) (upd : bool).
  Notation IK := (nat * K)%type.
  Notation W := (world IK V).
  Context (ord : nat -> list (IK * V) -> list (IK * V)) (zero : V).

  (** [==] of the keys, and of the numbers. *)
  Definition eqk (p q : IK) : bool := eqb p.2 q.2.
  Definition idb (p q : IK) : bool := Nat.eqb p.1 q.1.
  (** A number no entry has. *)
  Definition new_id (l : list (IK * V)) : nat := S (foldr Nat.max 0 (map (fun e => e.1.1) l)).
  (** m[k] = v: an entry with a key == to k keeps its number. *)
  Fixpoint iset_at (l : list (IK * V)) (i : nat) (k : K) (v : V) : list (IK * V) :=
    match l with
    | [] => [((i, k), v)]
    | ((j, k'), v') :: l' =>
        if eqb k' k then ((j, if upd then k else k'), v) :: l' else ((j, k'), v') :: iset_at l' i k v
    end.
  Definition i_set (r : ref) (k : K) (v : V) : M W unit := fun w =>
    match r with
    | None => Panic
    | Some n =>
        let l := content w r in
        Ok (tt, World (<[n := iset_at l (new_id l) k v]> (tables w)) (next w) (its w))
    end.
  Definition i_get (r : ref) (k : K) : M W (option V) := go_get eqk r (0, k).
  Definition i_delete (r : ref) (k : K) : M W unit := go_delete eqk r (0, k).
  (** maps.Copy *)
  Definition i_copy (dst src : ref) : M W unit :=
    es <- go_range ord src ;; for_each es (fun e => i_set dst e.1.2 e.2).

  (** The calls of genmap.go, as in GenMapModel.v *)
  Definition i_exec (c : gm_call K V) : M W (gm_res K V) :=
    match c with
    | GNew => mmap GRef go_make                                                    (* 9-11 *)
    | GFrom m => ret (GRef m)                                                      (* 13-15 *)
    | GLen m => mmap GInt (go_len m)                                               (* 17-19 *)
    | GLoad m k => o <- i_get m k ;; let p := comma_ok zero o in ret (GVal p.1 p.2)  (* 21-24 *)
    | GStore m k v => i_set m k v ;;; ret (GRef m)                                 (* 26-29 *)
    | GDelete m k => i_delete m k ;;; ret (GRef m)                                 (* 31-34 *)
    | GClone m => n <- go_make ;; i_copy n m ;;; ret (GRef n)                      (* 37-39 *)
    | GMap m => ret (GRef m)                                                       (* 42-44 *)
    | GKeys m => es <- go_range ord m ;; ret (GKs (map (fun e => e.1.2) es))       (* 46-48 *)
    | GValues m => es <- go_range ord m ;; ret (GVs (map snd es))                  (* 50-52 *)
    | GRange m f =>                                                                (* 54-61 *)
        es <- go_range ord m ;;
        p <- for_while es (fun e seen => ret (f e.1.2 e.2, seen ++ [(e.1.2, e.2)])) [] ;;
        ret (GSeen p.2 p.1)
    | GLoadOrStore m k v =>                                                        (* 63-70 *)
        o <- i_get m k ;; let p := comma_ok zero o in
        if p.2 : bool then ret (GVal p.1 p.2) else i_set m k v ;;; ret (GVal p.1 p.2)
    | GLoadOrStoreFunc m k v =>                                                    (* 72-80 *)
        o <- i_get m k ;; let p := comma_ok zero o in
        if p.2 : bool then ret (GVal p.1 p.2) else i_set m k v ;;; ret (GVal v p.2)
    | GLoadAndDelete m k =>                                                        (* 82-88 *)
        o <- i_get m k ;; let p := comma_ok zero o in
        if p.2 : bool then i_delete m k ;;; ret (GVal p.1 p.2) else ret (GVal p.1 p.2)
    | GLoadAndStore m k v =>                                                       (* 90-94 *)
        o <- i_get m k ;; let p := comma_ok zero o in i_set m k v ;;; ret (GVal p.1 p.2)
    | GEqualFunc m m2 eq => mmap GBool (maps_EqualFunc eqk ord m m2 eq)            (* 96-98 *)
    | GClear m => go_clear m ;;; ret (GRef m)                                      (* 100-103 *)
    | GCopyTo m dst => i_copy dst m ;;; ret (GRef m)                               (* 105-113 *)
    | GCopyFrom m src => i_copy m src ;;; ret (GRef m)                             (* 115-123 *)
    | GDeleteFunc m f =>                                                           (* 125-127 *)
        es <- go_range ord m ;;
        for_each es (fun e => if f e.1.2 e.2 then i_delete m e.1.2 else ret tt) ;;; ret GUnit
    end.
  Definition i_step (c : gm_call K V) (w : W) : gm_res K V * W :=
    match i_exec c w with
    | Ok (r, w') => (r, w')
    | Panic => (GPanic, w)
    | NoFuel => (GNoFuel, w)
    end.

  (** A callback is given the key without the number. *)
  Fixpoint unnumbered {A} (p : prog (K := K) (V := V) (C := gm_call K V) (R := gm_res K V) A)
    : prog (K := IK) (V := V) (C := gm_call K V) (R := gm_res K V) A :=
    match p with
    | PRet a => PRet a
    | PDo c k => PDo c (fun r => unnumbered (k r))
    | PRange m f s k => PRange m (fun q v s => unnumbered (f q.2 v s)) s (fun r => unnumbered (k r))
    end.
  (** genmap.go:54-61 with a callback that makes calls of its own *)
  Definition i_range {S} (m : ref) (f : K -> V -> S -> prog (bool * S)) : W -> S -> list turn -> bool * S -> W -> Prop :=
    range idb i_step m (fun q v s => unnumbered (f q.2 v s)).
End model.
