(** Model of /repo/genmap/genmap.go. *)
From Verif Require Import Base GoMap.

Section genmap.
  Context {K V : Type} (eqb : K -> K -> bool) (upd : bool).
  Context (ord : nat -> list (K * V) -> list (K * V)).
  (** The zero value of V. *)
  Context (zero : V).
  Notation MW := (M (world K V)).

  (** genmap.go:9-11 *)
  Definition gm_New : MW ref := go_make.
  (** genmap.go:13-15: a conversion, the same reference. *)
  Definition gm_From (m : ref) : MW ref := ret m.
  (** genmap.go:17-19 *)
  Definition gm_Len (m : ref) : MW nat := go_len m.

  (** v, ok := m[k]: the zero value when absent. *)
  Definition comma_ok (o : option V) : V * bool :=
    match o with Some v => (v, true) | None => (zero, false) end.

  (** genmap.go:21-24 *)
  Definition gm_Load (m : ref) (k : K) : MW (V * bool) :=
    o <- go_get eqb m k ;; ret (comma_ok o).
  (** genmap.go:26-29 *)
  Definition gm_Store (m : ref) (k : K) (v : V) : MW ref :=
    go_set eqb upd m k v ;;; ret m.
  (** genmap.go:31-34 *)
  Definition gm_Delete (m : ref) (k : K) : MW ref :=
    go_delete eqb m k ;;; ret m.
  (** genmap.go:115-118 *)
  Definition gm_CopyFrom (m src : ref) : MW ref :=
    maps_Copy eqb upd ord m src ;;; ret m.
  (** genmap.go:120-123 *)
  Definition gm_CopyFromRaw (m src : ref) : MW ref :=
    maps_Copy eqb upd ord m src ;;; ret m.
  (** genmap.go:37-39 *)
  Definition gm_Clone (m : ref) : MW ref :=
    n <- gm_New ;; gm_CopyFrom n m.
  (** genmap.go:42-44 *)
  Definition gm_Map (m : ref) : MW ref := ret m.
  (** genmap.go:46-48 *)
  Definition gm_Keys (m : ref) : MW (list K) := maps_Keys ord m.
  (** genmap.go:50-52 *)
  Definition gm_Values (m : ref) : MW (list V) := maps_Values ord m.
  (** genmap.go:54-61; [S] is the state of the variables the callback captures, and the
      callback may itself use maps. *)
  Definition gm_Range {S} (m : ref) (f : K -> V -> S -> MW (bool * S)) (s : S) : MW (bool * S) :=
    es <- go_range ord m ;;
    for_while es (fun e => f (fst e) (snd e)) s.
  (** genmap.go:63-70: [actual] keeps the zero value on a miss. *)
  Definition gm_LoadOrStore (m : ref) (k : K) (v : V) : MW (V * bool) :=
    o <- go_get eqb m k ;;
    let '(actual, loaded) := comma_ok o in
    if loaded then ret (actual, loaded) else
    go_set eqb upd m k v ;;; ret (actual, loaded).
  (** genmap.go:72-80 *)
  Definition gm_LoadOrStoreFunc (m : ref) (k : K) (newFunc : MW V) : MW (V * bool) :=
    o <- go_get eqb m k ;;
    let '(actual, loaded) := comma_ok o in
    if loaded then ret (actual, loaded) else
    actual <- newFunc ;;
    go_set eqb upd m k actual ;;; ret (actual, loaded).
  (** genmap.go:82-88 *)
  Definition gm_LoadAndDelete (m : ref) (k : K) : MW (V * bool) :=
    o <- go_get eqb m k ;;
    let '(v, loaded) := comma_ok o in
    if loaded then go_delete eqb m k ;;; ret (v, loaded) else ret (v, loaded).
  (** genmap.go:90-94 *)
  Definition gm_LoadAndStore (m : ref) (k : K) (v : V) : MW (V * bool) :=
    o <- go_get eqb m k ;;
    go_set eqb upd m k v ;;; ret (comma_ok o).
  (** genmap.go:96-98 *)
  Definition gm_EqualFunc (m m2 : ref) (eq : V -> V -> bool) : MW bool :=
    maps_EqualFunc eqb ord m m2 eq.
  (** genmap.go:100-103 *)
  Definition gm_Clear (m : ref) : MW ref := maps_Clear m ;;; ret m.
  (** genmap.go:105-108 *)
  Definition gm_CopyTo (m dst : ref) : MW ref :=
    maps_Copy eqb upd ord dst m ;;; ret m.
  (** genmap.go:110-113 *)
  Definition gm_CopyToRaw (m dst : ref) : MW ref :=
    maps_Copy eqb upd ord dst m ;;; ret m.
  (** genmap.go:125-127 *)
  Definition gm_DeleteFunc (m : ref) (f : K -> V -> bool) : MW unit :=
    maps_DeleteFunc eqb ord m f.
End genmap.

(** A call of the API with its arguments (callbacks are pure functions here). *)
Inductive gm_call (K V : Type) :=
| GNew | GFrom (m : ref) | GLen (m : ref) | GLoad (m : ref) (k : K) | GStore (m : ref) (k : K) (v : V)
| GDelete (m : ref) (k : K) | GClone (m : ref) | GMap (m : ref) | GKeys (m : ref) | GValues (m : ref)
| GRange (m : ref) (f : K -> V -> bool) | GLoadOrStore (m : ref) (k : K) (v : V)
| GLoadOrStoreFunc (m : ref) (k : K) (v : V) | GLoadAndDelete (m : ref) (k : K)
| GLoadAndStore (m : ref) (k : K) (v : V) | GEqualFunc (m m2 : ref) (eq : V -> V -> bool)
| GClear (m : ref) | GCopyTo (m dst : ref) | GCopyFrom (m src : ref)
| GDeleteFunc (m : ref) (f : K -> V -> bool).
Arguments GNew {K V}. Arguments GFrom {K V}. Arguments GLen {K V}. Arguments GLoad {K V}.
Arguments GStore {K V}. Arguments GDelete {K V}. Arguments GClone {K V}. Arguments GMap {K V}.
Arguments GKeys {K V}. Arguments GValues {K V}. Arguments GRange {K V}.
Arguments GLoadOrStore {K V}. Arguments GLoadOrStoreFunc {K V}. Arguments GLoadAndDelete {K V}.
Arguments GLoadAndStore {K V}. Arguments GEqualFunc {K V}. Arguments GClear {K V}.
Arguments GCopyTo {K V}. Arguments GCopyFrom {K V}. Arguments GDeleteFunc {K V}.

(** What a call returns; [GPanic] if it panics. *)
Inductive gm_res (K V : Type) :=
| GRef (r : ref) | GInt (n : nat) | GVal (v : V) (ok : bool) | GBool (b : bool)
| GKs (l : list K) | GVs (l : list V) | GSeen (l : list (K * V)) (all : bool) | GUnit | GPanic | GNoFuel.
Arguments GRef {K V}. Arguments GInt {K V}. Arguments GVal {K V}. Arguments GBool {K V}.
Arguments GKs {K V}. Arguments GVs {K V}. Arguments GSeen {K V}. Arguments GUnit {K V}.
Arguments GPanic {K V}. Arguments GNoFuel {K V}.

Definition mmap {S A B} (f : A -> B) (m : M S A) : M S B := x <- m ;; ret (f x).

Section run.
  Context {K V : Type} (eqb : K -> K -> bool) (upd : bool).
  Context (ord : nat -> list (K * V) -> list (K * V)) (zero : V).

  Definition gm_exec (c : gm_call K V) : M (world K V) (gm_res K V) :=
    match c with
    | GNew => mmap GRef gm_New
    | GFrom m => mmap GRef (gm_From m)
    | GLen m => mmap GInt (gm_Len m)
    | GLoad m k => mmap (fun p => GVal p.1 p.2) (gm_Load eqb zero m k)
    | GStore m k v => mmap GRef (gm_Store eqb upd m k v)
    | GDelete m k => mmap GRef (gm_Delete eqb m k)
    | GClone m => mmap GRef (gm_Clone eqb upd ord m)
    | GMap m => mmap GRef (gm_Map m)
    | GKeys m => mmap GKs (gm_Keys ord m)
    | GValues m => mmap GVs (gm_Values ord m)
    | GRange m f =>
        mmap (fun p => GSeen p.2 p.1)
          (gm_Range ord m (fun k v seen => ret (f k v, seen ++ [(k, v)])) [])
    | GLoadOrStore m k v => mmap (fun p => GVal p.1 p.2) (gm_LoadOrStore eqb upd zero m k v)
    | GLoadOrStoreFunc m k v =>
        mmap (fun p => GVal p.1 p.2) (gm_LoadOrStoreFunc eqb upd zero m k (ret v))
    | GLoadAndDelete m k => mmap (fun p => GVal p.1 p.2) (gm_LoadAndDelete eqb zero m k)
    | GLoadAndStore m k v => mmap (fun p => GVal p.1 p.2) (gm_LoadAndStore eqb upd zero m k v)
    | GEqualFunc m m2 eq => mmap GBool (gm_EqualFunc eqb ord m m2 eq)
    | GClear m => mmap GRef (gm_Clear m)
    | GCopyTo m dst => mmap GRef (gm_CopyTo eqb upd ord m dst)
    | GCopyFrom m src => mmap GRef (gm_CopyFrom eqb upd ord m src)
    | GDeleteFunc m f => mmap (fun _ => GUnit) (gm_DeleteFunc eqb ord m f)
    end.

  (** A panicking call (recovered by the caller) leaves the maps as they were: the only
      panic here is the first write to a nil map. *)
  Definition gm_step (c : gm_call K V) (w : world K V) : gm_res K V * world K V :=
    match gm_exec c w with
    | Ok (r, w') => (r, w')
    | Panic => (GPanic, w)
    | NoFuel => (GNoFuel, w)
    end.

  (** The map values a call mentions. *)
  Definition gm_refs (c : gm_call K V) : list ref :=
    match c with
    | GNew => []
    | GFrom m | GLen m | GLoad m _ | GStore m _ _ | GDelete m _ | GClone m | GMap m | GKeys m
    | GValues m | GRange m _ | GLoadOrStore m _ _ | GLoadOrStoreFunc m _ _ | GLoadAndDelete m _
    | GLoadAndStore m _ _ | GClear m | GDeleteFunc m _ => [m]
    | GEqualFunc m m2 _ | GCopyTo m m2 | GCopyFrom m m2 => [m; m2]
    end.

  (** Histories: the calls only use nil or maps that exist at that point. *)
  Inductive gm_history (w : world K V) : list (gm_call K V * gm_res K V) -> world K V -> Prop :=
  | gh_nil : gm_history w [] w
  | gh_cons c r w1 h w2 :
      (forall n, Some n ∈ gm_refs c -> n < next w) ->
      gm_step c w = (r, w1) -> gm_history w1 h w2 -> gm_history w ((c, r) :: h) w2.
End run.
Definition w_empty {K V} : world K V := World ∅ 0 0.
