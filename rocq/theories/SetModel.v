(** Model of /repo/set/set.go: a Set is a Go map to the empty struct. *)
From Verif Require Import Base GoMap.

Section set.
  Context {T : Type} (eqb : T -> T -> bool) (upd : bool).
  Context (ord : nat -> list (T * unit) -> list (T * unit)).
  Notation MW := (M (world T unit)).

  (** set.go:12-14 *)
  Definition set_New : MW ref := go_make.
  (** set.go:17-19 *)
  Definition set_Len (s : ref) : MW nat := go_len s.
  (** set.go:21-23 *)
  Definition set_Slice (s : ref) : MW (list T) := maps_Keys ord s.
  (** set.go:26-28 *)
  Definition set_Clone (s : ref) : MW ref := maps_Clone s.
  (** set.go:30-35 *)
  Definition set_Push (s : ref) (val : list T) : MW ref :=
    for_each val (fun v => go_set eqb upd s v tt) ;;; ret s.
  (** set.go:50-53 *)
  Definition set_Contain (s : ref) (val : T) : MW bool :=
    o <- go_get eqb s val ;; ret (match o with Some _ => true | None => false end).
  (** set.go:40-46 *)
  Definition set_Insert (s : ref) (val : T) : MW bool :=
    c <- set_Contain s val ;;
    if c then ret false else
    go_set eqb upd s val tt ;;; ret true.
  (** set.go:58-64 *)
  Definition set_Remove (s : ref) (val : T) : MW bool :=
    c <- set_Contain s val ;;
    if c then go_delete eqb s val ;;; ret true else ret false.
  (** set.go:66-68 *)
  Definition set_IsEmpty (s : ref) : MW bool :=
    n <- set_Len s ;; ret (Nat.eqb n 0).
  (** set.go:70-73 *)
  Definition set_Clear (s : ref) : MW ref := maps_Clear s ;;; ret s.
  (** set.go:75-78 *)
  Definition set_CopyFrom (s set : ref) : MW ref := maps_Copy eqb upd ord s set ;;; ret s.
  (** set.go:81-83 *)
  Definition set_ContainAndRemove (s : ref) (val : T) : MW bool := set_Remove s val.
  (** set.go:85-91; [S] is the state of the variables the callback captures. *)
  Definition set_Range {S} (s : ref) (f : T -> S -> MW (bool * S)) (st : S) : MW S :=
    es <- go_range ord s ;;
    r <- for_while es (fun e => f (fst e)) st ;;
    ret (snd r).
  (** set.go:93-95; all empty structs are equal. *)
  Definition set_Equal (s set : ref) : MW bool :=
    maps_EqualFunc eqb ord s set (fun _ _ => true).
  (** set.go:98-111 *)
  Definition set_IsSubSet (s set : ref) : MW bool :=
    n1 <- set_Len s ;; n2 <- set_Len set ;;
    if Nat.ltb n2 n1 then ret false else
    set_Range s (fun val b =>
      c <- set_Contain set val ;;
      ret (if negb c then (false, false) else (true, b))) true.
  (** set.go:114-116 *)
  Definition set_IsSupperSet (s set : ref) : MW bool :=
    b <- set_IsSubSet set s ;; ret (negb b).
  (** set.go:119-128 *)
  Definition set_Difference (s set : ref) : MW ref :=
    diff <- set_New ;;
    set_Range s (fun val (_ : unit) =>
      c <- set_Contain set val ;;
      if negb c then set_Insert diff val ;;; ret (true, tt) else ret (true, tt)) tt ;;;
    ret diff.
  (** set.go:131-146 *)
  Definition set_SymmetricDifference (s set : ref) : MW ref :=
    diff <- set_New ;;
    set_Range s (fun val (_ : unit) =>
      c <- set_Contain set val ;;
      if negb c then set_Insert diff val ;;; ret (true, tt) else ret (true, tt)) tt ;;;
    set_Range set (fun val (_ : unit) =>
      c <- set_Contain s val ;;
      if negb c then set_Insert diff val ;;; ret (true, tt) else ret (true, tt)) tt ;;;
    ret diff.
  (** set.go:149-158 *)
  Definition set_Intersection (s set : ref) : MW ref :=
    intersection <- set_New ;;
    set_Range s (fun val (_ : unit) =>
      c <- set_Contain set val ;;
      if c then set_Insert intersection val ;;; ret (true, tt) else ret (true, tt)) tt ;;;
    ret intersection.
  (** set.go:161-174 *)
  Definition set_Union (s : ref) (sets : list ref) : MW ref :=
    union <- set_New ;;
    set_Range s (fun val (_ : unit) => set_Insert union val ;;; ret (true, tt)) tt ;;;
    for_each sets (fun v =>
      set_Range v (fun val (_ : unit) => set_Insert union val ;;; ret (true, tt)) tt ;;; ret tt) ;;;
    ret union.
End set.

(** A call of the API. *)
Inductive set_call (T : Type) :=
| SNew | SLen (s : ref) | SSlice (s : ref) | SClone (s : ref) | SPush (s : ref) (vs : list T)
| SInsert (s : ref) (v : T) | SContain (s : ref) (v : T) | SRemove (s : ref) (v : T)
| SIsEmpty (s : ref) | SClear (s : ref) | SCopyFrom (s set : ref) | SContainAndRemove (s : ref) (v : T)
| SRange (s : ref) (f : T -> bool) | SEqual (s set : ref) | SIsSubSet (s set : ref)
| SIsSupperSet (s set : ref) | SDifference (s set : ref) | SSymmetricDifference (s set : ref)
| SIntersection (s set : ref) | SUnion (s : ref) (sets : list ref).
Arguments SNew {T}. Arguments SLen {T}. Arguments SSlice {T}. Arguments SClone {T}.
Arguments SPush {T}. Arguments SInsert {T}. Arguments SContain {T}. Arguments SRemove {T}.
Arguments SIsEmpty {T}. Arguments SClear {T}. Arguments SCopyFrom {T}.
Arguments SContainAndRemove {T}. Arguments SRange {T}. Arguments SEqual {T}.
Arguments SIsSubSet {T}. Arguments SIsSupperSet {T}. Arguments SDifference {T}.
Arguments SSymmetricDifference {T}. Arguments SIntersection {T}. Arguments SUnion {T}.

Inductive set_res (T : Type) :=
| SRef (r : ref) | SInt (n : nat) | SBool (b : bool) | SList (l : list T) | SPanic | SNoFuel.
Arguments SRef {T}. Arguments SInt {T}. Arguments SBool {T}. Arguments SList {T}.
Arguments SPanic {T}. Arguments SNoFuel {T}.

Section run.
  Context {T : Type} (eqb : T -> T -> bool) (upd : bool).
  Context (ord : nat -> list (T * unit) -> list (T * unit)).
  Definition smap {A B} (f : A -> B) (m : M (world T unit) A) : M (world T unit) B :=
    x <- m ;; ret (f x).

  Definition set_exec (c : set_call T) : M (world T unit) (set_res T) :=
    match c with
    | SNew => smap SRef set_New
    | SLen s => smap SInt (set_Len s)
    | SSlice s => smap SList (set_Slice ord s)
    | SClone s => smap SRef (set_Clone s)
    | SPush s vs => smap SRef (set_Push eqb upd s vs)
    | SInsert s v => smap SBool (set_Insert eqb upd s v)
    | SContain s v => smap SBool (set_Contain eqb s v)
    | SRemove s v => smap SBool (set_Remove eqb s v)
    | SIsEmpty s => smap SBool (set_IsEmpty s)
    | SClear s => smap SRef (set_Clear s)
    | SCopyFrom s set => smap SRef (set_CopyFrom eqb upd ord s set)
    | SContainAndRemove s v => smap SBool (set_ContainAndRemove eqb s v)
    | SRange s f => smap SList (set_Range ord s (fun v seen => ret (f v, seen ++ [v])) [])
    | SEqual s set => smap SBool (set_Equal eqb ord s set)
    | SIsSubSet s set => smap SBool (set_IsSubSet eqb ord s set)
    | SIsSupperSet s set => smap SBool (set_IsSupperSet eqb ord s set)
    | SDifference s set => smap SRef (set_Difference eqb upd ord s set)
    | SSymmetricDifference s set => smap SRef (set_SymmetricDifference eqb upd ord s set)
    | SIntersection s set => smap SRef (set_Intersection eqb upd ord s set)
    | SUnion s sets => smap SRef (set_Union eqb upd ord s sets)
    end.

  (** As in genmap, the only panic is the first write to a nil map. *)
  Definition set_step (c : set_call T) (w : world T unit) : set_res T * world T unit :=
    match set_exec c w with
    | Ok (r, w') => (r, w')
    | Panic => (SPanic, w)
    | NoFuel => (SNoFuel, w)
    end.

  Definition set_refs (c : set_call T) : list ref :=
    match c with
    | SNew => []
    | SLen s | SSlice s | SClone s | SPush s _ | SInsert s _ | SContain s _ | SRemove s _
    | SIsEmpty s | SClear s | SContainAndRemove s _ | SRange s _ => [s]
    | SCopyFrom s t | SEqual s t | SIsSubSet s t | SIsSupperSet s t | SDifference s t
    | SSymmetricDifference s t | SIntersection s t => [s; t]
    | SUnion s sets => s :: sets
    end.

  (** Histories: the calls only use nil or sets that exist at that point. *)
  Inductive set_history (w : world T unit) : list (set_call T * set_res T) -> world T unit -> Prop :=
  | sh_nil : set_history w [] w
  | sh_cons c r w1 h w2 :
      (forall n, Some n ∈ set_refs c -> n < next w) ->
      set_step c w = (r, w1) -> set_history w1 h w2 -> set_history w ((c, r) :: h) w2.

  (** Running a list of calls, to exhibit concrete histories. *)
  Fixpoint set_run (cs : list (set_call T)) (w : world T unit) :
    option (list (set_call T * set_res T) * world T unit) :=
    match cs with
    | [] => Some ([], w)
    | c :: cs' =>
        if forallb (fun r => match r with Some n => Nat.ltb n (next w) | None => true end) (set_refs c)
        then let '(r, w1) := set_step c w in
             match set_run cs' w1 with Some (h, w2) => Some ((c, r) :: h, w2) | None => None end
        else None
    end.
End run.
