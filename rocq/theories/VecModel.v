(** Model of /repo/vec/vec.go and of the functions of golang.org/x/exp/slices it calls.

    - Slices are windows on arrays, so that aliasing is visible: an array is a list, a slice header
      is (array, offset, length, capacity), nil has no array.
    - [append] works in place when the capacity allows; otherwise it makes a new array whose
      capacity is at least what is needed and otherwise arbitrary ([growth]).
    - The functions of slices (go.mod: x/exp of 2024-10-04, which forwards to the standard package)
      are modelled by their documentation; when the result fits into the capacity, Insert, Replace
      and Delete work in place; Replace, Delete and Compact zero the elements that fall off the end.
    - Sorting is an arbitrary function [srt] (unstable) or [srt_stable]; what is assumed of them is
      said in the theorems.
    - [auto_less] and [auto_equal] stand for lines 37-98: the comparator that reflection picks for T,
      or None if picking it or calling it panics (unsupported kinds; pointers to numbers).  VecAuto.v
      models those lines kind by kind and says which it is.  That the picked
      comparator is stored in the struct cannot be observed and is left out.
    - Variadic arguments are lists of values. *)
From Verif Require Import Base.
Local Open Scope Z_scope.

Record slice := mk_slice { s_arr : option nat; s_off : nat; s_len : nat; s_cap : nat }.
Definition nil_slice : slice := mk_slice None 0 0 0.

(** A comparator field: a user's function, or the method value u.CmpLess / u.CmpEqual of vector u. *)
Inductive cmpfn (T : Type) := CUser (f : T -> T -> bool) | CMethod (u : nat).
Arguments CUser {T}. Arguments CMethod {T}.

(** Vec, lines 10-13; None is a nil function. *)
Record vec (T : Type) := mk_vec { v_d : slice; v_less : option (cmpfn T); v_equal : option (cmpfn T) }.
Arguments mk_vec {T}. Arguments v_d {T}. Arguments v_less {T}. Arguments v_equal {T}.

(** Arrays, how many; vectors, how many. *)
Record vworld (T : Type) := mk_vworld { w_arr : nat -> list T; w_an : nat; w_vec : nat -> vec T; w_vn : nat }.
Arguments mk_vworld {T}. Arguments w_arr {T}. Arguments w_an {T}. Arguments w_vec {T}. Arguments w_vn {T}.

Section model.
  Context {T : Type} (zero : T) (growth : nat -> nat -> nat -> nat).
  Context (auto_less auto_equal : option (T -> T -> bool)).
  Context (srt srt_stable : (T -> T -> Z) -> list T -> list T).
  Notation W := (vworld T).

  (** * Go slices *)
  Definition contents (w : W) (s : slice) : list T :=
    match s_arr s with None => [] | Some a => take (s_len s) (drop (s_off s) (w_arr w a)) end.
  Definition read (s : slice) : M W (list T) := fun w => Ok (contents w s, w).
  (** s[i:j] *)
  Definition reslice (s : slice) (i j : Z) : M W slice := fun w =>
    if (0 <=? i) && (i <=? j) && (j <=? Z.of_nat (s_cap s))
    then Ok (mk_slice (s_arr s) (s_off s + Z.to_nat i) (Z.to_nat (j - i)) (s_cap s - Z.to_nat i), w)
    else Panic.
  (** s[i:] *)
  Definition reslice_from (s : slice) (i : Z) : M W slice := reslice s i (Z.of_nat (s_len s)).
  Definition splice (k : nat) (vs l : list T) : list T := take k l ++ vs ++ drop (k + length vs) l.
  (** Overwrite the elements from index [i] of [s] with [vs]. *)
  Definition write_at (s : slice) (i : nat) (vs : list T) : M W unit := fun w =>
    match s_arr s with
    | None => match vs with [] => Ok (tt, w) | _ => Panic end
    | Some a => Ok (tt, mk_vworld (<[a := splice (s_off s + i) vs (w_arr w a)]> (w_arr w)) (w_an w) (w_vec w) (w_vn w))
    end.
  (** A new array with contents [l]; the slice shows the first [n] elements. *)
  Definition alloc (l : list T) (n : nat) : M W slice := fun w =>
    let a := w_an w in
    Ok (mk_slice (Some a) 0 n (length l), mk_vworld (<[a := l]> (w_arr w)) (S a) (w_vec w) (w_vn w)).
  (** append(s, vs...) *)
  Definition go_append (s : slice) (vs : list T) : M W slice := fun w =>
    let need := (s_len s + length vs)%nat in
    if (need <=? s_cap s)%nat then
      (write_at s (s_len s) vs ;;; ret (mk_slice (s_arr s) (s_off s) need (s_cap s))) w
    else
      let c := Nat.max need (growth (w_an w) (s_cap s) need) in
      alloc (contents w s ++ vs ++ replicate (c - need)%nat zero) need w.
  (** s[i] *)
  Definition idx (s : slice) (i : Z) : M W T := fun w =>
    match getZ (contents w s) i with Some x => Ok (x, w) | None => Panic end.
  (** s[i] = x *)
  Definition set_idx (s : slice) (i : Z) (x : T) : M W unit := fun w =>
    if (0 <=? i) && (i <? Z.of_nat (s_len s)) then write_at s (Z.to_nat i) [x] w else Panic.
  (** copy(dst, src) *)
  Definition go_copy (dst src : slice) : M W unit :=
    l <- read src ;; write_at dst 0 (take (s_len dst) l).

  (** * golang.org/x/exp/slices *)
  Definition s_Grow (s : slice) (n : Z) : M W slice :=
    if n <? 0 then panic
    else
      let n' := (Z.to_nat n - (s_cap s - s_len s))%nat in
      if (0 <? n')%nat then
        full <- reslice s 0 (Z.of_nat (s_cap s)) ;;
        g <- go_append full (replicate n' zero) ;;
        reslice g 0 (Z.of_nat (s_len s))
      else ret s.
  Definition s_Clip (s : slice) : slice := mk_slice (s_arr s) (s_off s) (s_len s) (s_len s).
  Definition s_Clone (s : slice) : M W slice := fun w =>
    match s_arr s with
    | None => Ok (nil_slice, w)
    | Some _ =>
        let n := s_len s in
        let c := Nat.max n (growth (w_an w) 0 n) in
        alloc (contents w s ++ replicate (c - n)%nat zero) n w
    end.
  (** Replace(s, i, j, vs...); Insert and Delete are its special cases. *)
  Definition s_Replace (s : slice) (i j : Z) (vs : list T) : M W slice := fun w =>
    if (0 <=? i) && (i <=? j) && (j <=? Z.of_nat (s_len s)) then
      let l := contents w s in
      let l' := take (Z.to_nat i) l ++ vs ++ drop (Z.to_nat j) l in
      if (length l' <=? s_cap s)%nat then
        (write_at s 0 (l' ++ replicate (s_len s - length l')%nat zero) ;;;
         ret (mk_slice (s_arr s) (s_off s) (length l') (s_cap s))) w
      else
        let c := Nat.max (length l') (growth (w_an w) (s_cap s) (length l')) in
        alloc (l' ++ replicate (c - length l')%nat zero) (length l') w
    else Panic.
  Definition s_Insert (s : slice) (i : Z) (vs : list T) : M W slice := s_Replace s i i vs.
  Definition s_Delete (s : slice) (i j : Z) : M W slice := s_Replace s i j [].

  (** Comparators that may panic. *)
  Definition rcmp := T -> T -> res bool.
  (** CompactFunc: keep s[k] unless eq(s[k], s[k-1]). *)
  Fixpoint compact (eq : rcmp) (prev : T) (l : list T) : res (list T) :=
    match l with
    | [] => Ok []
    | x :: l => b <-! eq x prev ;; r <-! compact eq x l ;; Ok (if b then r else x :: r)
    end.
  Definition s_Compact (s : slice) (eq : rcmp) : M W slice := fun w =>
    match contents w s with
    | [] => Ok (s, w)
    | x :: l =>
        match compact eq x l with
        | Ok r => (write_at s 0 ((x :: r) ++ replicate (s_len s - S (length r))%nat zero) ;;; ret (mk_slice (s_arr s) (s_off s) (S (length r)) (s_cap s))) w
        | Panic => Panic
        | NoFuel => NoFuel
        end
    end.
  Definition s_Reverse (s : slice) : M W unit := l <- read s ;; write_at s 0 (rev l).
  Fixpoint indexFunc (f : T -> res bool) (i : Z) (l : list T) : res Z :=
    match l with [] => Ok (-1) | x :: l => b <-! f x ;; if b then Ok i else indexFunc f (i + 1) l end.
  Definition containsFunc (f : T -> res bool) (l : list T) : res bool := i <-! indexFunc f 0 l ;; Ok (0 <=? i).
  Fixpoint equalFunc (eq : rcmp) (l1 l2 : list T) : res bool :=
    match l1, l2 with
    | [], [] => Ok true
    | x :: l1, y :: l2 => b <-! eq x y ;; if b then equalFunc eq l1 l2 else Ok false
    | _, _ => Ok false
    end.
  (** EqualFunc compares the lengths first. *)
  Definition s_EqualFunc (eq : rcmp) (l1 l2 : list T) : res bool :=
    if Nat.eqb (length l1) (length l2) then equalFunc eq l1 l2 else Ok false.
  Fixpoint compareFunc (cmp : T -> T -> res Z) (l1 l2 : list T) : res Z :=
    match l1, l2 with
    | [], [] => Ok 0
    | [], _ :: _ => Ok (-1)
    | _ :: _, [] => Ok 1
    | x :: l1, y :: l2 => c <-! cmp x y ;; if c =? 0 then compareFunc cmp l1 l2 else Ok c
    end.
  Fixpoint maxFunc (cmp : T -> T -> res Z) (m : T) (l : list T) : res T :=
    match l with [] => Ok m | x :: l => c <-! cmp x m ;; maxFunc cmp (if c >? 0 then x else m) l end.
  Fixpoint minFunc (cmp : T -> T -> res Z) (m : T) (l : list T) : res T :=
    match l with [] => Ok m | x :: l => c <-! cmp x m ;; minFunc cmp (if c <? 0 then x else m) l end.
  (** IsSortedFunc goes from the end; [l] is the reversed contents. *)
  Fixpoint isSortedRev (cmp : T -> T -> res Z) (l : list T) : res bool :=
    match l with
    | x :: (y :: _) as l1 => c <-! cmp x y ;; if c <? 0 then Ok false else isSortedRev cmp l1
    | _ => Ok true
    end.
  Fixpoint binarySearch (fuel : nat) (cmp : T -> res Z) (l : list T) (i j : nat) : res nat :=
    if (i <? j)%nat then
      match fuel with
      | O => NoFuel
      | S fuel =>
          let h := Nat.div2 (i + j) in
          match l !! h with
          | None => Panic
          | Some x => c <-! cmp x ;; if c <? 0 then binarySearch fuel cmp l (S h) j else binarySearch fuel cmp l i h
          end
      end
    else Ok i.
  Definition s_BinarySearchFunc (l : list T) (cmp : T -> res Z) : res (Z * bool) :=
    i <-! binarySearch (S (length l)) cmp l 0 (length l) ;;
    match l !! i with
    | None => Ok (Z.of_nat i, false)
    | Some x => c <-! cmp x ;; Ok (Z.of_nat i, c =? 0)
    end.

  (** * Vec *)
  Definition get_d (v : nat) : M W slice := fun w => Ok (v_d (w_vec w v), w).
  Definition set_d (v : nat) (s : slice) : M W unit := fun w =>
    let r := w_vec w v in
    Ok (tt, mk_vworld (w_arr w) (w_an w) (<[v := mk_vec s (v_less r) (v_equal r)]> (w_vec w)) (w_vn w)).
  Definition lift {A} (r : res A) : M W A := fun w =>
    match r with Ok a => Ok (a, w) | Panic => Panic | NoFuel => NoFuel end.
  Definition with_res {A} (f : W -> res A) : M W A := fun w => lift (f w) w.

  (** The function that CmpLess (lines 297-299) or CmpEqual (305-307) ends up calling; [fuel] bounds the
      chain of method values. *)
  Fixpoint cmp_less (fuel : nat) (w : W) (v : nat) : option (T -> T -> bool) :=
    match fuel with
    | O => None
    | S fuel =>
        match v_less (w_vec w v) with
        | None => auto_less
        | Some (CUser f) => Some f
        | Some (CMethod u) => cmp_less fuel w u
        end
    end.
  Fixpoint cmp_equal (fuel : nat) (w : W) (v : nat) : option (T -> T -> bool) :=
    match fuel with
    | O => None
    | S fuel =>
        match v_equal (w_vec w v) with
        | None => auto_equal
        | Some (CUser f) => Some f
        | Some (CMethod u) => cmp_equal fuel w u
        end
    end.
  Definition call_cmp (f : option (T -> T -> bool)) : rcmp :=
    fun a b => match f with Some f => Ok (f a b) | None => Panic end.
  (** A method value refers to an older vector, so S v steps are enough. *)
  (** CmpLess, lines 297-299 *)
  Definition CmpLess (w : W) (v : nat) : rcmp := call_cmp (cmp_less (S v) w v).
  (** CmpEqual, lines 305-307 *)
  Definition CmpEqual (w : W) (v : nat) : rcmp := call_cmp (cmp_equal (S v) w v).
  Definition pure_cmp (f : T -> T -> bool) : rcmp := fun a b => Ok (f a b).
  (** The function literal of BinarySearch, CompareFunc, IsSortedFunc, MaxFunc, MinFunc, SortFunc. *)
  Definition three_way (less equal : rcmp) : T -> T -> res Z := fun a b =>
    l <-! less a b ;; if l then Ok (-1) else e <-! equal a b ;; Ok (if e then 0 else 1).

  (** with optional WithCmpLess (lines 17-21) and WithCmpEqual (23-27) *)
  (** New, lines 29-35 *)
  Definition New (less equal : option (cmpfn T)) : M W nat := fun w =>
    let v := w_vn w in
    Ok (v, mk_vworld (w_arr w) (w_an w) (<[v := mk_vec nil_slice less equal]> (w_vec w)) (S v)).
  (** SetCmpLess, lines 100-103 *)
  Definition SetCmpLess (v : nat) (f : option (T -> T -> bool)) : M W unit := fun w =>
    let r := w_vec w v in
    Ok (tt, mk_vworld (w_arr w) (w_an w) (<[v := mk_vec (v_d r) (CUser <$> f) (v_equal r)]> (w_vec w)) (w_vn w)).
  (** SetCmpEqual, lines 105-108 *)
  Definition SetCmpEqual (v : nat) (f : option (T -> T -> bool)) : M W unit := fun w =>
    let r := w_vec w v in
    Ok (tt, mk_vworld (w_arr w) (w_an w) (<[v := mk_vec (v_d r) (v_less r) (CUser <$> f)]> (w_vec w)) (w_vn w)).
  (** Len, lines 110-112 *)
  Definition Len (v : nat) : M W Z := d <- get_d v ;; ret (Z.of_nat (s_len d)).
  (** Cap, lines 158-160 *)
  Definition Cap (v : nat) : M W Z := d <- get_d v ;; ret (Z.of_nat (s_cap d)).
  (** IsEmpty, lines 162-164 *)
  Definition IsEmpty (v : nat) : M W bool := n <- Len v ;; ret (n =? 0).
  (** Grow, lines 310-313 *)
  Definition Grow (v : nat) (n : Z) : M W unit := d <- get_d v ;; d' <- s_Grow d n ;; set_d v d'.
  (** Clip, lines 316-319 *)
  Definition Clip (v : nat) : M W unit := d <- get_d v ;; set_d v (s_Clip d).
  (** Push, lines 115-121 *)
  Definition Push (v : nat) (vs : list T) : M W unit :=
    n <- Len v ;; c <- Cap v ;;
    (if n + Z.of_nat (length vs) >? c then Grow v (Z.of_nat (length vs)) else ret tt) ;;;
    d <- get_d v ;; d' <- go_append d vs ;; set_d v d'.
  (** Remove, lines 128-141 *)
  Definition Remove (v : nat) (i : Z) : M W (T * bool) :=
    l <- Len v ;;
    if (i >=? l) || (i <? 0) then ret (zero, false)
    else
      d <- get_d v ;; e <- idx d i ;;
      (if i =? l - 1 then d' <- reslice d 0 i ;; set_d v d'
       else
         dst <- reslice_from d i ;; src <- reslice_from d (i + 1) ;; go_copy dst src ;;;
         d' <- reslice d 0 (l - 1) ;; set_d v d') ;;;
      ret (e, true).
  (** Pop, lines 124-126 *)
  Definition Pop (v : nat) : M W (T * bool) := n <- Len v ;; Remove v (n - 1).
  (** Get, lines 143-148 *)
  Definition Get (v : nat) (i : Z) : M W (T * bool) :=
    l <- Len v ;;
    if (i >=? l) || (i <? 0) then ret (zero, false) else d <- get_d v ;; e <- idx d i ;; ret (e, true).
  (** Set, lines 150-156 *)
  Definition Set_ (v : nat) (i : Z) (x : T) : M W bool :=
    l <- Len v ;;
    if (i >=? l) || (i <? 0) then ret false else d <- get_d v ;; set_idx d i x ;;; ret true.
  (** Clear, lines 167-170 *)
  Definition Clear (v : nat) : M W unit := d <- get_d v ;; d' <- reslice d 0 0 ;; set_d v d'.
  (** SearchFunc, lines 178-182 *)
  Definition SearchFunc (v : nat) (f : T -> res bool) : M W Z := d <- get_d v ;; l <- read d ;; lift (indexFunc f 0 l).
  (** Search, lines 172-176 *)
  Definition Search (v : nat) (x : T) : M W Z := fun w => SearchFunc v (fun y => CmpEqual w v x y) w.
  (** with a callback that may do anything to the vectors *)
  (** Range, lines 236-242 *)
  Fixpoint range_loop {B} (fuel : nat) (v : nat) (cbk : Z -> T -> B -> M W (bool * B)) (i : Z) (acc : B) : M W B :=
    n <- Len v ;;
    if i <? n then
      match fuel with
      | O => nofuel
      | S fuel =>
          d <- get_d v ;; x <- idx d i ;; cb <- cbk i x acc ;;
          if fst cb then range_loop fuel v cbk (i + 1) (snd cb) else ret (snd cb)
      end
    else ret acc.
  (** SearchAllFunc, lines 190-198 *)
  Definition SearchAllFunc (fuel : nat) (v : nat) (f : T -> res bool) : M W (list Z) :=
    range_loop fuel v (fun i x acc => b <- lift (f x) ;; ret (true, if b then acc ++ [i] else acc)) 0 [].
  (** SearchAll, lines 184-188 *)
  Definition SearchAll (fuel : nat) (v : nat) (x : T) : M W (list Z) := fun w =>
    SearchAllFunc fuel v (fun y => CmpEqual w v x y) w.
  (** BinarySearchFunc, lines 218-220 *)
  Definition BinarySearchFunc (v : nat) (cmp : T -> res Z) : M W (Z * bool) :=
    d <- get_d v ;; l <- read d ;; lift (s_BinarySearchFunc l cmp).
  (** BinarySearch, lines 206-216 *)
  Definition BinarySearch (v : nat) (target : T) : M W (Z * bool) := fun w =>
    BinarySearchFunc v (fun x => three_way (CmpLess w v) (CmpEqual w v) x target) w.
  (** First, lines 222-227 *)
  Definition First (v : nat) : M W (T * bool) :=
    l <- Len v ;; if l =? 0 then ret (zero, false) else d <- get_d v ;; e <- idx d 0 ;; ret (e, true).
  (** Last, lines 229-234 *)
  Definition Last (v : nat) : M W (T * bool) :=
    l <- Len v ;; if l =? 0 then ret (zero, false) else d <- get_d v ;; e <- idx d (l - 1) ;; ret (e, true).
  (** SliceCut, lines 245-250 *)
  Definition SliceCut (v : nat) (i j : Z) : M W slice :=
    l <- Len v ;;
    if (i <? 0) || (j >? l) || (i >? j) then ret nil_slice else d <- get_d v ;; reslice d i j.
  (** Slice, lines 252-254 *)
  Definition Slice (v : nat) : M W slice := get_d v.
  (** Cut, lines 257-264 *)
  Definition Cut (v : nat) (i j : Z) : M W slice :=
    l <- Len v ;;
    if (i <? 0) || (j >? l) || (i >? j) then ret nil_slice
    else
      d <- get_d v ;; val <- reslice d i j ;;
      a <- reslice d 0 i ;; b <- reslice_from d j ;; lb <- read b ;;
      d' <- go_append a lb ;; set_d v d' ;;; ret val.
  (** SplitOff, lines 271-273 *)
  Definition SplitOff (v : nat) (i : Z) : M W nat :=
    u <- New (Some (CMethod v)) (Some (CMethod v)) ;;
    l <- Len v ;; s <- Cut v i l ;; vs <- read s ;; Push u vs ;;; ret u.
  (** Swap, lines 275-280 *)
  Definition Swap (v : nat) (i j : Z) : M W unit :=
    l <- Len v ;;
    if (i <? 0) || (i >=? l) || (j <? 0) || (j >=? l) then ret tt
    else d <- get_d v ;; x <- idx d j ;; y <- idx d i ;; set_idx d i x ;;; set_idx d j y.
  (** ConpareAndRemove, lines 283-291 *)
  Definition ConpareAndRemove (v : nat) (i : Z) (x : T) : M W (T * bool) :=
    l <- Len v ;;
    if (i <? 0) || (i >=? l) then ret (zero, false)
    else d <- get_d v ;; y <- idx d i ;; b <- with_res (fun w => CmpEqual w v y x) ;;
         if b then Remove v i else ret (zero, false).
  (** Less and Equal on indices *)
  (** Less, lines 293-295 *)
  Definition Less (v : nat) (i j : Z) : M W bool :=
    d <- get_d v ;; x <- idx d i ;; y <- idx d j ;; with_res (fun w => CmpLess w v x y).
  (** Equal, lines 301-303 *)
  Definition Equal (v : nat) (i j : Z) : M W bool :=
    d <- get_d v ;; x <- idx d i ;; y <- idx d j ;; with_res (fun w => CmpEqual w v x y).
  (** Clone, lines 321-323 *)
  Definition Clone (v : nat) : M W nat :=
    u <- New (Some (CMethod v)) (Some (CMethod v)) ;;
    d <- get_d v ;; vs <- read d ;; Push u vs ;;; ret u.
  (** CloneToSlice, lines 325-327 *)
  Definition CloneToSlice (v : nat) : M W slice := d <- get_d v ;; s_Clone d.
  (** CompactFunc, lines 340-342 *)
  Definition CompactFunc (v : nat) (eq : rcmp) : M W unit := d <- get_d v ;; d' <- s_Compact d eq ;; set_d v d'.
  (** Compact, lines 332-335 *)
  Definition Compact (v : nat) : M W unit := fun w => CompactFunc v (CmpEqual w v) w.
  (** CompareFunc, lines 350-360 *)
  Definition CompareFunc (v u : nat) (less equal : rcmp) : M W Z :=
    d <- get_d v ;; l1 <- read d ;; e <- get_d u ;; l2 <- read e ;; lift (compareFunc (three_way less equal) l1 l2).
  (** Compare, lines 346-348 *)
  Definition Compare (v u : nat) : M W Z := fun w => CompareFunc v u (CmpLess w v) (CmpEqual w v) w.
  (** ContainsFunc, lines 368-370 *)
  Definition ContainsFunc (v : nat) (f : T -> res bool) : M W bool := d <- get_d v ;; l <- read d ;; lift (containsFunc f l).
  (** Contains, lines 362-366 *)
  Definition Contains (v : nat) (x : T) : M W bool := fun w => ContainsFunc v (fun y => CmpEqual w v y x) w.
  (** Delete, lines 372-374 *)
  Definition Delete (v : nat) (i j : Z) : M W unit := d <- get_d v ;; d' <- s_Delete d i j ;; set_d v d'.
  (** EqualVecFunc, lines 384-386 *)
  Definition EqualVecFunc (v u : nat) (eq : rcmp) : M W bool :=
    d <- get_d v ;; l1 <- read d ;; e <- get_d u ;; l2 <- read e ;; lift (s_EqualFunc eq l1 l2).
  (** EqualVec, lines 376-378 *)
  Definition EqualVec (v u : nat) : M W bool := fun w => EqualVecFunc v u (CmpEqual w v) w.
  (** EqualSliceFunc, lines 388-390 *)
  Definition EqualSliceFunc (v : nat) (l2 : list T) (eq : rcmp) : M W bool :=
    d <- get_d v ;; l1 <- read d ;; lift (s_EqualFunc eq l1 l2).
  (** EqualSlice, lines 380-382 *)
  Definition EqualSlice (v : nat) (l2 : list T) : M W bool := fun w => EqualSliceFunc v l2 (CmpEqual w v) w.
  (** Insert, lines 395-398 *)
  Definition Insert (v : nat) (i : Z) (vs : list T) : M W unit := d <- get_d v ;; d' <- s_Insert d i vs ;; set_d v d'.
  (** IsSortedFunc, lines 404-414 *)
  Definition IsSortedFunc (v : nat) (less equal : rcmp) : M W bool :=
    d <- get_d v ;; l <- read d ;; lift (isSortedRev (three_way less equal) (rev l)).
  (** IsSorted, lines 400-402 *)
  Definition IsSorted (v : nat) : M W bool := fun w => IsSortedFunc v (CmpLess w v) (CmpEqual w v) w.
  (** MaxFunc, lines 420-430 *)
  Definition MaxFunc (v : nat) (less equal : rcmp) : M W T :=
    d <- get_d v ;; l <- read d ;; lift (match l with [] => Panic | x :: l => maxFunc (three_way less equal) x l end).
  (** Max, lines 416-418 *)
  Definition Max (v : nat) : M W T := fun w => MaxFunc v (CmpLess w v) (CmpEqual w v) w.
  (** MinFunc, lines 436-446 *)
  Definition MinFunc (v : nat) (less equal : rcmp) : M W T :=
    d <- get_d v ;; l <- read d ;; lift (match l with [] => Panic | x :: l => minFunc (three_way less equal) x l end).
  (** Min, lines 432-434 *)
  Definition Min (v : nat) : M W T := fun w => MinFunc v (CmpLess w v) (CmpEqual w v) w.
  (** Replace, lines 448-450 *)
  Definition Replace (v : nat) (i j : Z) (vs : list T) : M W unit := d <- get_d v ;; d' <- s_Replace d i j vs ;; set_d v d'.
  (** Reverse, lines 453-456 *)
  Definition Reverse (v : nat) : M W unit := d <- get_d v ;; s_Reverse d.
  (** SortFunc and SortStableFunc with comparators that do not panic *)
  Definition three (less equal : T -> T -> bool) : T -> T -> Z := fun a b =>
    if less a b then -1 else if equal a b then 0 else 1.
  (** SortFunc, lines 465-476 *)
  Definition SortFunc (v : nat) (less equal : T -> T -> bool) : M W unit :=
    d <- get_d v ;; l <- read d ;; write_at d 0 (srt (three less equal) l).
  (** SortStableFunc, lines 484-495 *)
  Definition SortStableFunc (v : nat) (less equal : T -> T -> bool) : M W unit :=
    d <- get_d v ;; l <- read d ;; write_at d 0 (srt_stable (three less equal) l).
  (** Sort and SortStable use the vector's comparators; a missing comparator panics as soon as it is
      called.  Simplification: with only one of the two missing and two elements or more this panics
      always, the code only if the sorting gets to call the missing one (equal is not called when less
      says yes); no theorem is about that case. *)
  Definition sort_with (v : nat) (sorter : nat -> (T -> T -> bool) -> (T -> T -> bool) -> M W unit) : M W unit := fun w =>
    match cmp_less (S v) w v, cmp_equal (S v) w v with
    | Some less, Some equal => sorter v less equal w
    | _, _ => if (s_len (v_d (w_vec w v)) <=? 1)%nat then Ok (tt, w) else Panic
    end.
  (** Sort, lines 461-463 *)
  Definition Sort (v : nat) : M W unit := sort_with v SortFunc.
  (** SortStable, lines 480-482 *)
  Definition SortStable (v : nat) : M W unit := sort_with v SortStableFunc.
  (** Writing through a slice handed out to the user: s[i] = x. *)
  Definition user_write (s : slice) (i : Z) (x : T) : M W unit := set_idx s i x.

  Definition empty_vworld : W := mk_vworld (fun _ => []) 0 (fun _ => mk_vec nil_slice None None) 0.
End model.
