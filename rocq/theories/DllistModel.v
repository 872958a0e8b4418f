(** Model of /repo/dllist/dllist.go and /repo/dllist/element.go. *)
From Verif Require Import Base.
Local Open Scope Z_scope.

(** All Element and Dllist structs (element.go lines 3-9, dllist.go lines 5-10).  Pointers to
    elements are ids or nil; the fields of all structs are total functions of the id.  The root
    element embedded in a Dllist is an element with an id of its own, [l_root].  Pointers to lists
    held by the program are never nil here (DllistNilModel.v has methods called on a nil *Dllist); the
    field Element.list can be nil.  Ids at or above [n_elems]/[n_lists] are unallocated. *)
Record dworld (T : Type) := mk_dworld {
  e_next : nat -> option nat;
  e_prev : nat -> option nat;
  e_list : nat -> option nat;
  e_val : nat -> T;
  l_root : nat -> nat;
  l_len : nat -> Z;
  l_init : nat -> bool;
  n_elems : nat;
  n_lists : nat }.
Arguments mk_dworld {T}. Arguments e_next {T}. Arguments e_prev {T}. Arguments e_list {T}.
Arguments e_val {T}. Arguments l_root {T}. Arguments l_len {T}. Arguments l_init {T}.
Arguments n_elems {T}. Arguments n_lists {T}.

Section model.
  Context {T : Type} (zero : T).
  Notation world := (dworld T).
  Notation ptr := (option nat).

  (** Field reads and writes; dereferencing nil panics. *)
  Definition rd {A} (p : ptr) (f : world -> nat -> A) : M world A := fun w =>
    match p with Some e => Ok (f w e, w) | None => Panic end.
  Definition wr_next (p v : ptr) : M world unit := fun w =>
    match p with
    | Some e => Ok (tt, mk_dworld (<[e:=v]> (e_next w)) (e_prev w) (e_list w) (e_val w)
                          (l_root w) (l_len w) (l_init w) (n_elems w) (n_lists w))
    | None => Panic end.
  Definition wr_prev (p v : ptr) : M world unit := fun w =>
    match p with
    | Some e => Ok (tt, mk_dworld (e_next w) (<[e:=v]> (e_prev w)) (e_list w) (e_val w)
                          (l_root w) (l_len w) (l_init w) (n_elems w) (n_lists w))
    | None => Panic end.
  Definition wr_list (p : ptr) (l : option nat) : M world unit := fun w =>
    match p with
    | Some e => Ok (tt, mk_dworld (e_next w) (e_prev w) (<[e:=l]> (e_list w)) (e_val w)
                          (l_root w) (l_len w) (l_init w) (n_elems w) (n_lists w))
    | None => Panic end.
  (** The exported field: [e.Value = v]. *)
  Definition wr_val (p : ptr) (v : T) : M world unit := fun w =>
    match p with
    | Some e => Ok (tt, mk_dworld (e_next w) (e_prev w) (e_list w) (<[e:=v]> (e_val w))
                          (l_root w) (l_len w) (l_init w) (n_elems w) (n_lists w))
    | None => Panic end.
  Definition rd_l {A} (l : nat) (f : world -> nat -> A) : M world A := fun w => Ok (f w l, w).
  Definition wr_len (l : nat) (n : Z) : M world unit := fun w =>
    Ok (tt, mk_dworld (e_next w) (e_prev w) (e_list w) (e_val w)
              (l_root w) (<[l:=n]> (l_len w)) (l_init w) (n_elems w) (n_lists w)).
  Definition wr_init (l : nat) (b : bool) : M world unit := fun w =>
    Ok (tt, mk_dworld (e_next w) (e_prev w) (e_list w) (e_val w)
              (l_root w) (l_len w) (<[l:=b]> (l_init w)) (n_elems w) (n_lists w)).
  (** [&l.root] *)
  Definition root_of (l : nat) : M world ptr := fun w => Ok (Some (l_root w l), w).

  (** [&Element[T]{Value: v}] *)
  Definition new_elem (v : T) : M world ptr := fun w =>
    let e := n_elems w in
    Ok (Some e, mk_dworld (<[e:=None]> (e_next w)) (<[e:=None]> (e_prev w)) (<[e:=None]> (e_list w))
                  (<[e:=v]> (e_val w)) (l_root w) (l_len w) (l_init w) (S e) (n_lists w)).
  (** [&Dllist[T]{}], also a variable of type Dllist[T]: a list and its embedded root element *)
  Definition new_zero : M world nat := fun w =>
    let l := n_lists w in let e := n_elems w in
    Ok (l, mk_dworld (<[e:=None]> (e_next w)) (<[e:=None]> (e_prev w)) (<[e:=None]> (e_list w))
             (<[e:=zero]> (e_val w)) (<[l:=e]> (l_root w)) (<[l:=0]> (l_len w)) (<[l:=false]> (l_init w))
             (S e) (S l)).

  (** dllist.go lines 18-24 *)
  Definition dl_Clear (l : nat) : M world nat :=
    r <- root_of l ;;
    wr_next r r ;;; wr_prev r r ;;; wr_len l 0 ;;; wr_init l true ;;; ret l.

  (** dllist.go lines 14-16 *)
  Definition dl_New : M world nat := l <- new_zero ;; dl_Clear l.

  (** dllist.go lines 27-31 *)
  Definition dl_lazyInit (l : nat) : M world unit :=
    b <- rd_l l l_init ;; if b then ret tt else dl_Clear l ;;; ret tt.

  (** The loops of Get, dllist.go lines 43-45 and 48-50: [k] iterations remain. *)
  Fixpoint go_next (k : nat) (e : ptr) : M world ptr :=
    match k with O => ret e | S k => e' <- rd e e_next ;; go_next k e' end.
  Fixpoint go_prev (k : nat) (e : ptr) : M world ptr :=
    match k with O => ret e | S k => e' <- rd e e_prev ;; go_prev k e' end.

  (** dllist.go lines 33-54 *)
  Definition dl_Get (l : nat) (i : Z) : M world ptr :=
    n <- rd_l l l_len ;;
    if (i <? 0) || (i >=? n) then ret None
    else
      dl_lazyInit l ;;;
      n <- rd_l l l_len ;;
      r <- root_of l ;;
      if i <? Z.quot n 2 then e <- rd r e_next ;; go_next (Z.to_nat i) e
      else go_prev (Z.to_nat (n - i)) r.

  (** dllist.go line 56 *)
  Definition dl_Len (l : nat) : M world Z := rd_l l l_len.

  (** dllist.go lines 58-64 *)
  Definition dl_Front (l : nat) : M world ptr :=
    n <- rd_l l l_len ;;
    if n =? 0 then ret None
    else dl_lazyInit l ;;; r <- root_of l ;; rd r e_next.

  (** dllist.go lines 66-72 *)
  Definition dl_Back (l : nat) : M world ptr :=
    n <- rd_l l l_len ;;
    if n =? 0 then ret None
    else dl_lazyInit l ;;; r <- root_of l ;; rd r e_prev.

  (** dllist.go lines 74-82 *)
  Definition dl_insert (l : nat) (e at_ : ptr) : M world ptr :=
    wr_prev e at_ ;;;
    n <- rd at_ e_next ;; wr_next e n ;;;
    p <- rd e e_prev ;; wr_next p e ;;;
    n <- rd e e_next ;; wr_prev n e ;;;
    wr_list e (Some l) ;;;
    k <- rd_l l l_len ;; wr_len l (k + 1) ;;;
    ret e.

  (** dllist.go lines 84-86 *)
  Definition dl_insertValue (l : nat) (v : T) (at_ : ptr) : M world ptr :=
    e <- new_elem v ;; dl_insert l e at_.

  (** dllist.go lines 88-95 *)
  Definition dl_remove (l : nat) (e : ptr) : M world unit :=
    p <- rd e e_prev ;; n <- rd e e_next ;; wr_next p n ;;;
    n <- rd e e_next ;; p <- rd e e_prev ;; wr_prev n p ;;;
    wr_next e None ;;; wr_prev e None ;;; wr_list e None ;;;
    k <- rd_l l l_len ;; wr_len l (k - 1).

  (** dllist.go lines 97-108 *)
  Definition dl_move (l : nat) (e at_ : ptr) : M world unit :=
    if bool_decide (e = at_) then ret tt
    else
      p <- rd e e_prev ;; n <- rd e e_next ;; wr_next p n ;;;
      n <- rd e e_next ;; p <- rd e e_prev ;; wr_prev n p ;;;
      wr_prev e at_ ;;;
      n <- rd at_ e_next ;; wr_next e n ;;;
      p <- rd e e_prev ;; wr_next p e ;;;
      n <- rd e e_next ;; wr_prev n e.

  (** dllist.go lines 110-115 *)
  Definition dl_Remove (l : nat) (e : ptr) : M world T :=
    o <- rd e e_list ;;
    (if bool_decide (o = Some l) then dl_remove l e else ret tt) ;;;
    rd e e_val.

  (** dllist.go lines 117-120 *)
  Definition dl_PushFront (l : nat) (v : T) : M world ptr :=
    dl_lazyInit l ;;; r <- root_of l ;; dl_insertValue l v r.

  (** dllist.go lines 122-125 *)
  Definition dl_PushBack (l : nat) (v : T) : M world ptr :=
    dl_lazyInit l ;;; r <- root_of l ;; p <- rd r e_prev ;; dl_insertValue l v p.

  (** dllist.go lines 127-133 *)
  Definition dl_InsertBefore (l : nat) (v : T) (mark : ptr) : M world ptr :=
    o <- rd mark e_list ;;
    if bool_decide (o = Some l) then p <- rd mark e_prev ;; dl_insertValue l v p else ret None.

  (** dllist.go lines 135-141 *)
  Definition dl_InsertAfter (l : nat) (v : T) (mark : ptr) : M world ptr :=
    o <- rd mark e_list ;;
    if bool_decide (o = Some l) then dl_insertValue l v mark else ret None.

  (** dllist.go lines 143-149 *)
  Definition dl_MoveToFront (l : nat) (e : ptr) : M world unit :=
    o <- rd e e_list ;;
    if bool_decide (o = Some l) then
      r <- root_of l ;; n <- rd r e_next ;;
      if bool_decide (n = e) then ret tt else dl_lazyInit l ;;; dl_move l e r
    else ret tt.

  (** dllist.go lines 151-157 *)
  Definition dl_MoveToBack (l : nat) (e : ptr) : M world unit :=
    o <- rd e e_list ;;
    if bool_decide (o = Some l) then
      r <- root_of l ;; p <- rd r e_prev ;;
      if bool_decide (p = e) then ret tt
      else dl_lazyInit l ;;; p <- rd r e_prev ;; dl_move l e p
    else ret tt.

  (** dllist.go lines 159-164 *)
  Definition dl_MoveBefore (l : nat) (e mark : ptr) : M world unit :=
    o <- rd e e_list ;;
    if bool_decide (o = Some l) then
      if bool_decide (e = mark) then ret tt
      else
        o <- rd mark e_list ;;
        if bool_decide (o = Some l) then p <- rd mark e_prev ;; dl_move l e p else ret tt
    else ret tt.

  (** dllist.go lines 166-171 *)
  Definition dl_MoveAfter (l : nat) (e mark : ptr) : M world unit :=
    o <- rd e e_list ;;
    if bool_decide (o = Some l) then
      if bool_decide (e = mark) then ret tt
      else
        o <- rd mark e_list ;;
        if bool_decide (o = Some l) then dl_move l e mark else ret tt
    else ret tt.

  (** element.go lines 11-16 *)
  Definition el_Next (e : ptr) : M world ptr :=
    p <- rd e e_next ;; o <- rd e e_list ;;
    match o with
    | None => ret None
    | Some l => r <- root_of l ;; if bool_decide (p = r) then ret None else ret p
    end.

  (** element.go lines 18-23 *)
  Definition el_Prev (e : ptr) : M world ptr :=
    p <- rd e e_prev ;; o <- rd e e_list ;;
    match o with
    | None => ret None
    | Some l => r <- root_of l ;; if bool_decide (p = r) then ret None else ret p
    end.

  (** dllist.go lines 173-178; [i] iterations remain *)
  Fixpoint pbl_loop (i : nat) (l : nat) (e : ptr) : M world unit :=
    match i with
    | O => ret tt
    | S i =>
        v <- rd e e_val ;; r <- root_of l ;; p <- rd r e_prev ;; dl_insertValue l v p ;;;
        e' <- el_Next e ;; pbl_loop i l e'
    end.
  Definition dl_PushBackList (l other : nat) : M world unit :=
    dl_lazyInit l ;;; n <- rd_l other l_len ;; e <- dl_Front other ;; pbl_loop (Z.to_nat n) l e.

  (** The loops of dllist.go lines 184-186 and 200-202 *)
  Fixpoint pblt_loop (i : nat) (l : nat) (e mark : ptr) : M world unit :=
    match i with
    | O => ret tt
    | S i => v <- rd e e_val ;; dl_insertValue l v mark ;;; e' <- el_Next e ;; pblt_loop i l e' mark
    end.
  Fixpoint pflt_loop (i : nat) (l : nat) (e mark : ptr) : M world unit :=
    match i with
    | O => ret tt
    | S i => v <- rd e e_val ;; dl_insertValue l v mark ;;; e' <- el_Prev e ;; pflt_loop i l e' mark
    end.

  (** dllist.go lines 180-187 *)
  Definition dl_PushBackListTo (l other : nat) (mark : ptr) : M world unit :=
    o <- rd mark e_list ;;
    if bool_decide (o = Some l) then
      n <- rd_l other l_len ;; e <- dl_Front other ;; pblt_loop (Z.to_nat n) l e mark
    else ret tt.

  (** dllist.go lines 189-194 *)
  Fixpoint pfl_loop (i : nat) (l : nat) (e : ptr) : M world unit :=
    match i with
    | O => ret tt
    | S i =>
        v <- rd e e_val ;; r <- root_of l ;; dl_insertValue l v r ;;;
        e' <- el_Prev e ;; pfl_loop i l e'
    end.
  Definition dl_PushFrontList (l other : nat) : M world unit :=
    dl_lazyInit l ;;; n <- rd_l other l_len ;; e <- dl_Back other ;; pfl_loop (Z.to_nat n) l e.

  (** dllist.go lines 196-203 *)
  Definition dl_PushFrontListTo (l other : nat) (mark : ptr) : M world unit :=
    o <- rd mark e_list ;;
    if bool_decide (o = Some l) then
      n <- rd_l other l_len ;; e <- dl_Back other ;; pflt_loop (Z.to_nat n) l e mark
    else ret tt.

  (** dllist.go lines 205-233.  The two tuple assignments of lines 231-232 read both right-hand
      sides before writing. *)
  Definition dl_Swap (l : nat) (a b : ptr) : M world unit :=
    o <- rd a e_list ;;
    if negb (bool_decide (o = Some l)) then ret tt
    else
      o <- rd b e_list ;;
      if negb (bool_decide (o = Some l)) || bool_decide (a = b) then ret tt
      else
        an <- rd a e_next ;;
        if bool_decide (an = b) then
          p <- rd a e_prev ;; wr_next p b ;;;
          n <- rd b e_next ;; wr_prev n a ;;;
          n <- rd b e_next ;; wr_next a n ;;;
          p <- rd a e_prev ;; wr_prev b p ;;;
          wr_prev a b ;;; wr_next b a
        else
          bn <- rd b e_next ;;
          if bool_decide (bn = a) then
            p <- rd b e_prev ;; wr_next p a ;;;
            n <- rd a e_next ;; wr_prev n b ;;;
            n <- rd a e_next ;; wr_next b n ;;;
            p <- rd b e_prev ;; wr_prev a p ;;;
            wr_prev b a ;;; wr_next a b
          else
            p <- rd a e_prev ;; wr_next p b ;;;
            n <- rd a e_next ;; wr_prev n b ;;;
            p <- rd b e_prev ;; wr_next p a ;;;
            n <- rd b e_next ;; wr_prev n a ;;;
            bp <- rd b e_prev ;; ap <- rd a e_prev ;; wr_prev a bp ;;; wr_prev b ap ;;;
            bn <- rd b e_next ;; an <- rd a e_next ;; wr_next a bn ;;; wr_next b an.

  (** element.go lines 25-32 *)
  Definition el_Remove (e : ptr) : M world T :=
    o <- rd e e_list ;;
    match o with Some l => dl_remove l e | None => ret tt end ;;;
    wr_next e None ;;; wr_prev e None ;;; rd e e_val.

  (** element.go lines 34-39 *)
  Definition el_InsertAfter (e : ptr) (v : T) : M world ptr :=
    o <- rd e e_list ;;
    match o with Some l => dl_insertValue l v e | None => ret None end.

  (** element.go lines 41-46 *)
  Definition el_InsertBefore (e : ptr) (v : T) : M world ptr :=
    o <- rd e e_list ;;
    match o with Some l => p <- rd e e_prev ;; dl_insertValue l v p | None => ret None end.

  (** The loops of Dllist.Range (dllist.go lines 236-243) and Element.Range (element.go lines
      49-55).  The callback may itself change lists, and carries a state [A]. *)
  Fixpoint range_loop {A} (fuel : nat) (e : ptr) (f : ptr -> A -> M world (bool * A)) (a : A)
    : M world (bool * A) :=
    match fuel with
    | O => nofuel
    | S fuel =>
        match e with
        | None => ret (true, a)
        | Some _ =>
            ba <- f e a ;;
            if fst ba then e' <- el_Next e ;; range_loop fuel e' f (snd ba) else ret (false, snd ba)
        end
    end.
  Definition dl_Range {A} (fuel : nat) (l : nat) (f : ptr -> A -> M world (bool * A)) (a : A)
    : M world (bool * A) :=
    e <- dl_Front l ;; range_loop fuel e f a.
  Definition el_Range {A} (fuel : nat) (e : ptr) (f : ptr -> A -> M world (bool * A)) (a : A)
    : M world A := ba <- range_loop fuel e f a ;; ret (snd ba).

  (** dllist.go lines 246-253 *)
  Definition dl_Slice (fuel : nat) (l : nat) : M world (list T) :=
    ba <- dl_Range fuel l (fun e s => v <- rd e e_val ;; ret (true, s ++ [v])) [] ;;
    ret (snd ba).

  (** dllist.go lines 255-289.  [fuel] bounds the depth of recursion, [rf] each iteration. *)
  Fixpoint dl_Sort (rf fuel : nat) (cmpLess : T -> T -> bool) (l : nat) : M world unit :=
    match fuel with
    | O => nofuel
    | S fuel =>
        n <- rd_l l l_len ;;
        if n <=? 1 then ret tt
        else
          f <- dl_Front l ;; pivot <- rd f e_val ;;
          smaller <- dl_New ;; larger <- dl_New ;;
          f <- dl_Front l ;; e2 <- el_Next f ;;
          el_Range rf e2 (fun e (_ : unit) =>
            v <- rd e e_val ;;
            (if cmpLess v pivot then v <- rd e e_val ;; dl_PushBack smaller v
             else v <- rd e e_val ;; dl_PushBack larger v) ;;;
            ret (true, tt)) tt ;;;
          dl_Sort rf fuel cmpLess smaller ;;;
          dl_Sort rf fuel cmpLess larger ;;;
          dl_Clear l ;;;
          dl_Range rf smaller (fun e (_ : unit) => v <- rd e e_val ;; dl_PushBack l v ;;; ret (true, tt)) tt ;;;
          dl_PushBack l pivot ;;;
          dl_Range rf larger (fun e (_ : unit) => v <- rd e e_val ;; dl_PushBack l v ;;; ret (true, tt)) tt ;;;
          ret tt
    end.

  (** Calls a program can make.  [DValue]/[DSetValue] are direct uses of the exported field;
      DRange and DERange get a callback that looks at the element and its value. *)
  Inductive dl_call :=
  | DNew | DZero | DClear (l : nat) | DGet (l : nat) (i : Z) | DLen (l : nat) | DFront (l : nat)
  | DBack (l : nat) | DRemove (l e : nat) | DPushFront (l : nat) (v : T) | DPushBack (l : nat) (v : T)
  | DInsertBefore (l : nat) (v : T) (mark : nat) | DInsertAfter (l : nat) (v : T) (mark : nat)
  | DMoveToFront (l e : nat) | DMoveToBack (l e : nat) | DMoveBefore (l e mark : nat)
  | DMoveAfter (l e mark : nat) | DPushBackList (l other : nat) | DPushFrontList (l other : nat)
  | DPushBackListTo (l other mark : nat) | DPushFrontListTo (l other mark : nat)
  | DSwap (l a b : nat) | DRange (l : nat) (f : nat -> T -> bool) | DSlice (l : nat)
  | DSort (l : nat) (less : T -> T -> bool)
  | DNext (e : nat) | DPrev (e : nat) | DERemove (e : nat) | DEInsertAfter (e : nat) (v : T)
  | DEInsertBefore (e : nat) (v : T) | DERange (e : nat) (f : nat -> T -> bool)
  | DValue (e : nat) | DSetValue (e : nat) (v : T).

  Inductive dl_res :=
  | DList (l : nat) | DElem (p : ptr) | DInt (n : Z) | DVal (v : T) | DVals (l : list T)
  | DElems (all : bool) (l : list nat) | DUnit.

  Definition dmap {A B} (f : A -> B) (m : M world A) : M world B := a <- m ;; ret (f a).

  (** The callback used by DRange and DERange, recording what it is called with. *)
  Definition visit (f : nat -> T -> bool) (e : ptr) (seen : list nat) : M world (bool * list nat) :=
    match e with
    | Some x => v <- rd e e_val ;; ret (f x v, seen ++ [x])
    | None => panic
    end.

  (** One call; iterations get as much fuel as there are elements. *)
  Definition dl_exec (c : dl_call) : M world dl_res := fun w =>
    let fuel := S (n_elems w) in
    match c with
    | DNew => dmap DList dl_New w
    | DZero => dmap DList new_zero w
    | DClear l => dmap DList (dl_Clear l) w
    | DGet l i => dmap DElem (dl_Get l i) w
    | DLen l => dmap DInt (dl_Len l) w
    | DFront l => dmap DElem (dl_Front l) w
    | DBack l => dmap DElem (dl_Back l) w
    | DRemove l e => dmap DVal (dl_Remove l (Some e)) w
    | DPushFront l v => dmap DElem (dl_PushFront l v) w
    | DPushBack l v => dmap DElem (dl_PushBack l v) w
    | DInsertBefore l v m => dmap DElem (dl_InsertBefore l v (Some m)) w
    | DInsertAfter l v m => dmap DElem (dl_InsertAfter l v (Some m)) w
    | DMoveToFront l e => dmap (fun _ => DUnit) (dl_MoveToFront l (Some e)) w
    | DMoveToBack l e => dmap (fun _ => DUnit) (dl_MoveToBack l (Some e)) w
    | DMoveBefore l e m => dmap (fun _ => DUnit) (dl_MoveBefore l (Some e) (Some m)) w
    | DMoveAfter l e m => dmap (fun _ => DUnit) (dl_MoveAfter l (Some e) (Some m)) w
    | DPushBackList l o => dmap (fun _ => DUnit) (dl_PushBackList l o) w
    | DPushFrontList l o => dmap (fun _ => DUnit) (dl_PushFrontList l o) w
    | DPushBackListTo l o m => dmap (fun _ => DUnit) (dl_PushBackListTo l o (Some m)) w
    | DPushFrontListTo l o m => dmap (fun _ => DUnit) (dl_PushFrontListTo l o (Some m)) w
    | DSwap l a b => dmap (fun _ => DUnit) (dl_Swap l (Some a) (Some b)) w
    | DRange l f => dmap (fun ba => DElems (fst ba) (snd ba)) (dl_Range fuel l (visit f) []) w
    | DSlice l => dmap DVals (dl_Slice fuel l) w
    | DSort l less => dmap (fun _ => DUnit) (dl_Sort fuel fuel less l) w
    | DNext e => dmap DElem (el_Next (Some e)) w
    | DPrev e => dmap DElem (el_Prev (Some e)) w
    | DERemove e => dmap DVal (el_Remove (Some e)) w
    | DEInsertAfter e v => dmap DElem (el_InsertAfter (Some e) v) w
    | DEInsertBefore e v => dmap DElem (el_InsertBefore (Some e) v) w
    | DERange e f => dmap (fun s => DElems true s) (el_Range fuel (Some e) (visit f) []) w
    | DValue e => dmap DVal (rd (Some e) e_val) w
    | DSetValue e v => dmap (fun _ => DUnit) (wr_val (Some e) v) w
    end.

  Definition empty_dworld : world :=
    mk_dworld (fun _ => None) (fun _ => None) (fun _ => None) (fun _ => zero) (fun _ => 0%nat)
      (fun _ => 0) (fun _ => false) 0 0.
End model.
