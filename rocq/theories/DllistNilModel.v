(** Model of the methods of /repo/dllist/dllist.go called on a nil list.

    The functions are those of DllistModel.v with a receiver that can be nil, and with the structs as a panic
    leaves them ([None] and the world), so that one can say what is left behind after recovering from it.
    Given a list that is not nil they do what those of DllistModel.v do (C215_agree). *)
From Verif Require Import Base DllistModel.
Local Open Scope Z_scope.

Section model.
  Context {T : Type} (zero : T).
  Notation world := (dworld T).
  Notation ptr := (option nat).

  (** Code that may panic and leaves a world in any case. *)
  Definition N (A : Type) : Type := world -> option A * world.
  Definition nret {A} (a : A) : N A := fun w => (Some a, w).
  Definition nbind {A B} (m : N A) (f : A -> N B) : N B := fun w =>
    match m w with (Some a, w1) => f a w1 | (None, w1) => (None, w1) end.
  (** One of the reads, writes and allocations of DllistModel.v: if it panics nothing has happened. *)
  Definition one {A} (m : M world A) : N A := fun w =>
    match m w with Ok (a, w1) => (Some a, w1) | _ => (None, w) end.
  Local Notation "x <- m ;; k" := (nbind m (fun x => k)) (at level 100, m at next level, right associativity).
  Local Notation "m ;;; k" := (nbind m (fun _ => k)) (at level 100, right associativity).

  (** Fields of the list the receiver points to. *)
  Definition of_list {A} (l : ptr) (m : nat -> M world A) : N A :=
    match l with Some l => one (m l) | None => fun w => (None, w) end.
  Definition len_of (l : ptr) : N Z := of_list l (fun l => rd_l l l_len).
  Definition set_len (l : ptr) (n : Z) : N unit := of_list l (fun l => wr_len l n).
  Definition inited (l : ptr) : N bool := of_list l (fun l => rd_l l l_init).
  Definition set_inited (l : ptr) (b : bool) : N unit := of_list l (fun l => wr_init l b).
  Definition root (l : ptr) : N ptr := of_list l root_of.

  (** Lines 18-24 *)
  Definition n_Clear (l : ptr) : N ptr :=
    r <- root l ;;
    one (wr_next r r) ;;; one (wr_prev r r) ;;; set_len l 0 ;;; set_inited l true ;;; nret l.
  (** Lines 27-31 *)
  Definition n_lazyInit (l : ptr) : N unit :=
    b <- inited l ;; if (b : bool) then nret tt else n_Clear l ;;; nret tt.
  (** Lines 33-54 *)
  Fixpoint n_next (k : nat) (e : ptr) : N ptr :=
    match k with O => nret e | S k => e' <- one (rd e e_next) ;; n_next k e' end.
  Fixpoint n_prev (k : nat) (e : ptr) : N ptr :=
    match k with O => nret e | S k => e' <- one (rd e e_prev) ;; n_prev k e' end.
  Definition n_Get (l : ptr) (i : Z) : N ptr :=
    if i <? 0 then nret None
    else
      n <- len_of l ;;
      if i >=? n then nret None
      else
        n_lazyInit l ;;;
        n <- len_of l ;;
        r <- root l ;;
        if i <? Z.quot n 2 then e <- one (rd r e_next) ;; n_next (Z.to_nat i) e
        else n_prev (Z.to_nat (n - i)) r.
  (** Line 56 *)
  Definition n_Len (l : ptr) : N Z := len_of l.
  (** Lines 58-64, 66-72 *)
  Definition n_Front (l : ptr) : N ptr :=
    n <- len_of l ;;
    if n =? 0 then nret None else n_lazyInit l ;;; r <- root l ;; one (rd r e_next).
  Definition n_Back (l : ptr) : N ptr :=
    n <- len_of l ;;
    if n =? 0 then nret None else n_lazyInit l ;;; r <- root l ;; one (rd r e_prev).
  (** Lines 74-82 *)
  Definition n_insert (l : ptr) (e at_ : ptr) : N ptr :=
    one (wr_prev e at_) ;;;
    n <- one (rd at_ e_next) ;; one (wr_next e n) ;;;
    p <- one (rd e e_prev) ;; one (wr_next p e) ;;;
    n <- one (rd e e_next) ;; one (wr_prev n e) ;;;
    one (wr_list e l) ;;;
    k <- len_of l ;; set_len l (k + 1) ;;;
    nret e.
  (** Lines 84-86 *)
  Definition n_insertValue (l : ptr) (v : T) (at_ : ptr) : N ptr :=
    e <- one (new_elem v) ;; n_insert l e at_.
  (** Lines 88-95 *)
  Definition n_remove (l : ptr) (e : ptr) : N unit :=
    p <- one (rd e e_prev) ;; n <- one (rd e e_next) ;; one (wr_next p n) ;;;
    n <- one (rd e e_next) ;; p <- one (rd e e_prev) ;; one (wr_prev n p) ;;;
    one (wr_next e None) ;;; one (wr_prev e None) ;;; one (wr_list e None) ;;;
    k <- len_of l ;; set_len l (k - 1).
  (** Lines 97-108 *)
  Definition n_move (l : ptr) (e at_ : ptr) : N unit :=
    if bool_decide (e = at_) then nret tt
    else
      p <- one (rd e e_prev) ;; n <- one (rd e e_next) ;; one (wr_next p n) ;;;
      n <- one (rd e e_next) ;; p <- one (rd e e_prev) ;; one (wr_prev n p) ;;;
      one (wr_prev e at_) ;;;
      n <- one (rd at_ e_next) ;; one (wr_next e n) ;;;
      p <- one (rd e e_prev) ;; one (wr_next p e) ;;;
      n <- one (rd e e_next) ;; one (wr_prev n e).
  (** Lines 110-115 *)
  Definition n_Remove (l : ptr) (e : ptr) : N T :=
    o <- one (rd e e_list) ;;
    (if bool_decide (o = l) then n_remove l e else nret tt) ;;;
    one (rd e e_val).
  (** Lines 117-125 *)
  Definition n_PushFront (l : ptr) (v : T) : N ptr :=
    n_lazyInit l ;;; r <- root l ;; n_insertValue l v r.
  Definition n_PushBack (l : ptr) (v : T) : N ptr :=
    n_lazyInit l ;;; r <- root l ;; p <- one (rd r e_prev) ;; n_insertValue l v p.
  (** Lines 127-133, 135-141 *)
  Definition n_InsertBefore (l : ptr) (v : T) (mark : ptr) : N ptr :=
    o <- one (rd mark e_list) ;;
    if bool_decide (o = l) then p <- one (rd mark e_prev) ;; n_insertValue l v p else nret None.
  Definition n_InsertAfter (l : ptr) (v : T) (mark : ptr) : N ptr :=
    o <- one (rd mark e_list) ;;
    if bool_decide (o = l) then n_insertValue l v mark else nret None.
  (** Lines 143-149, 151-157 *)
  Definition n_MoveToFront (l : ptr) (e : ptr) : N unit :=
    o <- one (rd e e_list) ;;
    if bool_decide (o = l) then
      r <- root l ;; n <- one (rd r e_next) ;;
      if bool_decide (n = e) then nret tt else n_lazyInit l ;;; n_move l e r
    else nret tt.
  Definition n_MoveToBack (l : ptr) (e : ptr) : N unit :=
    o <- one (rd e e_list) ;;
    if bool_decide (o = l) then
      r <- root l ;; p <- one (rd r e_prev) ;;
      if bool_decide (p = e) then nret tt
      else n_lazyInit l ;;; p <- one (rd r e_prev) ;; n_move l e p
    else nret tt.
  (** Lines 159-164, 166-171 *)
  Definition n_MoveBefore (l : ptr) (e mark : ptr) : N unit :=
    o <- one (rd e e_list) ;;
    if bool_decide (o = l) then
      if bool_decide (e = mark) then nret tt
      else
        o <- one (rd mark e_list) ;;
        if bool_decide (o = l) then p <- one (rd mark e_prev) ;; n_move l e p else nret tt
    else nret tt.
  Definition n_MoveAfter (l : ptr) (e mark : ptr) : N unit :=
    o <- one (rd e e_list) ;;
    if bool_decide (o = l) then
      if bool_decide (e = mark) then nret tt
      else
        o <- one (rd mark e_list) ;;
        if bool_decide (o = l) then n_move l e mark else nret tt
    else nret tt.
  (** element.go lines 11-23 *)
  Definition n_ElNext (e : ptr) : N ptr :=
    p <- one (rd e e_next) ;; o <- one (rd e e_list) ;;
    match o with
    | None => nret None
    | Some _ => r <- root o ;; if bool_decide (p = r) then nret None else nret p
    end.
  Definition n_ElPrev (e : ptr) : N ptr :=
    p <- one (rd e e_prev) ;; o <- one (rd e e_list) ;;
    match o with
    | None => nret None
    | Some _ => r <- root o ;; if bool_decide (p = r) then nret None else nret p
    end.
  (** Lines 173-178, 189-194 *)
  Fixpoint n_pbl (i : nat) (l : ptr) (e : ptr) : N unit :=
    match i with
    | O => nret tt
    | S i =>
        v <- one (rd e e_val) ;; r <- root l ;; p <- one (rd r e_prev) ;; n_insertValue l v p ;;;
        e' <- n_ElNext e ;; n_pbl i l e'
    end.
  Definition n_PushBackList (l other : ptr) : N unit :=
    n_lazyInit l ;;; n <- len_of other ;; e <- n_Front other ;; n_pbl (Z.to_nat n) l e.
  Fixpoint n_pfl (i : nat) (l : ptr) (e : ptr) : N unit :=
    match i with
    | O => nret tt
    | S i =>
        v <- one (rd e e_val) ;; r <- root l ;; n_insertValue l v r ;;;
        e' <- n_ElPrev e ;; n_pfl i l e'
    end.
  Definition n_PushFrontList (l other : ptr) : N unit :=
    n_lazyInit l ;;; n <- len_of other ;; e <- n_Back other ;; n_pfl (Z.to_nat n) l e.
  (** Lines 180-187, 196-203 *)
  Fixpoint n_pblt (i : nat) (l : ptr) (e mark : ptr) : N unit :=
    match i with
    | O => nret tt
    | S i => v <- one (rd e e_val) ;; n_insertValue l v mark ;;; e' <- n_ElNext e ;; n_pblt i l e' mark
    end.
  Fixpoint n_pflt (i : nat) (l : ptr) (e mark : ptr) : N unit :=
    match i with
    | O => nret tt
    | S i => v <- one (rd e e_val) ;; n_insertValue l v mark ;;; e' <- n_ElPrev e ;; n_pflt i l e' mark
    end.
  Definition n_PushBackListTo (l other : ptr) (mark : ptr) : N unit :=
    o <- one (rd mark e_list) ;;
    if bool_decide (o = l) then
      n <- len_of other ;; e <- n_Front other ;; n_pblt (Z.to_nat n) l e mark
    else nret tt.
  Definition n_PushFrontListTo (l other : ptr) (mark : ptr) : N unit :=
    o <- one (rd mark e_list) ;;
    if bool_decide (o = l) then
      n <- len_of other ;; e <- n_Back other ;; n_pflt (Z.to_nat n) l e mark
    else nret tt.
  (** Lines 205-233 *)
  Definition n_Swap (l : ptr) (a b : ptr) : N unit :=
    o <- one (rd a e_list) ;;
    if negb (bool_decide (o = l)) then nret tt
    else
      o <- one (rd b e_list) ;;
      if negb (bool_decide (o = l)) || bool_decide (a = b) then nret tt
      else
        an <- one (rd a e_next) ;;
        if bool_decide (an = b) then
          p <- one (rd a e_prev) ;; one (wr_next p b) ;;;
          n <- one (rd b e_next) ;; one (wr_prev n a) ;;;
          n <- one (rd b e_next) ;; one (wr_next a n) ;;;
          p <- one (rd a e_prev) ;; one (wr_prev b p) ;;;
          one (wr_prev a b) ;;; one (wr_next b a)
        else
          bn <- one (rd b e_next) ;;
          if bool_decide (bn = a) then
            p <- one (rd b e_prev) ;; one (wr_next p a) ;;;
            n <- one (rd a e_next) ;; one (wr_prev n b) ;;;
            n <- one (rd a e_next) ;; one (wr_next b n) ;;;
            p <- one (rd b e_prev) ;; one (wr_prev a p) ;;;
            one (wr_prev b a) ;;; one (wr_next a b)
          else
            p <- one (rd a e_prev) ;; one (wr_next p b) ;;;
            n <- one (rd a e_next) ;; one (wr_prev n b) ;;;
            p <- one (rd b e_prev) ;; one (wr_next p a) ;;;
            n <- one (rd b e_next) ;; one (wr_prev n a) ;;;
            bp <- one (rd b e_prev) ;; ap <- one (rd a e_prev) ;; one (wr_prev a bp) ;;; one (wr_prev b ap) ;;;
            bn <- one (rd b e_next) ;; an <- one (rd a e_next) ;; one (wr_next a bn) ;;; one (wr_next b an).

  (** The calls with these receivers.  Range, Slice and Sort (lines 236-295) begin by reading l.len, Range
      and Slice through Front; on a nil list this is all they do, so only that is here. *)
  Inductive n_call :=
  | NClear | NGet (i : Z) | NLen | NFront | NBack | NRemove (e : ptr) | NPushFront (v : T) | NPushBack (v : T)
  | NInsertBefore (v : T) (mark : ptr) | NInsertAfter (v : T) (mark : ptr)
  | NMoveToFront (e : ptr) | NMoveToBack (e : ptr) | NMoveBefore (e mark : ptr) | NMoveAfter (e mark : ptr)
  | NPushBackList (other : ptr) | NPushFrontList (other : ptr)
  | NPushBackListTo (other mark : ptr) | NPushFrontListTo (other mark : ptr) | NSwap (a b : ptr)
  | NRange | NSlice | NSort.
  Inductive n_ret := NList (l : ptr) | NElem (e : ptr) | NInt (n : Z) | NVal (v : T) | NUnit.
  Definition n_map {A} (f : A -> n_ret) (m : N A) : N n_ret := a <- m ;; nret (f a).
  Definition n_exec (l : ptr) (c : n_call) : N n_ret :=
    match c with
    | NClear => n_map NList (n_Clear l)
    | NGet i => n_map NElem (n_Get l i)
    | NLen => n_map NInt (n_Len l)
    | NFront => n_map NElem (n_Front l)
    | NBack => n_map NElem (n_Back l)
    | NRemove e => n_map NVal (n_Remove l e)
    | NPushFront v => n_map NElem (n_PushFront l v)
    | NPushBack v => n_map NElem (n_PushBack l v)
    | NInsertBefore v m => n_map NElem (n_InsertBefore l v m)
    | NInsertAfter v m => n_map NElem (n_InsertAfter l v m)
    | NMoveToFront e => n_map (fun _ => NUnit) (n_MoveToFront l e)
    | NMoveToBack e => n_map (fun _ => NUnit) (n_MoveToBack l e)
    | NMoveBefore e m => n_map (fun _ => NUnit) (n_MoveBefore l e m)
    | NMoveAfter e m => n_map (fun _ => NUnit) (n_MoveAfter l e m)
    | NPushBackList o => n_map (fun _ => NUnit) (n_PushBackList l o)
    | NPushFrontList o => n_map (fun _ => NUnit) (n_PushFrontList l o)
    | NPushBackListTo o m => n_map (fun _ => NUnit) (n_PushBackListTo l o m)
    | NPushFrontListTo o m => n_map (fun _ => NUnit) (n_PushFrontListTo l o m)
    | NSwap a b => n_map (fun _ => NUnit) (n_Swap l a b)
    | NRange | NSlice | NSort => n_map NInt (len_of l)
    end.
End model.
Arguments n_call : clear implicits. Arguments n_ret : clear implicits.
