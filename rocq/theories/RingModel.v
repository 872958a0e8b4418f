(** Model of /repo/ring/ring.go. *)
From Verif Require Import Base.
Local Open Scope Z_scope.

(** The heap of [Ring[T]] structs (ring.go lines 3-6).  A pointer is an id or nil ([None]).
    The fields of all structs are total functions of the id; an id at or above [r_fresh] has not
    been allocated and no pointer to it exists.  [new(Ring[T])] zeroes the fields. *)
Record rheap (T : Type) := mk_rheap {
  r_next : nat -> option nat;
  r_prev : nat -> option nat;
  r_val : nat -> T;
  r_fresh : nat }.
Arguments mk_rheap {T}. Arguments r_next {T}. Arguments r_prev {T}. Arguments r_val {T}.
Arguments r_fresh {T}.

Section model.
  Context {T : Type} (zero : T).
  Notation heap := (rheap T).
  Implicit Types r p s : option nat.

  (** Field reads and writes: dereferencing nil panics. *)
  Definition get_next p : M heap (option nat) := fun h =>
    match p with Some x => Ok (r_next h x, h) | None => Panic end.
  Definition get_prev p : M heap (option nat) := fun h =>
    match p with Some x => Ok (r_prev h x, h) | None => Panic end.
  Definition get_val p : M heap T := fun h =>
    match p with Some x => Ok (r_val h x, h) | None => Panic end.
  Definition set_next p v : M heap unit := fun h =>
    match p with
    | Some x => Ok (tt, mk_rheap (<[x:=v]> (r_next h)) (r_prev h) (r_val h) (r_fresh h))
    | None => Panic end.
  Definition set_prev p v : M heap unit := fun h =>
    match p with
    | Some x => Ok (tt, mk_rheap (r_next h) (<[x:=v]> (r_prev h)) (r_val h) (r_fresh h))
    | None => Panic end.
  (** The exported field Value is written by the caller: [r.Value = v]. *)
  Definition set_val p (v : T) : M heap unit := fun h =>
    match p with
    | Some x => Ok (tt, mk_rheap (r_next h) (r_prev h) (<[x:=v]> (r_val h)) (r_fresh h))
    | None => Panic end.
  (** [new(Ring[T])] and [&Ring[T]{}] *)
  Definition alloc : M heap (option nat) := fun h =>
    Ok (Some (r_fresh h),
        mk_rheap (<[r_fresh h:=None]> (r_next h)) (<[r_fresh h:=None]> (r_prev h))
                 (<[r_fresh h:=zero]> (r_val h)) (S (r_fresh h))).

  (** ring.go lines 8-12 *)
  Definition r_init r : M heap (option nat) :=
    set_next r r ;;; set_prev r r ;;; ret r.

  (** ring.go lines 14-19 *)
  Definition r_Next r : M heap (option nat) :=
    n <- get_next r ;;
    match n with None => r_init r | Some _ => ret n end.

  (** ring.go lines 21-26 *)
  Definition r_Prev r : M heap (option nat) :=
    n <- get_next r ;;
    match n with None => r_init r | Some _ => get_prev r end.

  (** The two loops of Move, ring.go lines 33-35 and 37-39: [k] iterations remain. *)
  Fixpoint r_back (k : nat) r : M heap (option nat) :=
    match k with O => ret r | S k => p <- get_prev r ;; r_back k p end.
  Fixpoint r_forw (k : nat) r : M heap (option nat) :=
    match k with O => ret r | S k => p <- get_next r ;; r_forw k p end.

  (** ring.go lines 28-43 *)
  Definition r_Move r (n : Z) : M heap (option nat) :=
    nx <- get_next r ;;
    match nx with
    | None => r_init r
    | Some _ =>
        if n <? 0 then r_back (Z.to_nat (- n)) r
        else if n >? 0 then r_forw (Z.to_nat n) r
        else ret r
    end.

  (** The loop of New, ring.go lines 51-54: [k] nodes remain to be made, [p] is the last so far. *)
  Fixpoint r_grow (k : nat) p : M heap (option nat) :=
    match k with
    | O => ret p
    | S k => q <- alloc ;; set_prev q p ;;; set_next p q ;;; p' <- get_next p ;; r_grow k p'
    end.

  (** ring.go lines 45-58 *)
  Definition r_New (n : Z) : M heap (option nat) :=
    if n <=? 0 then ret None
    else
      r <- alloc ;;
      p <- r_grow (Z.to_nat (n - 1)) r ;;
      set_next p r ;;; set_prev r p ;;; ret r.

  (** ring.go lines 60-71 *)
  Definition r_Link r s : M heap (option nat) :=
    n <- r_Next r ;;
    match s with
    | None => ret n
    | Some _ =>
        p <- r_Prev s ;;
        set_next r s ;;; set_prev s r ;;; set_prev n p ;;; set_next p n ;;; ret n
    end.

  (** ring.go lines 73-78 *)
  Definition r_Unlink r (n : Z) : M heap (option nat) :=
    if n <=? 0 then ret None
    else s <- r_Move r (n + 1) ;; r_Link r s.

  (** The loop shared by Len (lines 84-86) and Do (lines 94-96): apply the body to [p] until
      [p == r].  [fuel] bounds the number of iterations. *)
  Fixpoint r_loop {A} (fuel : nat) r p (body : option nat -> A -> M heap A) (a : A) : M heap A :=
    match fuel with
    | O => nofuel
    | S fuel =>
        if bool_decide (p = r) then ret a
        else a' <- body p a ;; p' <- get_next p ;; r_loop fuel r p' body a'
    end.

  (** ring.go lines 80-89 *)
  Definition r_Len (fuel : nat) r : M heap Z :=
    match r with
    | None => ret 0
    | Some _ => p <- r_Next r ;; r_loop fuel r p (fun _ n => ret (n + 1)) 1
    end.

  (** ring.go lines 91-98; [f] runs in its own state [A] and does not touch rings. *)
  Definition r_Do {A} (fuel : nat) r (f : T -> A -> A) (a : A) : M heap A :=
    match r with
    | None => ret a
    | Some _ =>
        v <- get_val r ;;
        p <- r_Next r ;;
        r_loop fuel r p (fun q a => v <- get_val q ;; ret (f v a)) (f v a)
    end.

  (** Calls a program can make, on pointers it holds. *)
  Inductive ring_call :=
  | RNew (n : Z) | RZero (* [&Ring[T]{}] *)
  | RNext (r : nat) | RPrev (r : nat) | RMove (r : nat) (n : Z)
  | RLink (r : nat) (s : option nat) | RUnlink (r : nat) (n : Z)
  | RLen (r : option nat) | RDo (r : option nat) | RSet (r : nat) (v : T).
  Inductive ring_res := RPtr (p : option nat) | RInt (n : Z) | RVals (l : list T) | RUnit.

  Definition rmap {A B} (f : A -> B) (m : M heap A) : M heap B := a <- m ;; ret (f a).

  (** One call; loops get as much fuel as there are structs (plus one). *)
  Definition ring_exec (c : ring_call) : M heap ring_res := fun h =>
    let fuel := S (r_fresh h) in
    match c with
    | RNew n => rmap RPtr (r_New n) h
    | RZero => rmap RPtr alloc h
    | RNext r => rmap RPtr (r_Next (Some r)) h
    | RPrev r => rmap RPtr (r_Prev (Some r)) h
    | RMove r n => rmap RPtr (r_Move (Some r) n) h
    | RLink r s => rmap RPtr (r_Link (Some r) s) h
    | RUnlink r n => rmap RPtr (r_Unlink (Some r) n) h
    | RLen r => rmap RInt (r_Len fuel r) h
    | RDo r => rmap RVals (r_Do fuel r (fun v l => l ++ [v]) []) h
    | RSet r v => rmap (fun _ => RUnit) (set_val (Some r) v) h
    end.

  Definition empty_heap : heap := mk_rheap (fun _ => None) (fun _ => None) (fun _ => zero) 0.
End model.
