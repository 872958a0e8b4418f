(** Go maps: references to finite tables in a world, with the key type's own [==].

    This file models the language's built-in maps (make, index, assignment, delete, clear,
    len, range) and golang.org/x/exp/maps by their documented behaviour; no file of /repo is
    modelled here. *)
From Verif Require Import Base.

Section gomap.
  Context {K V : Type}.
  (** [eqb] is the key type's [==]; for floating point it is not reflexive (NaN).
      [upd] says whether assigning to a present key also replaces the stored key (the Go
      runtime does so for strings, floats and interfaces). Both are arbitrary. *)
  Context (eqb : K -> K -> bool) (upd : bool).

  (** m[k] *)
  Fixpoint mlookup (l : list (K * V)) (k : K) : option V :=
    match l with
    | [] => None
    | (k', v) :: l' => if eqb k' k then Some v else mlookup l' k
    end.

  (** m[k] = v *)
  Fixpoint mset (l : list (K * V)) (k : K) (v : V) : list (K * V) :=
    match l with
    | [] => [(k, v)]
    | (k', v') :: l' =>
        if eqb k' k then ((if upd then k else k'), v) :: l' else (k', v') :: mset l' k v
    end.

  (** delete(m, k) *)
  Fixpoint mdel (l : list (K * V)) (k : K) : list (K * V) :=
    match l with
    | [] => []
    | (k', v') :: l' => if eqb k' k then l' else (k', v') :: mdel l' k
    end.

  (** All maps of a program, by reference; [next] is the first unused reference and
      [its] counts the iterations started so far. *)
  Record world := World {
    tables : gmap nat (list (K * V));
    next : nat;
    its : nat
  }.

  (** A map value: nil or a reference. *)
  Definition ref := option nat.

  (** Order of the entries in the n-th iteration: arbitrary (an oracle). *)
  Context (ord : nat -> list (K * V) -> list (K * V)).

  Definition content (w : world) (r : ref) : list (K * V) :=
    match r with
    | None => []
    | Some n => default [] (tables w !! n)
    end.

  Definition go_make : M world ref :=
    fun w => Ok (Some (next w), World (<[next w := []]> (tables w)) (S (next w)) (its w)).

  Definition go_len (r : ref) : M world nat :=
    fun w => Ok (length (content w r), w).

  Definition go_get (r : ref) (k : K) : M world (option V) :=
    fun w => Ok (mlookup (content w r) k, w).

  (** Assignment to an entry of a nil map panics. *)
  Definition go_set (r : ref) (k : K) (v : V) : M world unit :=
    fun w => match r with
             | None => Panic
             | Some n => Ok (tt, World (<[n := mset (content w r) k v]> (tables w)) (next w) (its w))
             end.

  Definition go_delete (r : ref) (k : K) : M world unit :=
    fun w => match r with
             | None => Ok (tt, w)
             | Some n => Ok (tt, World (<[n := mdel (content w r) k]> (tables w)) (next w) (its w))
             end.

  Definition go_clear (r : ref) : M world unit :=
    fun w => match r with
             | None => Ok (tt, w)
             | Some n => Ok (tt, World (<[n := []]> (tables w)) (next w) (its w))
             end.

  (** The entries an iteration starting now will visit, in order. Simplification: entries
      added to or removed from the same map by the loop body do not change the rest of the
      iteration (Go allows either for additions; the loops modelled here only ever remove
      the entry being visited). *)
  Definition go_range (r : ref) : M world (list (K * V)) :=
    fun w => Ok (ord (its w) (content w r), World (tables w) (next w) (S (its w))).

  (** for _, x := range l { body } *)
  Fixpoint for_each {A} (l : list A) (body : A -> M world unit) : M world unit :=
    match l with
    | [] => ret tt
    | x :: l' => body x ;;; for_each l' body
    end.

  (** A loop whose body may leave it: the body returns false to stop. [S] is the state of
      the variables the body captures. *)
  Fixpoint for_while {A S} (l : list A) (body : A -> S -> M world (bool * S)) (s : S)
    : M world (bool * S) :=
    match l with
    | [] => ret (true, s)
    | x :: l' =>
        r <- body x s ;;
        if fst r then for_while l' body (snd r) else ret (false, snd r)
    end.

  (** maps.Keys *)
  Definition maps_Keys (r : ref) : M world (list K) :=
    es <- go_range r ;; ret (map fst es).
  (** maps.Values *)
  Definition maps_Values (r : ref) : M world (list V) :=
    es <- go_range r ;; ret (map snd es).
  (** maps.Clone: nil stays nil. *)
  Definition maps_Clone (r : ref) : M world ref :=
    fun w => match r with
             | None => Ok (None, w)
             | Some n => Ok (Some (next w),
                 World (<[next w := content w r]> (tables w)) (S (next w)) (its w))
             end.
  (** maps.Copy(dst, src) *)
  Definition maps_Copy (dst src : ref) : M world unit :=
    es <- go_range src ;; for_each es (fun e => go_set dst (fst e) (snd e)).
  (** maps.Clear *)
  Definition maps_Clear (r : ref) : M world unit := go_clear r.
  (** maps.EqualFunc(m1, m2, eq); maps.Equal is the instance where [eq] is [==]. *)
  Definition maps_EqualFunc (m1 m2 : ref) (eq : V -> V -> bool) : M world bool :=
    n1 <- go_len m1 ;; n2 <- go_len m2 ;;
    if negb (Nat.eqb n1 n2) then ret false else
    es <- go_range m1 ;;
    r <- for_while es (fun e (_ : unit) =>
           o <- go_get m2 (fst e) ;;
           ret (match o with Some v2 => eq (snd e) v2 | None => false end, tt)) tt ;;
    ret (fst r).
  (** maps.DeleteFunc(m, del) *)
  Definition maps_DeleteFunc (m : ref) (del : K -> V -> bool) : M world unit :=
    es <- go_range m ;;
    for_each es (fun e => if del (fst e) (snd e) then go_delete m (fst e) else ret tt).
End gomap.
Arguments world : clear implicits.
