(** Model of /repo/lhashmap/lhashmap.go. *)
From Verif Require Import Base GoMap DllistModel.
Local Open Scope Z_scope.

(** One Lhashmap (lines 6-9) with everything it points to: the elements and the list (a world of
    dllist, whose values are pointers to entries), the entry structs (lines 11-14), the table m and
    the list l.  Simplification: each Lhashmap has a world of its own.  That is faithful, because no
    element or entry pointer ever leaves it. *)
Record lhm (K V : Type) := mk_lhm {
  lh_d : dworld (option nat);
  lh_ent : nat -> K * V;
  lh_nent : nat;
  lh_m : list (K * nat);
  lh_l : nat }.
Arguments mk_lhm {K V}. Arguments lh_d {K V}. Arguments lh_ent {K V}. Arguments lh_nent {K V}.
Arguments lh_m {K V}. Arguments lh_l {K V}.

Section model.
  Context {K V : Type} (eqb : K -> K -> bool) (upd : bool) (zero_k : K) (zero : V).
  Notation W := (lhm K V).
  Notation ptr := (option nat).

  (** A call of dllist. *)
  Definition ld {A} (m : M (dworld ptr) A) : M W A := fun w =>
    match m (lh_d w) with
    | Ok (a, d) => Ok (a, mk_lhm d (lh_ent w) (lh_nent w) (lh_m w) (lh_l w))
    | Panic => Panic
    | NoFuel => NoFuel
    end.
  Definition the_list : M W nat := fun w => Ok (lh_l w, w).
  (** l.m[key], l.m[key] = e, delete(l.m, key), l.m = make(...): the table is never nil. *)
  Definition tab_get (k : K) : M W ptr := fun w => Ok (mlookup eqb (lh_m w) k, w).
  Definition set_tab (m : list (K * nat)) : M W unit := fun w =>
    Ok (tt, mk_lhm (lh_d w) (lh_ent w) (lh_nent w) m (lh_l w)).
  Definition the_tab : M W (list (K * nat)) := fun w => Ok (lh_m w, w).
  (** &entry{k: k, v: v}; reading an entry; p.v = v *)
  Definition new_ent (k : K) (v : V) : M W ptr := fun w =>
    Ok (Some (lh_nent w), mk_lhm (lh_d w) (<[lh_nent w := (k, v)]> (lh_ent w)) (S (lh_nent w)) (lh_m w) (lh_l w)).
  Definition rd_ent (p : ptr) : M W (K * V) := fun w =>
    match p with Some x => Ok (lh_ent w x, w) | None => Panic end.
  Definition wr_ent_v (p : ptr) (v : V) : M W unit := fun w =>
    match p with
    | Some x => Ok (tt, mk_lhm (lh_d w) (<[x := (fst (lh_ent w x), v)]> (lh_ent w)) (lh_nent w) (lh_m w) (lh_l w))
    | None => Panic
    end.

  (** lines 26-37.  The options (WithCap, lines 18-24) only choose a capacity, which the language
      does not let a program observe: they are left out. *)
  Definition lh_blank : W := mk_lhm (empty_dworld None) (fun _ => (zero_k, zero)) 0 [] 0.
  Definition lh_New : res (unit * W) :=
    (l <- ld (dl_New None) ;;
     fun w => Ok (tt, mk_lhm (lh_d w) (lh_ent w) (lh_nent w) [] l)) lh_blank.

  (** lines 39-45 *)
  Definition lh_Load (k : K) : M W (V * bool) :=
    o <- tab_get k ;;
    match o with
    | Some e =>
        l <- the_list ;; ld (dl_MoveToFront l (Some e)) ;;;
        p <- ld (rd (Some e) e_val) ;; kv <- rd_ent p ;; ret (snd kv, true)
    | None => ret (zero, false)
    end.

  (** lines 47-55 *)
  Definition lh_Store (k : K) (v : V) : M W unit :=
    o <- tab_get k ;;
    match o with
    | Some e =>
        p <- ld (rd (Some e) e_val) ;; wr_ent_v p v ;;;
        l <- the_list ;; ld (dl_MoveToFront l (Some e))
    | None =>
        p <- new_ent k v ;; l <- the_list ;; oe <- ld (dl_PushFront l p) ;;
        match oe with
        | Some e => m <- the_tab ;; set_tab (mset eqb upd m k e)
        | None => panic
        end
    end.

  (** lines 57-62 *)
  Definition lh_Remove (k : K) : M W unit :=
    o <- tab_get k ;;
    match o with
    | Some e => l <- the_list ;; ld (dl_Remove l (Some e)) ;;; m <- the_tab ;; set_tab (mdel eqb m k)
    | None => ret tt
    end.

  (** lines 64-66 *)
  Definition lh_Len : M W Z := m <- the_tab ;; ret (Z.of_nat (length m)).

  (** lines 68-74.  The callback may itself call methods of the map, and carries a state [A]. *)
  Fixpoint lh_range_loop {A} (fuel : nat) (e : ptr) (f : K -> V -> A -> M W (bool * A)) (a : A) : M W A :=
    match fuel with
    | O => nofuel
    | S fuel =>
        match e with
        | None => ret a
        | Some _ =>
            p <- ld (rd e e_val) ;; kv <- rd_ent p ;;
            ba <- f (fst kv) (snd kv) a ;;
            if fst ba then e' <- ld (el_Next e) ;; lh_range_loop fuel e' f (snd ba) else ret (snd ba)
        end
    end.
  Definition lh_Range {A} (fuel : nat) (f : K -> V -> A -> M W (bool * A)) (a : A) : M W A :=
    l <- the_list ;; e <- ld (dl_Front l) ;; lh_range_loop fuel e f a.

  (** lines 76-79 *)
  Definition lh_Clear : M W unit :=
    set_tab [] ;;; l <- the_list ;; ld (dl_Clear l) ;;; ret tt.

  (** Calls a program can make; LRange gets a callback that looks at key and value. *)
  Inductive lh_call :=
  | LLoad (k : K) | LStore (k : K) (v : V) | LRemove (k : K) | LLen | LRange (f : K -> V -> bool) | LClear.
  Inductive lh_res :=
  | LVal (v : V) (ok : bool) | LUnit | LInt (n : Z) | LSeen (l : list (K * V)).
  Definition lmap {A B} (f : A -> B) (m : M W A) : M W B := a <- m ;; ret (f a).
  Definition note (f : K -> V -> bool) (k : K) (v : V) (seen : list (K * V)) : M W (bool * list (K * V)) :=
    ret (f k v, seen ++ [(k, v)]).
  Definition lh_exec (c : lh_call) : M W lh_res := fun w =>
    match c with
    | LLoad k => lmap (fun r => LVal (fst r) (snd r)) (lh_Load k) w
    | LStore k v => lmap (fun _ => LUnit) (lh_Store k v) w
    | LRemove k => lmap (fun _ => LUnit) (lh_Remove k) w
    | LLen => lmap LInt lh_Len w
    | LRange f => lmap LSeen (lh_Range (S (n_elems (lh_d w))) (note f) []) w
    | LClear => lmap (fun _ => LUnit) lh_Clear w
    end.
End model.
Arguments lh_call : clear implicits.
Arguments lh_res : clear implicits.
