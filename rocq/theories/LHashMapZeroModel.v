(** The methods of /repo/lhashmap/lhashmap.go on an Lhashmap whose fields m and l can be nil, as they are in one
    that New did not make (lines 6-9).

    The functions are those of LHashMapModel.v with the receiver's fields as they are and with the structs as a
    panic leaves them; the methods of the list are those of DllistNilModel.v.  Given an Lhashmap whose fields are
    not nil they do what those of LHashMapModel.v do (C218_agree). *)
From Verif Require Import Base GoMap DllistModel DllistNilModel LHashMapModel.
Local Open Scope Z_scope.

(** As [lhm], with a nil m and a nil l ([None]). *)
Record zlhm (K V : Type) := mk_zlhm {
  z_d : dworld (option nat);
  z_ent : nat -> K * V;
  z_nent : nat;
  z_m : option (list (K * nat));
  z_l : option nat }.
Arguments mk_zlhm {K V}. Arguments z_d {K V}. Arguments z_ent {K V}. Arguments z_nent {K V}.
Arguments z_m {K V}. Arguments z_l {K V}.

Section model.
  Context {K V : Type} (eqb : K -> K -> bool) (upd : bool) (zero : V).
  Notation W := (zlhm K V).
  Notation ptr := (option nat).

  (** Code that may panic and leaves the structs in any case. *)
  Definition ZM (A : Type) : Type := W -> option A * W.
  Definition zret {A} (a : A) : ZM A := fun w => (Some a, w).
  Definition zpanic {A} : ZM A := fun w => (None, w).
  Definition zbind {A B} (m : ZM A) (f : A -> ZM B) : ZM B := fun w =>
    match m w with (Some a, w1) => f a w1 | (None, w1) => (None, w1) end.
  Local Notation "x <- m ;; k" := (zbind m (fun x => k)) (at level 100, m at next level, right associativity).
  Local Notation "m ;;; k" := (zbind m (fun _ => k)) (at level 100, right associativity).

  (** A method of the list. *)
  Definition zd {A} (n : N (T := ptr) A) : ZM A := fun w =>
    let '(o, d) := n (z_d w) in (o, mk_zlhm d (z_ent w) (z_nent w) (z_m w) (z_l w)).
  Definition z_list : ZM ptr := fun w => (Some (z_l w), w).
  (** element, ok := l.m[key]; a nil map has no entries. *)
  Definition z_get (k : K) : ZM ptr := fun w => (Some (mlookup eqb (default [] (z_m w)) k), w).
  (** l.m[key] = element; a nil map panics. *)
  Definition z_put (k : K) (e : nat) : ZM unit := fun w =>
    match z_m w with
    | Some m => (Some tt, mk_zlhm (z_d w) (z_ent w) (z_nent w) (Some (mset eqb upd m k e)) (z_l w))
    | None => (None, w)
    end.
  (** delete(l.m, key); nothing happens to a nil map. *)
  Definition z_del (k : K) : ZM unit := fun w =>
    (Some tt, mk_zlhm (z_d w) (z_ent w) (z_nent w) ((fun m => mdel eqb m k) <$> z_m w) (z_l w)).
  (** l.m = make(...) *)
  Definition z_make : ZM unit := fun w => (Some tt, mk_zlhm (z_d w) (z_ent w) (z_nent w) (Some []) (z_l w)).
  (** &entry{k, v}; the entry behind a pointer; writing its v *)
  Definition z_new_ent (k : K) (v : V) : ZM ptr := fun w =>
    (Some (Some (z_nent w)), mk_zlhm (z_d w) (<[z_nent w := (k, v)]> (z_ent w)) (S (z_nent w)) (z_m w) (z_l w)).
  Definition z_rd_ent (p : ptr) : ZM (K * V) := fun w =>
    match p with Some x => (Some (z_ent w x), w) | None => (None, w) end.
  Definition z_wr_ent_v (p : ptr) (v : V) : ZM unit := fun w =>
    match p with
    | Some x => (Some tt, mk_zlhm (z_d w) (<[x := (fst (z_ent w x), v)]> (z_ent w)) (z_nent w) (z_m w) (z_l w))
    | None => (None, w)
    end.

  (** Lines 39-45 *)
  Definition z_Load (k : K) : ZM (V * bool) :=
    o <- z_get k ;;
    match o with
    | Some e =>
        l <- z_list ;; zd (n_MoveToFront l (Some e)) ;;;
        p <- zd (one (rd (Some e) e_val)) ;; kv <- z_rd_ent p ;; zret (snd kv, true)
    | None => zret (zero, false)
    end.
  (** Lines 47-55 *)
  Definition z_Store (k : K) (v : V) : ZM unit :=
    o <- z_get k ;;
    match o with
    | Some e =>
        p <- zd (one (rd (Some e) e_val)) ;; z_wr_ent_v p v ;;;
        l <- z_list ;; zd (n_MoveToFront l (Some e))
    | None =>
        p <- z_new_ent k v ;; l <- z_list ;; oe <- zd (n_PushFront l p) ;;
        match oe with Some e => z_put k e | None => zpanic end
    end.
  (** Lines 57-62 *)
  Definition z_Remove (k : K) : ZM unit :=
    o <- z_get k ;;
    match o with
    | Some e => l <- z_list ;; zd (n_Remove l (Some e)) ;;; z_del k
    | None => zret tt
    end.
  (** Lines 64-66: len(l.m) *)
  Definition z_Len : ZM Z := fun w => (Some (Z.of_nat (length (default [] (z_m w)))), w).
  (** Lines 68-74, with a callback that leaves the map alone; the pairs it was given are returned.  [fuel] bounds the
      turns of the loop; z_exec gives enough of it wherever lh_exec does. *)
  Fixpoint z_range_loop (fuel : nat) (e : ptr) (f : K -> V -> bool) (seen : list (K * V)) : ZM (list (K * V)) :=
    match fuel with
    | O => zpanic
    | S fuel =>
        match e with
        | None => zret seen
        | Some _ =>
            p <- zd (one (rd e e_val)) ;; kv <- z_rd_ent p ;;
            let seen := seen ++ [(fst kv, snd kv)] in
            if f (fst kv) (snd kv) then e' <- zd (n_ElNext e) ;; z_range_loop fuel e' f seen else zret seen
        end
    end.
  Definition z_Range (fuel : nat) (f : K -> V -> bool) : ZM (list (K * V)) :=
    l <- z_list ;; e <- zd (n_Front l) ;; z_range_loop fuel e f [].
  (** Lines 76-79 *)
  Definition z_Clear : ZM unit := z_make ;;; l <- z_list ;; zd (n_Clear l) ;;; zret tt.

  Definition zmap {A B} (f : A -> B) (m : ZM A) : ZM B := a <- m ;; zret (f a).
  Definition z_exec (c : lh_call K V) : ZM (lh_res K V) := fun w =>
    match c with
    | LLoad k => zmap (fun r => LVal (fst r) (snd r)) (z_Load k) w
    | LStore k v => zmap (fun _ => LUnit) (z_Store k v) w
    | LRemove k => zmap (fun _ => LUnit) (z_Remove k) w
    | LLen => zmap LInt z_Len w
    | LRange f => zmap LSeen (z_Range (S (n_elems (z_d w))) f) w
    | LClear => zmap (fun _ => LUnit) z_Clear w
    end.
  (** Calls one after the other, panics recovered, with what they return ([None]: a panic). *)
  Fixpoint z_run (cs : list (lh_call K V)) (w : W) : list (option (lh_res K V)) * W :=
    match cs with
    | [] => ([], w)
    | c :: cs => let '(o, w1) := z_exec c w in let '(os, w2) := z_run cs w1 in (o :: os, w2)
    end.
End model.
