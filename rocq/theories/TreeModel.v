(** Model of /repo/tree/tree.go and of Max of /repo/utils. *)
From Verif Require Import Base.
Local Open Scope Z_scope.

(** All Node structs (lines 10-13): pointers are ids or nil, fields are total functions of the id,
    ids at or above [t_n] are unallocated. *)
Record tworld (T : Type) := mk_tworld {
  t_val : nat -> T;
  t_parent : nat -> option nat;
  t_left : nat -> option nat;
  t_right : nat -> option nat;
  t_n : nat }.
Arguments mk_tworld {T}. Arguments t_val {T}. Arguments t_parent {T}. Arguments t_left {T}.
Arguments t_right {T}. Arguments t_n {T}.

(** What DrawTree writes: a value printed with %v, a tab, a newline. *)
Inductive piece (T : Type) := PVal (v : T) | PTab | PNewline.
Arguments PVal {T}. Arguments PTab {T}. Arguments PNewline {T}.

Section model.
  Context {T : Type}.
  Notation W := (tworld T).
  Notation ptr := (option nat).

  (** Field access; dereferencing nil panics. *)
  Definition tget {A} (p : ptr) (f : W -> nat -> A) : M W A := fun w =>
    match p with Some x => Ok (f w x, w) | None => Panic end.
  Definition set_parent (p v : ptr) : M W unit := fun w =>
    match p with
    | Some x => Ok (tt, mk_tworld (t_val w) (<[x:=v]> (t_parent w)) (t_left w) (t_right w) (t_n w))
    | None => Panic end.
  Definition set_left (p v : ptr) : M W unit := fun w =>
    match p with
    | Some x => Ok (tt, mk_tworld (t_val w) (t_parent w) (<[x:=v]> (t_left w)) (t_right w) (t_n w))
    | None => Panic end.
  Definition set_right (p v : ptr) : M W unit := fun w =>
    match p with
    | Some x => Ok (tt, mk_tworld (t_val w) (t_parent w) (t_left w) (<[x:=v]> (t_right w)) (t_n w))
    | None => Panic end.

  (** lines 15-17 *)
  Definition NewNode (v : T) : M W ptr := fun w =>
    let x := t_n w in
    Ok (Some x, mk_tworld (<[x:=v]> (t_val w)) (<[x:=None]> (t_parent w)) (<[x:=None]> (t_left w))
                  (<[x:=None]> (t_right w)) (S x)).

  Definition not_nil (p : ptr) : bool := match p with Some _ => true | None => false end.

  (** lines 65-75 *)
  Definition SetLeft (n left : ptr) : M W ptr :=
    old <- tget n t_left ;;
    l <- tget n t_left ;;
    (if not_nil l then l <- tget n t_left ;; set_parent l None else ret tt) ;;;
    set_left n left ;;;
    (if not_nil left then set_parent left n else ret tt) ;;;
    ret old.

  (** lines 77-87 *)
  Definition SetRight (n right : ptr) : M W ptr :=
    old <- tget n t_right ;;
    r <- tget n t_right ;;
    (if not_nil r then r <- tget n t_right ;; set_parent r None else ret tt) ;;;
    set_right n right ;;;
    (if not_nil right then set_parent right n else ret tt) ;;;
    ret old.

  (** The loop of BuildTree, lines 25-38; [vs] are the values not used yet, [val[i:]]. *)
  Fixpoint build_loop (queue : list ptr) (vs : list T) : M W unit :=
    match vs with
    | [] => ret tt
    | v1 :: vs1 =>
        match queue with
        | [] => panic
        | node :: queue =>
            c1 <- NewNode v1 ;; SetLeft node c1 ;;;
            l <- tget node t_left ;;
            match vs1 with
            | [] => ret tt
            | v2 :: vs2 =>
                c2 <- NewNode v2 ;; SetRight node c2 ;;;
                r <- tget node t_right ;;
                build_loop ((queue ++ [l]) ++ [r]) vs2
            end
        end
    end.
  (** lines 19-41 *)
  Definition BuildTree (vs : list T) : M W ptr :=
    match vs with
    | [] => ret None
    | v :: vs => root <- NewNode v ;; build_loop [root] vs ;;; ret root
    end.

  (** lines 170-188 *)
  Definition HasLeft (n : ptr) : M W bool := l <- tget n t_left ;; ret (not_nil l).
  Definition HasRight (n : ptr) : M W bool := r <- tget n t_right ;; ret (not_nil r).
  Definition HasChild (n : ptr) : M W bool := b <- HasLeft n ;; if b then ret true else HasRight n.
  Definition HasBothChild (n : ptr) : M W bool := b <- HasLeft n ;; if b then HasRight n else ret false.
  Definition HasParent (n : ptr) : M W bool := p <- tget n t_parent ;; ret (not_nil p).

  (** lines 89-103 *)
  Definition IsLeaf (n : ptr) : M W bool := b <- HasChild n ;; ret (negb b).
  Definition IsRoot (n : ptr) : M W bool := b <- HasParent n ;; ret (negb b).
  Definition IsLeft (n : ptr) : M W bool :=
    b <- HasParent n ;;
    if b then p <- tget n t_parent ;; l <- tget p t_left ;; ret (bool_decide (l = n)) else ret false.
  Definition IsRight (n : ptr) : M W bool :=
    b <- HasParent n ;;
    if b then p <- tget n t_parent ;; r <- tget p t_right ;; ret (bool_decide (r = n)) else ret false.

  (** lines 105-113 *)
  Definition Sibling (n : ptr) : M W ptr :=
    b <- IsRoot n ;;
    if b then ret None
    else
      b <- IsLeft n ;;
      if b then p <- tget n t_parent ;; tget p t_right
      else p <- tget n t_parent ;; tget p t_left.
  (** lines 115-120 *)
  Definition Uncle (n : ptr) : M W ptr :=
    b <- IsRoot n ;; if b then ret None else p <- tget n t_parent ;; Sibling p.
  (** lines 122-127 *)
  Definition Grandparent (n : ptr) : M W ptr :=
    b <- IsRoot n ;; if b then ret None else p <- tget n t_parent ;; tget p t_parent.

  (** lines 129-151 *)
  Definition IsLeftRelation (n node : ptr) : M W bool :=
    if not_nil node then
      b <- IsLeft node ;; if b then p <- tget node t_parent ;; ret (bool_decide (p = n)) else ret false
    else ret false.
  Definition IsRightRelation (n node : ptr) : M W bool :=
    if not_nil node then
      b <- IsRight node ;; if b then p <- tget node t_parent ;; ret (bool_decide (p = n)) else ret false
    else ret false.
  Definition IsChildRelation (n node : ptr) : M W bool :=
    b <- IsLeftRelation n node ;; if b then ret true else IsRightRelation n node.
  Definition IsUncleRelation (n node : ptr) : M W bool := u <- Uncle n ;; ret (bool_decide (u = node)).
  Definition IsSiblingRelation (n node : ptr) : M W bool := s <- Sibling n ;; ret (bool_decide (s = node)).
  Definition IsGrandparentRelation (n node : ptr) : M W bool := g <- Grandparent n ;; ret (bool_decide (g = node)).

  (** The loop of lines 157-162 *)
  Fixpoint anc_loop (fuel : nat) (n node : ptr) : M W bool :=
    match fuel with
    | O => nofuel
    | S fuel =>
        match node with
        | None => ret false
        | Some _ => if bool_decide (node = n) then ret true else node' <- tget node t_parent ;; anc_loop fuel n node'
        end
    end.
  (** lines 153-164 *)
  Definition IsAncestorRelation (fuel : nat) (n node : ptr) : M W bool :=
    if not_nil node then anc_loop fuel n node else ret false.
  (** lines 166-168 *)
  Definition IsDescendantRelation (fuel : nat) (n node : ptr) : M W bool :=
    b <- IsAncestorRelation fuel node n ;; ret (negb b).

  (** lines 190-200 *)
  Definition HasSibling (n : ptr) : M W bool := s <- Sibling n ;; ret (not_nil s).
  Definition HasUncle (n : ptr) : M W bool := s <- Uncle n ;; ret (not_nil s).
  Definition HasGrandparent (n : ptr) : M W bool := s <- Grandparent n ;; ret (not_nil s).

  (** lines 202-210; [fuel] bounds the depth of recursion *)
  Fixpoint Layer (fuel : nat) (n : ptr) : M W Z :=
    match fuel with
    | O => nofuel
    | S fuel =>
        match n with
        | None => ret (-1)
        | Some _ =>
            b <- IsRoot n ;;
            if b then ret 0 else p <- tget n t_parent ;; k <- Layer fuel p ;; ret (k + 1)
        end
    end.

  (** utils/utils.go Max, at type int *)
  Definition go_max (a b : Z) : Z := if a >? b then a else b.
  (** lines 212-217 *)
  Fixpoint MaxDepth (fuel : nat) (n : ptr) : M W Z :=
    match fuel with
    | O => nofuel
    | S fuel =>
        match n with
        | None => ret 0
        | Some _ =>
            b <- IsLeaf n ;;
            if b then ret 0
            else
              l <- tget n t_left ;; a <- MaxDepth fuel l ;;
              r <- tget n t_right ;; b <- MaxDepth fuel r ;;
              ret (go_max a b + 1)
        end
    end.

  (** The loop of lines 225-235.  The slice [queue] is used as a stack: its top is the head of the
      list here.  Slices are local and never shared, so they are plain lists. *)
  Fixpoint dfs_loop (fuel : nat) (stack res : list ptr) : M W (list ptr) :=
    match stack with
    | [] => ret res
    | node :: stack =>
        match fuel with
        | O => nofuel
        | S fuel =>
            b <- HasRight node ;;
            stack1 <- (if b then r <- tget node t_right ;; ret (r :: stack) else ret stack) ;;
            b <- HasLeft node ;;
            stack2 <- (if b then l <- tget node t_left ;; ret (l :: stack1) else ret stack1) ;;
            dfs_loop fuel stack2 (res ++ [node])
        end
    end.
  (** lines 219-237 *)
  Definition TraversalDFS (fuel : nat) (n : ptr) : M W (list ptr) :=
    b <- IsLeaf n ;; if b then ret [n] else dfs_loop fuel [n] [].

  (** lines 248-260; [val[level] = append(val[level], n)] panics out of range *)
  Fixpoint bfs_rec (fuel : nat) (n : ptr) (val : list (list ptr)) (level : nat) : M W (list (list ptr)) :=
    match fuel with
    | O => nofuel
    | S fuel =>
        match n with
        | None => ret val
        | Some _ =>
            val1 <- (if Nat.eqb (length val) level then ret (val ++ [[n]])
                     else match val !! level with
                          | Some row => ret (<[level := row ++ [n]]> val)
                          | None => panic
                          end) ;;
            l <- tget n t_left ;; val2 <- bfs_rec fuel l val1 (S level) ;;
            r <- tget n t_right ;; bfs_rec fuel r val2 (S level)
        end
    end.
  (** lines 239-246 *)
  Definition TraversalBFS (fuel : nat) (n : ptr) : M W (list ptr) :=
    r <- bfs_rec fuel n [] 0 ;; ret (concat r).

  (** The loop of lines 47-61 *)
  Fixpoint draw_loop (nodes : list ptr) (layer count : Z) (out : list (piece T)) : M W (list (piece T)) :=
    match nodes with
    | [] => ret out
    | node :: nodes =>
        v <- tget node t_val ;;
        if layer =? 0 then draw_loop nodes (layer + 1) count (out ++ [PVal v; PNewline])
        else
          let out := out ++ [PVal v; PTab] in
          let count := count + 1 in
          if layer * 2 =? count then draw_loop nodes (layer + 1) 0 (out ++ [PNewline])
          else draw_loop nodes layer count out
    end.
  (** lines 43-63 *)
  Definition DrawTree (fuel : nat) (n : ptr) : M W (list (piece T)) :=
    nodes <- TraversalBFS fuel n ;; draw_loop nodes 0 0 [].

  Definition empty_tworld (zero : T) : W := mk_tworld (fun _ => zero) (fun _ => None) (fun _ => None) (fun _ => None) 0.
End model.
