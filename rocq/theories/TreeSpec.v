(** Specification vocabulary for trees: finite binary trees of node ids. *)
From Verif Require Import Base TreeModel.

Inductive btree := Leaf | Node (l : btree) (x : nat) (r : btree).

Definition root (t : btree) : option nat := match t with Leaf => None | Node _ x _ => Some x end.
Fixpoint preorder (t : btree) : list nat :=
  match t with Leaf => [] | Node l x r => x :: preorder l ++ preorder r end.
(** The nodes at depth d, left to right. *)
Fixpoint row (d : nat) (t : btree) : list nat :=
  match t, d with
  | Leaf, _ => []
  | Node l x r, O => [x]
  | Node l x r, S d => row d l ++ row d r
  end.
Fixpoint size (t : btree) : nat := match t with Leaf => 0 | Node l _ r => S (size l + size r) end.
(** The number of rows. *)
Fixpoint rows (t : btree) : nat := match t with Leaf => 0 | Node l _ r => S (Nat.max (rows l) (rows r)) end.
Definition level_order (t : btree) : list nat := concat (map (fun d => row d t) (seq 0 (rows t))).

(** [sub s t]: s is a subtree of t. *)
Inductive sub (s : btree) : btree -> Prop :=
| sub_here : sub s s
| sub_left l x r : sub s l -> sub s (Node l x r)
| sub_right l x r : sub s r -> sub s (Node l x r).

(** Genealogy in a tree *)
Definition left_child (t : btree) (p c : nat) : Prop := exists l r r', sub (Node (Node l c r) p r') t.
Definition right_child (t : btree) (p c : nat) : Prop := exists l r l', sub (Node l' p (Node l c r)) t.
Definition child (t : btree) (p c : nat) : Prop := left_child t p c \/ right_child t p c.
Definition siblings (t : btree) (a b : nat) : Prop :=
  exists p, (left_child t p a /\ right_child t p b) \/ (right_child t p a /\ left_child t p b).
Definition uncle (t : btree) (x u : nat) : Prop := exists p, child t p x /\ siblings t p u.
Definition grandparent (t : btree) (x g : nat) : Prop := exists p, child t p x /\ child t g p.
(** [y] is [x] or below it. *)
Definition below (t : btree) (x y : nat) : Prop := exists l r, sub (Node l x r) t /\ y ∈ preorder (Node l x r).

Section spec.
  Context {T : Type}.
  Implicit Types (w : tworld T).

  (** The structs reached from pointer [n], whose node has parent [p], form exactly the tree [t]. *)
  Fixpoint rep w (p n : option nat) (t : btree) : Prop :=
    match t with
    | Leaf => n = None
    | Node l x r => n = Some x /\ t_parent w x = p /\ rep w (Some x) (t_left w x) l /\ rep w (Some x) (t_right w x) r
    end.
  (** [t] is a whole tree of the program: no node twice, the root has no parent. *)
  Definition whole w (t : btree) : Prop := rep w None (root t) t /\ NoDup (preorder t).

  (** All structs of the program are the whole trees [ts]. *)
  Definition forest w (ts : list btree) : Prop :=
    (forall t, t ∈ ts -> t <> Leaf /\ rep w None (root t) t) /\
    NoDup (concat (map preorder ts)) /\ (forall x, x ∈ concat (map preorder ts) <-> x < t_n w).

  (** [t] with the left (or right) subtree of [n] replaced by [s], and that subtree. *)
  Fixpoint put (lft : bool) (n : nat) (s t : btree) : btree :=
    match t with
    | Leaf => Leaf
    | Node l x r =>
        if Nat.eqb x n then (if lft then Node s x r else Node l x s)
        else Node (put lft n s l) x (put lft n s r)
    end.
  Fixpoint child_of (lft : bool) (n : nat) (t : btree) : btree :=
    match t with
    | Leaf => Leaf
    | Node l x r =>
        if Nat.eqb x n then (if lft then l else r)
        else match child_of lft n l with Leaf => child_of lft n r | s => s end
    end.
  Definition opt_tree (t : btree) : list btree := match t with Leaf => [] | _ => [t] end.

  (** Histories of NewNode, SetLeft and SetRight, in which a child is attached only if it is nil or
      the root of a tree that does not contain the new parent. *)
  Inductive t_call := CNew (v : T) | CSetLeft (n : nat) (c : option nat) | CSetRight (n : nat) (c : option nat).
  Definition t_exec (c : t_call) : M (tworld T) (option nat) :=
    match c with CNew v => NewNode v | CSetLeft n c => SetLeft (Some n) c | CSetRight n c => SetRight (Some n) c end.
  (** What a call does to the trees. *)
  Definition t_does (c : t_call) w (r : option nat) w' : Prop :=
    match c with
    | CNew v => r = Some (t_n w) /\ t_val w' (t_n w) = v /\
        forall ts, forest w ts -> forest w' (Node Leaf (t_n w) Leaf :: ts)
    | CSetLeft n c => forall ts, forest w ts -> exists t1 t2 rest,
        ts ≡ₚ t1 :: opt_tree t2 ++ rest /\ n ∈ preorder t1 /\ root t2 = c /\
        r = root (child_of true n t1) /\ forest w' (put true n t2 t1 :: opt_tree (child_of true n t1) ++ rest)
    | CSetRight n c => forall ts, forest w ts -> exists t1 t2 rest,
        ts ≡ₚ t1 :: opt_tree t2 ++ rest /\ n ∈ preorder t1 /\ root t2 = c /\
        r = root (child_of false n t1) /\ forest w' (put false n t2 t1 :: opt_tree (child_of false n t1) ++ rest)
    end.
  (** The root above a node, found in the structs. *)
  Inductive has_root w : nat -> nat -> Prop :=
  | hr_here x : t_parent w x = None -> has_root w x x
  | hr_up x y z : t_parent w x = Some y -> has_root w y z -> has_root w x z.
  Definition t_ok w (c : t_call) : Prop :=
    match c with
    | CNew _ => True
    | CSetLeft n c | CSetRight n c =>
        n < t_n w /\ match c with None => True | Some c => c < t_n w /\ t_parent w c = None /\ ~ has_root w n c end
    end.
  Inductive t_history : tworld T -> list t_call -> tworld T -> Prop :=
  | th_nil w : t_history w [] w
  | th_cons w c r w1 cs w2 : t_ok w c -> t_exec c w = Ok (r, w1) -> t_history w1 cs w2 -> t_history w (c :: cs) w2.

  (** What DrawTree prints for the values in level order after the first: lines of 2, 4, 6, ... *)
  Fixpoint lines (fuel : nat) (k : nat) (vs : list T) : list (piece T) :=
    match fuel with
    | O => []
    | S fuel =>
        if length vs <? 2 * k then flat_map (fun v => [PVal v; PTab]) vs
        else flat_map (fun v => [PVal v; PTab]) (take (2 * k) vs) ++ PNewline :: lines fuel (S k) (drop (2 * k) vs)
    end.
  Definition drawn (vs : list T) : list (piece T) :=
    match vs with [] => [] | v :: vs => PVal v :: PNewline :: lines (S (length vs)) 1 vs end.
  (** The values on the lines of an output. *)
  Fixpoint split_lines (cur : list T) (ps : list (piece T)) : list (list T) :=
    match ps with
    | [] => match cur with [] => [] | _ => [cur] end
    | PVal v :: ps => split_lines (cur ++ [v]) ps
    | PTab :: ps => split_lines cur ps
    | PNewline :: ps => cur :: split_lines [] ps
    end.
  (** What C58 asks for: line d holds the values of row d. *)
  Definition one_row_per_line w (t : btree) (ps : list (piece T)) : Prop :=
    split_lines [] ps = map (fun d => map (t_val w) (row d t)) (seq 0 (rows t)).
End spec.
Arguments t_call : clear implicits.
