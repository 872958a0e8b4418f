(** What a list keeps in memory: the structs that can be reached from it along pointers. *)
From Verif Require Import Base DllistModel DllistSpec LHashMapModel LHashMapSpec.

(** A struct of dllist: a list with its root (dllist.go lines 5-10), or an element (element.go
    lines 3-9).  What the values of type T point to is left out. *)
Inductive cell := List (l : nat) | Elem (e : nat).

Section spec.
  Context {T : Type}.
  Implicit Types (w : dworld T) (a b c : cell).

  (** One struct holds a pointer to another.  The root is a part of its list, so a pointer to
      either of the two keeps both. *)
  Inductive points w : cell -> cell -> Prop :=
  | po_root l : points w (List l) (Elem (l_root w l))
  | po_whole l : l < n_lists w -> points w (Elem (l_root w l)) (List l)
  | po_next e e' : e_next w e = Some e' -> points w (Elem e) (Elem e')
  | po_prev e e' : e_prev w e = Some e' -> points w (Elem e) (Elem e')
  | po_list e l : e_list w e = Some l -> points w (Elem e) (List l).
  (** [keeps w a b]: a holds pointers that lead to b. *)
  Definition keeps w : cell -> cell -> Prop := rtc (points w).

  (** The structs of one list. *)
  Definition of_list w (l : nat) c : Prop :=
    c = List l \/ c = Elem (l_root w l) \/ exists e, c = Elem e /\ e ∈ dseq (dabs w) l.
  (** No list has the element e. *)
  Definition no_list_has w (e : nat) : Prop := forall l, dlists (dabs w) l -> e ∉ dseq (dabs w) l.
End spec.

(** The structs of lhashmap: those of its list, and the entries (lhashmap.go lines 6-14). *)
Inductive lcell := Map | Cell (c : cell) | Entry (p : nat).

Section lspec.
  Context {K V : Type} (zero_k : K) (zero : V).
  Implicit Types (w : lhm K V).
  Inductive lpoints w : lcell -> lcell -> Prop :=
  | lp_list : lpoints w Map (Cell (List (lh_l w)))
  | lp_table k e : (k, e) ∈ lh_m w -> lpoints w Map (Cell (Elem e))
  | lp_value e p : e_val (lh_d w) e = Some p -> lpoints w (Cell (Elem e)) (Entry p)
  | lp_cell c c' : points (lh_d w) c c' -> lpoints w (Cell c) (Cell c').
  Definition lkeeps w : lcell -> lcell -> Prop := rtc (lpoints w).
End lspec.
