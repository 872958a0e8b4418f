(** What the array of a heap holds. *)
From Verif Require Import Base HeapArray.

(** The slice has the elements [l], and the array the cells [b] behind them. *)
Definition holds {A} (s : arr A) (l b : list A) : Prop := a_cells s = l ++ b /\ a_len s = length l.
