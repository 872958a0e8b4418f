(** The slice types of /repo/heap/minheap.go, maxheap.go and /repo/pqueue/minqueue.go, maxqueue.go (the
    methods are the same, lines 9-30 of the former two, 9-32 of the latter) with the array behind the
    slice.  HeapModel.v has only the elements of the slice; here the state is the array up to the
    capacity and the length of the slice, so that what [Pop] leaves in the array can be seen.
    [append] works in place when the capacity allows; otherwise it makes a new array with room for an
    arbitrary number of further elements, zero at first. *)
From Verif Require Import Base HeapModel HeapIface.
Local Open Scope Z_scope.

Record arr (A : Type) : Type := Arr { a_cells : list A; a_len : nat }.
Arguments Arr {A}. Arguments a_cells {A}. Arguments a_len {A}.

Section model.
  Context {A : Type} (zero : A) (growth : nat -> nat) (less : A -> A -> bool).
  (** The elements of the slice. *)
  Definition a_elems (s : arr A) : list A := take (a_len s) (a_cells s).
  (** Len, Less: minheap.go:9-15 *)
  Definition a_Len (s : arr A) : Z := Z.of_nat (a_len s).
  Definition a_Less (i j : Z) (s : arr A) : res (bool * arr A) := b <-! h_less less (a_elems s) i j;; Ok (b, s).
  (** Swap: minheap.go:17-19 *)
  Definition a_Swap (i j : Z) (s : arr A) : res (arr A) :=
    l <-! h_swap (a_elems s) i j;; Ok (Arr (l ++ drop (a_len s) (a_cells s)) (a_len s)).
  (** Push: minheap.go:21-23 *)
  Definition a_Push (x : A) (s : arr A) : res (arr A) :=
    if (a_len s <? length (a_cells s))%nat then Ok (Arr (<[a_len s := x]> (a_cells s)) (S (a_len s)))
    else Ok (Arr (a_elems s ++ x :: replicate (growth (a_len s)) zero) (S (a_len s))).
  (** Pop: minheap.go:25-30 *)
  Definition a_Pop (s : arr A) : res (A * arr A) :=
    let n := a_Len s in
    match getZ (a_elems s) (n - 1) with
    | Some x => Ok (x, Arr (a_cells s) (Z.to_nat (n - 1)))
    | None => Panic
    end.
  Definition arr_iface : iface (arr A) A := Iface a_Len a_Less a_Swap a_Push a_Pop.
End model.
