(** Model of /repo/heap (heap.go, minheap.go, maxheap.go).

    The heap algorithms are generic over the interface [Interface[T]] (heap.go:7-11).
    The model instantiates it with the representation used by every implementation in
    the repository ([MinHeap], [MaxHeap], [minqueue], [maxqueue]): a slice whose
    [Less(i,j)] compares the elements at the two indices. Simplification: [int] is
    unbounded, so the overflow guard [j1 < 0] of heap.go:64 can only fire for a
    negative start index. *)
From Verif Require Import Base.
Local Open Scope Z_scope.

Section heap.
  Context {A : Type} (less : A -> A -> bool).

  (** minheap.go:9-11, maxheap.go:9-11 *)
  Definition h_len (h : list A) : Z := Z.of_nat (length h).

  (** minheap.go:13-15, maxheap.go:13-15: compares two elements by index. *)
  Definition h_less (h : list A) (i j : Z) : res bool :=
    match getZ h i, getZ h j with
    | Some x, Some y => Ok (less x y)
    | _, _ => Panic
    end.

  (** minheap.go:17-19, maxheap.go:17-19 *)
  Definition h_swap (h : list A) (i j : Z) : res (list A) :=
    match getZ h i, getZ h j with
    | Some x, Some y => Ok (<[Z.to_nat j := x]> (<[Z.to_nat i := y]> h))
    | _, _ => Panic
    end.

  (** minheap.go:21-23, maxheap.go:21-23 *)
  Definition h_push (h : list A) (x : A) : list A := h ++ [x].

  (** minheap.go:25-30, maxheap.go:25-30: takes the last element off. *)
  Definition h_pop (h : list A) : res (A * list A) :=
    let n := h_len h in
    match getZ h (n - 1) with
    | Some x => Ok (x, take (Z.to_nat (n - 1)) h)
    | None => Panic
    end.

  (** heap.go:49-58. Go's [/] truncates, hence [Z.quot]. *)
  Fixpoint up (fuel : nat) (h : list A) (j : Z) : res (list A) :=
    match fuel with
    | O => NoFuel
    | S f =>
        let i := Z.quot (j - 1) 2 in
        if (i =? j) then Ok h
        else b <-! h_less h j i;;
             if negb b then Ok h
             else h' <-! h_swap h i j;; up f h' i
    end.

  (** heap.go:60-78, the loop; returns the slice and the final [i]. *)
  Fixpoint down_loop (fuel : nat) (h : list A) (i n : Z) : res (list A * Z) :=
    match fuel with
    | O => NoFuel
    | S f =>
        let j1 := 2 * i + 1 in
        if (n <=? j1) || (j1 <? 0) then Ok (h, i)
        else
          let j2 := j1 + 1 in
          b2 <-! (if j2 <? n then h_less h j2 j1 else Ok false);;
          let j := if (b2 : bool) then j2 else j1 in
          b <-! h_less h j i;;
          if negb b then Ok (h, i)
          else h' <-! h_swap h i j;; down_loop f h' j n
    end.

  (** heap.go:60-78 *)
  Definition down (h : list A) (i0 n : Z) : res (list A * bool) :=
    '(h', i) <-! down_loop (S (length h)) h i0 n;; Ok (h', i0 <? i).

  (** up with the fuel that the theorems show to suffice. *)
  Definition up_ (h : list A) (j : Z) : res (list A) := up (S (Z.to_nat j)) h j.

  (** heap.go:13-18, the loop [for i := n/2 - 1; i >= 0; i--]. *)
  Fixpoint init_loop (cnt : nat) (h : list A) (n : Z) : res (list A) :=
    match cnt with
    | O => Ok h
    | S i => '(h', _) <-! down h (Z.of_nat i) n;; init_loop i h' n
    end.
  Definition heap_Init (h : list A) : res (list A) :=
    init_loop (Z.to_nat (Z.quot (h_len h) 2)) h (h_len h).

  (** heap.go:20-23 *)
  Definition heap_Push (h : list A) (x : A) : res (list A) :=
    let h := h_push h x in up_ h (h_len h - 1).

  (** heap.go:25-30 *)
  Definition heap_Pop (h : list A) : res (A * list A) :=
    let n := h_len h - 1 in
    h1 <-! h_swap h 0 n;;
    '(h2, _) <-! down h1 0 n;;
    h_pop h2.

  (** heap.go:32-41 *)
  Definition heap_Remove (h : list A) (i : Z) : res (A * list A) :=
    let n := h_len h - 1 in
    if negb (n =? i) then
      h1 <-! h_swap h i n;;
      '(h2, moved) <-! down h1 i n;;
      h3 <-! (if negb moved then up_ h2 i else Ok h2);;
      h_pop h3
    else h_pop h.

  (** heap.go:43-47 *)
  Definition heap_Fix (h : list A) (i : Z) : res (list A) :=
    '(h1, moved) <-! down h i (h_len h);;
    if negb moved then up_ h1 i else Ok h1.

  (** A client popping until the heap is empty (the loop of
      heap/example_pq_test.go:73-76); [k] bounds the number of pops. *)
  Fixpoint pop_all (k : nat) (h : list A) : res (list A) :=
    match k with
    | O => Ok []
    | S k => '(x, h') <-! heap_Pop h;; xs <-! pop_all k h';; Ok (x :: xs)
    end.
End heap.

(** MinHeap's and MaxHeap's [Less] from the [<] of the element type
    (minheap.go:13-15: [h[i] < h[j]], maxheap.go:13-15: [h[i] > h[j]]). *)
Definition min_less {A} (lt : A -> A -> bool) : A -> A -> bool := fun x y => lt x y.
Definition max_less {A} (lt : A -> A -> bool) : A -> A -> bool := fun x y => lt y x.

(** Client call sequences on a heap. *)
Inductive heap_op (A : Type) := OpPush (x : A) | OpPop.
Arguments OpPush {A} x.
Arguments OpPop {A}.

(** Runs calls in order; collects what the Pops returned. *)
Fixpoint heap_run {A} (less : A -> A -> bool) (h : list A) (ops : list (heap_op A))
  : res (list A * list A) :=
  match ops with
  | [] => Ok ([], h)
  | OpPush x :: ops => h' <-! heap_Push less h x;; heap_run less h' ops
  | OpPop :: ops =>
      '(x, h') <-! heap_Pop less h;;
      '(outs, h'') <-! heap_run less h' ops;;
      Ok (x :: outs, h'')
  end.

(** Client call sequences that also remove by index and change an element
    in place followed by Fix. *)
Inductive heap_op2 (A : Type) :=
| Op2Push (x : A) | Op2Pop | Op2Remove (i : Z) | Op2Set (i : Z) (x : A).
Arguments Op2Push {A} x.
Arguments Op2Pop {A}.
Arguments Op2Remove {A} i.
Arguments Op2Set {A} i x.

(** [h[i] = x; heap.Fix(h, i)], as in heap/example_pq_test.go:41-45. *)
Definition heap_set_fix {A} (less : A -> A -> bool) (h : list A) (i : Z) (x : A) : res (list A) :=
  match getZ h i with
  | Some _ => heap_Fix less (<[Z.to_nat i := x]> h) i
  | None => Panic
  end.

(** Runs such calls in order from a slice; collects, per call, what happened:
    an addition, a pop of [x], the removal of [x] by index, or the replacement of the
    old element [y] by [x] (recorded as taking [y] and adding [x]). *)
Inductive heap_obs (A : Type) :=
| ObsPushed (x : A) | ObsPopped (x : A) | ObsRemoved (x : A) | ObsReplaced (y x : A).
Arguments ObsPushed {A} x.
Arguments ObsPopped {A} x.
Arguments ObsRemoved {A} x.
Arguments ObsReplaced {A} y x.

Fixpoint heap_run2 {A} (less : A -> A -> bool) (h : list A) (ops : list (heap_op2 A))
  : res (list (heap_obs A) * list A) :=
  match ops with
  | [] => Ok ([], h)
  | o :: ops =>
      '(ob, h') <-!
        match o with
        | Op2Push x => h' <-! heap_Push less h x;; Ok (ObsPushed x, h')
        | Op2Pop => '(x, h') <-! heap_Pop less h;; Ok (ObsPopped x, h')
        | Op2Remove i => '(x, h') <-! heap_Remove less h i;; Ok (ObsRemoved x, h')
        | Op2Set i x =>
            match getZ h i with
            | Some y => h' <-! heap_set_fix less h i x;; Ok (ObsReplaced y x, h')
            | None => Panic
            end
        end;;
      '(obs, h'') <-! heap_run2 less h' ops;;
      Ok (ob :: obs, h'')
  end.
