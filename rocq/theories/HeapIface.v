(** Model of /repo/heap/heap.go for every implementation of [Interface[T]] (heap.go:7-11), with
    64-bit [int].

    HeapModel.v has the same functions for the slice types of the repository and unbounded
    integers.  Here the methods of the implementation are arbitrary functions on an arbitrary
    state, which may also panic, and [Less] may change the state (a heap that counts its
    comparisons). *)
From Verif Require Import Base HeapModel.
Local Open Scope Z_scope.

(** [int] on a 64-bit machine: arithmetic wraps around. *)
Definition wrap (z : Z) : Z := (z + 2^63) mod 2^64 - 2^63.

(** heap.go:7-11: the methods of the implementation. *)
Record iface (S A : Type) : Type := Iface {
  i_len : S -> Z;
  i_less : Z -> Z -> S -> res (bool * S);
  i_swap : Z -> Z -> S -> res S;
  i_push : A -> S -> res S;
  i_pop : S -> res (A * S)
}.
Arguments Iface {S A}. Arguments i_len {S A}. Arguments i_less {S A}.
Arguments i_swap {S A}. Arguments i_push {S A}. Arguments i_pop {S A}.

Section generic.
  Context {S A : Type} (I : iface S A).

  (** heap.go:49-58 *)
  Fixpoint g_up (fuel : nat) (s : S) (j : Z) : res S :=
    match fuel with
    | O => NoFuel
    | Datatypes.S f =>
        let i := Z.quot (wrap (j - 1)) 2 in
        if i =? j then Ok s
        else '(b, s) <-! i_less I j i s;;
             if negb b then Ok s
             else s <-! i_swap I i j s;; g_up f s i
    end.

  (** heap.go:60-78, the loop; returns the state and the final [i]. *)
  Fixpoint g_down_loop (fuel : nat) (s : S) (i n : Z) : res (S * Z) :=
    match fuel with
    | O => NoFuel
    | Datatypes.S f =>
        let j1 := wrap (2 * i + 1) in
        if (n <=? j1) || (j1 <? 0) then Ok (s, i)
        else
          let j2 := wrap (j1 + 1) in
          '(b2, s) <-! (if j2 <? n then i_less I j2 j1 s else Ok (false, s));;
          let j := if (b2 : bool) then j2 else j1 in
          '(b, s) <-! i_less I j i s;;
          if negb b then Ok (s, i)
          else s <-! i_swap I i j s;; g_down_loop f s j n
    end.
  Definition g_down (s : S) (i0 n : Z) : res (S * bool) :=
    '(s, i) <-! g_down_loop (Datatypes.S (Z.to_nat (i_len I s))) s i0 n;; Ok (s, i0 <? i).
  Definition g_up_ (s : S) (j : Z) : res S := g_up (Datatypes.S (Z.to_nat j)) s j.

  (** heap.go:13-18 *)
  Fixpoint g_init_loop (cnt : nat) (s : S) (n : Z) : res S :=
    match cnt with
    | O => Ok s
    | Datatypes.S i => '(s, _) <-! g_down s (Z.of_nat i) n;; g_init_loop i s n
    end.
  Definition g_Init (s : S) : res S :=
    g_init_loop (Z.to_nat (Z.quot (i_len I s) 2)) s (i_len I s).

  (** heap.go:20-23 *)
  Definition g_Push (s : S) (x : A) : res S :=
    s <-! i_push I x s;; g_up_ s (wrap (i_len I s - 1)).

  (** heap.go:25-30 *)
  Definition g_Pop (s : S) : res (A * S) :=
    let n := wrap (i_len I s - 1) in
    s <-! i_swap I 0 n s;;
    '(s, _) <-! g_down s 0 n;;
    i_pop I s.

  (** heap.go:32-41 *)
  Definition g_Remove (s : S) (i : Z) : res (A * S) :=
    let n := wrap (i_len I s - 1) in
    if negb (n =? i) then
      s <-! i_swap I i n s;;
      '(s, moved) <-! g_down s i n;;
      s <-! (if negb moved then g_up_ s i else Ok s);;
      i_pop I s
    else i_pop I s.

  (** heap.go:43-47 *)
  Definition g_Fix (s : S) (i : Z) : res S :=
    '(s, moved) <-! g_down s i (i_len I s);;
    if negb moved then g_up_ s i else Ok s.

  (** A client popping [k] times. *)
  Fixpoint g_pops (k : nat) (s : S) : res (list A * S) :=
    match k with
    | O => Ok ([], s)
    | Datatypes.S k =>
        '(x, s) <-! g_Pop s;; '(xs, s) <-! g_pops k s;; Ok (x :: xs, s)
    end.
End generic.

(** The slice types of the repository: minheap.go, maxheap.go (methods in HeapModel.v). *)
Definition slice_iface {A} (less : A -> A -> bool) : iface (list A) A :=
  Iface h_len
    (fun i j h => b <-! h_less less h i j;; Ok (b, h))
    (fun i j h => h_swap h i j)
    (fun x h => Ok (h_push h x))
    h_pop.

(** The client of heap/example_pq_test.go:7-46: pointers to items that know their index.
    The state: the slice of pointers, and priority and index of every item. *)
Record items : Type := Items { q_items : list nat; q_prio : nat -> Z; q_index : nat -> Z }.
Definition set_index (x : nat) (i : Z) (q : items) : items :=
  Items (q_items q) (q_prio q) (fun y => if Nat.eqb y x then i else q_index q y).
(** example_pq_test.go:16-40 *)
Definition item_iface : iface items nat :=
  Iface (fun q => h_len (q_items q))
    (fun i j q =>
       match getZ (q_items q) i, getZ (q_items q) j with
       | Some x, Some y => Ok (q_prio q y <? q_prio q x, q)
       | _, _ => Panic
       end)
    (fun i j q =>
       h <-! h_swap (q_items q) i j;;
       match getZ h i, getZ h j with
       | Some x, Some y => Ok (set_index y j (set_index x i (Items h (q_prio q) (q_index q))))
       | _, _ => Panic
       end)
    (fun x q =>
       Ok (Items (h_push (q_items q) x) (q_prio q)
             (fun y => if Nat.eqb y x then h_len (q_items q) else q_index q y)))
    (fun q =>
       '(x, h) <-! h_pop (q_items q);;
       Ok (x, Items h (q_prio q) (fun y => if Nat.eqb y x then -1 else q_index q y))).
(** example_pq_test.go:42-46 *)
Definition item_update (x : nat) (p : Z) (q : items) : res items :=
  g_Fix item_iface
    (Items (q_items q) (fun y => if Nat.eqb y x then p else q_prio q y) (q_index q))
    (q_index q x).

(** An implementation that counts its comparisons and swaps. *)
Record counted (S : Type) : Type := Counted { c_state : S; c_less : nat; c_swap : nat }.
Arguments Counted {S}. Arguments c_state {S}. Arguments c_less {S}. Arguments c_swap {S}.
Definition counting {S A} (I : iface S A) : iface (counted S) A :=
  Iface (fun c => i_len I (c_state c))
    (fun i j c => '(b, s) <-! i_less I i j (c_state c);;
                  Ok (b, Counted s (Datatypes.S (c_less c)) (c_swap c)))
    (fun i j c => s <-! i_swap I i j (c_state c);; Ok (Counted s (c_less c) (Datatypes.S (c_swap c))))
    (fun x c => s <-! i_push I x (c_state c);; Ok (Counted s (c_less c) (c_swap c)))
    (fun c => '(x, s) <-! i_pop I (c_state c);; Ok (x, Counted s (c_less c) (c_swap c))).
