(** /repo/heap/heap.go for implementations of [Interface[T]] whose methods may panic: what is left of the
    heap, seen by a program that recovers the panic.

    The functions are those of HeapIface.v, statement by statement; there a panic ends the run, here it
    ends the call and leaves the state of the implementation at that moment.  C181_same says that
    nothing else differs. *)
From Verif Require Import Base HeapModel HeapIface.
Local Open Scope Z_scope.

(** A call returns, or panics; in both cases there is a state afterwards.  [PFuel]: the fuel of the
    model was not enough. *)
Inductive pres (S A : Type) : Type := Fine (a : A) (s : S) | Broken (s : S) | PFuel.
Arguments Fine {S A}. Arguments Broken {S A}. Arguments PFuel {S A}.
Definition P (S A : Type) : Type := S -> pres S A.
Definition preturn {S A} (a : A) : P S A := fun s => Fine a s.
(** A panic in the first part skips the rest. *)
Definition pbind {S A B} (m : P S A) (k : A -> P S B) : P S B := fun s =>
  match m s with Fine a s' => k a s' | Broken s' => Broken s' | PFuel => PFuel end.
Notation "x <-? m ;; k" := (pbind m (fun x => k)) (at level 100, m at next level, right associativity).

(** heap.go:7-11: the methods of the implementation. *)
Record piface (S A : Type) : Type := PIface {
  p_len : S -> Z;
  p_less : Z -> Z -> P S bool;
  p_swap : Z -> Z -> P S unit;
  p_push : A -> P S unit;
  p_pop : P S A
}.
Arguments PIface {S A}. Arguments p_len {S A}. Arguments p_less {S A}.
Arguments p_swap {S A}. Arguments p_push {S A}. Arguments p_pop {S A}.

Section generic.
  Context {S A : Type} (I : piface S A).
  Definition get_len : P S Z := fun s => Fine (p_len I s) s.

  (** heap.go:49-58 *)
  Fixpoint p_up (fuel : nat) (j : Z) : P S unit :=
    match fuel with
    | O => fun _ => PFuel
    | Datatypes.S f =>
        let i := Z.quot (wrap (j - 1)) 2 in
        if i =? j then preturn tt
        else b <-? p_less I j i;;
             if negb b then preturn tt
             else _ <-? p_swap I i j;; p_up f i
    end.
  Definition p_up_ (j : Z) : P S unit := p_up (Datatypes.S (Z.to_nat j)) j.

  (** heap.go:60-78 *)
  Fixpoint p_down_loop (fuel : nat) (i n : Z) : P S Z :=
    match fuel with
    | O => fun _ => PFuel
    | Datatypes.S f =>
        let j1 := wrap (2 * i + 1) in
        if (n <=? j1) || (j1 <? 0) then preturn i
        else
          let j2 := wrap (j1 + 1) in
          b2 <-? (if j2 <? n then p_less I j2 j1 else preturn false);;
          let j := if (b2 : bool) then j2 else j1 in
          b <-? p_less I j i;;
          if negb b then preturn i
          else _ <-? p_swap I i j;; p_down_loop f j n
    end.
  Definition p_down (i0 n : Z) : P S bool :=
    len <-? get_len;;
    i <-? p_down_loop (Datatypes.S (Z.to_nat len)) i0 n;; preturn (i0 <? i).

  (** heap.go:13-18 *)
  Fixpoint p_init_loop (cnt : nat) (n : Z) : P S unit :=
    match cnt with
    | O => preturn tt
    | Datatypes.S i => _ <-? p_down (Z.of_nat i) n;; p_init_loop i n
    end.
  Definition p_Init : P S unit :=
    n <-? get_len;; p_init_loop (Z.to_nat (Z.quot n 2)) n.

  (** heap.go:20-23 *)
  Definition p_Push (x : A) : P S unit :=
    _ <-? p_push I x;; n <-? get_len;; p_up_ (wrap (n - 1)).

  (** heap.go:25-30 *)
  Definition p_Pop : P S A :=
    len <-? get_len;;
    let n := wrap (len - 1) in
    _ <-? p_swap I 0 n;; _ <-? p_down 0 n;; p_pop I.

  (** heap.go:32-41 *)
  Definition p_Remove (i : Z) : P S A :=
    len <-? get_len;;
    let n := wrap (len - 1) in
    if negb (n =? i) then
      _ <-? p_swap I i n;;
      moved <-? p_down i n;;
      _ <-? (if negb moved then p_up_ i else preturn tt);;
      p_pop I
    else p_pop I.

  (** heap.go:43-47 *)
  Definition p_Fix (i : Z) : P S unit :=
    len <-? get_len;;
    moved <-? p_down i len;;
    if negb moved then p_up_ i else preturn tt.
End generic.

(** What a call may leave, as a list of elements: [Q] if it returns, [R] if it panics. *)
Definition leaves {S A B} (rep : S -> list A -> Prop) (Q : B -> list A -> Prop) (R : list A -> Prop) (r : pres S B) : Prop :=
  match r with
  | Fine b s => exists l, rep s l /\ Q b l
  | Broken s => exists l, rep s l /\ R l
  | PFuel => False
  end.

(** The implementation keeps a list of elements; Less may answer anything and may panic, but does not
    change the list; Swap, Push and Pop do what they should. *)
Record keepsP {S A} (I : piface S A) (rep : S -> list A -> Prop) (admits : A -> list A -> Prop) : Prop := {
  kp_len : forall s l, rep s l -> p_len I s = Z.of_nat (length l);
  kp_less : forall s l i j x y, rep s l -> l !! i = Some x -> l !! j = Some y ->
    leaves rep (fun _ l' => l' = l) (eq l) (p_less I (Z.of_nat i) (Z.of_nat j) s);
  kp_swap : forall s l i j x y, rep s l -> l !! i = Some x -> l !! j = Some y ->
    exists s', p_swap I (Z.of_nat i) (Z.of_nat j) s = Fine tt s' /\ rep s' (<[j := x]> (<[i := y]> l));
  kp_push : forall s l x, rep s l -> admits x l -> exists s', p_push I x s = Fine tt s' /\ rep s' (l ++ [x]);
  kp_pop : forall s l x, rep s (l ++ [x]) -> exists s', p_pop I s = Fine x s' /\ rep s' l
}.

(** An implementation of HeapIface.v as one whose panics leave the state as it was. *)
Definition lift {S A} (I : iface S A) : piface S A :=
  PIface (i_len I)
    (fun i j s => match i_less I i j s with Ok (b, s') => Fine b s' | _ => Broken s end)
    (fun i j s => match i_swap I i j s with Ok s' => Fine tt s' | _ => Broken s end)
    (fun x s => match i_push I x s with Ok s' => Fine tt s' | _ => Broken s end)
    (fun s => match i_pop I s with Ok (x, s') => Fine x s' | _ => Broken s end).

(** A slice whose Less compares with [less] and panics where that is [None]. *)
Definition slice_pface {A} (less : A -> A -> option bool) : piface (list A) A :=
  PIface h_len
    (fun i j h => match getZ h i, getZ h j with
                  | Some x, Some y => match less x y with Some b => Fine b h | None => Broken h end
                  | _, _ => Broken h
                  end)
    (fun i j h => match h_swap h i j with Ok h' => Fine tt h' | _ => Broken h end)
    (fun x h => Fine tt (h_push h x))
    (fun h => match h_pop h with Ok (x, h') => Fine x h' | _ => Broken h end).
