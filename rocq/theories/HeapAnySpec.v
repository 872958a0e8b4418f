(** Implementations of heap.Interface whose Less may answer anything: not a strict weak order (as [<] on
    floats with NaN), different from call to call, depending on the state. *)
From Coq Require Import Floats.SpecFloat.
From Verif Require Import Base HeapIface VecAutoProperties.
Local Open Scope Z_scope.

Record keeps {S A} (I : iface S A) (rep : S -> list A -> Prop) (admits : A -> list A -> Prop) : Prop := {
  ke_len : forall s l, rep s l -> i_len I s = Z.of_nat (length l);
  ke_less : forall s l i j x y, rep s l -> l !! i = Some x -> l !! j = Some y ->
    exists b s', i_less I (Z.of_nat i) (Z.of_nat j) s = Ok (b, s') /\ rep s' l;
  ke_swap : forall s l i j x y, rep s l -> l !! i = Some x -> l !! j = Some y ->
    exists s', i_swap I (Z.of_nat i) (Z.of_nat j) s = Ok s' /\ rep s' (<[j := x]> (<[i := y]> l));
  ke_push : forall s l x, rep s l -> admits x l -> exists s', i_push I x s = Ok s' /\ rep s' (l ++ [x]);
  ke_pop : forall s l x, rep s (l ++ [x]) -> exists s', i_pop I s = Ok (x, s') /\ rep s' l
}.

(** A slice whose Less gives the answers of [coin], whatever the elements are. *)
Definition coin_iface {A} (coin : nat -> bool) : iface (nat * list A) A :=
  Iface (fun s => i_len (slice_iface (fun _ _ => false)) (snd s))
    (fun i j s => '(_, h) <-! i_less (slice_iface (fun _ _ => false)) i j (snd s);;
                  Ok (coin (fst s), (Datatypes.S (fst s), h)))
    (fun i j s => h <-! i_swap (slice_iface (fun _ _ => false)) i j (snd s);; Ok (fst s, h))
    (fun x s => h <-! i_push (slice_iface (fun _ _ => false)) x (snd s);; Ok (fst s, h))
    (fun s => '(x, h) <-! i_pop (slice_iface (fun _ _ => false)) (snd s);; Ok (x, (fst s, h))).

(** The IEEE-754 order, with NaN before all other floats to make it total. *)
Definition total_float (x y : spec_float) : bool :=
  match fkey x, fkey y with
  | Some a, Some b => lexlt a b
  | None, Some _ => true
  | _, None => false
  end.
Definition no_nan (l : list spec_float) : Prop := Forall (fun f => f <> S754_nan) l.
