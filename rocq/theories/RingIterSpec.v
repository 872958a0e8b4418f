(** Do of ring with a callback that uses rings, and Unlink with 64-bit [int]. *)
From Verif Require Import Base Int64 RingModel Chain RingSpec RingProofs.
Local Open Scope Z_scope.

Section model.
  Context {T : Type}.
  Notation heap := (rheap T).
  (** ring.go lines 91-98; [f] may itself use rings, and carries a state [A]. *)
  Definition r_DoM {A} (fuel : nat) (r : option nat) (f : T -> A -> M heap A) (a : A) : M heap A :=
    match r with
    | None => ret a
    | Some _ =>
        v <- get_val r ;; a <- f v a ;;
        p <- r_Next r ;;
        r_loop fuel r p (fun q a => v <- get_val q ;; f v a) a
    end.
  (** ring.go lines 73-78.  The loops of Move (lines 32-41) count towards 0, which does not wrap. *)
  Definition r_Unlink64 (r : option nat) (n : Z) : M heap (option nat) :=
    if n <=? 0 then ret None else s <- r_Move r (wrap64 (n + 1)) ;; r_Link r s.
End model.

Section spec.
  Context {T : Type} (zero : T).
  Notation heap := (rheap T).
  Implicit Types h : heap.

  (** The callback does nothing to rings but make calls on existing elements. *)
  Definition ring_callback {A} (f : T -> A -> M heap A) : Prop :=
    forall v a h a' h', reachable zero h -> f v a h = Ok (a', h') -> exists tr, ring_history zero h tr h'.

  (** [y] comes after [x] in its ring. *)
  Definition follows h (x y : nat) : Prop := exists t, heap_ring h (x :: t) /\ head (t ++ [x]) = Some y.
  (** One turn of the loop: the rings before it, the element whose value the callback gets, the rings
      after it. *)
  Record turn := mk_turn { t_before : heap; t_elem : nat; t_after : heap }.
  (** The loop started at r is about to give the value of e to the callback; it goes on to the element
      that follows e after that turn.  (Between turns a zero ring may get initialised.) *)
  Inductive turns {A} (r : nat) (f : T -> A -> M heap A) : heap -> nat -> A -> list turn -> A -> heap -> Prop :=
  | t_end h e a a1 h1 h2 : f (r_val h e) a h = Ok (a1, h1) -> follows h1 e r -> r_unchanged (rabs h1) (rabs h2) ->
      turns r f h e a [mk_turn h e h1] a1 h2
  | t_go h e a a1 h1 h2 e' ts a3 h3 : f (r_val h e) a h = Ok (a1, h1) -> follows h1 e e' -> e' <> r -> r_unchanged (rabs h1) (rabs h2) ->
      turns r f h2 e' a1 ts a3 h3 -> turns r f h e a (mk_turn h e h1 :: ts) a3 h3.

  (** From e the ring goes on with the elements v, then comes r. *)
  Definition ahead h (r e : nat) (v : list nat) : Prop :=
    (e = r /\ heap_ring h (r :: v)) \/ (e <> r /\ exists u, heap_ring h (e :: v ++ r :: u)).

  (** A callback that counts its calls and takes out the element after r in its second call. *)
  Definition unlink_second (r : nat) (_ : T) (k : nat) : M heap nat :=
    (if Nat.eqb k 1 then r_Unlink (Some r) 1 ;;; ret tt else ret tt) ;;; ret (S k).
  (** So many elements are removed by Unlink of the 64-bit number [n] on a ring of length [L]. *)
  Definition unlinked (n L : Z) : Z := (if decide (n = 2^63 - 1) then - 2^63 - 1 else n) mod L.
End spec.
Arguments turn : clear implicits.
