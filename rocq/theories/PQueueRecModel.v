(** Model of /repo/pqueue/pqueue.go for programs that recover panics, with 64-bit [int], and with the zero PQueue,
    whose heap is a nil interface (lines 15-17).  The heap is that of HeapPanicSpec.v on the slices of minqueue.go
    and maxqueue.go, whose methods leave the slice as it was if they panic: they write after having read all. *)
From Verif Require Import Base HeapModel HeapIface HeapPanicSpec PQueueModel.
Local Open Scope Z_scope.

Section model.
  Context {V : Type}.
  Inductive q_call := QLen | QPush (p : Z) (v : V) | QPop.
  Inductive q_ret := QInt (n : Z) | QUnit | QPair (p : Z) (v : V).
  Definition q_iface (k : kind) : piface (list (item V)) (item V) := lift (slice_iface (q_less k)).
  (** A method on the interface; [None]: it is nil, and the call panics. *)
  Definition on_heap {B} (k : option kind) (f : kind -> P (list (item V)) B) : P (list (item V)) B :=
    match k with Some k => f k | None => fun s => Broken s end.
  (** Lines 27-29, 31-33, 35-38 *)
  Definition q_exec (k : option kind) (c : q_call) : P (list (item V)) q_ret :=
    match c with
    | QLen => n <-? on_heap k (fun k => get_len (q_iface k)) ;; preturn (QInt n)
    | QPush p v => _ <-? on_heap k (fun k => p_Push (q_iface k) (p, v)) ;; preturn QUnit
    | QPop => it <-? on_heap k (fun k => p_Pop (q_iface k)) ;; preturn (QPair it.1 it.2)
    end.
  (** Calls one after the other with their answers, [None] for a panic, which is recovered. *)
  Fixpoint q_run (k : option kind) (cs : list q_call) (s : list (item V)) : option (list (q_call * option q_ret) * list (item V)) :=
    match cs with
    | [] => Some ([], s)
    | c :: cs =>
        match q_exec k c s with
        | Fine r s1 => prod_map (cons (c, Some r)) id <$> q_run k cs s1
        | Broken s1 => prod_map (cons (c, None)) id <$> q_run k cs s1
        | PFuel => None
        end
    end.
End model.
Arguments q_call : clear implicits. Arguments q_ret : clear implicits.
