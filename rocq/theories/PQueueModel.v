(** Model of /repo/pqueue (pqueue.go, minqueue.go, maxqueue.go) over the heap model.
    An [*Item] (pqueue.go:6-9) is never mutated after creation, so it is a pair
    (priority, value). *)
From Verif Require Import Base HeapModel.
Local Open Scope Z_scope.

Section pqueue.
  Context {V : Type}.
  Definition item : Type := Z * V.

  (** minqueue.go:13-15, maxqueue.go:13-15 *)
  Definition minq_less (a b : item) : bool := a.1 <? b.1.
  Definition maxq_less (a b : item) : bool := b.1 <? a.1.

  (** pqueue.go:15-25: the queue is a heap with one of the two orders. *)
  Inductive kind := MinQ | MaxQ.
  Definition q_less (k : kind) : item -> item -> bool :=
    match k with MinQ => minq_less | MaxQ => maxq_less end.
  Record pqueue := PQ { pq_kind : kind; pq_items : list item }.
  Definition NewMinPriorityQueue : pqueue := PQ MinQ [].
  Definition NewMaxPriorityQueue : pqueue := PQ MaxQ [].

  (** pqueue.go:27-29 *)
  Definition pq_Len (q : pqueue) : Z := h_len (pq_items q).

  (** pqueue.go:31-33 *)
  Definition pq_Push (q : pqueue) (priority : Z) (v : V) : res pqueue :=
    h <-! heap_Push (q_less (pq_kind q)) (pq_items q) (priority, v);;
    Ok (PQ (pq_kind q) h).

  (** pqueue.go:35-38 *)
  Definition pq_Pop (q : pqueue) : res (Z * V * pqueue) :=
    '(it, h) <-! heap_Pop (q_less (pq_kind q)) (pq_items q);;
    Ok (it.1, it.2, PQ (pq_kind q) h).

  (** A client history. *)
  Inductive pq_call := CPush (p : Z) (v : V) | CPop.
  Fixpoint pq_run (q : pqueue) (cs : list pq_call) : res (list (Z * V) * pqueue) :=
    match cs with
    | [] => Ok ([], q)
    | CPush p v :: cs => q' <-! pq_Push q p v;; pq_run q' cs
    | CPop :: cs =>
        '(p, v, q') <-! pq_Pop q;;
        '(outs, q'') <-! pq_run q' cs;;
        Ok ((p, v) :: outs, q'')
    end.
End pqueue.
Arguments pq_call : clear implicits.
Arguments pqueue : clear implicits.
Arguments item : clear implicits.
