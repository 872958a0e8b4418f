(** Specification vocabulary for priority queues. *)
From Verif Require Import Base HeapSpec PQueueModel.

(** Specification: what a history of a priority queue may return. [better p p'] says
    priority [p'] must not be popped while [p] is present. *)
Definition call_event {V} (c : pq_call V) : option (Z * V) :=
  match c with CPush p v => Some (p, v) | CPop => None end.

(** The bag discipline for pairs: pops take a pair whose priority no present pair beats. *)
Inductive prio_behaves {V} (beats : Z -> Z -> Prop) :
  list (Z * V) -> list (option (Z * V)) -> list (Z * V) -> list (Z * V) -> Prop :=
| prio_nil b : prio_behaves beats b [] [] b
| prio_push b b1 x evs outs b2 :
    b1 ≡ₚ x :: b -> prio_behaves beats b1 evs outs b2 ->
    prio_behaves beats b (Some x :: evs) outs b2
| prio_pop b b1 x evs outs b2 :
    b ≡ₚ x :: b1 -> (forall y, y ∈ b -> ~ beats y.1 x.1) ->
    prio_behaves beats b1 evs outs b2 ->
    prio_behaves beats b (None :: evs) (x :: outs) b2.

(** In a min queue a smaller priority beats a larger one; in a max queue conversely. *)
Definition beats_of (k : kind) : Z -> Z -> Prop :=
  match k with MinQ => fun a b => (a < b)%Z | MaxQ => fun a b => (a > b)%Z end.

(** The two constructors of the API. *)
Definition kind_new {V} (k : kind) : pqueue V :=
  match k with MinQ => NewMinPriorityQueue | MaxQ => NewMaxPriorityQueue end.

