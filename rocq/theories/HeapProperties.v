(** Property theorems for heap and pqueue (C01-C08). *)
From Verif Require Import Base HeapModel HeapSpec HeapProofs PQueueModel PQueueSpec PQueueProofs.

(** C01 *)
Theorem C01_heap_Init : forall (A : Type) (less : A -> A -> bool) (h : list A),
  strict_weak less ->
  exists h', heap_Init less h = Ok h' /\ h' ≡ₚ h /\ heap_ordered less h'.
Proof. intros A less h SW. exact (heap_Init_spec less SW h). Qed.
Print Assumptions C01_heap_Init.

(** Two concrete strict weak orders: that of MinHeap[int] and of MaxHeap[int]. *)
Example ex_strict_weak_min : strict_weak (min_less Z.ltb).
Proof. unfold strict_weak, min_less. repeat split; intros; lia. Qed.
Example ex_strict_weak_max : strict_weak (max_less Z.ltb).
Proof. unfold strict_weak, max_less. repeat split; intros; lia. Qed.
Example ex_C01 : heap_Init (min_less Z.ltb) [5; 3; 8; 1; 9; 2]%Z = Ok [1; 3; 2; 5; 9; 8]%Z.
Proof. reflexivity. Qed.

(** C02: every history of pushes and pops, from every heap (in particular []). *)
Theorem C02_heap_history : forall (A : Type) (less : A -> A -> bool) (h : list A) (ops : list (heap_op A)),
  strict_weak less -> heap_ordered less h -> pops_allowed (length h) (map ev_of ops) ->
  exists outs h', heap_run less h ops = Ok (outs, h') /\
    heap_ordered less h' /\ pq_behaves less h (map ev_of ops) outs h'.
Proof. intros A less h ops SW. exact (heap_run_spec less ops h SW). Qed.
Print Assumptions C02_heap_history.

Theorem C02_heap_Push : forall (A : Type) (less : A -> A -> bool) (h : list A) (x : A),
  strict_weak less -> heap_ordered less h ->
  exists h', heap_Push less h x = Ok h' /\ h' ≡ₚ x :: h /\ heap_ordered less h'.
Proof. intros A less h x SW. exact (heap_Push_spec less SW h x). Qed.
Print Assumptions C02_heap_Push.

Theorem C02_heap_Pop : forall (A : Type) (less : A -> A -> bool) (h : list A),
  strict_weak less -> heap_ordered less h -> h <> [] ->
  exists x h', heap_Pop less h = Ok (x, h') /\ h ≡ₚ x :: h' /\ h !! 0 = Some x /\
    least less x h /\ heap_ordered less h'.
Proof. intros A less h SW. exact (heap_Pop_spec less SW h). Qed.
Print Assumptions C02_heap_Pop.

Example ex_C02 :
  heap_run (min_less Z.ltb) [] [OpPush 5; OpPush 3; OpPop; OpPush 1; OpPush 4; OpPop; OpPop]%Z
  = Ok ([3; 1; 4], [5])%Z /\
  pops_allowed 0 (map ev_of [OpPush 5; OpPush 3; OpPop; OpPush 1; OpPush 4; OpPop; OpPop]%Z).
Proof. split; [reflexivity|]. simpl. eauto 10. Qed.

(** C02, also with Remove and in-place changes followed by Fix. *)
Theorem C02_heap_history_remove_fix :
  forall (A : Type) (less : A -> A -> bool) (h : list A) (ops : list (heap_op2 A)),
  strict_weak less -> heap_ordered less h -> ops_valid (length h) ops ->
  exists obs h', heap_run2 less h ops = Ok (obs, h') /\ heap_ordered less h' /\
    bag_behaves less h (concat (map obs_events obs)) h'.
Proof. intros A less h ops SW. exact (heap_run2_spec less ops h SW). Qed.
Print Assumptions C02_heap_history_remove_fix.

Example ex_C02b :
  heap_run2 (min_less Z.ltb) [] [Op2Push 5; Op2Push 3; Op2Set 0 9; Op2Push 1; Op2Remove 1; Op2Pop]%Z
  = Ok ([ObsPushed 5; ObsPushed 3; ObsReplaced 3 9; ObsPushed 1; ObsRemoved 9; ObsPopped 1], [5])%Z.
Proof. reflexivity. Qed.

(** C03 *)
Theorem C03_heap_Remove : forall (A : Type) (less : A -> A -> bool) (h : list A) (i : nat) (x : A),
  strict_weak less -> heap_ordered less h -> h !! i = Some x ->
  exists h', heap_Remove less h (Z.of_nat i) = Ok (x, h') /\ h ≡ₚ x :: h' /\ heap_ordered less h'.
Proof. intros A less h i x SW. exact (heap_Remove_spec less SW h i x). Qed.
Print Assumptions C03_heap_Remove.

Example ex_C03 :
  heap_Remove (min_less Z.ltb) [1; 10; 2; 11; 12; 3; 4]%Z 3 = Ok (11, [1; 4; 2; 10; 12; 3])%Z.
Proof. reflexivity. Qed.

(** C04: the element at [i] is replaced by [x] and then Fix is called. *)
Theorem C04_heap_Fix : forall (A : Type) (less : A -> A -> bool) (h : list A) (i : nat) (x : A),
  strict_weak less -> heap_ordered less h -> i < length h ->
  exists h', heap_Fix less (<[i := x]> h) (Z.of_nat i) = Ok h' /\ h' ≡ₚ <[i := x]> h /\
    heap_ordered less h'.
Proof. intros A less h i x SW. exact (heap_Fix_spec less SW h i x). Qed.
Print Assumptions C04_heap_Fix.

Example ex_C04 :
  heap_Fix (min_less Z.ltb) (<[4 := 0%Z]> [1; 10; 2; 11; 12; 3; 4]%Z) 4 = Ok [0; 1; 2; 11; 10; 3; 4]%Z.
Proof. reflexivity. Qed.

(** C05 *)
Theorem C05_heap_sort : forall (A : Type) (less : A -> A -> bool) (l : list A),
  strict_weak less ->
  exists h out, heap_Init less l = Ok h /\ pop_all less (length l) h = Ok out /\
    out ≡ₚ l /\ in_order less out.
Proof. intros A less l SW. exact (heap_sort_spec less SW l). Qed.
Print Assumptions C05_heap_sort.

(** Instances: MinHeap ascending, MaxHeap descending, for integers. *)
Theorem C05_min_heap_ascending : forall l : list Z,
  exists h out, heap_Init (min_less Z.ltb) l = Ok h /\
    pop_all (min_less Z.ltb) (length l) h = Ok out /\ out ≡ₚ l /\ StronglySorted Z.le out.
Proof. exact min_heap_ascending. Qed.
Print Assumptions C05_min_heap_ascending.
Theorem C05_max_heap_descending : forall l : list Z,
  exists h out, heap_Init (max_less Z.ltb) l = Ok h /\
    pop_all (max_less Z.ltb) (length l) h = Ok out /\ out ≡ₚ l /\ StronglySorted Z.ge out.
Proof. exact max_heap_descending. Qed.
Print Assumptions C05_max_heap_descending.

(** C06 *)
Theorem C06_heap_Pop_empty_panics : forall (A : Type) (less : A -> A -> bool),
  heap_Pop less [] = Panic.
Proof. intros A less. exact (heap_Pop_empty less). Qed.
Print Assumptions C06_heap_Pop_empty_panics.

Theorem C06_heap_Remove_out_of_range_panics :
  forall (A : Type) (less : A -> A -> bool) (h : list A) (i : Z),
  (i < 0)%Z \/ (Z.of_nat (length h) <= i)%Z -> heap_Remove less h i = Panic.
Proof. intros A less h i. exact (heap_Remove_out less h i). Qed.
Print Assumptions C06_heap_Remove_out_of_range_panics.

(** C06: whatever the order (not even a strict weak one) and the content, valid calls end
    normally, keep the elements and return one of them. *)
Theorem C06_heap_calls_total :
  forall (A : Type) (less : A -> A -> bool) (h : list A),
  (exists h', heap_Init less h = Ok h' /\ h' ≡ₚ h) /\
  (forall x, exists h', heap_Push less h x = Ok h' /\ h' ≡ₚ x :: h) /\
  (h <> [] -> exists x h', heap_Pop less h = Ok (x, h') /\ h ≡ₚ x :: h') /\
  (forall i, i < length h -> exists x h', heap_Remove less h (Z.of_nat i) = Ok (x, h') /\
     h !! i = Some x /\ h ≡ₚ x :: h') /\
  (forall i, i < length h -> exists h', heap_Fix less h (Z.of_nat i) = Ok h' /\ h' ≡ₚ h).
Proof. intros A less h. exact (heap_calls_total less h). Qed.
Print Assumptions C06_heap_calls_total.

(** C07 *)
Theorem C07_pqueue_history : forall (V : Type) (k : kind) (cs : list (pq_call V)),
  pops_allowed 0 (map call_event cs) ->
  exists outs q,
    pq_run (kind_new k) cs = Ok (outs, q) /\
    prio_behaves (beats_of k) [] (map call_event cs) outs (pq_items q) /\
    (pq_Len q + Z.of_nat (length (filter (fun e => e = None) (map call_event cs)))
      = Z.of_nat (length (filter (fun e => e <> None) (map call_event cs))))%Z.
Proof. intros V k cs. exact (pq_run_spec k cs). Qed.
Print Assumptions C07_pqueue_history.

Theorem C07_pqueue_Pop_empty_panics : forall (V : Type) (k : kind), pq_Pop (@kind_new V k) = Panic.
Proof. intros V k. exact (pq_pop_empty k). Qed.
Print Assumptions C07_pqueue_Pop_empty_panics.

Example ex_C07 :
  pq_run (kind_new MaxQ) [CPush 1 10; CPush 7 70; CPop; CPush 3 30; CPop]%Z
  = Ok ([(7, 70); (3, 30)], PQ MaxQ [(1, 10)])%Z.
Proof. reflexivity. Qed.

(** C08 refuted: three items of equal priority come out first, third, second. *)
Theorem C08_pqueue_ties_fifo_refuted : forall (V : Type) (k : kind) (a b c : V),
  exists q, pq_run (kind_new k) [CPush 0 a; CPush 0 b; CPush 0 c; CPop; CPop; CPop]%Z
    = Ok ([(0, a); (0, c); (0, b)]%Z, q).
Proof. exact pq_ties_not_fifo. Qed.
Print Assumptions C08_pqueue_ties_fifo_refuted.
