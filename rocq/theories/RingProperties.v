(** Property theorems for ring (C20-C23). *)
From Verif Require Import Base RingModel Chain RingSpec RingProofs.

(** [reachable zero h]: h is the heap after some history of calls.
    [heap_ring h l]: the elements l, in this order, form a ring.
    [rings_ok (rabs h)]: every element is on exactly one ring. *)

(** C20 *)
Theorem C20_ring_New :
  forall (T : Type) (zero : T) h n, reachable zero h ->
  ((n <= 0)%Z -> r_New zero n h = Ok (None, h)) /\
  ((0 < n)%Z -> exists r t h', r_New zero n h = Ok (Some r, h') /\
     heap_ring h' (r :: t) /\ Z.of_nat (length (r :: t)) = n /\
     (forall x, x ∈ r :: t -> ~ x < r_fresh h /\ r_val h' x = zero) /\
     (forall fuel, length t < fuel -> exists h2, r_Len fuel (Some r) h' = Ok (n, h2)) /\
     (forall A (f : T -> A -> A) a fuel, length t < fuel ->
        exists h2, r_Do fuel (Some r) f a h' = Ok (foldl (fun b v => f v b) a (map (r_val h') (r :: t)), h2))).
Proof. exact @new_spec. Qed.
Print Assumptions C20_ring_New.
Theorem C20_ring_Len_Do :
  forall (T : Type) (zero : T) h r, reachable zero h -> r < r_fresh h ->
  exists t, heap_ring h (r :: t) /\
    (forall fuel, length t < fuel ->
       exists h2, r_unchanged (rabs h) (rabs h2) /\
         r_Len fuel (Some r) h = Ok (Z.of_nat (length (r :: t)), h2)) /\
    (forall A (f : T -> A -> A) a fuel, length t < fuel ->
       exists h2, r_unchanged (rabs h) (rabs h2) /\
         r_Do fuel (Some r) f a h = Ok (foldl (fun b v => f v b) a (map (r_val h) (r :: t)), h2)).
Proof. exact @len_do_spec. Qed.
Print Assumptions C20_ring_Len_Do.

(** C21 *)
Theorem C21_ring_Move :
  forall (T : Type) (zero : T) h r n, reachable zero h -> r < r_fresh h ->
  exists t h', heap_ring h (r :: t) /\ r_unchanged (rabs h) (rabs h') /\
    r_Move (Some r) n h = Ok ((r :: t) !! Z.to_nat (n mod Z.of_nat (length (r :: t))), h').
Proof. exact @move_spec. Qed.
Print Assumptions C21_ring_Move.
Theorem C21_ring_Next_Prev_inverse :
  forall (T : Type) (zero : T) h r, reachable zero h -> r < r_fresh h ->
  (exists x h1 h2, r_Next (Some r) h = Ok (Some x, h1) /\ r_Prev (Some x) h1 = Ok (Some r, h2) /\
     r_unchanged (rabs h) (rabs h2)) /\
  (exists x h1 h2, r_Prev (Some r) h = Ok (Some x, h1) /\ r_Next (Some x) h1 = Ok (Some r, h2) /\
     r_unchanged (rabs h) (rabs h2)).
Proof. exact @next_prev_spec. Qed.
Print Assumptions C21_ring_Next_Prev_inverse.

(** C22 *)
Theorem C22_ring_Link :
  forall (T : Type) (zero : T) h r x, reachable zero h -> r < r_fresh h -> x < r_fresh h ->
  exists n t h',
    r_Link (Some r) (Some x) h = Ok (Some n, h') /\
    heap_ring h (r :: t) /\ head (t ++ [r]) = Some n /\ rings_ok (rabs h') /\
    (forall y, y < r_fresh h' <-> y < r_fresh h) /\ (forall y, r_val h' y = r_val h y) /\
    (forall t', heap_ring h (x :: t') -> x ∉ r :: t -> heap_ring h' (r :: (x :: t') ++ t)) /\
    (forall u v, t = u ++ x :: v -> heap_ring h' (r :: x :: v) /\ (u <> [] -> heap_ring h' u)) /\
    (x = r -> heap_ring h' [r] /\ (t <> [] -> heap_ring h' t)) /\
    (forall l, r ∉ l -> x ∉ l -> heap_ring h l -> heap_ring h' l).
Proof. exact @link_spec. Qed.
Print Assumptions C22_ring_Link.
(** Every history of all calls; no element is ever lost. *)
Theorem C22_ring_history :
  forall (T : Type) (zero : T) tr h, ring_history zero (empty_heap zero) tr h ->
  ring_behaves zero (rabs (empty_heap zero)) tr (rabs h) /\ rings_ok (rabs h).
Proof. exact @history_spec. Qed.
Print Assumptions C22_ring_history.
(** No call on existing elements panics or runs forever. *)
Theorem C22_ring_total :
  forall (T : Type) (zero : T) h c,
  reachable zero h -> (forall x, x ∈ ring_args c -> x < r_fresh h) ->
  exists r h', ring_exec zero c h = Ok (r, h') /\ ring_does zero (rabs h) (rabs h') c r /\ rings_ok (rabs h').
Proof. exact @total_spec. Qed.
Print Assumptions C22_ring_total.

(** C23 *)
Theorem C23_ring_Unlink :
  forall (T : Type) (zero : T) h r n, reachable zero h -> r < r_fresh h ->
  ((n <= 0)%Z -> r_Unlink (Some r) n h = Ok (None, h)) /\
  ((0 < n)%Z -> exists t k h',
     heap_ring h (r :: t) /\ k = Z.to_nat (n mod Z.of_nat (length (r :: t))) /\
     r_Unlink (Some r) n h = Ok (head (t ++ [r]), h') /\ rings_ok (rabs h') /\
     heap_ring h' (r :: drop k t) /\
     (k <> 0 -> heap_ring h' (take k t) /\ head (t ++ [r]) = head (take k t)) /\
     other_rings (rabs h) (rabs h') (r :: t) /\
     same_nodes (rabs h) (rabs h') /\ same_values (rabs h) (rabs h')).
Proof. exact @unlink_spec. Qed.
Print Assumptions C23_ring_Unlink.

(** A history that meets the hypotheses of all of the above: two rings of 4 and 3 and a lone zero
    struct, joined, walked, split, and unlinked by more than the length. *)
Definition ex_ring_calls : list (ring_call (T := nat)) :=
  [ RNew 4%Z; RNew 3%Z; RZero; RSet 0 10; RSet 5 15; RSet 7 17; RMove 0 6%Z; RMove 0 (-5)%Z;
    RLink 1 (Some 4); RLen (Some 0); RDo (Some 0); RLink 0 (Some 7); RPrev 1; RLen (Some 7);
    RLink 0 (Some 5); RDo (Some 0); RDo (Some 4); RUnlink 0 7%Z; RDo (Some 0); RLink 6 (Some 6);
    RUnlink 2 10%Z; RLink 3 None; RNext 7; RNew 0%Z; RUnlink 1 (-1)%Z; RLen None; RDo None ].
Example ex_ring_history :
  exists h, ring_history 0 (empty_heap 0)
    (zip ex_ring_calls
      [ RPtr (Some 0); RPtr (Some 4); RPtr (Some 7); RUnit; RUnit; RUnit; RPtr (Some 2); RPtr (Some 3);
        RPtr (Some 2); RInt 7%Z; RVals [10; 0; 0; 15; 0; 0; 0]; RPtr (Some 1); RPtr (Some 7); RInt 8%Z;
        RPtr (Some 7); RVals [10; 15; 0; 0; 0]; RVals [0; 17; 0]; RPtr (Some 5); RVals [10; 0; 0];
        RPtr (Some 5); RPtr (Some 3); RPtr (Some 3); RPtr (Some 1); RPtr None; RPtr None; RInt 0%Z;
        RVals [] ]) h.
Proof. eexists. eapply (ring_run_history 0 ex_ring_calls). vm_compute. reflexivity. Qed.
