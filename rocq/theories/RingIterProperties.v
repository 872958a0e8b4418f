(** C108: Unlink of ring with 64-bit [int].  C109: Do of ring with a callback that uses rings. *)
From Verif Require Import Base Int64 RingModel Chain RingSpec RingProofs RingIterSpec RingIter.

(** ** C108 *)
(** Unlink(n) removes the n mod Len elements after r for every 64-bit n but the largest; Unlink of the
    largest n removes (-2^63-1) mod Len elements. *)
Theorem C108_ring_Unlink_int64 :
  forall (T : Type) (zero : T) (h : rheap T) r n, is_int64 n -> reachable zero h -> r < r_fresh h ->
  ((n <= 0)%Z -> r_Unlink64 (Some r) n h = Ok (None, h)) /\
  ((0 < n)%Z -> exists t k h',
     heap_ring h (r :: t) /\ k = Z.to_nat (unlinked n (Z.of_nat (length (r :: t)))) /\
     r_Unlink64 (Some r) n h = Ok (head (t ++ [r]), h') /\ rings_ok (rabs h') /\
     heap_ring h' (r :: drop k t) /\
     (k <> 0 -> heap_ring h' (take k t) /\ head (t ++ [r]) = head (take k t)) /\
     other_rings (rabs h) (rabs h') (r :: t) /\
     same_nodes (rabs h) (rabs h') /\ same_values (rabs h) (rabs h')).
Proof. exact @unlink64_spec. Qed.
Print Assumptions C108_ring_Unlink_int64.
(** This is n mod Len for the largest n exactly if Len is a power of two (up to 2^64). *)
Theorem C108_ring_Unlink_largest :
  forall L, (0 < L)%Z -> unlinked (2^63 - 1) L = ((2^63 - 1) mod L)%Z <-> (L | 2^64)%Z.
Proof. exact unlinked_right. Qed.
Print Assumptions C108_ring_Unlink_largest.
(** False of the code: "Unlink(n) removes n mod Len elements for every int n".  On every ring of three,
    Unlink(math.MaxInt64) should remove one element, and removes none. *)
Theorem C108_ring_Unlink_overflow_refuted :
  forall (T : Type) (zero : T) (h : rheap T) r x y, reachable zero h -> heap_ring h [r; x; y] ->
  ((2^63 - 1) mod 3 = 1)%Z /\ exists h', r_Unlink64 (Some r) (2^63 - 1) h = Ok (Some x, h') /\ heap_ring h' [r; x; y].
Proof.
  intros T zero h r x y Hr Ht. split; [done|].
  assert (He : r < r_fresh h) by (eapply ring_nodes; [exact Ht|by left]).
  destruct (unlink64_spec zero h r (2^63 - 1) ltac:(unfold is_int64; lia) Hr He) as [_ H].
  destruct (H ltac:(lia)) as (t & k & h' & Ht' & Hk & E & _ & H1 & _).
  assert (t = [x; y]) as -> by by apply (ring_unique h r).
  assert (k = 0) as -> by (rewrite Hk; reflexivity). exists h'. split; [exact E|exact H1].
Qed.
Print Assumptions C108_ring_Unlink_overflow_refuted.

(** ** C109 *)
(** Whatever the callback does to the rings, after each turn the loop goes on to the element that then
    follows the current one, until that is r.  All calls together are a history. *)
Theorem C109_ring_Do_exact :
  forall (T : Type) (zero : T) (A : Type) (f : T -> A -> M (rheap T) A) r fuel a h a' h',
  ring_callback zero f -> reachable zero h -> r < r_fresh h -> r_DoM fuel (Some r) f a h = Ok (a', h') ->
  (exists ts, turns r f h r a ts a' h') /\ exists tr, ring_history zero h tr h'.
Proof. intros T zero A f r fuel a h a' h' Hf. by apply Do_turns. Qed.
Print Assumptions C109_ring_Do_exact.
Theorem C109_ring_Do_no_panic :
  forall (T : Type) (zero : T) (A : Type) (f : T -> A -> M (rheap T) A) r fuel a h,
  ring_callback zero f -> (forall v a h, reachable zero h -> f v a h <> Panic) ->
  reachable zero h -> r < r_fresh h -> r_DoM fuel (Some r) f a h <> Panic.
Proof. intros T zero A f r fuel a h Hf Hp. by apply (Do_no_panic zero f Hf Hp). Qed.
Print Assumptions C109_ring_Do_no_panic.
(** If no turn takes its element out of the ring of r or puts or moves anything between it and r, the
    callback gets the values of some of the elements of the ring, each once and in order ... *)
Theorem C109_ring_Do_in_order :
  forall (T : Type) (A : Type) (f : T -> A -> M (rheap T) A) r h a ts a' h' t,
  turns r f h r a ts a' h' -> heap_ring h (r :: t) ->
  (forall c v, c ∈ ts -> ahead (t_before c) r (t_elem c) v ->
     exists v', ahead (t_after c) r (t_elem c) v' /\ v' `sublist_of` v) ->
  (t_elem <$> ts) `sublist_of` r :: t.
Proof. intros T A f r h a ts a' h' t Ht Hr Hc. eapply turns_order; [exact Ht|exact Hc|by left]. Qed.
Print Assumptions C109_ring_Do_in_order.
(** ... and Do returns. *)
Theorem C109_ring_Do_ends :
  forall (T : Type) (zero : T) (A : Type) (f : T -> A -> M (rheap T) A) r fuel a t h,
  ring_callback zero f -> (forall v a h, reachable zero h -> exists a' h', f v a h = Ok (a', h')) ->
  (forall e a v h a' h', reachable zero h -> ahead h r e v -> f (r_val h e) a h = Ok (a', h') ->
     exists v', ahead h' r e v' /\ v' `sublist_of` v) ->
  reachable zero h -> heap_ring h (r :: t) -> length t < fuel ->
  exists a' h', r_DoM fuel (Some r) f a h = Ok (a', h').
Proof. intros T zero A f r fuel a t h Hf Hd Hs. by apply (Do_ends zero f r Hf Hd Hs). Qed.
Print Assumptions C109_ring_Do_ends.
(** An element that is between the current one and r in each turn, before and after the callback, gets
    its turn. *)
Theorem C109_ring_Do_complete :
  forall (T : Type) (A : Type) (f : T -> A -> M (rheap T) A) r h a ts a' h' t y,
  turns r f h r a ts a' h' -> heap_ring h (r :: t) ->
  (forall c v, c ∈ ts -> ahead (t_before c) r (t_elem c) v -> y ∈ v ->
     exists v', ahead (t_after c) r (t_elem c) v' /\ y ∈ v') ->
  y ∈ r :: t -> y ∈ t_elem <$> ts.
Proof. intros T A f r h a ts a' h' t y Ht Hr Hc Hy. eapply turns_complete; [exact Ht|exact Hc|by left|done]. Qed.
Print Assumptions C109_ring_Do_complete.
(** False of the code: "Do returns if each call of the callback does".  On every ring of two or more, the
    callback that takes out the second element when it is its turn keeps the loop going for ever: the
    element is a ring of its own then, on which r never comes. *)
Theorem C109_ring_Do_Unlink_refuted :
  forall (T : Type) (zero : T) (h : rheap T) r x t fuel, reachable zero h -> heap_ring h (r :: x :: t) ->
  r_DoM fuel (Some r) (unlink_second r) 0 h = NoFuel.
Proof. exact @unlink_endless. Qed.
Print Assumptions C109_ring_Do_Unlink_refuted.
(** With a callback that leaves the rings alone this is the Do of C20. *)
Theorem C109_ring_Do_pure :
  forall (T : Type) (A : Type) (f : T -> A -> A) r fuel a (h : rheap T),
  r_DoM fuel r (fun v a => ret (f v a)) a h = r_Do fuel r f a h.
Proof. intros T A f [r|] fuel a h; done. Qed.
Print Assumptions C109_ring_Do_pure.

(** A ring of five with values 0 to 4. *)
Definition ex_five : rheap nat :=
  match ring_run 9 [RNew 5%Z; RSet 0 0; RSet 1 1; RSet 2 2; RSet 3 3; RSet 4 4] (empty_heap 9) with
  | Some (_, h) => h | None => empty_heap 9 end.
Example C109_example_ring : reachable 9 ex_five /\ heap_ring ex_five [0; 1; 2; 3; 4].
Proof.
  split.
  - eexists. eapply (ring_run_history 9 [RNew 5%Z; RSet 0 0; RSet 1 1; RSet 2 2; RSet 3 3; RSet 4 4] (empty_heap 9)). vm_compute. reflexivity.
  - split; [by apply (bool_decide_unpack _); vm_compute|]. split; [|vm_compute; tauto].
    intros x Hx. repeat (apply elem_of_cons in Hx as [->|Hx]; [vm_compute; lia|]). by apply elem_of_nil in Hx.
Qed.
Definition ex_do {A} (fuel : nat) (f : nat -> A -> M (rheap nat) A) (a : A) : option A :=
  match r_DoM fuel (Some 0) f a ex_five with Ok (a, _) => Some a | _ => None end.
(** The callback takes out the element after the current one; or puts a new one behind it. *)
Example C109_example_remove_next :
  ex_do 9 (fun v l => (if Nat.ltb v 4 then r_Unlink (Some v) 1 ;;; ret tt else ret tt) ;;; ret (l ++ [v])) [] = Some [0; 2; 4].
Proof. vm_compute. reflexivity. Qed.
Example C109_example_insert :
  ex_do 19 (fun v l => (if Nat.ltb v 5 then n <- r_New 9 1 ;; r_Link (Some v) n ;;; ret tt else ret tt) ;;; ret (l ++ [v])) [] = Some [0; 9; 1; 9; 2; 9; 3; 9; 4; 9].
Proof. vm_compute. reflexivity. Qed.
(** Two rings are joined in the middle of the loop. *)
Example C109_example_join :
  ex_do 19 (fun v l => (if Nat.eqb v 2 then n <- r_New 9 3 ;; r_Link (Some v) n ;;; ret tt else ret tt) ;;; ret (l ++ [v])) [] = Some [0; 1; 2; 9; 9; 9; 3; 4].
Proof. vm_compute. reflexivity. Qed.
(** The callback of the refuted claim and the others here are of the kind the theorems ask for. *)
Example C109_example_callback : ring_callback 9 (fun v (l : list nat) => (if Nat.eqb v 2 then n <- r_New 9 3 ;; ret tt else ret tt) ;;; ret (l ++ [v])).
Proof.
  intros v a h a' h' Hr. destruct (Nat.eqb v 2).
  - destruct (total_spec 9 h (RNew 3) Hr) as (res & h1 & E & _); [intros x Hx; by apply elem_of_nil in Hx|].
    intros Hf. assert (h1 = h') as ->.
    { cbn [ring_exec] in E. unfold rmap in E. unfold bind in E, Hf. destruct (r_New 9 3 h) as [[p h2]| |]; [|done|done]. injection E as <- <-. by injection Hf as <- <-. }
    exists [(RNew 3, res)]. econstructor; [intros x Hx; by apply elem_of_nil in Hx|done|constructor].
  - intros Hf. injection Hf as <- <-. exists []. constructor.
Qed.
(** Unlink of 7 on the ring of five takes out two elements. *)
Example C108_example :
  match r_Unlink64 (Some 0) 7 ex_five with
  | Ok (p, h) => p = Some 1 /\ match r_Do 9 (Some 0) (fun v l => l ++ [v]) [] h with Ok (l, _) => l = [0; 3; 4] | _ => False end
  | _ => False end.
Proof. vm_compute. done. Qed.
