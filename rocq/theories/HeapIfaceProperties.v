(** Property theorems for heap: every implementation of the interface, and the cost of the calls
    (C102, C103). *)
From Verif Require Import Base HeapModel HeapSpec HeapProofs HeapIface HeapIfaceSpec HeapIfaceProofs.

(** C102: with any implementation that keeps the contract of the interface, and 64-bit integers. *)
Theorem C102_Init : forall (S A : Type) (I : iface S A) less rep admits (s : S) (l : list A),
  implements I less rep admits -> strict_weak less -> rep s l -> fits (length l) ->
  exists s' l', g_Init I s = Ok s' /\ rep s' l' /\ l' ≡ₚ l /\ heap_ordered less l'.
Proof.
  intros S A I less rep admits s l Im SW Hr Hf.
  destruct (heap_Init_spec less SW l) as (l'&H&?&?).
  destruct (Init_sim I less rep admits Im _ _ _ Hr Hf H) as (s'&?&?). eauto 10.
Qed.
Print Assumptions C102_Init.
Theorem C102_Push : forall (S A : Type) (I : iface S A) less rep admits (s : S) (l : list A) x,
  implements I less rep admits -> strict_weak less -> rep s l -> heap_ordered less l -> admits x l ->
  fits (length l + 1) ->
  exists s' l', g_Push I s x = Ok s' /\ rep s' l' /\ l' ≡ₚ x :: l /\ heap_ordered less l'.
Proof.
  intros S A I less rep admits s l x Im SW Hr Ho Hx Hf. rewrite Nat.add_1_r in Hf.
  destruct (heap_Push_spec less SW l x Ho) as (l'&H&?&?).
  destruct (Push_sim I less rep admits Im _ _ _ _ Hr Hx Hf H) as (s'&?&?). eauto 10.
Qed.
Print Assumptions C102_Push.
Theorem C102_Pop : forall (S A : Type) (I : iface S A) less rep admits (s : S) (l : list A),
  implements I less rep admits -> strict_weak less -> rep s l -> heap_ordered less l -> l <> [] ->
  fits (length l) ->
  exists x s' l', g_Pop I s = Ok (x, s') /\ rep s' l' /\ l ≡ₚ x :: l' /\ l !! 0 = Some x /\
    least less x l /\ heap_ordered less l'.
Proof.
  intros S A I less rep admits s l Im SW Hr Ho Hl Hf.
  destruct (heap_Pop_spec less SW l Ho Hl) as (x&l'&H&?&?&?&?).
  destruct (Pop_sim I less rep admits Im _ _ _ _ Hr Hf H) as (s'&?&?). eauto 10.
Qed.
Print Assumptions C102_Pop.
Theorem C102_Remove : forall (S A : Type) (I : iface S A) less rep admits (s : S) (l : list A) i x,
  implements I less rep admits -> strict_weak less -> rep s l -> heap_ordered less l ->
  l !! i = Some x -> fits (length l) ->
  exists s' l', g_Remove I s (Z.of_nat i) = Ok (x, s') /\ rep s' l' /\ l ≡ₚ x :: l' /\
    heap_ordered less l'.
Proof.
  intros S A I less rep admits s l i x Im SW Hr Ho Hx Hf.
  destruct (heap_Remove_spec less SW l i x Ho Hx) as (l'&H&?&?).
  destruct (Remove_sim I less rep admits Im _ _ _ _ _ Hr Hf (lookup_lt_Some _ _ _ Hx) H) as (s'&?&?).
  eauto 10.
Qed.
Print Assumptions C102_Remove.
(** The element at [i] has changed in any way (in place, by a pointer, ...). *)
Theorem C102_Fix : forall (S A : Type) (I : iface S A) less rep admits (s : S) less0 (l0 l : list A) i,
  implements I less rep admits -> strict_weak less -> strict_weak less0 -> heap_ordered less0 l0 ->
  changed_at i less0 l0 less l -> rep s l -> i < length l -> fits (length l) ->
  exists s' l', g_Fix I s (Z.of_nat i) = Ok s' /\ rep s' l' /\ l' ≡ₚ l /\ heap_ordered less l'.
Proof.
  intros S A I less rep admits s less0 l0 l i Im SW SW0 Ho Hc Hr Hi Hf.
  destruct (heap_Fix_changed less less0 l0 l i SW SW0 Ho Hc Hi) as (l'&H&?&?).
  destruct (Fix_sim I less rep admits Im _ _ _ _ Hr Hf Hi H) as (s'&?&?). eauto 10.
Qed.
Print Assumptions C102_Fix.
Theorem C102_sort : forall (S A : Type) (I : iface S A) less rep admits (s : S) (l : list A),
  implements I less rep admits -> strict_weak less -> rep s l -> fits (length l) ->
  exists s1 out s2, g_Init I s = Ok s1 /\ g_pops I (length l) s1 = Ok (out, s2) /\ rep s2 [] /\
    out ≡ₚ l /\ in_order less out.
Proof. intros S A I less rep admits s l Im. by apply (sort_sim I less rep admits). Qed.
Print Assumptions C102_sort.

(** Implementations: the slice types of the repository, and the items with an index of the example. *)
Theorem C102_slice : forall (A : Type) (less : A -> A -> bool),
  implements (slice_iface less) less (fun s l => s = l) (fun _ _ => True).
Proof. exact @slice_implements. Qed.
Print Assumptions C102_slice.
Theorem C102_items : forall prio : nat -> Z,
  strict_weak (by_prio prio) /\
  implements item_iface (by_prio prio) (items_hold prio) (fun x l => x ∉ l).
Proof. intros prio. split; [apply by_prio_strict_weak|apply item_implements]. Qed.
Print Assumptions C102_items.
Theorem C102_item_update : forall prio q l x p,
  items_hold prio q l -> heap_ordered (by_prio prio) l -> x ∈ l -> fits (length l) ->
  exists q' l', item_update x p q = Ok q' /\ items_hold (with_prio prio x p) q' l' /\ l' ≡ₚ l /\
    heap_ordered (by_prio (with_prio prio x p)) l'.
Proof. exact item_update_ok. Qed.
Print Assumptions C102_item_update.
(** An item that is taken out gets the index -1, and updating it then leaves the queue alone. *)
Theorem C102_item_out : forall q i x q',
  (g_Pop item_iface q = Ok (x, q') \/ g_Remove item_iface q i = Ok (x, q')) -> q_index q' x = (-1)%Z.
Proof. intros q i x q' [H|H]; [by eapply item_Pop_index|by eapply item_Remove_index]. Qed.
Print Assumptions C102_item_out.
Theorem C102_item_update_out : forall prio q l x p,
  items_hold prio q l -> heap_ordered (by_prio prio) l -> x ∉ l -> fits (length l) ->
  q_index q x = (-1)%Z ->
  exists q', item_update x p q = Ok q' /\ items_hold (with_prio prio x p) q' l /\
    heap_ordered (by_prio (with_prio prio x p)) l.
Proof. exact item_update_outside. Qed.
Print Assumptions C102_item_update_out.

(** The example of heap/example_pq_test.go: items 0, 1, 2 with priorities 3, 2, 4, then item 3. *)
Definition ex_prio (x : nat) : Z := nth x [3; 2; 4; 1]%Z 0%Z.
Definition ex_items : items := Items [0; 1; 2] ex_prio Z.of_nat.
Example ex_items_hold : items_hold ex_prio ex_items [0; 1; 2].
Proof.
  split; [done|]. split; [|split; [done|]].
  - repeat constructor; set_solver.
  - intros [|[|[|i]]] x [= <-]; done.
Qed.
Definition ex_pq : res (list nat * items) :=
  q <-! g_Init item_iface ex_items;; q <-! g_Push item_iface q 3;;
  q <-! item_update 3 5 q;; g_pops item_iface 4 q.
Example ex_pq_order : (match ex_pq with Ok (out, _) => out | _ => [] end) = [3; 2; 0; 1].
Proof. vm_compute. reflexivity. Qed.
Example ex_pq_indices :
  match (q <-! g_Init item_iface ex_items;; g_Push item_iface q 3) with
  | Ok q => q_items q = [2; 1; 0; 3] /\ map (q_index q) [0; 1; 2; 3] = [2; 1; 0; 3]%Z
  | _ => False
  end.
Proof. vm_compute. done. Qed.

(** C103: what the calls cost, for every implementation and whatever Less answers. *)
Theorem C103_Init : forall (S A : Type) (I : iface S A) (c c' : counted S) n,
  i_len I (c_state c) = Z.of_nat n -> fits n -> g_Init (counting I) c = Ok c' ->
  within c c' (2 * n) n.
Proof. intros S A I c c' n Hl Hf. by apply Init_cost. Qed.
Print Assumptions C103_Init.
Theorem C103_Push : forall (S A : Type) (I : iface S A) (c c' : counted S) x n,
  (forall s, i_push I x (c_state c) = Ok s -> i_len I s = Z.of_nat (n + 1)) -> fits (n + 1) ->
  g_Push (counting I) c x = Ok c' ->
  within c c' (Nat.log2 (n + 1)) (Nat.log2 (n + 1)).
Proof. intros S A I c c' x n Hl Hf. by apply Push_cost. Qed.
Print Assumptions C103_Push.
Theorem C103_Pop : forall (S A : Type) (I : iface S A) (c c' : counted S) x n,
  i_len I (c_state c) = Z.of_nat (n + 1) -> fits (n + 1) -> g_Pop (counting I) c = Ok (x, c') ->
  within c c' (2 * Nat.log2 n) (Nat.log2 n + 1).
Proof. intros S A I c c' x n Hl Hf. by apply Pop_cost. Qed.
Print Assumptions C103_Pop.
Theorem C103_Remove : forall (S A : Type) (I : iface S A) (c c' : counted S) (i : nat) x n,
  i_len I (c_state c) = Z.of_nat (n + 1) -> i <= n -> fits (n + 1) ->
  g_Remove (counting I) c (Z.of_nat i) = Ok (x, c') ->
  within c c' (2 * Nat.log2 n) (Nat.log2 n + 1).
Proof. intros S A I c c' i x n Hl Hi Hf. by apply Remove_cost. Qed.
Print Assumptions C103_Remove.
Theorem C103_Fix : forall (S A : Type) (I : iface S A) (c c' : counted S) (i : nat) n,
  i_len I (c_state c) = Z.of_nat n -> i < n -> fits n ->
  g_Fix (counting I) c (Z.of_nat i) = Ok c' ->
  within c c' (2 * Nat.log2 n) (Nat.log2 n).
Proof. intros S A I c c' i n Hl Hi Hf. by apply Fix_cost. Qed.
Print Assumptions C103_Fix.
Theorem C103_sort : forall (S A : Type) (I : iface S A) less rep admits (c : counted S) (l : list A),
  implements I less rep admits -> strict_weak less -> rep (c_state c) l -> fits (length l) ->
  exists c1 out c2, g_Init (counting I) c = Ok c1 /\ g_pops (counting I) (length l) c1 = Ok (out, c2) /\
    out ≡ₚ l /\ in_order less out /\
    within c c2 (2 * length l + 2 * length l * Nat.log2 (length l))
      (length l + length l * (Nat.log2 (length l) + 1)).
Proof. intros S A I less rep admits c l Im. by apply (sort_cost I less rep admits). Qed.
Print Assumptions C103_sort.
(** The counting implementation is itself one, so C102 tells that these calls succeed. *)
Theorem C103_counting : forall (S A : Type) (I : iface S A) less rep admits,
  implements I less rep admits ->
  implements (counting I) less (fun c l => rep (c_state c) l) admits.
Proof. exact @counting_implements. Qed.
Print Assumptions C103_counting.

(** The bounds are reached. *)
Definition ex_min : iface (list Z) Z := slice_iface (min_less Z.ltb).
Example ex_C103_push : g_Push (counting ex_min) (Counted [1; 2; 3; 4; 5; 6; 7]%Z 0 0) 0%Z
  = Ok (Counted [0; 1; 3; 2; 5; 6; 7; 4]%Z 3 3) /\ Nat.log2 (7 + 1) = 3.
Proof. split; vm_compute; reflexivity. Qed.
Example ex_C103_pop : g_Pop (counting ex_min) (Counted [1; 2; 3; 4; 5; 6; 7; 8; 9]%Z 0 0)
  = Ok (1%Z, Counted [2; 4; 3; 8; 5; 6; 7; 9]%Z 5 4) /\ 2 * Nat.log2 8 = 6 /\ Nat.log2 8 + 1 = 4.
Proof. repeat split; vm_compute; reflexivity. Qed.
Example ex_C103_init : g_Init (counting ex_min) (Counted [7; 6; 5; 4; 3; 2; 1]%Z 0 0)
  = Ok (Counted [1; 3; 2; 4; 6; 7; 5]%Z 8 4).
Proof. vm_compute; reflexivity. Qed.
