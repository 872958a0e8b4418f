(** C181: heap.go with implementations whose Less panics. *)
From Coq Require Import ZifyBool ZifyNat.
From Verif Require Import Base HeapModel HeapSpec HeapIface HeapIfaceSpec HeapPanicSpec HeapPanic.

(** Wherever Less panics, and whatever else it answers, the heap then has the elements it had; after
    a Push that panics it has the new one, too; a Pop or Remove that panics has taken nothing out.  A
    call that returns does what C115 says. *)
Theorem C181_Init : forall (S A : Type) (I : piface S A) rep admits (s : S) (l : list A),
  keepsP I rep admits -> rep s l -> fits (length l) ->
  leaves rep (fun _ l' => l' ≡ₚ l) (fun l' => l' ≡ₚ l) (p_Init I s).
Proof. intros S A I rep admits s l Im. by apply (pan_Init I rep admits). Qed.
Theorem C181_Push : forall (S A : Type) (I : piface S A) rep admits (s : S) (l : list A) x,
  keepsP I rep admits -> rep s l -> admits x l -> fits (length l + 1) ->
  leaves rep (fun _ l' => l' ≡ₚ x :: l) (fun l' => l' ≡ₚ x :: l) (p_Push I x s).
Proof. intros S A I rep admits s l x Im. by apply (pan_Push I rep admits). Qed.
Theorem C181_Pop : forall (S A : Type) (I : piface S A) rep admits (s : S) (l : list A) x,
  keepsP I rep admits -> rep s l -> fits (length l) -> l !! 0 = Some x ->
  leaves rep (fun x' l' => x' = x /\ l ≡ₚ x :: l') (fun l' => l' ≡ₚ l) (p_Pop I s).
Proof. intros S A I rep admits s l x Im. by apply (pan_Pop I rep admits). Qed.
Theorem C181_Remove : forall (S A : Type) (I : piface S A) rep admits (s : S) (l : list A) i x,
  keepsP I rep admits -> rep s l -> fits (length l) -> l !! i = Some x ->
  leaves rep (fun x' l' => x' = x /\ l ≡ₚ x :: l') (fun l' => l' ≡ₚ l) (p_Remove I (Z.of_nat i) s).
Proof. intros S A I rep admits s l i x Im. by apply (pan_Remove I rep admits). Qed.
Theorem C181_Fix : forall (S A : Type) (I : piface S A) rep admits (s : S) (l : list A) i,
  keepsP I rep admits -> rep s l -> fits (length l) -> i < length l ->
  leaves rep (fun _ l' => l' ≡ₚ l) (fun l' => l' ≡ₚ l) (p_Fix I (Z.of_nat i) s).
Proof. intros S A I rep admits s l i Im. by apply (pan_Fix I rep admits). Qed.

(** Slices with a Less that panics on some elements are such implementations. *)
Theorem C181_slice : forall (A : Type) (less : A -> A -> option bool),
  keepsP (slice_pface less) (fun s l => s = l) (fun _ _ => True).
Proof. intros A less. apply slice_keepsP. Qed.

(** The functions return exactly where those of HeapIface.v do, with the same result and state. *)
Theorem C181_same : forall (S A : Type) (I : iface S A) (s s' : S),
  (g_Init I s = Ok s' <-> p_Init (lift I) s = Fine tt s') /\
  (forall x, g_Push I s x = Ok s' <-> p_Push (lift I) x s = Fine tt s') /\
  (forall x, g_Pop I s = Ok (x, s') <-> p_Pop (lift I) s = Fine x s') /\
  (forall i x, g_Remove I s i = Ok (x, s') <-> p_Remove (lift I) i s = Fine x s') /\
  (forall i, g_Fix I s i = Ok s' <-> p_Fix (lift I) i s = Fine tt s').
Proof.
  intros S A I s s'.
  assert (Hu : forall (r : res S) p, sim only r p -> (r = Ok s' <-> p = Fine tt s')).
  { intros r p H. destruct r as [x| |]; cbn in H.
    - rewrite H. split; [intros [= ->]; done|intros [= ->]; done].
    - split; [done|]. intros ->. destruct H as [?|[? ?]]; done.
    - split; [done|]. intros ->. destruct H as [?|[? ?]]; done. }
  assert (Hx : forall (r : res (A * S)) p x, sim id r p -> (r = Ok (x, s') <-> p = Fine x s')).
  { intros r p x H. destruct r as [[y s1]| |]; cbn in H.
    - rewrite H. split; [intros [= -> ->]; done|intros [= -> ->]; done].
    - split; [done|]. intros ->. destruct H as [?|[? ?]]; done.
    - split; [done|]. intros ->. destruct H as [?|[? ?]]; done. }
  split; [apply Hu, sim_Init|]. split; [intros x; apply Hu, sim_Push|]. split; [intros x; apply Hx, sim_Pop|].
  split; [intros i x; apply Hx, sim_Remove|]. intros i. apply Hu, sim_Fix.
Qed.
Print Assumptions C181_Init.
Print Assumptions C181_Push.
Print Assumptions C181_Pop.
Print Assumptions C181_Remove.
Print Assumptions C181_Fix.
Print Assumptions C181_slice.
Print Assumptions C181_same.

(** ** Examples *)
(** [<], which panics if one of the two is 13. *)
Local Definition less13 (x y : nat) : option bool :=
  if Nat.eqb x 13 || Nat.eqb y 13 then None else Some (Nat.ltb x y).
(** Push of 13 panics and leaves 13 in the heap; Pop panics after the first element and the last one
    have changed places, and takes nothing out. *)
Example C181_run :
  p_Push (slice_pface less13) 13 [1; 4; 2] = Broken [1; 4; 2; 13] /\
  p_Push (slice_pface less13) 0 [1; 4; 2] = Fine tt [0; 1; 2; 4] /\
  p_Pop (slice_pface less13) [1; 4; 2; 13] = Broken [13; 4; 2; 1] /\
  p_Remove (slice_pface less13) 1 [1; 4; 2; 13; 5] = Broken [1; 5; 2; 13; 4] /\
  p_Init (slice_pface less13) [9; 4; 2; 13; 5] = Broken [9; 4; 2; 13; 5].
Proof. vm_compute. repeat split. Qed.
Example C181_example : exists l', p_Pop (slice_pface less13) [1; 4; 2; 13] = Broken l' /\ l' ≡ₚ [1; 4; 2; 13].
Proof.
  pose proof (C181_Pop _ _ (slice_pface less13) _ _ [1; 4; 2; 13] _ 1 (C181_slice nat less13) eq_refl
    ltac:(unfold fits; cbn; lia) eq_refl) as H.
  destruct C181_run as (_ & _ & E & _). rewrite E in H |- *. destruct H as (l & <- & Hp). eauto.
Qed.
