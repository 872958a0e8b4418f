(** Property theorems for heap: what holds whatever Less answers (C115), and floats without and with NaN (C116, C117). *)
From Verif Require Import Base HeapModel HeapSpec HeapProofs HeapIface HeapIfaceSpec HeapIfaceProofs HeapAnySpec HeapAny VecAutoProperties.
From Coq Require Import Floats.SpecFloat ZifyBool.

(** C115: no call panics or loses, invents or duplicates an element, and Pop and Remove give out the
    element at the index. *)
Theorem C115_Init : forall (S A : Type) (I : iface S A) rep admits (s : S) (l : list A),
  keeps I rep admits -> rep s l -> fits (length l) ->
  exists s' l', g_Init I s = Ok s' /\ rep s' l' /\ l' ≡ₚ l.
Proof. intros S A I rep admits s l Im. by apply (any_Init I rep admits). Qed.
Print Assumptions C115_Init.
Theorem C115_Push : forall (S A : Type) (I : iface S A) rep admits (s : S) (l : list A) x,
  keeps I rep admits -> rep s l -> admits x l -> fits (length l + 1) ->
  exists s' l', g_Push I s x = Ok s' /\ rep s' l' /\ l' ≡ₚ x :: l.
Proof. intros S A I rep admits s l x Im. by apply (any_Push I rep admits). Qed.
Print Assumptions C115_Push.
Theorem C115_Pop : forall (S A : Type) (I : iface S A) rep admits (s : S) (l : list A) x,
  keeps I rep admits -> rep s l -> fits (length l) -> l !! 0 = Some x ->
  exists s' l', g_Pop I s = Ok (x, s') /\ rep s' l' /\ l ≡ₚ x :: l'.
Proof. intros S A I rep admits s l x Im. by apply (any_Pop I rep admits). Qed.
Print Assumptions C115_Pop.
Theorem C115_Remove : forall (S A : Type) (I : iface S A) rep admits (s : S) (l : list A) i x,
  keeps I rep admits -> rep s l -> fits (length l) -> l !! i = Some x ->
  exists s' l', g_Remove I s (Z.of_nat i) = Ok (x, s') /\ rep s' l' /\ l ≡ₚ x :: l'.
Proof. intros S A I rep admits s l i x Im. by apply (any_Remove I rep admits). Qed.
Print Assumptions C115_Remove.
Theorem C115_Fix : forall (S A : Type) (I : iface S A) rep admits (s : S) (l : list A) i,
  keeps I rep admits -> rep s l -> fits (length l) -> i < length l ->
  exists s' l', g_Fix I s (Z.of_nat i) = Ok s' /\ rep s' l' /\ l' ≡ₚ l.
Proof. intros S A I rep admits s l i Im. by apply (any_Fix I rep admits). Qed.
Print Assumptions C115_Fix.
Theorem C115_pops : forall (S A : Type) (I : iface S A) rep admits (s : S) (l : list A),
  keeps I rep admits -> rep s l -> fits (length l) ->
  exists out s', g_pops I (length l) s = Ok (out, s') /\ rep s' [] /\ out ≡ₚ l.
Proof. intros S A I rep admits s l Im. by apply (any_pops I rep admits). Qed.
Print Assumptions C115_pops.
(** Such implementations: the slice types of the repository with any Less, and a slice with a coin. *)
Theorem C115_slice : forall (A : Type) (less : A -> A -> bool),
  keeps (slice_iface less) (fun s l => s = l) (fun _ _ => True).
Proof. intros A less. apply (implements_keeps _ less), slice_implements. Qed.
Print Assumptions C115_slice.
Theorem C115_coin : forall (A : Type) (coin : nat -> bool),
  keeps (@coin_iface A coin) (fun s l => snd s = l) (fun _ _ => True).
Proof. intros A coin. apply coin_keeps. Qed.
Print Assumptions C115_coin.

Example ex_coin :
  match (s <-! g_Init (coin_iface Nat.odd) (0, [5; 6; 7; 8; 9]%Z);; g_pops (coin_iface Nat.odd) 5 s) with
  | Ok (out, _) => out = [8; 6; 5; 9; 7]%Z
  | _ => False
  end.
Proof. vm_compute. reflexivity. Qed.

(** C116: MinHeap and MaxHeap of floats other than NaN keep the contract of C102. *)
Lemma total_float_strict : strict_weak total_float.
Proof.
  unfold total_float. split_and!.
  - intros x. destruct (fkey x) as [[[a b] c]|]; [|done]. cbn. lia.
  - intros x y z. destruct (fkey x) as [[[a b] c]|], (fkey y) as [[[a' b'] c']|], (fkey z) as [[[a'' b''] c'']|]; cbn; try done; lia.
  - intros x y z. destruct (fkey x) as [[[a b] c]|], (fkey y) as [[[a' b'] c']|], (fkey z) as [[[a'' b''] c'']|]; cbn; try done; lia.
Qed.
Lemma total_float_ltb x y : x <> S754_nan -> y <> S754_nan -> total_float x y = SFltb x y.
Proof.
  intros [kx Hx]%fkey_some [ky Hy]%fkey_some. unfold total_float. rewrite Hx, Hy. symmetry. by apply SFltb_key.
Qed.
Lemma flip_strict {A} (less : A -> A -> bool) : strict_weak less -> strict_weak (max_less less).
Proof. unfold strict_weak, max_less. intros (H1&H2&H3). split_and!; eauto. Qed.
Lemma no_nan_implements (f : (spec_float -> spec_float -> bool) -> spec_float -> spec_float -> bool) :
  f = min_less \/ f = max_less ->
  implements (slice_iface (f SFltb)) (f total_float) (fun s l => s = l /\ no_nan l) (fun x _ => x <> S754_nan).
Proof.
  intros Hf. pose proof (slice_implements (f SFltb)) as Im. unfold no_nan. split.
  - intros s l [-> _]. by apply Im.
  - intros s l i j x y [-> Hn] Hx Hy. destruct (im_less _ _ _ _ Im l l i j x y eq_refl Hx Hy) as (s'&->& ->). exists l. split; [|done].
    pose proof (proj1 (Forall_lookup _ _) Hn _ _ Hx). pose proof (proj1 (Forall_lookup _ _) Hn _ _ Hy).
    destruct Hf as [->| ->]; unfold min_less, max_less; by rewrite total_float_ltb.
  - intros s l i j x y [-> Hn] Hx Hy. destruct (im_swap _ _ _ _ Im l l i j x y eq_refl Hx Hy) as (s'&->& ->).
    eexists. split; [done|]. split; [done|].
    pose proof (proj1 (Forall_lookup _ _) Hn _ _ Hx). pose proof (proj1 (Forall_lookup _ _) Hn _ _ Hy).
    by apply Forall_insert; [apply Forall_insert|].
  - intros s l x [-> Hn] Hx. destruct (im_push _ _ _ _ Im l l x eq_refl I) as (s'&->& ->). eexists. split; [done|]. split; [done|].
    apply Forall_app. split; [done|]. by constructor.
  - intros s l x [-> Hn]. destruct (im_pop _ _ _ _ Im (l ++ [x]) l x eq_refl) as (s'&->& ->). eexists. split; [done|]. split; [done|].
    by apply Forall_app in Hn as [? _].
Qed.
Lemma in_order_no_nan f out : f = min_less \/ f = max_less -> no_nan out ->
  in_order (f total_float) out -> in_order (f SFltb) out.
Proof.
  intros Hf Hn H i j x y Hij Hx Hy. specialize (H i j x y Hij Hx Hy).
  pose proof (proj1 (Forall_lookup _ _) Hn _ _ Hx). pose proof (proj1 (Forall_lookup _ _) Hn _ _ Hy).
  destruct Hf as [->| ->]; unfold min_less, max_less in *; by rewrite total_float_ltb in H.
Qed.
Lemma float_sort f l : f = min_less \/ f = max_less -> no_nan l -> fits (length l) ->
  exists h out, g_Init (slice_iface (f SFltb)) l = Ok h /\ g_pops (slice_iface (f SFltb)) (length l) h = Ok (out, []) /\
    out ≡ₚ l /\ in_order (f SFltb) out.
Proof.
  intros Hf Hn Hl. assert (strict_weak (f total_float)) as SW.
  { destruct Hf as [->| ->]; [exact total_float_strict|apply flip_strict, total_float_strict]. }
  destruct (sort_sim _ _ _ _ (no_nan_implements f Hf) l l SW ltac:(done) Hl) as (h&out&s2&H1&H2&[-> _]&Hp&Ho).
  exists h, out. split; [done|]. split; [done|]. split; [done|]. apply in_order_no_nan; [done| |done].
  unfold no_nan. by rewrite Hp.
Qed.

Theorem C116_order : strict_weak total_float /\ strict_weak (max_less total_float) /\
  forall x y, x <> S754_nan -> y <> S754_nan -> total_float x y = SFltb x y.
Proof. split_and!; [apply total_float_strict|apply flip_strict, total_float_strict|apply total_float_ltb]. Qed.
Print Assumptions C116_order.
Theorem C116_min :
  implements (slice_iface (min_less SFltb)) (min_less total_float) (fun s l => s = l /\ no_nan l) (fun x _ => x <> S754_nan).
Proof. apply no_nan_implements. by left. Qed.
Print Assumptions C116_min.
Theorem C116_max :
  implements (slice_iface (max_less SFltb)) (max_less total_float) (fun s l => s = l /\ no_nan l) (fun x _ => x <> S754_nan).
Proof. apply no_nan_implements. by right. Qed.
Print Assumptions C116_max.
Theorem C116_min_sort : forall l : list spec_float, no_nan l -> fits (length l) ->
  exists h out, g_Init (slice_iface (min_less SFltb)) l = Ok h /\
    g_pops (slice_iface (min_less SFltb)) (length l) h = Ok (out, []) /\
    out ≡ₚ l /\ forall i j x y, i < j -> out !! i = Some x -> out !! j = Some y -> SFltb y x = false.
Proof. intros l. apply (float_sort min_less). by left. Qed.
Print Assumptions C116_min_sort.
Theorem C116_max_sort : forall l : list spec_float, no_nan l -> fits (length l) ->
  exists h out, g_Init (slice_iface (max_less SFltb)) l = Ok h /\
    g_pops (slice_iface (max_less SFltb)) (length l) h = Ok (out, []) /\
    out ≡ₚ l /\ forall i j x y, i < j -> out !! i = Some x -> out !! j = Some y -> SFltb x y = false.
Proof. intros l. apply (float_sort max_less). by right. Qed.
Print Assumptions C116_max_sort.

(** 1.5 (3 * 2^-1), -0, +Inf, -1, 0 *)
Example ex_floats :
  let l := [S754_finite false 3 (-1); S754_zero true; S754_infinity false; S754_finite true 1 0; S754_zero false] in
  no_nan l /\
  (h <-! g_Init (slice_iface (min_less SFltb)) l;; g_pops (slice_iface (min_less SFltb)) 5 h)
  = Ok ([S754_finite true 1 0; S754_zero false; S754_zero true; S754_finite false 3 (-1); S754_infinity false], []).
Proof. split; [repeat constructor; done|]. vm_compute. reflexivity. Qed.

(** C117: one NaN is enough for the others to come out in the wrong order. *)
Theorem C117_NaN_refuted :
  exists l h out, g_Init (slice_iface (min_less SFltb)) l = Ok h /\
    g_pops (slice_iface (min_less SFltb)) (length l) h = Ok (out, []) /\
    exists i j x y, i < j /\ out !! i = Some x /\ out !! j = Some y /\ SFltb y x = true.
Proof.
  exists [S754_finite false 1 0; S754_nan; S754_zero false], [S754_finite false 1 0; S754_nan; S754_zero false],
    [S754_finite false 1 0; S754_zero false; S754_nan].
  split; [vm_compute; reflexivity|].
  split; [vm_compute; reflexivity|].
  exists 0, 1, (S754_finite false 1 0), (S754_zero false). repeat split. lia.
Qed.
Print Assumptions C117_NaN_refuted.
