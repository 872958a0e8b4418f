(** C219: calls of heap.go outside their domain, on the slice types of the repository. *)
From Coq Require Import ZifyBool ZifyNat.
From Verif Require Import Base HeapModel HeapIface HeapIfaceSpec HeapPanicSpec HeapIfaceProofs.

(** An index outside a slice of [n] elements; it is an int. *)
Definition outside (n : nat) (i : Z) : Prop := (- 2^63 <= i < 2^63)%Z /\ ((i < 0)%Z \/ (Z.of_nat n <= i)%Z).

Section out.
  Context {A : Type} (less : A -> A -> option bool).
  Notation I := (slice_pface less).

  Lemma getZ_out (h : list A) i : (i < 0)%Z \/ (Z.of_nat (length h) <= i)%Z -> getZ h i = None.
  Proof. intros Hi. unfold getZ. case_bool_decide; [|done]. apply lookup_ge_None_2. lia. Qed.
  Lemma less_out (h : list A) i j : (i < 0)%Z \/ (Z.of_nat (length h) <= i)%Z -> p_less I i j h = Broken h.
  Proof. intros Hi. cbn. by rewrite (getZ_out h i Hi). Qed.
  Lemma less_out_r (h : list A) i j : (j < 0)%Z \/ (Z.of_nat (length h) <= j)%Z -> p_less I i j h = Broken h.
  Proof. intros Hi. cbn. rewrite (getZ_out h j Hi). by destruct (getZ h i). Qed.
  Lemma less_same (h : list A) i j : (exists b, p_less I i j h = Fine b h) \/ p_less I i j h = Broken h.
  Proof.
    cbn. destruct (getZ h i) as [x|]; [|by right]. destruct (getZ h j) as [y|]; [|by right].
    destruct (less x y) as [b|]; [left; by exists b|by right].
  Qed.

  Lemma down_out (h : list A) i n : outside (length h) i ->
    p_down I i n h = Fine false h \/ (p_down I i n h = Broken h /\ (0 <= wrap (2 * i + 1) < n)%Z).
  Proof.
    intros [_ Hi]. unfold p_down, pbind at 1, get_len. cbn [p_down_loop].
    destruct ((n <=? wrap (2 * i + 1))%Z || (wrap (2 * i + 1) <? 0)%Z) eqn:Ej.
    - left. unfold pbind, preturn. by rewrite Z.ltb_irrefl.
    - right. split; [|lia].
      assert (H2 : (exists b, (if (wrap (wrap (2 * i + 1) + 1) <? n)%Z then p_less I (wrap (wrap (2 * i + 1) + 1)) (wrap (2 * i + 1))
                    else preturn false) h = Fine b h) \/
                   (if (wrap (wrap (2 * i + 1) + 1) <? n)%Z then p_less I (wrap (wrap (2 * i + 1) + 1)) (wrap (2 * i + 1))
                    else preturn false) h = Broken h).
      { destruct (wrap (wrap (2 * i + 1) + 1) <? n)%Z; [apply less_same|]. left. by exists false. }
      destruct H2 as [[b Hb]|Hb]; unfold pbind; rewrite Hb; [|done].
      by rewrite less_out_r.
  Qed.
  Lemma up_out (h : list A) i : outside (length h) i ->
    p_up_ I i h = if (i =? -1)%Z || (i =? 0)%Z then Fine tt h else Broken h.
  Proof.
    intros [Hr Hi]. unfold p_up_. cbn [p_up].
    assert (Hq : (Z.quot (wrap (i - 1)) 2 =? i)%Z = ((i =? -1)%Z || (i =? 0)%Z)).
    { destruct (decide (i = - 2^63)%Z) as [->|Hm]; [reflexivity|]. rewrite wrap_id by lia.
      apply Bool.eq_iff_eq_true. rewrite orb_true_iff, !Z.eqb_eq. lia. }
    rewrite Hq. destruct ((i =? -1)%Z || (i =? 0)%Z); [done|]. unfold pbind. by rewrite less_out.
  Qed.
End out.

(** Whatever Less does: Pop of an empty heap and Remove with an index outside panic, with the heap as it was. *)
Theorem C219_Pop_Remove :
  forall (A : Type) (less : A -> A -> option bool) (h : list A) (i : Z),
  p_Pop (slice_pface less) [] = Broken [] /\
  (fits (length h) -> outside (length h) i -> p_Remove (slice_pface less) i h = Broken h).
Proof.
  intros A less h i. split; [reflexivity|]. intros Hf [Hr Hi]. unfold p_Remove, pbind at 1, get_len. cbn [p_len slice_pface].
  unfold fits in Hf. unfold h_len. rewrite wrap_id by lia.
  destruct (Z.of_nat (length h) - 1 =? i)%Z eqn:En; cbn [negb].
  - assert (length h = 0) by lia. destruct h; [|done]. reflexivity.
  - unfold pbind at 1. cbn [p_swap slice_pface]. unfold h_swap. by rewrite getZ_out.
Qed.
(** Fix with an index outside: with -1, and with 0 on an empty heap, it returns and has done nothing; with any other
    it panics, with the heap as it was. *)
Theorem C219_Fix :
  forall (A : Type) (less : A -> A -> option bool) (h : list A) (i : Z),
  fits (length h) -> outside (length h) i ->
  p_Fix (slice_pface less) i h = if (i =? -1)%Z || (i =? 0)%Z then Fine tt h else Broken h.
Proof.
  intros A less h i Hf Hi. unfold p_Fix, pbind at 1, get_len. cbn [p_len slice_pface]. unfold fits in Hf. unfold h_len.
  destruct (down_out less h i (Z.of_nat (length h)) Hi) as [Hd|[Hd Hj]]; unfold pbind; rewrite Hd; cbn [negb].
  - by apply up_out.
  - destruct (i =? -1)%Z eqn:E1; [exfalso|].
    { assert (i = -1)%Z as -> by lia. revert Hj. vm_compute. intuition congruence. }
    destruct (i =? 0)%Z eqn:E0; [exfalso|done].
    assert (i = 0)%Z as -> by lia. destruct Hi as [_ [?|?]]; [lia|]. assert (length h = 0) as Hl by lia. rewrite Hl in Hj.
    revert Hj. vm_compute. intuition congruence.
Qed.
(** The functions are those of HeapIface.v, run on the same slices (C181_same), so the panics of C06 are these. *)
Print Assumptions C219_Pop_Remove.
Print Assumptions C219_Fix.

Example C219_example :
  let I := slice_pface (fun a b : nat => Some (a <? b)) in let h := [1; 3; 2] in
  p_Remove I 3 h = Broken h /\ p_Remove I (-1) h = Broken h /\ p_Fix I (-1) h = Fine tt h /\ p_Fix I 0 [] = Fine tt [] /\
  p_Fix I 3 h = Broken h /\ p_Fix I (-2) h = Broken h /\ p_Fix I (- 2^63) h = Broken h /\ p_Fix I (2^63 - 1) h = Broken h.
Proof. repeat split; reflexivity. Qed.
Example C219_outside : outside 3 (- 2^63) /\ outside 3 3 /\ outside 0 0 /\ ~ outside 3 2 /\ fits 3.
Proof. unfold outside, fits. lia. Qed.
