(** C125-C127: Dllist.Sort with any comparison function, and the comparisons it makes. *)
From Coq Require Import ZifyBool ZifyNat.
From Verif Require Import Base DllistModel DllistSpec DllistHistory DllistSortAnySpec DllistSortAny.

(** C125.  Whatever the comparison function answers (it has a state [a] of its own and may answer
    differently each time), Sort ends without a panic, the list holds the same values as before,
    every other list is as it was, and all lists can be used as before. *)
Theorem C125_any {T A : Type} (zero : T) (cmp : T -> T -> A -> bool * A) w l a :
  reached zero w -> dlists (dabs w) l ->
  exists w' a', sort_call zero cmp l a w = Ok (a', w') /\ usable zero w' /\
    values w' l ≡ₚ values w l /\
    (forall l', dlists (dabs w) l' -> l' <> l -> dlists (dabs w') l' /\ dseq (dabs w') l' = dseq (dabs w) l') /\
    same_vals (dabs w) (dabs w').
Proof.
  intros HR Hl. destruct (sort_any zero cmp w l a HR Hl) as (w'&a'&H1&H2&H3&H4).
  exists w', a'. split; [done|]. split; [done|]. split; [by eapply qsA_perm|done].
Qed.

(** With a function that has no state this is the Sort of the other claims (C09, C16). *)
Theorem C125_same {T A : Type} (zero : T) less l (a : A) w w' :
  dl_exec zero (DSort l less) w = Ok (DUnit, w') <->
  sort_call zero (stateless less) l a w = Ok (a, w').
Proof.
  unfold sort_call. rewrite SortA_same. cbn [dl_exec]. unfold dmap, bind.
  destruct (dl_Sort zero _ _ less l w) as [[[] w1]| |]; cbn; split; intros H; try discriminate H;
    injection H as ->; reflexivity.
Qed.

(** C126.  On a list of n elements Sort makes at least n-1 and at most n(n-1)/2 comparisons,
    whatever the answers. *)
Theorem C126_comparisons {T A : Type} (zero : T) (cmp : T -> T -> A -> bool * A) w l a :
  reached zero w -> dlists (dabs w) l ->
  exists k a' w', sort_call zero (counted cmp) l (0, a) w = Ok ((k, a'), w') /\
    length (dseq (dabs w) l) - 1 <= k /\
    2 * k <= length (dseq (dabs w) l) * (length (dseq (dabs w) l) - 1).
Proof.
  intros HR Hl. destruct (sort_any zero (counted cmp) w l (0, a) HR Hl) as (w'&[k a']&H1&_&H3&_).
  exists k, a', w'. split; [done|]. apply qsA_count in H3. unfold values in H3. by rewrite map_length in H3.
Qed.

(** On a list that is sorted already it makes n(n-1)/2 of them. *)
Theorem C126_sorted {T : Type} (zero : T) less w l :
  reached zero w -> dlists (dabs w) l -> StronglySorted (fun x y => less y x = false) (values w l) ->
  exists k w', sort_call zero (counted (stateless less)) l (0, tt) w = Ok ((k, tt), w') /\
    values w' l = values w l /\
    2 * k = length (dseq (dabs w) l) * (length (dseq (dabs w) l) - 1).
Proof.
  intros HR Hl Hs. destruct (sort_any zero (counted (stateless less)) w l (0, tt) HR Hl) as (w'&[k []]&H1&_&H3&_).
  exists k, w'. split; [done|]. apply qsA_sorted in H3 as [-> H3]; [|done]. split; [done|].
  unfold values in H3. by rewrite map_length in H3.
Qed.

(** C127 is false: for no constant c does Sort make at most c n log2 n comparisons. *)
Theorem C127_quasilinear_refuted :
  forall c, exists w k w', reached 0 w /\ dlists (dabs w) 0 /\
    sort_call 0 (counted (stateless Nat.ltb)) 0 (0, tt) w = Ok ((k, tt), w') /\
    c * length (dseq (dabs w) 0) * Nat.log2 (length (dseq (dabs w) 0)) < k.
Proof.
  intros c. destruct (pow_beats c) as (m&Hm1&Hm).
  destruct (make_list 0 (seq 0 (2 ^ m))) as (w&HR&Hl&Hv).
  assert (forall n s, StronglySorted (fun x y => Nat.ltb y x = false) (seq s n)) as Hss.
  { induction n as [|n IH]; intros s; cbn; constructor; [apply IH|].
    apply Forall_forall. intros x Hx. apply elem_of_list_In, in_seq in Hx. apply Nat.ltb_ge. lia. }
  destruct (C126_sorted 0 Nat.ltb w 0 HR Hl) as (k&w'&H1&_&H2); [rewrite Hv; apply Hss|].
  exists w, k, w'. split; [done|]. split; [done|]. split; [done|].
  assert (length (dseq (dabs w) 0) = 2 ^ m) as Hlen.
  { apply (f_equal length) in Hv. unfold values in Hv. by rewrite map_length, seq_length in Hv. }
  rewrite Hlen in *. rewrite Nat.log2_pow2 by lia. nia.
Qed.

Print Assumptions C125_any.
Print Assumptions C125_same.
Print Assumptions C126_comparisons.
Print Assumptions C126_sorted.
Print Assumptions C127_quasilinear_refuted.

(** ** Examples *)
Local Definition ex_list (vs : list nat) : dworld nat :=
  match dl_run 0 true (DNew :: map (DPushBack 0) vs) (empty_dworld 0) with
  | Some (_, w) => w
  | None => empty_dworld 0
  end.
Local Lemma ex_list_reached vs : reached 0 (ex_list vs).
Proof.
  unfold ex_list. destruct (dl_run _ _ _ _) as [[rs w]|] eqn:H.
  - eexists. by apply run_history.
  - exists []. constructor.
Qed.

(** A function that says no, yes, no, yes, ... : 3 1 2 5 4 becomes 2 4 3 5 1, and this takes 6
    comparisons. *)
Local Definition coin (_ _ : nat) (b : bool) : bool * bool := (b, negb b).
Example C125_example : exists w' a',
  sort_call 0 (counted coin) 0 (0, false) (ex_list [3; 1; 2; 5; 4]) = Ok (a', w') /\
  values w' 0 ≡ₚ [3; 1; 2; 5; 4].
Proof.
  destruct (C125_any 0 (counted coin) (ex_list [3; 1; 2; 5; 4]) 0 (0, false)) as (w'&a'&H&_&Hp&_).
  - apply ex_list_reached.
  - apply Nat.ltb_lt. vm_compute. reflexivity.
  - exists w', a'. split; [exact H|].
    assert (values (ex_list [3; 1; 2; 5; 4]) 0 = [3; 1; 2; 5; 4]) as Hv by (vm_compute; reflexivity).
    rewrite Hv in Hp. exact Hp.
Qed.
Example C125_run :
  match sort_call 0 (counted coin) 0 (0, false) (ex_list [3; 1; 2; 5; 4]) with
  | Ok (ka, w') => Some (ka, values w' 0)
  | _ => None
  end = Some ((6, false), [2; 4; 3; 5; 1]).
Proof. vm_compute. reflexivity. Qed.

(** Four sorted values take 6 comparisons, in another order they take 4. *)
Example C126_example :
  match sort_call 0 (counted (stateless Nat.ltb)) 0 (0, tt) (ex_list [1; 2; 3; 4]) with
  | Ok (ka, w') => Some (fst ka, values w' 0)
  | _ => None
  end = Some (6, [1; 2; 3; 4]) /\
  match sort_call 0 (counted (stateless Nat.ltb)) 0 (0, tt) (ex_list [3; 1; 4; 2]) with
  | Ok (ka, w') => Some (fst ka, values w' 0)
  | _ => None
  end = Some (4, [1; 2; 3; 4]) /\
  StronglySorted (fun x y => Nat.ltb y x = false) (values (ex_list [1; 2; 3; 4]) 0).
Proof.
  split; [vm_compute; reflexivity|]. split; [vm_compute; reflexivity|].
  replace (values (ex_list [1; 2; 3; 4]) 0) with [1; 2; 3; 4] by (vm_compute; reflexivity).
  repeat (constructor; [|repeat constructor]). constructor.
Qed.
