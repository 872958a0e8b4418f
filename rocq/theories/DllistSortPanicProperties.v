(** C180: Dllist.Sort with a comparison function that panics. *)
From Coq Require Import ZifyBool ZifyNat.
From Verif Require Import Base DllistModel DllistSpec DllistHistory DllistSortAnySpec DllistSortAny
  DllistSortPanicSpec DllistSortPanic.

(** Whatever the comparison function answers and wherever it panics: Sort ends; if it panics, the list
    sorted and every other list have the elements they had, in their order; if it returns, the list has
    the same values and every other list the elements it had.  All lists can be used as before. *)
Theorem C180_panic {T A : Type} (zero : T) (cmp : T -> T -> A -> option bool * A) w l a :
  reached zero w -> dlists (dabs w) l ->
  exists w' b a', sort_callP zero cmp l a w = Ok ((b, a'), w') /\ usable zero w' /\
    (b = false -> forall l', dlists (dabs w) l' -> dlists (dabs w') l' /\ dseq (dabs w') l' = dseq (dabs w) l') /\
    (b = true -> values w' l ≡ₚ values w l /\
      forall l', dlists (dabs w) l' -> l' <> l -> dlists (dabs w') l' /\ dseq (dabs w') l' = dseq (dabs w) l') /\
    same_vals (dabs w) (dabs w').
Proof.
  intros HR Hl. destruct (sort_panic zero cmp w l a HR Hl) as (w' & b & a' & H1 & H2 & H3 & H4 & H5).
  exists w', b, a'. split; [done|]. split; [done|]. split; [|split; [|done]].
  - intros -> l' Hl'. by apply H4.
  - intros ->. split; [by apply H3|]. intros l' Hl' Hne. by apply H4.
Qed.

(** With a function that does not panic this is the Sort of C125, and so the one of C16. *)
Theorem C180_same {T A : Type} (zero : T) (cmp : T -> T -> A -> bool * A) l a w a' w' :
  sort_callP zero (total cmp) l a w = Ok ((true, a'), w') <-> sort_call zero cmp l a w = Ok (a', w').
Proof.
  unfold sort_callP, sort_call. rewrite SortP_same.
  destruct (dl_SortA _ _ _ _ _ _ _) as [[a1 w1]| |]; cbn; split; intros H; try discriminate H;
    injection H as -> ->; reflexivity.
Qed.
Print Assumptions C180_panic.
Print Assumptions C180_same.

(** ** Examples *)
Local Definition ex_list (vs : list nat) : dworld nat :=
  match dl_run 0 true (DNew :: map (DPushBack 0) vs) (empty_dworld 0) with
  | Some (_, w) => w
  | None => empty_dworld 0
  end.
Local Lemma ex_list_reached vs : reached 0 (ex_list vs).
Proof.
  unfold ex_list. destruct (dl_run _ _ _ _) as [[rs w]|] eqn:H.
  - eexists. by apply run_history.
  - exists []. constructor.
Qed.
(** [<], which panics in its [k]th call from now; sorting 3 1 4 2 takes 4 calls. *)
Local Definition fuse (x y k : nat) : option bool * nat :=
  match k with
  | 0 => (None, 0)
  | S k => (Some (Nat.ltb x y), k)
  end.
Example C180_run : forall k, k ∈ [0; 1; 2; 3; 4] ->
  match sort_callP 0 fuse 0 k (ex_list [3; 1; 4; 2]) with
  | Ok ((b, _), w') => Some (b, values w' 0)
  | _ => None
  end = Some (Nat.eqb k 4, if Nat.eqb k 4 then [1; 2; 3; 4] else [3; 1; 4; 2]).
Proof.
  intros k Hk. repeat (apply elem_of_cons in Hk as [->|Hk]; [vm_compute; reflexivity|]). by apply elem_of_nil in Hk.
Qed.
Example C180_example : exists w' a', sort_callP 0 fuse 0 3 (ex_list [3; 1; 4; 2]) = Ok ((false, a'), w') /\
  usable 0 w' /\ dseq (dabs w') 0 = dseq (dabs (ex_list [3; 1; 4; 2])) 0.
Proof.
  assert (Hl : dlists (dabs (ex_list [3; 1; 4; 2])) 0) by (apply Nat.ltb_lt; vm_compute; reflexivity).
  destruct (C180_panic 0 fuse (ex_list [3; 1; 4; 2]) 0 3 (ex_list_reached _) Hl) as (w' & b & a' & H & Hu & Hf & _).
  assert (b = false) as ->.
  { assert (Hb : match sort_callP 0 fuse 0 3 (ex_list [3; 1; 4; 2]) with Ok ((b, _), _) => b | _ => true end = false)
      by (vm_compute; reflexivity). by rewrite H in Hb. }
  exists w', a'. split; [done|]. split; [done|]. by apply Hf.
Qed.
