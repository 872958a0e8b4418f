(** Properties C221 and C222: which of the library's sorts the sorting methods of vec use. *)
From Verif Require Import Base VecModel VecSpec VecProofs VecSteps VecHistory VecQuery VecExample VecProperties VecSortModel.

(** What is assumed of the library. *)
Definition good_lib {T} (lib : sort_lib T) : Prop := sorts (lib_SortFunc lib) /\ sorts_stably (lib_SortStableFunc lib).
(** Elements equal to each other are in the order they were in. *)
Definition keeps_order {T} (eq : T -> T -> bool) (l l' : list T) : Prop :=
  forall a, filter (fun x => eq a x = true) l' = filter (fun x => eq a x = true) l.

Section properties.
  Context {T : Type} (zero : T) (growth : nat -> nat -> nat -> nat).
  Context (auto_less auto_equal : option (T -> T -> bool)) (lib : sort_lib T).
  Notation reached := (v_reached zero growth auto_equal (lib_SortFunc lib) (lib_SortStableFunc lib)).

  (** C221.  All four methods sort, and those called stable also keep the order of equal elements.  Other vectors are
      left alone. *)
  Theorem C221_SortFunc st v lt eq : good_lib lib -> reached st -> v < w_vn (fst st) -> swo lt -> matches lt eq ->
    exists w', vec_SortFunc lib v lt eq (fst st) = Ok (tt, w') /\ vseq w' v ≡ₚ vseq (fst st) v /\ all_sorted lt (vseq w' v) /\
      forall u, u < w_vn (fst st) -> u <> v -> vseq w' u = vseq (fst st) u.
  Proof.
    intros [Hs1 [Hs2 _]] Hr Hv Hlt Hm. pose proof (reached_inv _ _ _ _ _ (proj1 Hs1) (proj1 Hs2) _ Hr) as Hi.
    destruct (Sort_ok zero growth auto_equal (lib_SortFunc lib) (lib_SortStableFunc lib) (fst st) v Hi Hv lt eq (proj1 Hs1)) as (r&w'&E'&_&Q&_&F&_).
    exists w'. split; [|split; [|split]].
    - unfold vec_SortFunc. cbn [v_exec] in E'. unfold bind in E'.
      destruct (SortFunc _ _ _ _ _) as [[[] w2]| |]; [|done..]. by injection E' as _ ->.
    - rewrite Q. apply Hs1.
    - rewrite Q. by apply Hs1.
    - intros u Hu Hne. by apply (frame_other (fst st) v w').
  Qed.
  Theorem C221_SortStableFunc st v lt eq : good_lib lib -> reached st -> v < w_vn (fst st) -> swo lt -> matches lt eq ->
    exists w', vec_SortStableFunc lib v lt eq (fst st) = Ok (tt, w') /\ vseq w' v ≡ₚ vseq (fst st) v /\ all_sorted lt (vseq w' v) /\
      keeps_order eq (vseq (fst st) v) (vseq w' v) /\
      forall u, u < w_vn (fst st) -> u <> v -> vseq w' u = vseq (fst st) u.
  Proof.
    intros [Hs1 [Hs2 Hst]] Hr Hv Hlt Hm. pose proof (reached_inv _ _ _ _ _ (proj1 Hs1) (proj1 Hs2) _ Hr) as Hi.
    destruct (SortStable_ok zero growth auto_equal (lib_SortFunc lib) (lib_SortStableFunc lib) (fst st) v Hi Hv lt eq (proj1 Hs2)) as (r&w'&E'&_&Q&_&F&_).
    exists w'. split; [|split; [|split; [|split]]].
    - unfold vec_SortStableFunc. cbn [v_exec] in E'. unfold bind in E'.
      destruct (SortStableFunc _ _ _ _ _) as [[[] w2]| |]; [|done..]. by injection E' as _ ->.
    - rewrite Q. apply Hs2.
    - rewrite Q. by apply Hs2.
    - intros a. rewrite Q. by apply Hst.
    - intros u Hu Hne. by apply (frame_other (fst st) v w').
  Qed.
  Theorem C221_Sort st v lt eq : good_lib lib -> reached st -> v < w_vn (fst st) ->
    cmp_less auto_less (S v) (fst st) v = Some lt -> cmp_equal auto_equal (S v) (fst st) v = Some eq -> swo lt -> matches lt eq ->
    exists w', vec_Sort auto_less auto_equal lib v (fst st) = Ok (tt, w') /\ vseq w' v ≡ₚ vseq (fst st) v /\ all_sorted lt (vseq w' v) /\
      forall u, u < w_vn (fst st) -> u <> v -> vseq w' u = vseq (fst st) u.
  Proof.
    intros Hg Hr Hv E1 E2 Hlt Hm. destruct (C221_SortFunc st v lt eq Hg Hr Hv Hlt Hm) as (w'&H).
    exists w'. unfold vec_Sort, sort_with. by rewrite E1, E2.
  Qed.
  Theorem C221_SortStable st v lt eq : good_lib lib -> reached st -> v < w_vn (fst st) ->
    cmp_less auto_less (S v) (fst st) v = Some lt -> cmp_equal auto_equal (S v) (fst st) v = Some eq -> swo lt -> matches lt eq ->
    exists w', vec_SortStable auto_less auto_equal lib v (fst st) = Ok (tt, w') /\ vseq w' v ≡ₚ vseq (fst st) v /\ all_sorted lt (vseq w' v) /\
      keeps_order eq (vseq (fst st) v) (vseq w' v) /\
      forall u, u < w_vn (fst st) -> u <> v -> vseq w' u = vseq (fst st) u.
  Proof.
    intros Hg Hr Hv E1 E2 Hlt Hm. destruct (C221_SortStableFunc st v lt eq Hg Hr Hv Hlt Hm) as (w'&H).
    exists w'. unfold vec_SortStable, sort_with. by rewrite E1, E2.
  Qed.
End properties.

(** A library that keeps what it promises and whose SortFunc is not stable: it sorts the reversed slice. *)
Definition rev_sort {T} (f : T -> T -> Z) (l : list T) : list T := isort f (rev l).
Definition turning {T} : sort_lib T := SortLib rev_sort isort.
Lemma turning_good T : good_lib (T := T) turning.
Proof.
  split; [split|apply isort_sorts].
  - intros f l. cbn. unfold rev_sort. rewrite isort_perm. symmetry. apply Permutation_rev.
  - intros lt eq l Hs _. cbn. unfold rev_sort. by apply isort_sorted.
Qed.
Definition first_lt (a b : Z * Z) : bool := (a.1 <? b.1)%Z.
Definition first_eq (a b : Z * Z) : bool := (a.1 =? b.1)%Z.
Lemma first_swo : swo first_lt.
Proof. unfold first_lt. split; [|split]; intros; [apply Z.ltb_irrefl|..]; rewrite ?Z.ltb_lt in *; lia. Qed.
Lemma first_matches : matches first_lt first_eq.
Proof. intros a b. unfold first_lt, first_eq. destruct (Z.eqb_spec a.1 b.1), (Z.ltb_spec a.1 b.1), (Z.ltb_spec b.1 a.1); try reflexivity; lia. Qed.

(** C222: Sort, too, keeps the order of equal elements.  Not with every library that does what it says. *)
Definition pairs_ops : list (v_op (Z * Z)) := [ONew (Some first_lt) (Some first_eq); OCall 0 (VPush [(2, 1); (1, 1); (2, 2); (1, 2)]%Z)].
Notation preached := (v_reached (0, 0)%Z (fun _ _ n => 2 * n) None rev_sort isort).
Theorem C222_Sort_refuted :
  ~ (forall (T : Type) zero growth auto_less auto_equal (lib : sort_lib T) st v lt eq, good_lib lib ->
       v_reached zero growth auto_equal (lib_SortFunc lib) (lib_SortStableFunc lib) st -> v < w_vn (fst st) ->
       cmp_less auto_less (S v) (fst st) v = Some lt -> cmp_equal auto_equal (S v) (fst st) v = Some eq -> swo lt -> matches lt eq ->
       forall w', vec_Sort auto_less auto_equal lib v (fst st) = Ok (tt, w') -> keeps_order eq (vseq (fst st) v) (vseq w' v)).
Proof.
  intros H.
  destruct (run_reached (0, 0)%Z (fun _ _ n => 2 * n) None rev_sort isort pairs_ops (fun st => exists w',
    cmp_less None 1 (fst st) 0 = Some first_lt /\ cmp_equal None 1 (fst st) 0 = Some first_eq /\ (0 <? w_vn (fst st))%nat = true /\
    vseq (fst st) 0 = [(2, 1); (1, 1); (2, 2); (1, 2)]%Z /\
    vec_Sort None None turning 0 (fst st) = Ok (tt, w') /\ vseq w' 0 = [(1, 2); (1, 1); (2, 2); (2, 1)]%Z)) as (st&Hr&w'&E1&E2&Hv&Hl&Hs&Hq).
  { vm_compute. eexists. do 4 (split; [reflexivity|]). split; reflexivity. }
  apply Nat.ltb_lt in Hv.
  specialize (H _ _ _ None None turning st 0 first_lt first_eq (turning_good _) Hr Hv E1 E2 first_swo first_matches w' Hs (1, 0)%Z).
  rewrite Hl, Hq in H. vm_compute in H. discriminate H.
Qed.
(** The same vector with SortStable *)
Example C221_example : exists st w', preached st /\ good_lib (T := Z * Z) turning /\
  cmp_less None 1 (fst st) 0 = Some first_lt /\ cmp_equal None 1 (fst st) 0 = Some first_eq /\
  vseq (fst st) 0 = [(2, 1); (1, 1); (2, 2); (1, 2)]%Z /\
  vec_SortStable None None turning 0 (fst st) = Ok (tt, w') /\ vseq w' 0 = [(1, 1); (1, 2); (2, 1); (2, 2)]%Z.
Proof.
  destruct (run_reached (0, 0)%Z (fun _ _ n => 2 * n) None rev_sort isort pairs_ops (fun st => exists w',
    cmp_less None 1 (fst st) 0 = Some first_lt /\ cmp_equal None 1 (fst st) 0 = Some first_eq /\
    vseq (fst st) 0 = [(2, 1); (1, 1); (2, 2); (1, 2)]%Z /\
    vec_SortStable None None turning 0 (fst st) = Ok (tt, w') /\ vseq w' 0 = [(1, 1); (1, 2); (2, 1); (2, 2)]%Z)) as (st&Hr&w'&H).
  { vm_compute. eexists. do 3 (split; [reflexivity|]). split; reflexivity. }
  exists st, w'. split; [done|]. split; [apply turning_good|done].
Qed.
Print Assumptions C221_SortFunc. Print Assumptions C221_SortStableFunc. Print Assumptions C221_Sort. Print Assumptions C221_SortStable.
Print Assumptions C222_Sort_refuted.
