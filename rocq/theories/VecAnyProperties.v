(** Properties C134-C137: comparators that are no weak order, or one only on the elements at hand; floats with NaN *)
From Coq Require Import ZifyBool ZifyNat Floats.SpecFloat.
From Verif Require Import Base VecModel VecSpec VecProofs VecSteps VecHistory VecQuery VecExample VecProperties VecAutoSpec VecAutoProperties
  VecAnySpec VecAny.

Section any.
  Context {T : Type} (zero : T) (growth : nat -> nat -> nat -> nat).
  Context (auto_less auto_equal : option (T -> T -> bool)).
  Context (srt srt_stable : forall A, (A -> A -> Z) -> list A -> list A).
  Notation W := (vworld T).
  Notation reached := (v_reached zero growth auto_equal (srt T) (srt_stable T)).
  Notation less_of w v := (cmp_less auto_less (S v) w v).
  Notation equal_of w v := (cmp_equal auto_equal (S v) w v).
  Implicit Types (w : W) (st : state T) (v u : nat) (l : list T) (lt eq : T -> T -> bool).

  (** ** C134 *)
  Theorem C134_BinarySearch w v t lt eq : less_of w v = Some lt -> equal_of w v = Some eq ->
    exists i b, BinarySearch auto_less auto_equal v t w = Ok ((Z.of_nat i, b), w) /\ i <= length (vseq w v) /\
      (0 < i -> exists x, vseq w v !! (i - 1) = Some x /\ lt x t = true) /\
      (i < length (vseq w v) -> exists x, vseq w v !! i = Some x /\ lt x t = false) /\
      (b = true <-> exists x, vseq w v !! i = Some x /\ eq x t = true).
  Proof.
    intros E1 E2. destruct (BinarySearchFunc_any lt eq (vseq w v) t) as (i&b&E&H). exists i, b. split; [|done].
    unfold BinarySearch, BinarySearchFunc, bind, get_d, read, CmpLess, CmpEqual. rewrite E1, E2. fold (vseq w v).
    change (call_cmp (Some lt)) with (pure_cmp lt). change (call_cmp (Some eq)) with (pure_cmp eq). unfold with_res, lift. by rewrite E.
  Qed.
  Theorem C134_Max w v lt eq : less_of w v = Some lt -> equal_of w v = Some eq -> vseq w v <> [] ->
    exists x, Max auto_less auto_equal v w = Ok (x, w) /\ x ∈ vseq w v.
  Proof.
    intros E1 E2 Hne. unfold Max, MaxFunc, bind, get_d, read, CmpLess, CmpEqual. rewrite E1, E2. fold (vseq w v).
    destruct (vseq w v) as [|m l]; [done|]. destruct (maxFunc_any lt eq l m) as (r&E&H). exists r. split; [|done].
    change (call_cmp (Some lt)) with (pure_cmp lt). change (call_cmp (Some eq)) with (pure_cmp eq). unfold with_res, lift. by rewrite E.
  Qed.
  Theorem C134_Min w v lt eq : less_of w v = Some lt -> equal_of w v = Some eq -> vseq w v <> [] ->
    exists x, Min auto_less auto_equal v w = Ok (x, w) /\ x ∈ vseq w v.
  Proof.
    intros E1 E2 Hne. unfold Min, MinFunc, bind, get_d, read, CmpLess, CmpEqual. rewrite E1, E2. fold (vseq w v).
    destruct (vseq w v) as [|m l]; [done|]. destruct (minFunc_any lt eq l m) as (r&E&H). exists r. split; [|done].
    change (call_cmp (Some lt)) with (pure_cmp lt). change (call_cmp (Some eq)) with (pure_cmp eq). unfold with_res, lift. by rewrite E.
  Qed.
  (** Sorting keeps the elements and touches no other vector. *)
  Theorem C134_Sort st v lt eq : (forall f l, srt T f l ≡ₚ l) -> (forall f l, srt_stable T f l ≡ₚ l) -> reached st -> v < w_vn (fst st) ->
    less_of (fst st) v = Some lt -> equal_of (fst st) v = Some eq ->
    exists w', Sort auto_less auto_equal (srt T) v (fst st) = Ok (tt, w') /\ vseq w' v = srt T (three lt eq) (vseq (fst st) v) /\
      vseq w' v ≡ₚ vseq (fst st) v /\ forall u, u < w_vn (fst st) -> u <> v -> vseq w' u = vseq (fst st) u.
  Proof.
    intros Hs1 Hs2 Hr Hv E1 E2. pose proof (reached_inv _ _ _ _ _ Hs1 Hs2 _ Hr) as Hi.
    destruct (Sort_ok zero growth auto_equal (srt T) (srt_stable T) (fst st) v Hi Hv lt eq Hs1) as (r&w'&E'&_&Q&_&F&_).
    exists w'. split; [|split; [done|split]].
    - unfold Sort, sort_with. rewrite E1, E2. cbn [v_exec] in E'. unfold bind in E'.
      destruct (SortFunc _ _ _ _ _) as [[[] w2]| |]; [|done..]. by injection E' as _ ->.
    - by rewrite Q.
    - intros u Hu Hne. by apply (frame_other (fst st) v w').
  Qed.
  Theorem C134_SortStable st v lt eq : (forall f l, srt T f l ≡ₚ l) -> (forall f l, srt_stable T f l ≡ₚ l) -> reached st -> v < w_vn (fst st) ->
    less_of (fst st) v = Some lt -> equal_of (fst st) v = Some eq ->
    exists w', SortStable auto_less auto_equal (srt_stable T) v (fst st) = Ok (tt, w') /\ vseq w' v = srt_stable T (three lt eq) (vseq (fst st) v) /\
      vseq w' v ≡ₚ vseq (fst st) v /\ forall u, u < w_vn (fst st) -> u <> v -> vseq w' u = vseq (fst st) u.
  Proof.
    intros Hs1 Hs2 Hr Hv E1 E2. pose proof (reached_inv _ _ _ _ _ Hs1 Hs2 _ Hr) as Hi.
    destruct (SortStable_ok zero growth auto_equal (srt T) (srt_stable T) (fst st) v Hi Hv lt eq Hs2) as (r&w'&E'&_&Q&_&F&_).
    exists w'. split; [|split; [done|split]].
    - unfold SortStable, sort_with. rewrite E1, E2. cbn [v_exec] in E'. unfold bind in E'.
      destruct (SortStableFunc _ _ _ _ _) as [[[] w2]| |]; [|done..]. by injection E' as _ ->.
    - by rewrite Q.
    - intros u Hu Hne. by apply (frame_other (fst st) v w').
  Qed.

  (** ** C135 *)
  Section on.
    Context (P : T -> bool) (lt eq : T -> T -> bool).
    Notation on := (fun x => P x = true).
    Context (Hs : swo_on on lt) (Hm : matches_on on lt eq).
    Theorem C135_Max w v : less_of w v = Some lt -> equal_of w v = Some eq -> Forall on (vseq w v) -> vseq w v <> [] ->
      exists x, Max auto_less auto_equal v w = Ok (x, w) /\ x ∈ vseq w v /\ forall y, y ∈ vseq w v -> lt x y = false.
    Proof.
      intros E1 E2 Hl Hne. unfold Max, MaxFunc, bind, get_d, read, CmpLess, CmpEqual. rewrite E1, E2. fold (vseq w v).
      destruct (vseq w v) as [|m l]; [done|]. destruct (Max_on P lt eq Hs Hm l m Hl) as (r&E&H). exists r. split; [|done].
      change (call_cmp (Some lt)) with (pure_cmp lt). change (call_cmp (Some eq)) with (pure_cmp eq). unfold with_res, lift. by rewrite E.
    Qed.
    Theorem C135_Min w v : less_of w v = Some lt -> equal_of w v = Some eq -> Forall on (vseq w v) -> vseq w v <> [] ->
      exists x, Min auto_less auto_equal v w = Ok (x, w) /\ x ∈ vseq w v /\ forall y, y ∈ vseq w v -> lt y x = false.
    Proof.
      intros E1 E2 Hl Hne. unfold Min, MinFunc, bind, get_d, read, CmpLess, CmpEqual. rewrite E1, E2. fold (vseq w v).
      destruct (vseq w v) as [|m l]; [done|]. destruct (Min_on P lt eq Hs Hm l m Hl) as (r&E&H). exists r. split; [|done].
      change (call_cmp (Some lt)) with (pure_cmp lt). change (call_cmp (Some eq)) with (pure_cmp eq). unfold with_res, lift. by rewrite E.
    Qed.
    Theorem C135_IsSorted w v : less_of w v = Some lt -> equal_of w v = Some eq -> Forall on (vseq w v) ->
      exists b, IsSorted auto_less auto_equal v w = Ok (b, w) /\ (b = true <-> all_sorted lt (vseq w v)).
    Proof.
      intros E1 E2 Hl. destruct (C44_IsSorted auto_less auto_equal w v lt eq E1 E2) as (b&E&Hb). exists b. split; [done|]. rewrite Hb. split.
      - by apply (adjacent_on P lt Hs).
      - intros H i x y Hx Hy. eapply H; [|done..]. lia.
    Qed.
    Theorem C135_BinarySearch w v t : less_of w v = Some lt -> equal_of w v = Some eq -> Forall on (vseq w v) -> P t = true ->
      all_sorted lt (vseq w v) ->
      exists i b, BinarySearch auto_less auto_equal v t w = Ok ((Z.of_nat i, b), w) /\ i <= length (vseq w v) /\
        (forall k x, k < i -> vseq w v !! k = Some x -> lt x t = true) /\
        (forall k x, i <= k -> vseq w v !! k = Some x -> lt x t = false) /\
        (b = true <-> exists x, x ∈ vseq w v /\ eq x t = true).
    Proof.
      intros E1 E2 Hl Ht Ha. destruct (BinarySearch_on P lt eq Hs Hm (vseq w v) t Hl Ht Ha) as (i&b&E&H). exists i, b. split; [|done].
      unfold BinarySearch, BinarySearchFunc, bind, get_d, read, CmpLess, CmpEqual. rewrite E1, E2. fold (vseq w v).
      change (call_cmp (Some lt)) with (pure_cmp lt). change (call_cmp (Some eq)) with (pure_cmp eq). unfold with_res, lift. by rewrite E.
    Qed.
    Theorem C135_Sort st v : by_comparing srt -> sorts (srt T) -> (forall f l, srt_stable T f l ≡ₚ l) -> reached st -> v < w_vn (fst st) ->
      less_of (fst st) v = Some lt -> equal_of (fst st) v = Some eq -> Forall on (vseq (fst st) v) ->
      exists w', Sort auto_less auto_equal (srt T) v (fst st) = Ok (tt, w') /\ vseq w' v ≡ₚ vseq (fst st) v /\ all_sorted lt (vseq w' v).
    Proof.
      intros Hc Hs1 Hs2 Hr Hv E1 E2 Hl. destruct (C134_Sort st v lt eq (proj1 Hs1) Hs2 Hr Hv E1 E2) as (w'&E&Q&Hp&_).
      exists w'. split; [done|]. split; [done|]. rewrite Q. by apply (Sort_on P lt eq Hs Hm).
    Qed.
    Theorem C135_SortStable st v : by_comparing srt_stable -> (forall f l, srt T f l ≡ₚ l) -> sorts_stably (srt_stable T) -> reached st -> v < w_vn (fst st) ->
      less_of (fst st) v = Some lt -> equal_of (fst st) v = Some eq -> Forall on (vseq (fst st) v) ->
      exists w', SortStable auto_less auto_equal (srt_stable T) v (fst st) = Ok (tt, w') /\ vseq w' v ≡ₚ vseq (fst st) v /\ all_sorted lt (vseq w' v) /\
        forall a, P a = true -> filter (fun x => eq a x = true) (vseq w' v) = filter (fun x => eq a x = true) (vseq (fst st) v).
    Proof.
      intros Hc Hs1 Hs2 Hr Hv E1 E2 Hl. destruct (C134_SortStable st v lt eq Hs1 (proj1 (proj1 Hs2)) Hr Hv E1 E2) as (w'&E&Q&Hp&_).
      exists w'. split; [done|]. split; [done|]. rewrite Q. split; [apply (Sort_on P lt eq Hs Hm); [done|apply Hs2|done]|].
      intros a Ha. by apply (SortStable_on P lt eq Hs Hm).
    Qed.
  End on.
End any.

(** The order of floats is one of those, on the floats other than NaN. *)
Definition number (f : spec_float) : bool := match f with S754_nan => false | _ => true end.
Theorem C135_floats : swo_on (fun f => number f = true) SFltb /\ matches_on (fun f => number f = true) SFltb SFeqb.
Proof.
  assert (H : forall f, number f = true -> f <> S754_nan) by (by intros []).
  destruct (C105_floats unit (fun _ => String.EmptyString) (fun _ _ => true)) as (_&_&(S1&S2&S3)&Hm). split; [split_and!|].
  - intros a Ha. apply S1; auto.
  - intros a b c Ha Hb Hc. apply S2; auto.
  - intros a b c Ha Hb Hc. apply S3; auto.
  - intros a b Ha Hb. apply Hm; auto.
Qed.

(** ** C136, C137: floats with NaN *)
Section floats.
  Context (growth : nat -> nat -> nat -> nat) (srt srt_stable : forall A, (A -> A -> Z) -> list A -> list A).
  Notation W := (vworld spec_float).
  Notation nan := S754_nan.
  Notation less := (Some SFltb). Notation equal := (Some SFeqb).
  Notation way := (three_way (pure_cmp SFltb) (pure_cmp SFeqb)).
  Notation reached := (v_reached (S754_zero false) growth equal (srt spec_float) (srt_stable spec_float)).
  Implicit Types (w : W) (v : nat) (x y : spec_float) (l : list spec_float).
  Lemma ltb_nan_l x : SFltb nan x = false.
  Proof. done. Qed.
  Lemma ltb_nan_r x : SFltb x nan = false.
  Proof. by destruct x. Qed.
  Lemma eqb_nan_l x : SFeqb nan x = false.
  Proof. done. Qed.
  Lemma eqb_nan_r x : SFeqb x nan = false.
  Proof. by destruct x. Qed.
  Lemma way_nan_l x : way nan x = Ok 1%Z.
  Proof. rewrite three_pure. done. Qed.
  Lemma way_nan_r x : way x nan = Ok 1%Z.
  Proof. rewrite three_pure. unfold three. by rewrite ltb_nan_r, eqb_nan_r. Qed.

  Lemma max_after x : forall l m, maxFunc way m (l ++ [nan; x]) = Ok x.
  Proof.
    induction l as [|y l IH]; intros m; cbn [app maxFunc].
    - rewrite way_nan_l. cbn [rbind Z.gtb Z.compare]. rewrite way_nan_r. done.
    - rewrite three_pure. cbn [rbind]. apply IH.
  Qed.
  (** Whatever comes before, a NaN makes Max answer the element after it. *)
  Theorem C136_Max_refuted w v l x : cmp_less less (S v) w v = less -> cmp_equal equal (S v) w v = equal ->
    vseq w v = l ++ [nan; x] -> Max less equal v w = Ok (x, w).
  Proof.
    intros E1 E2 El. unfold Max, MaxFunc, bind, get_d, read, CmpLess, CmpEqual. rewrite E1, E2. fold (vseq w v). rewrite El.
    change (call_cmp less) with (pure_cmp SFltb). change (call_cmp equal) with (pure_cmp SFeqb).
    destruct l as [|m l]; cbn [app]; unfold with_res, lift.
    - cbn [maxFunc]. by rewrite way_nan_r.
    - by rewrite max_after.
  Qed.
  Lemma min_nan : forall l, minFunc way nan l = Ok nan.
  Proof. induction l as [|y l IH]; cbn [minFunc]; [done|]. rewrite way_nan_r. cbn [rbind]. apply IH. Qed.
  Lemma min_drop l : forall m, m <> nan -> minFunc way m l = minFunc way m (filter (fun f => number f = true) l).
  Proof.
    induction l as [|y l IH]; intros m Hm; [done|]. rewrite filter_cons. cbn [minFunc]. destruct (decide (number y = true)) as [Hy|Hy].
    - cbn [minFunc]. rewrite three_pure. cbn [rbind]. apply IH. destruct (_ <? _)%Z; [|done]. by intros ->.
    - assert (y = nan) as -> by (by destruct y). rewrite way_nan_l. cbn [rbind]. by apply IH.
  Qed.
  (** Min answers NaN if the first element is one, and otherwise ignores all of them. *)
  Theorem C136_Min_first_refuted w v l : cmp_less less (S v) w v = less -> cmp_equal equal (S v) w v = equal ->
    vseq w v = nan :: l -> Min less equal v w = Ok (nan, w).
  Proof.
    intros E1 E2 El. unfold Min, MinFunc, bind, get_d, read, CmpLess, CmpEqual. rewrite E1, E2. fold (vseq w v). rewrite El.
    change (call_cmp less) with (pure_cmp SFltb). change (call_cmp equal) with (pure_cmp SFeqb). unfold with_res, lift. by rewrite min_nan.
  Qed.
  Theorem C136_Min_later w v m l : cmp_less less (S v) w v = less -> cmp_equal equal (S v) w v = equal ->
    vseq w v = m :: l -> m <> nan ->
    exists x, Min less equal v w = Ok (x, w) /\ x ∈ m :: l /\ x <> nan /\ forall y, y ∈ m :: l -> SFltb y x = false.
  Proof.
    intros E1 E2 El Hm. unfold Min, MinFunc, bind, get_d, read, CmpLess, CmpEqual. rewrite E1, E2. fold (vseq w v). rewrite El.
    change (call_cmp less) with (pure_cmp SFltb). change (call_cmp equal) with (pure_cmp SFeqb). unfold with_res, lift.
    rewrite min_drop by done. destruct C135_floats as [Hs Hma].
    destruct (Min_on number SFltb SFeqb Hs Hma (filter (fun f => number f = true) l) m) as (x&E&Hx&H).
    { constructor; [by destruct m|]. apply Forall_forall. intros y [Hy _]%elem_of_list_filter. by destruct y. }
    exists x. rewrite E. split; [done|]. rewrite elem_of_cons, elem_of_list_filter in Hx. split; [|split].
    - apply elem_of_cons. tauto.
    - destruct Hx as [->|[Hn _]]; [done|]. by intros ->.
    - intros y Hy. destruct (number y) eqn:Hn; [|by destruct y]. apply H. rewrite elem_of_cons, elem_of_list_filter.
      apply elem_of_cons in Hy as [->|Hy]; [by left|by right].
  Qed.

  (** "When sorting floating-point numbers, NaNs are ordered before other values": with a sorting
      function that learns by comparing, of [x; NaN] and [NaN; x] one ends up with NaN last. *)
  Theorem C137_Sort_refuted st1 st2 v1 v2 x : by_comparing srt -> (forall f l, srt spec_float f l ≡ₚ l) -> (forall f l, srt_stable spec_float f l ≡ₚ l) ->
    reached st1 -> reached st2 -> v1 < w_vn (fst st1) -> v2 < w_vn (fst st2) ->
    cmp_less less (S v1) (fst st1) v1 = less -> cmp_equal equal (S v1) (fst st1) v1 = equal ->
    cmp_less less (S v2) (fst st2) v2 = less -> cmp_equal equal (S v2) (fst st2) v2 = equal ->
    vseq (fst st1) v1 = [x; nan] -> vseq (fst st2) v2 = [nan; x] ->
    exists w1 w2, Sort less equal (srt spec_float) v1 (fst st1) = Ok (tt, w1) /\ Sort less equal (srt spec_float) v2 (fst st2) = Ok (tt, w2) /\
      (vseq w1 v1 = [x; nan] \/ vseq w2 v2 = [x; nan]).
  Proof.
    intros Hc Hs1 Hs2 R1 R2 V1 V2 L1 Q1 L2 Q2 E1 E2.
    destruct (C134_Sort _ growth less equal srt srt_stable st1 v1 SFltb SFeqb Hs1 Hs2 R1 V1 L1 Q1) as (w1&F1&G1&_).
    destruct (C134_Sort _ growth less equal srt srt_stable st2 v2 SFltb SFeqb Hs1 Hs2 R2 V2 L2 Q2) as (w2&F2&G2&_).
    exists w1, w2. split; [done|]. split; [done|]. rewrite G1, G2, E1, E2.
    destruct (Hc _ _ (three SFltb SFeqb) (three SFltb SFeqb) [x; nan] [nan; x]) as (p&Hp&->&->).
    { split; [done|]. intros [|[|i]] [|[|j]] a b a' b' Hij; cbn; intros; simplify_eq; unfold three; by rewrite ?ltb_nan_r, ?eqb_nan_r. }
    cbn [length seq] in Hp. symmetry in Hp. apply Permutation_length_2_inv in Hp as [->| ->]; [by left|by right].
  Qed.
End floats.

(** ** Examples *)
Definition f_one := S754_finite false 1 0. Definition f_five := S754_finite false 5 0.
Notation frun os := (run_ops (S754_zero false) (fun _ _ n => 2 * n) (Some SFeqb) isort isort (empty_vworld, []) os).
Notation freached := (v_reached (S754_zero false) (fun _ _ n => 2 * n) (Some SFeqb) isort isort).

(** Max [5; NaN; 1] = 1, and 1 is not found in it. *)
Example C134_example : exists st, freached st /\ 0 < w_vn (fst st) /\ vseq (fst st) 0 = [f_five] ++ [S754_nan; f_one] /\
  cmp_less (Some SFltb) 1 (fst st) 0 = Some SFltb /\ cmp_equal (Some SFeqb) 1 (fst st) 0 = Some SFeqb /\
  BinarySearch (Some SFltb) (Some SFeqb) 0 f_one (fst st) = Ok ((0%Z, false), fst st) /\
  Max (Some SFltb) (Some SFeqb) 0 (fst st) = Ok (f_one, fst st) /\ Min (Some SFltb) (Some SFeqb) 0 (fst st) = Ok (f_one, fst st).
Proof.
  apply (run_reached (S754_zero false) (fun _ _ n => 2 * n) (Some SFeqb) isort isort [ONew None None; OCall 0 (VPush [f_five; S754_nan; f_one])]).
  vm_compute. split; [lia|]. repeat split.
Qed.
(** Floats without NaN: the theorems of C135 say that Max is 5 and so on. *)
Example C135_example : exists st w', freached st /\ 0 < w_vn (fst st) /\ vseq (fst st) 0 = [f_five; S754_zero true; f_one; S754_zero false] /\
  cmp_less (Some SFltb) 1 (fst st) 0 = Some SFltb /\ cmp_equal (Some SFeqb) 1 (fst st) 0 = Some SFeqb /\
  Forall (fun f => number f = true) (vseq (fst st) 0) /\ by_comparing (fun A => isort) /\ sorts_stably (isort : (spec_float -> spec_float -> Z) -> _) /\
  SortStable (Some SFltb) (Some SFeqb) isort 0 (fst st) = Ok (tt, w') /\ vseq w' 0 = [S754_zero true; S754_zero false; f_one; f_five].
Proof.
  destruct (run_reached (S754_zero false) (fun _ _ n => 2 * n) (Some SFeqb) isort isort [ONew None None; OCall 0 (VPush [f_five; S754_zero true; f_one; S754_zero false])]
    (fun st => exists w', 0 < w_vn (fst st) /\ vseq (fst st) 0 = [f_five; S754_zero true; f_one; S754_zero false] /\
      cmp_less (Some SFltb) 1 (fst st) 0 = Some SFltb /\ cmp_equal (Some SFeqb) 1 (fst st) 0 = Some SFeqb /\
      SortStable (Some SFltb) (Some SFeqb) isort 0 (fst st) = Ok (tt, w') /\ vseq w' 0 = [S754_zero true; S754_zero false; f_one; f_five]))
    as (st&Hr&w'&H1&H2&H3&H4&H5&H6).
  - vm_compute. eexists. split; [lia|]. repeat split.
  - exists st, w'. split; [exact Hr|]. split; [exact H1|]. split; [exact H2|]. split; [exact H3|]. split; [exact H4|].
    split; [rewrite H2; by repeat constructor|]. split; [apply isort_by_comparing|]. split; [apply isort_sorts|]. split; [exact H5|exact H6].
Qed.
Example C136_example : exists st, freached st /\ vseq (fst st) 0 = [S754_nan; f_one] /\ vseq (fst st) 1 = [f_five; S754_nan] /\
  Min (Some SFltb) (Some SFeqb) 0 (fst st) = Ok (S754_nan, fst st) /\ Min (Some SFltb) (Some SFeqb) 1 (fst st) = Ok (f_five, fst st).
Proof.
  apply (run_reached (S754_zero false) (fun _ _ n => 2 * n) (Some SFeqb) isort isort
    [ONew None None; OCall 0 (VPush [S754_nan; f_one]); ONew None None; OCall 1 (VPush [f_five; S754_nan])]).
  vm_compute. repeat split.
Qed.
(** Insertion sort leaves [NaN; 1] alone and [1; NaN] too. *)
Example C137_example : exists st w', freached st /\ vseq (fst st) 0 = [f_one; S754_nan] /\ vseq (fst st) 1 = [S754_nan; f_one] /\
  Sort (Some SFltb) (Some SFeqb) isort 0 (fst st) = Ok (tt, w') /\ vseq w' 0 = [f_one; S754_nan].
Proof.
  destruct (run_reached (S754_zero false) (fun _ _ n => 2 * n) (Some SFeqb) isort isort
    [ONew None None; OCall 0 (VPush [f_one; S754_nan]); ONew None None; OCall 1 (VPush [S754_nan; f_one])]
    (fun st => exists w', vseq (fst st) 0 = [f_one; S754_nan] /\ vseq (fst st) 1 = [S754_nan; f_one] /\
      Sort (Some SFltb) (Some SFeqb) isort 0 (fst st) = Ok (tt, w') /\ vseq w' 0 = [f_one; S754_nan])) as (st&Hr&w'&H).
  - vm_compute. eexists. repeat split.
  - exists st, w'. split; [exact Hr|exact H].
Qed.
Print Assumptions C134_BinarySearch.
Print Assumptions C134_Max. Print Assumptions C134_Min. Print Assumptions C134_Sort. Print Assumptions C134_SortStable.
Print Assumptions C135_Max. Print Assumptions C135_Min. Print Assumptions C135_IsSorted. Print Assumptions C135_BinarySearch.
Print Assumptions C135_Sort. Print Assumptions C135_SortStable. Print Assumptions C135_floats.
Print Assumptions C136_Max_refuted. Print Assumptions C136_Min_first_refuted. Print Assumptions C136_Min_later.
Print Assumptions C137_Sort_refuted.
