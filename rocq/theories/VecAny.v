(** Proofs about comparators that are no weak order, or one only on the elements at hand. *)
From Coq Require Import ZifyBool ZifyNat.
From Verif Require Import Base VecModel VecSpec VecProofs VecSteps VecHistory VecQuery VecExample VecAutoSpec VecAnySpec.

Section any.
  Context {T : Type}.
  Implicit Types (lt eq : T -> T -> bool) (l : list T) (P : T -> Prop).
  Notation way lt eq := (three_way (pure_cmp lt) (pure_cmp eq)).

  Lemma binarySearch_any (f : T -> bool) (cmp : T -> res Z) l :
    (forall x, exists c, cmp x = Ok c /\ (c <? 0)%Z = f x) ->
    forall fuel i j, j - i < fuel -> i <= j -> j <= length l ->
    (0 < i -> exists x, l !! (i - 1) = Some x /\ f x = true) -> (j < length l -> exists x, l !! j = Some x /\ f x = false) ->
    exists r, binarySearch fuel cmp l i j = Ok r /\ r <= length l /\
      (0 < r -> exists x, l !! (r - 1) = Some x /\ f x = true) /\ (r < length l -> exists x, l !! r = Some x /\ f x = false).
  Proof.
    intros Hc. induction fuel as [|fuel IH]; intros i j Hf Hij Hj H1 H2; [lia|]. cbn [binarySearch].
    destruct (Nat.ltb_spec i j) as [Hlt|Hge].
    - assert (Hh : i <= Nat.div2 (i + j) < j).
      { rewrite Nat.div2_div. split; [apply Nat.div_le_lower_bound; lia|apply Nat.div_lt_upper_bound; lia]. }
      set (h := Nat.div2 (i + j)) in *. destruct (lookup_lt_is_Some_2 l h) as [x Hx]; [lia|]. rewrite Hx.
      destruct (Hc x) as (c&E&Ec). rewrite E. cbn [rbind]. rewrite Ec. destruct (f x) eqn:Ef.
      + apply IH; [lia..| |done]. intros _. exists x. replace (S h - 1) with h by lia. done.
      + apply IH; [lia..|done|]. intros _. exists x. done.
    - exists i. replace j with i in * by lia. done.
  Qed.
  Lemma BinarySearchFunc_any lt eq l t :
    exists i b, s_BinarySearchFunc l (fun x => way lt eq x t) = Ok (Z.of_nat i, b) /\ i <= length l /\
      (0 < i -> exists x, l !! (i - 1) = Some x /\ lt x t = true) /\
      (i < length l -> exists x, l !! i = Some x /\ lt x t = false) /\
      (b = true <-> exists x, l !! i = Some x /\ eq x t = true).
  Proof.
    destruct (binarySearch_any (fun x => lt x t) (fun x => way lt eq x t) l) with (fuel := S (length l)) (i := 0) (j := length l)
      as (r&E&Hr&H1&H2); [|lia..|].
    - intros x. exists (three lt eq x t). split; [apply three_pure|]. unfold three. by destruct (lt x t), (eq x t).
    - unfold s_BinarySearchFunc. rewrite E. cbn [rbind]. destruct (l !! r) as [x|] eqn:Ex.
      + rewrite three_pure. cbn [rbind]. pose proof (lookup_lt_Some _ _ _ Ex) as Hlt.
        destruct (H2 Hlt) as (x'&[= <-]&Hf). eexists r, _. split; [reflexivity|]. split; [done|]. split; [done|]. split; [by exists x|].
        unfold three. rewrite Hf. split.
        * intros H. exists x. split; [done|]. by destruct (eq x t).
        * intros (y&Ey&He). assert (y = x) as -> by congruence. by rewrite He.
      + exists r, false. split; [done|]. split; [done|]. split; [done|]. split; [intros Hlt; apply lookup_ge_None in Ex; lia|].
        split; [done|]. intros (x&?&?). congruence.
  Qed.
  Lemma maxFunc_any lt eq : forall l m, exists r, maxFunc (way lt eq) m l = Ok r /\ r ∈ m :: l.
  Proof.
    induction l as [|x l IH]; intros m; cbn [maxFunc]; [exists m; split; [done|left]|].
    rewrite three_pure. cbn [rbind]. destruct (IH (if (three lt eq x m >? 0)%Z then x else m)) as (r&E&Hr). exists r. split; [done|].
    destruct (_ >? _)%Z; rewrite !elem_of_cons in *; naive_solver.
  Qed.
  Lemma minFunc_any lt eq : forall l m, exists r, minFunc (way lt eq) m l = Ok r /\ r ∈ m :: l.
  Proof.
    induction l as [|x l IH]; intros m; cbn [minFunc]; [exists m; split; [done|left]|].
    rewrite three_pure. cbn [rbind]. destruct (IH (if (three lt eq x m <? 0)%Z then x else m)) as (r&E&Hr). exists r. split; [done|].
    destruct (_ <? _)%Z; rewrite !elem_of_cons in *; naive_solver.
  Qed.

  (** An order on the elements with [P], completed to one on all elements: the others come first. *)
  Section complete.
    Context (P : T -> bool) (lt eq : T -> T -> bool).
    Definition full x y : bool := if P x then (if P y then lt x y else false) else P y.
    Definition full_eq x y : bool := negb (full x y) && negb (full y x).
    Lemma full_swo : swo_on (fun x => P x = true) lt -> swo full.
    Proof.
      intros (S1&S2&S3). unfold full. split_and!.
      - intros a. destruct (P a) eqn:Pa; [by apply S1|done].
      - intros a b c. destruct (P a) eqn:Pa, (P b) eqn:Pb, (P c) eqn:Pc; try done. by apply S2.
      - intros a b c. destruct (P a) eqn:Pa, (P b) eqn:Pb, (P c) eqn:Pc; try done. by apply S3.
    Qed.
    Lemma full_matches : matches full full_eq.
    Proof. intros a b. done. Qed.
    Lemma full_three : matches_on (fun x => P x = true) lt eq -> forall a b, P a = true -> P b = true ->
      three lt eq a b = three full full_eq a b /\ lt a b = full a b /\ eq a b = full_eq a b.
    Proof.
      intros Hm a b Pa Pb. assert (full a b = lt a b) as E1 by (unfold full; by rewrite Pa, Pb).
      assert (full b a = lt b a) as E2 by (unfold full; by rewrite Pa, Pb).
      unfold three, full_eq. rewrite E1, E2, (Hm a b Pa Pb). done.
    Qed.
  End complete.
  (** The functions look only at the comparisons of the elements at hand. *)
  Lemma maxFunc_ext (c1 c2 : T -> T -> res Z) : forall l m, (forall x y, x ∈ m :: l -> y ∈ m :: l -> c1 x y = c2 x y) ->
    maxFunc c1 m l = maxFunc c2 m l.
  Proof.
    induction l as [|x l IH]; intros m H; [done|]. cbn [maxFunc]. rewrite (H x m); [|right; left|left].
    destruct (c2 x m) as [c| |]; [|done..]. cbn [rbind]. apply IH. intros y z Hy Hz. apply H.
    - destruct (_ >? _)%Z; rewrite !elem_of_cons in *; naive_solver.
    - destruct (_ >? _)%Z; rewrite !elem_of_cons in *; naive_solver.
  Qed.
  Lemma minFunc_ext (c1 c2 : T -> T -> res Z) : forall l m, (forall x y, x ∈ m :: l -> y ∈ m :: l -> c1 x y = c2 x y) ->
    minFunc c1 m l = minFunc c2 m l.
  Proof.
    induction l as [|x l IH]; intros m H; [done|]. cbn [minFunc]. rewrite (H x m); [|right; left|left].
    destruct (c2 x m) as [c| |]; [|done..]. cbn [rbind]. apply IH. intros y z Hy Hz. apply H.
    - destruct (_ <? _)%Z; rewrite !elem_of_cons in *; naive_solver.
    - destruct (_ <? _)%Z; rewrite !elem_of_cons in *; naive_solver.
  Qed.
  Lemma binarySearch_ext (c1 c2 : T -> res Z) l : (forall x, x ∈ l -> c1 x = c2 x) -> forall fuel i j,
    binarySearch fuel c1 l i j = binarySearch fuel c2 l i j.
  Proof.
    intros H. induction fuel as [|fuel IH]; intros i j; cbn [binarySearch]; [done|]. destruct (_ <? _); [|done].
    destruct (l !! Nat.div2 (i + j)) as [x|] eqn:Ex; [|done]. rewrite (H x) by (by eapply elem_of_list_lookup_2).
    destruct (c2 x) as [c| |]; [|done..]. cbn [rbind]. by rewrite !IH.
  Qed.
  Lemma BinarySearchFunc_ext (c1 c2 : T -> res Z) l : (forall x, x ∈ l -> c1 x = c2 x) -> s_BinarySearchFunc l c1 = s_BinarySearchFunc l c2.
  Proof.
    intros H. unfold s_BinarySearchFunc. rewrite (binarySearch_ext c1 c2 l H). destruct (binarySearch _ c2 l _ _) as [i| |]; [|done..].
    cbn [rbind]. destruct (l !! i) as [x|] eqn:Ex; [|done]. by rewrite (H x) by (by eapply elem_of_list_lookup_2).
  Qed.

  Section on.
    Context (P : T -> bool) (lt eq : T -> T -> bool).
    Notation on := (fun x => P x = true).
    Context (Hs : swo_on on lt) (Hm : matches_on on lt eq).
    Lemma Max_on l m : Forall on (m :: l) -> exists r, maxFunc (way lt eq) m l = Ok r /\ r ∈ m :: l /\ forall x, x ∈ m :: l -> lt r x = false.
    Proof.
      intros Hl. rewrite Forall_forall in Hl. destruct (maxFunc_ok (full P lt) (full_eq P lt) (full_swo P lt Hs) (full_matches P lt) l m) as (r&E&Hr&H).
      exists r. split; [|split; [done|]].
      - rewrite <- E. apply maxFunc_ext. intros x y Hx Hy. rewrite !three_pure. f_equal. by apply full_three; auto.
      - intros x Hx. rewrite <- (H x Hx). symmetry. unfold full. by rewrite (Hl r Hr), (Hl x Hx).
    Qed.
    Lemma Min_on l m : Forall on (m :: l) -> exists r, minFunc (way lt eq) m l = Ok r /\ r ∈ m :: l /\ forall x, x ∈ m :: l -> lt x r = false.
    Proof.
      intros Hl. rewrite Forall_forall in Hl. destruct (minFunc_ok (full P lt) (full_eq P lt) (full_swo P lt Hs) l m) as (r&E&Hr&H).
      exists r. split; [|split; [done|]].
      - rewrite <- E. apply minFunc_ext. intros x y Hx Hy. rewrite !three_pure. f_equal. by apply full_three; auto.
      - intros x Hx. rewrite <- (H x Hx). symmetry. unfold full. by rewrite (Hl r Hr), (Hl x Hx).
    Qed.
    Lemma sorted_on l : Forall on l -> all_sorted lt l <-> all_sorted (full P lt) l.
    Proof.
      intros Hl. rewrite Forall_forall in Hl. unfold all_sorted, full.
      split; intros H i j x y Hij Hx Hy; specialize (H i j x y Hij Hx Hy);
        rewrite (Hl x), (Hl y) in * by (by eapply elem_of_list_lookup_2); done.
    Qed.
    Lemma adjacent_on l : Forall on l -> adjacent_sorted lt l -> all_sorted lt l.
    Proof.
      intros Hl H. apply sorted_on; [done|]. apply adjacent_all; [by apply full_swo|]. rewrite Forall_forall in Hl.
      intros i x y Hx Hy. unfold full. rewrite (Hl x), (Hl y) by (by eapply elem_of_list_lookup_2). by eapply H.
    Qed.
    Lemma BinarySearch_on l t : Forall on l -> P t = true -> all_sorted lt l ->
      exists i b, s_BinarySearchFunc l (fun x => way lt eq x t) = Ok (Z.of_nat i, b) /\ i <= length l /\
        (forall k x, k < i -> l !! k = Some x -> lt x t = true) /\
        (forall k x, i <= k -> l !! k = Some x -> lt x t = false) /\
        (b = true <-> exists x, x ∈ l /\ eq x t = true).
    Proof.
      intros Hl Ht Ha. rewrite Forall_forall in Hl. pose proof (full_swo P lt Hs) as Hf.
      assert (Ha' : all_sorted (full P lt) l). { apply sorted_on; [by apply Forall_forall|done]. }
      destruct (BinarySearchFunc_ok (full P lt) (full_eq P lt) l t Hf Ha') as (i&b&E&Hi&H1&H2&Hb).
      exists i, b. split; [|split; [done|split; [|split]]].
      - rewrite <- E. apply BinarySearchFunc_ext. intros x Hx. rewrite !three_pure. f_equal. by apply full_three; auto.
      - intros k x Hk Hx. rewrite <- (H1 k x Hk Hx). apply (full_three P lt eq Hm); [|done]. apply Hl. by eapply elem_of_list_lookup_2.
      - intros k x Hk Hx. rewrite <- (H2 k x Hk Hx). apply (full_three P lt eq Hm); [|done]. apply Hl. by eapply elem_of_list_lookup_2.
      - rewrite Hb. split.
        + intros (x&Hx&He). exists x. split; [by eapply elem_of_list_lookup_2|]. rewrite <- He.
          apply (full_three P lt eq Hm); [|done]. apply Hl. by eapply elem_of_list_lookup_2.
        + intros (x&Hx&He). apply elem_of_list_lookup in Hx as [k Hk].
          assert (Px : P x = true) by (apply Hl; by eapply elem_of_list_lookup_2).
          rewrite (Hm x t Px Ht) in He.
          assert (full P lt x t = lt x t /\ full P lt t x = lt t x) as [E1 E2] by (unfold full; by rewrite Px, Ht).
          assert (i <= k) as Hik. { destruct (decide (i <= k)); [done|]. rewrite <- E1, (H1 k x) in He by (done || lia). done. }
          destruct (lookup_lt_is_Some_2 l i) as [y Hy]. { apply lookup_lt_Some in Hk. lia. }
          exists y. split; [done|]. unfold full_eq. rewrite (H2 i y) by (done || lia). cbn.
          destruct (decide (i = k)) as [->|Hne]. { assert (y = x) as -> by congruence. rewrite E2. by destruct (lt x t), (lt t x). }
          destruct (full P lt t y) eqn:Ety; [|done]. exfalso.
          pose proof (Ha' i k y x ltac:(lia) Hy Hk) as Hxy. rewrite (swo_left (full P lt) t x y Hf) in Hxy; [done|done|].
          rewrite E2. by destruct (lt x t), (lt t x).
    Qed.
    Lemma three_on l : Forall on l -> alike (three (full P lt) (full_eq P lt)) l (three lt eq) l.
    Proof.
      intros Hl. rewrite Forall_forall in Hl. split; [done|]. intros i j a b a' b' _ Ha Hb Ha' Hb'. simplify_eq. symmetry.
      apply (full_three P lt eq Hm); apply Hl; by eapply elem_of_list_lookup_2.
    Qed.
    Lemma srt_on srt l : by_comparing srt -> Forall on l -> srt T (three lt eq) l = srt T (three (full P lt) (full_eq P lt)) l.
    Proof. intros Hc Hl. destruct (Hc T T _ _ l l (three_on l Hl)) as (p&_&E1&E2). congruence. Qed.
    Lemma Sort_on srt l : by_comparing srt -> sorts (srt T) -> Forall on l -> all_sorted lt (srt T (three lt eq) l).
    Proof.
      intros Hc [Hp Hsort] Hl. apply sorted_on; [by rewrite Hp|]. rewrite (srt_on _ _ Hc Hl).
      apply Hsort; [by apply full_swo|apply full_matches].
    Qed.
    Lemma SortStable_on srt l a : by_comparing srt -> sorts_stably (srt T) -> Forall on l -> P a = true ->
      filter (fun x => eq a x = true) (srt T (three lt eq) l) = filter (fun x => eq a x = true) l.
    Proof.
      intros Hc [[Hp Hsort] Hst] Hl Pa. rewrite (srt_on _ _ Hc Hl).
      assert (Hext : forall l', Forall on l' -> filter (fun x => eq a x = true) l' = filter (fun x => full_eq P lt a x = true) l').
      { clear l Hl. induction 1 as [|x l Hx _ IH]; [done|]. rewrite !filter_cons, IH.
        destruct (full_three P lt eq Hm a x Pa Hx) as (_&_&->). done. }
      rewrite !Hext; [|done|by rewrite Hp]. apply Hst; [by apply full_swo|apply full_matches].
    Qed.
  End on.

End any.

(** Insertion sort learns by comparing only. *)
Section isort.
  Lemma ins_alike {A} (f : A -> A -> Z) (F : nat -> nat -> Z) (h : nat -> A) x : forall p,
    (forall i, i ∈ p -> f (h i) (h x) = F i x) -> ins f (h x) (map h p) = map h (ins F x p).
  Proof.
    induction p as [|y p IH]; intros H; [done|]. cbn [map ins]. rewrite (H y) by left. destruct (_ <? _)%Z; [|done].
    cbn [map]. f_equal. apply IH. intros i Hi. apply H. by right.
  Qed.
  Lemma isort_alike {A} (f : A -> A -> Z) (F : nat -> nat -> Z) (h : nat -> A) : forall p, NoDup p ->
    (forall i j, i ∈ p -> j ∈ p -> i <> j -> f (h i) (h j) = F i j) -> isort f (map h p) = map h (isort F p).
  Proof.
    induction p as [|x p IH]; intros Hn H; [done|]. apply NoDup_cons in Hn as [Hx Hn]. cbn [map isort]. rewrite IH; [|done|].
    - apply ins_alike. intros i Hi. rewrite isort_perm in Hi. apply H; [by right|left|]. by intros ->.
    - intros i j Hi Hj. apply H; by right.
  Qed.
  Lemma positions_map {A} (d : A) l p : (forall i, i ∈ p -> i < length l) -> at_positions l p = map (fun i => nth i l d) p.
  Proof.
    intros H. induction p as [|i p IH]; [done|]. unfold at_positions. cbn [omap list_omap map].
    destruct (lookup_lt_is_Some_2 l i) as [x Hx]; [apply H; left|]. rewrite Hx. f_equal.
    - symmetry. by apply nth_lookup_Some.
    - apply IH. intros j Hj. apply H. by right.
  Qed.
  Lemma lookup_nth {A} (l : list A) d i : i < length l -> l !! i = Some (nth i l d).
  Proof. intros H. destruct (lookup_lt_is_Some_2 l i H) as [x Hx]. rewrite Hx. f_equal. symmetry. by apply nth_lookup_Some. Qed.
  Lemma map_seq_nth {A} (l : list A) d : map (fun i => nth i l d) (seq 0 (length l)) = l.
  Proof.
    apply list_eq. intros i. rewrite list_lookup_fmap. destruct (decide (i < length l)) as [Hi|Hi].
    - rewrite lookup_seq_lt by done. cbn. symmetry. by apply lookup_nth.
    - rewrite lookup_seq_ge by lia. symmetry. apply lookup_ge_None. lia.
  Qed.
  Lemma isort_by_comparing : by_comparing (fun A => isort).
  Proof.
    intros A B f g l l' [Hlen H]. destruct l as [|d l0] eqn:El; [destruct l'; [|done]; exists []; done|].
    destruct l' as [|d' l0'] eqn:El'; [done|]. rewrite <- El, <- El' in *. clear l0 l0' El El'.
    set (F := fun i j => f (nth i l d) (nth j l d)). set (p := seq 0 (length l)).
    exists (isort F p). assert (Hp : forall i, i ∈ isort F p -> i < length l).
    { intros i Hi. rewrite isort_perm in Hi. apply elem_of_seq in Hi. lia. }
    split; [apply isort_perm|].
    assert (Hl : l = map (fun i => nth i l d) p). { symmetry. apply map_seq_nth. }
    assert (Hl' : l' = map (fun i => nth i l' d') p). { subst p. rewrite Hlen. symmetry. apply map_seq_nth. }
    assert (Hn : NoDup p) by apply NoDup_seq. split.
    - rewrite (positions_map d) by done. rewrite Hl at 1. apply isort_alike; [done|]. by intros.
    - rewrite (positions_map d') by (intros; rewrite <- Hlen; auto). rewrite Hl' at 1. apply isort_alike; [done|].
      intros i j Hi Hj Hij. subst p. apply elem_of_seq in Hi, Hj. symmetry. unfold F.
      apply (H i j); [done|apply lookup_nth; lia..].
  Qed.
End isort.
