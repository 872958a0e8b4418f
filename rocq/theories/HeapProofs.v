(** Proofs about the heap model. *)
From Verif Require Import Base HeapModel HeapSpec.
From Coq Require Import ZifyBool ZifyNat.
Ltac Zify.zify_post_hook ::= Z.div_mod_to_equations.

(** Injects equations between [Some]s, substituting only element variables. *)
Ltac sinj :=
  repeat match goal with
  | H : Some ?a = Some ?b |- _ =>
      injection H as H; first [subst a | subst b | rewrite H in *]
  | H1 : ?l !! ?k = Some ?a, H2 : ?l !! ?k = Some ?b |- _ =>
      first [constr_eq a b; fail 1 | (rewrite H1 in H2)]
  end.

Lemma getZ_nat {A} (l : list A) (i : nat) : getZ l (Z.of_nat i) = l !! i.
Proof.
  unfold getZ. rewrite bool_decide_eq_true_2 by lia. by rewrite Nat2Z.id.
Qed.

Lemma getZ_Some {A} (l : list A) (i : Z) x :
  getZ l i = Some x -> exists k : nat, i = Z.of_nat k /\ l !! k = Some x.
Proof.
  unfold getZ. case_bool_decide as Hi; [|done]. intros Hx.
  exists (Z.to_nat i). split; [lia|done].
Qed.

Lemma getZ_None {A} (l : list A) (i : Z) :
  (i < 0)%Z \/ (Z.of_nat (length l) <= i)%Z -> getZ l i = None.
Proof.
  intros Hi. unfold getZ. case_bool_decide; [|done].
  apply lookup_ge_None_2. lia.
Qed.

Lemma h_pop_snoc {A} (l : list A) y : h_pop (l ++ [y]) = Ok (y, l).
Proof.
  unfold h_pop, h_len. replace (Z.of_nat (length (l ++ [y])) - 1)%Z with (Z.of_nat (length l))
    by (rewrite app_length; simpl; lia).
  rewrite getZ_nat, Nat2Z.id. rewrite lookup_app_r by lia. rewrite Nat.sub_diag. simpl.
  by rewrite take_app.
Qed.

Lemma snoc_of_lookup {A} (l : list A) n y :
  length l = S n -> l !! n = Some y -> exists l', l = l' ++ [y] /\ length l' = n.
Proof.
  intros Hl Hn. exists (take n l). split.
  - rewrite <- (take_drop n l) at 1. f_equal.
    rewrite (drop_S _ _ _ Hn). f_equal. apply drop_ge. lia.
  - rewrite take_length. lia.
Qed.

Section proofs.
  Context {A : Type} (less : A -> A -> bool).
  Hypothesis SW : strict_weak less.

  Let irrefl : forall x, less x x = false := proj1 SW.
  Let ltrans : forall x y z, less x y = true -> less y z = true -> less x z = true :=
    proj1 (proj2 SW).
  Let ntrans : forall x y z, less x y = false -> less y z = false -> less x z = false :=
    proj2 (proj2 SW).

  Lemma asym x y : less x y = true -> less y x = false.
  Proof.
    intros H. destruct (less y x) eqn:E; [|done].
    pose proof (ltrans _ _ _ H E) as Hc. by rewrite irrefl in Hc.
  Qed.

  Definition par (c : nat) : nat := (c - 1) / 2.

  Definition okedge (h : list A) (c : nat) : Prop :=
    forall x y, h !! c = Some x -> h !! par c = Some y -> less x y = false.

  Definition skipok (h : list A) (c j : nat) : Prop :=
    forall x y, h !! c = Some x -> h !! par j = Some y -> less x y = false.

  Definition swapn (h : list A) (i j : nat) (x y : A) : list A :=
    <[j := x]> (<[i := y]> h).

  Lemma h_less_nat h i j x y :
    h !! i = Some x -> h !! j = Some y ->
    h_less less h (Z.of_nat i) (Z.of_nat j) = Ok (less x y).
  Proof. intros Hi Hj. unfold h_less. by rewrite !getZ_nat, Hi, Hj. Qed.

  Lemma h_swap_nat h i j x y :
    h !! i = Some x -> h !! j = Some y ->
    h_swap h (Z.of_nat i) (Z.of_nat j) = Ok (swapn h i j x y).
  Proof.
    intros Hi Hj. unfold h_swap. by rewrite !getZ_nat, Hi, Hj, !Nat2Z.id.
  Qed.

  Lemma swapn_perm h i j x y :
    h !! i = Some x -> h !! j = Some y -> swapn h i j x y ≡ₚ h.
  Proof.
    unfold swapn. revert i j. induction h as [|z h IH]; intros i j Hi Hj; [done|].
    assert (Hins : forall (l : list A) k a b, l !! k = Some a -> b :: l ≡ₚ a :: <[k := b]> l).
    { clear. induction l as [|c l IH]; intros [|k] a b Hk; simplify_eq/=; [apply Permutation_swap|].
      rewrite (Permutation_swap c b), (Permutation_swap c a). by rewrite (IH k a b). }
    destruct i as [|i], j as [|j]; simplify_eq/=; try done.
    - symmetry. by apply Hins.
    - symmetry. by apply Hins.
    - by rewrite IH.
  Qed.

  Lemma swapn_lookup h i j x y k :
    h !! i = Some x -> h !! j = Some y ->
    swapn h i j x y !! k = if decide (k = j) then Some x
                           else if decide (k = i) then Some y else h !! k.
  Proof.
    intros Hi Hj. unfold swapn.
    pose proof (lookup_lt_Some _ _ _ Hi). pose proof (lookup_lt_Some _ _ _ Hj).
    destruct (decide (k = j)) as [->|Hkj].
    - apply list_lookup_insert. by rewrite insert_length.
    - rewrite list_lookup_insert_ne by done.
      destruct (decide (k = i)) as [->|Hki].
      + by apply list_lookup_insert.
      + by rewrite list_lookup_insert_ne.
  Qed.

  Lemma swapn_length h i j x y : length (swapn h i j x y) = length h.
  Proof. unfold swapn. by rewrite !insert_length. Qed.

  (** The body of [down]'s loop. *)
  Lemma down_loop_spec fuel (h : list A) (i i0 n lo : nat) :
    n <= length h -> i0 <= i -> lo <= i0 -> i < n \/ n <= 2 * i + 1 -> n - i < fuel ->
    (forall c, 0 < c -> c < n -> lo <= par c -> par c <> i -> c <> i0 -> okedge h c) ->
    (forall c, 0 < c -> c < n -> par c = i -> 0 < i -> lo <= par i -> skipok h c i) ->
    (i <> i0 -> 0 < i0 -> i0 < n -> lo <= par i0 -> okedge h i0) ->
    exists (h' : list A) (i' : nat),
      down_loop less fuel h (Z.of_nat i) (Z.of_nat n) = Ok (h', Z.of_nat i') /\
      i <= i' /\ h' ≡ₚ h /\
      (forall k, n <= k -> h' !! k = h !! k) /\
      (forall k, k < i -> h' !! k = h !! k) /\
      (i' = i -> h' = h) /\
      (forall c, 0 < c -> c < n -> lo <= par c -> c <> i0 -> okedge h' c) /\
      (i' <> i0 -> 0 < i0 -> i0 < n -> lo <= par i0 -> okedge h' i0).
  Proof.
    revert h i. induction fuel as [|fuel IH]; intros h i Hlen Hi0 Hlo Hin Hf Ha Hb Hc;
      [lia|].
    cbn [down_loop].
    destruct ((Z.of_nat n <=? 2 * Z.of_nat i + 1)%Z ||
              (2 * Z.of_nat i + 1 <? 0)%Z) eqn:E1.
    - exists h, i. repeat split; auto.
      + intros c H0 Hcn Hp Hne. apply Ha; auto. unfold par. lia.
    - assert (Hn1 : 2 * i + 1 < n) by lia.
      destruct (lookup_lt_is_Some_2 h (2 * i + 1)) as [x1 Hx1]; [lia|].
      destruct (lookup_lt_is_Some_2 h i) as [xi Hxi]; [lia|].
      replace (2 * Z.of_nat i + 1)%Z with (Z.of_nat (2 * i + 1)) by lia.
      replace (Z.of_nat (2 * i + 1) + 1)%Z with (Z.of_nat (2 * i + 2)) by lia.
      (* the smaller child *)
      assert (exists j xj,
        (b2 <-! (if (Z.of_nat (2 * i + 2) <? Z.of_nat n)%Z
                 then h_less less h (Z.of_nat (2 * i + 2)) (Z.of_nat (2 * i + 1))
                 else Ok false);;
         Ok (if (b2 : bool) then Z.of_nat (2 * i + 2) else Z.of_nat (2 * i + 1)))
        = Ok (Z.of_nat j) /\ h !! j = Some xj /\ j < n /\ 0 < j /\ par j = i /\ i < j /\
        (forall c x, 0 < c -> c < n -> par c = i -> h !! c = Some x -> less x xj = false))
        as (j & xj & Hj & Hxj & Hjn & Hj0 & Hpj & Hij & Hmin).
      { destruct (Z.of_nat (2 * i + 2) <? Z.of_nat n)%Z eqn:E2.
        - destruct (lookup_lt_is_Some_2 h (2 * i + 2)) as [x2 Hx2]; [lia|].
          rewrite (h_less_nat _ _ _ _ _ Hx2 Hx1). cbn [rbind].
          destruct (less x2 x1) eqn:E3.
          + exists (2 * i + 2), x2. repeat split; auto; try (unfold par; lia).
            intros c x H0 Hcn Hp Hx.
            assert (c = 2 * i + 1 \/ c = 2 * i + 2) as [-> | ->] by (unfold par in Hp; lia);
              sinj; auto using asym.
          + exists (2 * i + 1), x1. repeat split; auto; try (unfold par; lia).
            intros c x H0 Hcn Hp Hx.
            assert (c = 2 * i + 1 \/ c = 2 * i + 2) as [-> | ->] by (unfold par in Hp; lia);
              sinj; auto.
        - exists (2 * i + 1), x1. repeat split; auto; try (unfold par; lia).
          intros c x H0 Hcn Hp Hx.
          assert (c = 2 * i + 1) as -> by (unfold par in Hp; lia). sinj; auto. }
      destruct (if (Z.of_nat (2 * i + 2) <? Z.of_nat n)%Z
                 then h_less less h (Z.of_nat (2 * i + 2)) (Z.of_nat (2 * i + 1))
                 else Ok false) as [b2| |] eqn:Eb2; try discriminate Hj.
      cbn [rbind] in Hj |- *.
      assert ((if b2 then Z.of_nat (2 * i + 2) else Z.of_nat (2 * i + 1)) = Z.of_nat j)
        as Hj' by congruence.
      rewrite Hj'. clear Hj Hj'.
      rewrite (h_less_nat _ _ _ _ _ Hxj Hxi). cbn [rbind].
      destruct (less xj xi) eqn:E4; cbn [negb].
      + rewrite (h_swap_nat _ _ _ _ _ Hxi Hxj). cbn [rbind].
        set (h' := swapn h i j xi xj).
        assert (Hlk : forall k, h' !! k = if decide (k = j) then Some xi
                           else if decide (k = i) then Some xj else h !! k).
        { intros k. by apply swapn_lookup. }
        destruct (IH h' j) as (h2 & i2 & Hd & Hle & Hperm & Hge & Hlt & Heq & Hedge & H0edge).
        * unfold h'. by rewrite swapn_length.
        * lia.
        * done.
        * lia.
        * lia.
        * (* a *)
          intros c H0 Hcn Hp Hpne Hne x y Hx Hy. rewrite Hlk in Hx, Hy.
          destruct (decide (c = j)) as [->|Hcj].
          { rewrite Hpj in Hy. rewrite decide_False in Hy by lia.
            rewrite decide_True in Hy by done. sinj. auto using asym. }
          rewrite decide_False in Hy by done.
          destruct (decide (par c = i)) as [Hpi|Hpi].
          { rewrite decide_False in Hx by (unfold par in *; lia). sinj.
            by apply (Hmin c). }
          destruct (decide (c = i)) as [->|Hci]; sinj.
          { (* edge above i *) apply (Hb j Hj0 Hjn Hpj H0 Hp); done. }
          apply (Ha c); auto.
        * (* b *)
          intros c H0 Hcn Hp _ Hlop x y Hx Hy. rewrite Hlk in Hx, Hy.
          rewrite Hpj in Hy. rewrite decide_False in Hy by lia.
          rewrite decide_True in Hy by done. sinj.
          assert (j < c) by (unfold par in *; lia).
          rewrite decide_False in Hx by lia. rewrite decide_False in Hx by lia.
          assert (Hok : okedge h c).
          { apply Ha; auto; unfold par in *; lia. }
          apply (Hok x y); [done|]. by rewrite Hp.
        * (* c *)
          intros Hne H0 H0n Hlop x y Hx Hy. rewrite Hlk in Hx, Hy.
          assert (par i0 < i0) by (unfold par; lia).
          rewrite decide_False in Hx by lia.
          rewrite decide_False in Hy by lia. rewrite decide_False in Hy by lia.
          destruct (decide (i0 = i)) as [->|Hni]; sinj.
          { apply (Hb j Hj0 Hjn Hpj H0 Hlop); done. }
          apply (Hc (not_eq_sym Hni) H0 H0n Hlop); done.
        * exists h2, i2. split; [exact Hd|]. split; [lia|].
          split; [rewrite Hperm; by apply swapn_perm|].
          split. { intros k Hk. rewrite Hge by done. rewrite Hlk.
            rewrite decide_False by lia. by rewrite decide_False by lia. }
          split. { intros k Hk. rewrite Hlt by lia. rewrite Hlk.
            rewrite decide_False by lia. by rewrite decide_False by lia. }
          split; [lia|]. split; [exact Hedge|exact H0edge].
      + exists h, i. repeat split; auto.
        intros c H0 Hcn Hp Hne.
        destruct (decide (par c = i)) as [Hpi|Hpi]; [|by apply Ha].
        intros x y Hx Hy. rewrite Hpi, Hxi in Hy. sinj.
        eapply ntrans; [|exact E4]. by apply (Hmin c).
  Qed.

  Lemma down_spec (h : list A) (i0 n lo : nat) :
    n <= length h -> lo <= i0 -> i0 < n \/ n <= 2 * i0 + 1 ->
    (forall c, 0 < c -> c < n -> lo <= par c -> par c <> i0 -> c <> i0 -> okedge h c) ->
    (forall c, 0 < c -> c < n -> par c = i0 -> 0 < i0 -> lo <= par i0 -> skipok h c i0) ->
    exists (h' : list A) (moved : bool),
      down less h (Z.of_nat i0) (Z.of_nat n) = Ok (h', moved) /\ h' ≡ₚ h /\
      (forall k, n <= k -> h' !! k = h !! k) /\
      (moved = false -> h' = h) /\
      (forall c, 0 < c -> c < n -> lo <= par c -> c <> i0 -> okedge h' c) /\
      (moved = true -> 0 < i0 -> i0 < n -> lo <= par i0 -> okedge h' i0).
  Proof.
    intros Hlen Hlo Hin Ha Hb.
    destruct (down_loop_spec (S (length h)) h i0 i0 n lo)
      as (h' & i' & Hd & Hle & Hperm & Hge & _ & Heq & Hedge & H0edge); auto; [lia|].
    exists h', (Z.of_nat i0 <? Z.of_nat i')%Z. unfold down. rewrite Hd. cbn [rbind].
    repeat split; auto.
    - intros Hm. apply Heq. lia.
    - intros Hm. apply H0edge. lia.
  Qed.

  Lemma up_spec fuel (h : list A) (j n : nat) :
    n <= length h -> j < n -> j < fuel ->
    (forall c, 0 < c -> c < n -> c <> j -> okedge h c) ->
    (forall c, 0 < c -> c < n -> par c = j -> 0 < j -> skipok h c j) ->
    exists h', up less fuel h (Z.of_nat j) = Ok h' /\ h' ≡ₚ h /\
      (forall k, n <= k -> h' !! k = h !! k) /\
      (forall c, 0 < c -> c < n -> okedge h' c).
  Proof.
    revert h j. induction fuel as [|fuel IH]; intros h j Hlen Hjn Hf Ha Hb; [lia|].
    cbn [up].
    assert (Hq : Z.quot (Z.of_nat j - 1) 2 = Z.of_nat (par j)).
    { unfold par. destruct (decide (j = 0)) as [->|]; [reflexivity|].
      rewrite Z.quot_div_nonneg by lia. lia. }
    rewrite Hq.
    destruct (Z.of_nat (par j) =? Z.of_nat j)%Z eqn:E1.
    - assert (j = 0) as -> by (unfold par in *; lia).
      exists h. repeat split; auto. intros c H0 Hcn. apply Ha; lia.
    - assert (Hj0 : 0 < j) by (unfold par in *; lia).
      assert (Hpj : par j < j) by (unfold par; lia).
      destruct (lookup_lt_is_Some_2 h j) as [xj Hxj]; [lia|].
      destruct (lookup_lt_is_Some_2 h (par j)) as [xp Hxp]; [lia|].
      rewrite (h_less_nat _ _ _ _ _ Hxj Hxp). cbn [rbind].
      destruct (less xj xp) eqn:E2; cbn [negb].
      + rewrite (h_swap_nat _ _ _ _ _ Hxp Hxj). cbn [rbind].
        set (h' := swapn h (par j) j xp xj).
        assert (Hlk : forall k, h' !! k = if decide (k = j) then Some xp
                           else if decide (k = par j) then Some xj else h !! k).
        { intros k. by apply swapn_lookup. }
        destruct (IH h' (par j)) as (h2 & Hu & Hperm & Hge & Hedge).
        * unfold h'. by rewrite swapn_length.
        * lia.
        * lia.
        * intros c H0 Hcn Hne x y Hx Hy. rewrite Hlk in Hx, Hy.
          destruct (decide (c = j)) as [->|Hcj].
          { rewrite decide_False in Hy by lia. rewrite decide_True in Hy by done.
            sinj. auto using asym. }
          rewrite decide_False in Hx by done.
          destruct (decide (par c = j)) as [Hpc|Hpc]; sinj.
          { (* child of j: skip edge *)
            apply (Hb c H0 Hcn Hpc Hj0); auto. }
          destruct (decide (par c = par j)) as [Hpp|Hpp]; sinj.
          { (* sibling of j *)
            assert (Hok : okedge h c) by (apply Ha; auto).
            assert (Hxy : less x xp = false) by (apply Hok; [done|by rewrite Hpp]).
            eapply ntrans; [exact Hxy|]. by apply asym. }
          apply (Ha c); auto.
        * intros c H0 Hcn Hpc Hp0 x y Hx Hy. rewrite Hlk in Hx, Hy.
          assert (par (par j) < par j) by (unfold par in *; lia).
          rewrite decide_False in Hy by lia. rewrite decide_False in Hy by lia.
          assert (Hokp : okedge h (par j)) by (apply Ha; lia).
          destruct (decide (c = j)) as [->|Hcj]; sinj.
          { by apply (Hokp x y). }
          rewrite decide_False in Hx by (unfold par in *; lia).
          assert (Hok : okedge h c) by (apply Ha; auto).
          eapply ntrans; [apply (Hok x xp); [done|by rewrite Hpc]|].
          by apply (Hokp xp y).
        * exists h2. split; [exact Hu|]. split; [rewrite Hperm; by apply swapn_perm|].
          split; [|exact Hedge].
          intros k Hk. rewrite Hge by done. rewrite Hlk.
          rewrite decide_False by lia. by rewrite decide_False by lia.
      + exists h. repeat split; auto. intros c H0 Hcn.
        destruct (decide (c = j)) as [->|]; [|by apply Ha].
        intros x y Hx Hy. sinj. done.
  Qed.

  Lemma up__spec (h : list A) (j n : nat) :
    n <= length h -> j < n ->
    (forall c, 0 < c -> c < n -> c <> j -> okedge h c) ->
    (forall c, 0 < c -> c < n -> par c = j -> 0 < j -> skipok h c j) ->
    exists h', up_ less h (Z.of_nat j) = Ok h' /\ h' ≡ₚ h /\
      (forall k, n <= k -> h' !! k = h !! k) /\
      (forall c, 0 < c -> c < n -> okedge h' c).
  Proof. intros. unfold up_. apply up_spec; auto. lia. Qed.

  (** Heap order versus edges. *)
  Lemma heap_edges h : heap_ordered less h <-> (forall c, 0 < c -> c < length h -> okedge h c).
  Proof.
    split.
    - intros H c H0 Hc x y Hx Hy. by apply (H c x y).
    - intros H c x y H0 Hx Hy. apply (H c H0); auto. by eapply lookup_lt_Some.
  Qed.

  Lemma heap_root_least h x : heap_ordered less h -> h !! 0 = Some x -> least less x h.
  Proof.
    intros H Hx y Hy. apply elem_of_list_lookup in Hy as [i Hi].
    revert y Hi. induction (lt_wf i) as [i _ IH]. intros y Hi.
    destruct (decide (i = 0)) as [->|Hne]; [sinj; apply irrefl|].
    assert (Hp : par i < i) by (unfold par; lia).
    pose proof (lookup_lt_Some _ _ _ Hi).
    destruct (lookup_lt_is_Some_2 h (par i)) as [z Hz]; [lia|].
    eapply ntrans; [apply (H i y z); auto; lia|]. by apply (IH (par i)).
  Qed.

  Lemma init_loop_spec cnt h :
    2 * cnt <= length h + 1 ->
    (forall c, 0 < c -> c < length h -> cnt <= par c -> okedge h c) ->
    exists h', init_loop less cnt h (Z.of_nat (length h)) = Ok h' /\ h' ≡ₚ h /\
      heap_ordered less h'.
  Proof.
    revert h. induction cnt as [|cnt IH]; intros h Hc Ha; cbn [init_loop].
    - exists h. repeat split; auto. apply heap_edges. intros c H0 Hcn. apply Ha; auto. lia.
    - destruct (down_spec h cnt (length h) cnt) as (h' & mv & Hd & Hperm & _ & _ & Hedge & _);
        try lia.
      + intros c H0 Hcn Hp Hpne Hne. apply Ha; auto. lia.
      + intros c H0 Hcn Hp Hi0 Hlo. unfold par in *; lia.
      + rewrite Hd. cbn [rbind]. rewrite <- (Permutation_length Hperm).
        destruct (IH h') as (h2 & H2 & Hp2 & Ho).
        * rewrite (Permutation_length Hperm). lia.
        * intros c H0 Hcn Hp. rewrite (Permutation_length Hperm) in Hcn.
          apply Hedge; auto. unfold par in *; lia.
        * exists h2. repeat split; auto. by rewrite Hp2.
  Qed.

  Lemma heap_Init_spec h :
    exists h', heap_Init less h = Ok h' /\ h' ≡ₚ h /\ heap_ordered less h'.
  Proof.
    unfold heap_Init, h_len. apply init_loop_spec.
    - rewrite Z.quot_div_nonneg by lia. lia.
    - intros c H0 Hcn Hp. rewrite Z.quot_div_nonneg in Hp by lia. unfold par in Hp. lia.
  Qed.

  Lemma heap_Push_spec h x :
    heap_ordered less h ->
    exists h', heap_Push less h x = Ok h' /\ h' ≡ₚ x :: h /\ heap_ordered less h'.
  Proof.
    intros H. unfold heap_Push, h_push, h_len.
    replace (Z.of_nat (length (h ++ [x])) - 1)%Z with (Z.of_nat (length h))
      by (rewrite app_length; simpl; lia).
    destruct (up__spec (h ++ [x]) (length h) (length (h ++ [x])))
      as (h' & Hu & Hperm & _ & Hedge).
    - done.
    - rewrite app_length; simpl; lia.
    - intros c H0 Hcn Hne y z Hy Hz. rewrite app_length in Hcn; simpl in Hcn.
      rewrite lookup_app_l in Hy by lia.
      rewrite lookup_app_l in Hz by (unfold par; lia). by apply (H c).
    - intros c H0 Hcn Hp _. rewrite app_length in Hcn; simpl in Hcn. unfold par in *; lia.
    - exists h'. repeat split; auto.
      + rewrite Hperm. by rewrite Permutation_app_comm.
      + apply heap_edges. intros c H0 Hcn. apply Hedge; auto.
        by rewrite <- (Permutation_length Hperm).
  Qed.

  (** Restricting to the first [n] of [n+1]. *)
  Lemma edges_prefix (l : list A) y :
    (forall c, 0 < c -> c < length l -> okedge (l ++ [y]) c) -> heap_ordered less l.
  Proof.
    intros H. apply heap_edges. intros c H0 Hc a b Ha Hb.
    apply (H c H0 Hc); rewrite lookup_app_l; auto.
    pose proof (lookup_lt_Some _ _ _ Hb). lia.
  Qed.

  Lemma heap_Pop_spec h :
    heap_ordered less h -> h <> [] ->
    exists x h', heap_Pop less h = Ok (x, h') /\ h ≡ₚ x :: h' /\ h !! 0 = Some x /\
      least less x h /\ heap_ordered less h'.
  Proof.
    intros H Hne. destruct h as [|x t] eqn:Eh; [done|]. rewrite <- Eh in *.
    assert (Hx : h !! 0 = Some x) by (by rewrite Eh).
    assert (Hlen : length h = S (length t)) by (by rewrite Eh).
    destruct (lookup_lt_is_Some_2 h (length t)) as [y Hy]; [lia|].
    unfold heap_Pop, h_len.
    replace (Z.of_nat (length h) - 1)%Z with (Z.of_nat (length t)) by lia.
    change 0%Z with (Z.of_nat 0).
    rewrite (h_swap_nat _ _ _ _ _ Hx Hy). cbn [rbind].
    set (h1 := swapn h 0 (length t) x y).
    assert (Hlk : forall k, h1 !! k = if decide (k = length t) then Some x
                           else if decide (k = 0) then Some y else h !! k).
    { intros k. by apply swapn_lookup. }
    assert (Hp1 : h1 ≡ₚ h) by (by apply swapn_perm).
    destruct (down_spec h1 0 (length t) 0) as (h2 & mv & Hd & Hperm & Hge & _ & Hedge & _).
    - rewrite (Permutation_length Hp1). lia.
    - done.
    - lia.
    - intros c H0 Hcn _ Hpne Hne0 a b Ha Hb. rewrite Hlk in Ha, Hb.
      rewrite decide_False in Ha by lia. rewrite decide_False in Ha by lia.
      rewrite decide_False in Hb by (unfold par in *; lia).
      rewrite decide_False in Hb by lia. by apply (H c).
    - lia.
    - rewrite Hd. cbn [rbind].
      assert (Hl2 : length h2 = S (length t)).
      { rewrite (Permutation_length Hperm), (Permutation_length Hp1). done. }
      assert (Hlast : h2 !! length t = Some x).
      { rewrite Hge by done. rewrite Hlk. by rewrite decide_True. }
      destruct (snoc_of_lookup h2 (length t) x Hl2 Hlast) as (h' & -> & Hl').
      exists x, h'. rewrite h_pop_snoc. split; [done|].
      split. { rewrite <- Hp1, <- Hperm. by rewrite Permutation_app_comm. }
      split; [done|]. split; [by apply heap_root_least|].
      apply (edges_prefix h' x). intros c H0 Hc. apply Hedge; lia.
  Qed.

  Lemma heap_Pop_empty : heap_Pop less [] = Panic.
  Proof. reflexivity. Qed.

  (** [down] then [up] at [i], on the prefix [n], repairs a heap in which only the
      element at [i] is arbitrary. *)
  Lemma fix_prefix (h : list A) (i n : nat) :
    n <= length h -> i < n ->
    (forall c, 0 < c -> c < n -> par c <> i -> c <> i -> okedge h c) ->
    (forall c, 0 < c -> c < n -> par c = i -> 0 < i -> skipok h c i) ->
    exists h',
      ('(h1, moved) <-! down less h (Z.of_nat i) (Z.of_nat n);;
       (if negb moved then up_ less h1 (Z.of_nat i) else Ok h1)) = Ok h' /\
      h' ≡ₚ h /\ (forall k, n <= k -> h' !! k = h !! k) /\
      (forall c, 0 < c -> c < n -> okedge h' c).
  Proof.
    intros Hlen Hin Ha Hb.
    destruct (down_spec h i n 0) as (h1 & mv & Hd & Hperm & Hge & Hst & Hedge & H0e);
      auto; try lia.
    rewrite Hd. cbn [rbind]. destruct mv; cbn [negb].
    - exists h1. repeat split; auto. intros c H0 Hcn.
      destruct (decide (c = i)) as [->|]; [by apply H0e; auto; lia|].
      apply Hedge; auto. lia.
    - specialize (Hst eq_refl) as ->.
      destruct (up__spec h i n) as (h' & Hu & Hp & Hge' & He); auto.
      { intros c H0 Hcn Hne. apply Hedge; auto. lia. }
      exists h'. repeat split; auto.
  Qed.

  (** Replacing one element of a heap satisfies the premises of [fix_prefix]. *)
  Lemma heap_replace_premises h i x :
    heap_ordered less h -> i < length h ->
    (forall c, 0 < c -> c < length h -> par c <> i -> c <> i -> okedge (<[i := x]> h) c) /\
    (forall c, 0 < c -> c < length h -> par c = i -> 0 < i -> skipok (<[i := x]> h) c i).
  Proof.
    intros H Hi. split.
    - intros c H0 Hcn Hp Hne a b Ha Hb.
      rewrite list_lookup_insert_ne in Ha by done.
      rewrite list_lookup_insert_ne in Hb by done. by apply (H c).
    - intros c H0 Hcn Hp Hi0 a b Ha Hb.
      assert (i < c) by (unfold par in *; lia).
      assert (par i < i) by (unfold par in *; lia).
      rewrite list_lookup_insert_ne in Ha by lia.
      rewrite list_lookup_insert_ne in Hb by lia.
      destruct (lookup_lt_is_Some_2 h i) as [z Hz]; [lia|].
      eapply ntrans; [apply (H c a z); auto; unfold par in Hp; by rewrite Hp|].
      by apply (H i z b).
  Qed.

  Lemma heap_Fix_spec h (i : nat) x :
    heap_ordered less h -> i < length h ->
    exists h', heap_Fix less (<[i := x]> h) (Z.of_nat i) = Ok h' /\ h' ≡ₚ <[i := x]> h /\
      heap_ordered less h'.
  Proof.
    intros H Hi. destruct (heap_replace_premises h i x H Hi) as [Ha Hb].
    unfold heap_Fix, h_len. rewrite insert_length.
    destruct (fix_prefix (<[i := x]> h) i (length h)) as (h' & Hf & Hp & _ & He); auto.
    { by rewrite insert_length. }
    exists h'. split; [exact Hf|]. split; [done|]. apply heap_edges.
    rewrite (Permutation_length Hp), insert_length. exact He.
  Qed.

  Lemma heap_set_fix_spec h (i : nat) x :
    heap_ordered less h -> i < length h ->
    exists h', heap_set_fix less h (Z.of_nat i) x = Ok h' /\ h' ≡ₚ <[i := x]> h /\
      heap_ordered less h'.
  Proof.
    intros H Hi. destruct (lookup_lt_is_Some_2 h i Hi) as [z Hz].
    unfold heap_set_fix. rewrite getZ_nat, Hz, Nat2Z.id. by apply heap_Fix_spec.
  Qed.

  Lemma heap_Remove_spec h (i : nat) x :
    heap_ordered less h -> h !! i = Some x ->
    exists h', heap_Remove less h (Z.of_nat i) = Ok (x, h') /\ h ≡ₚ x :: h' /\
      heap_ordered less h'.
  Proof.
    intros H Hx. pose proof (lookup_lt_Some _ _ _ Hx) as Hi.
    destruct (length h) as [|n] eqn:Hlen; [lia|].
    destruct (lookup_lt_is_Some_2 h n) as [y Hy]; [lia|].
    unfold heap_Remove, h_len. rewrite Hlen.
    replace (Z.of_nat (S n) - 1)%Z with (Z.of_nat n) by lia.
    destruct (Z.of_nat n =? Z.of_nat i)%Z eqn:E; cbn [negb].
    - assert (i = n) as -> by lia. assert (y = x) as -> by congruence.
      destruct (snoc_of_lookup h n x Hlen Hy) as (h' & -> & Hl').
      exists h'. rewrite h_pop_snoc. split; [done|].
      split; [by rewrite Permutation_app_comm|].
      apply (edges_prefix h' x). intros c H0 Hc a b Ha Hb. by apply (H c).
    - rewrite (h_swap_nat _ _ _ _ _ Hx Hy). cbn [rbind].
      set (h1 := swapn h i n x y).
      assert (Hlk : forall k, h1 !! k = if decide (k = n) then Some x
                           else if decide (k = i) then Some y else h !! k).
      { intros k. by apply swapn_lookup. }
      assert (Hp1 : h1 ≡ₚ h) by (by apply swapn_perm).
      destruct (heap_replace_premises h i y H) as [Ha Hb]; [lia|].
      destruct (fix_prefix h1 i n) as (h2 & Hf & Hp & Hge & He).
      + rewrite (Permutation_length Hp1). lia.
      + lia.
      + intros c H0 Hcn Hpc Hne a b Hla Hlb. rewrite Hlk in Hla, Hlb.
        rewrite decide_False in Hla by lia. rewrite decide_False in Hla by done.
        rewrite decide_False in Hlb by (unfold par in *; lia).
        rewrite decide_False in Hlb by done. by apply (H c).
      + intros c H0 Hcn Hpc Hi0 a b Hla Hlb. rewrite Hlk in Hla, Hlb.
        assert (i < c) by (unfold par in *; lia).
        assert (par i < i) by (unfold par in *; lia).
        rewrite decide_False in Hla by lia. rewrite decide_False in Hla by lia.
        rewrite decide_False in Hlb by lia. rewrite decide_False in Hlb by lia.
        apply (Hb c H0); auto; try lia; rewrite list_lookup_insert_ne; auto; lia.
      + (* rearrange the binds *)
        assert (Hrem :
          ('(h2, moved) <-! down less h1 (Z.of_nat i) (Z.of_nat n);;
           (h3 <-! (if negb moved then up_ less h2 (Z.of_nat i) else Ok h2);; h_pop h3))
          = h_pop h2).
        { destruct (down less h1 (Z.of_nat i) (Z.of_nat n)) as [[d mv]| |]; cbn [rbind] in *;
            try discriminate Hf. by rewrite Hf. }
        rewrite Hrem.
        assert (Hl2 : length h2 = S n).
        { rewrite (Permutation_length Hp), (Permutation_length Hp1). done. }
        assert (Hlast : h2 !! n = Some x).
        { rewrite Hge by done. rewrite Hlk. by rewrite decide_True. }
        destruct (snoc_of_lookup h2 n x Hl2 Hlast) as (h' & -> & Hl').
        exists h'. rewrite h_pop_snoc. split; [done|].
        split. { rewrite <- Hp1, <- Hp. by rewrite Permutation_app_comm. }
        apply (edges_prefix h' x). intros c H0 Hc. apply He; lia.
  Qed.

  Lemma pop_all_spec k h :
    heap_ordered less h -> length h = k ->
    exists l, pop_all less k h = Ok l /\ l ≡ₚ h /\ in_order less l.
  Proof.
    revert h. induction k as [|k IH]; intros h H Hk; cbn [pop_all].
    - exists []. destruct h; [|done]. repeat split; auto. intros i j x y _ Hc. done.
    - destruct (heap_Pop_spec h H) as (x & h' & Hp & Hperm & _ & Hleast & Ho);
        [by destruct h|].
      rewrite Hp. cbn [rbind].
      destruct (IH h') as (l & Hl & Hpl & Hord); [done| |].
      { apply Permutation_length in Hperm. simpl in Hperm. lia. }
      rewrite Hl. cbn [rbind]. exists (x :: l). split; [done|].
      split; [by rewrite Hperm, Hpl|].
      intros i j a b Hij Ha Hb. destruct j as [|j]; [lia|]. simpl in Hb.
      destruct i as [|i]; simpl in Ha.
      + sinj. apply Hleast. rewrite Hperm, <- Hpl.
        apply elem_of_list_further. by eapply elem_of_list_lookup_2.
      + by apply (Hord i j); auto; lia.
  Qed.

  Lemma heap_sort_spec l :
    exists h out, heap_Init less l = Ok h /\ pop_all less (length l) h = Ok out /\
      out ≡ₚ l /\ in_order less out.
  Proof.
    destruct (heap_Init_spec l) as (h & Hi & Hp & Ho).
    destruct (pop_all_spec (length l) h Ho) as (out & Hpa & Hpo & Hord).
    { by apply Permutation_length. }
    exists h, out. repeat split; auto. by rewrite Hpo.
  Qed.
End proofs.

Lemma in_order_sorted {A} (less : A -> A -> bool) (R : A -> A -> Prop) l :
  (forall x y, less y x = false -> R x y) -> in_order less l -> StronglySorted R l.
Proof.
  intros HR. induction l as [|x l IH]; intros H; constructor.
  - apply IH. intros i j a b Hij Ha Hb. apply (H (S i) (S j)); auto. lia.
  - apply Forall_lookup. intros i y Hy. apply HR. apply (H 0 (S i)); auto. lia.
Qed.

Lemma min_heap_ascending (l : list Z) :
  exists h out, heap_Init (min_less Z.ltb) l = Ok h /\
    pop_all (min_less Z.ltb) (length l) h = Ok out /\ out ≡ₚ l /\ StronglySorted Z.le out.
Proof.
  destruct (heap_sort_spec (min_less Z.ltb)) with (l := l) as (h & out & H1 & H2 & H3 & H4).
  { unfold strict_weak, min_less. repeat split; intros; lia. }
  exists h, out. repeat split; auto. eapply in_order_sorted; [|exact H4].
  unfold min_less. intros; lia.
Qed.
Lemma max_heap_descending (l : list Z) :
  exists h out, heap_Init (max_less Z.ltb) l = Ok h /\
    pop_all (max_less Z.ltb) (length l) h = Ok out /\ out ≡ₚ l /\ StronglySorted Z.ge out.
Proof.
  destruct (heap_sort_spec (max_less Z.ltb)) with (l := l) as (h & out & H1 & H2 & H3 & H4).
  { unfold strict_weak, max_less. repeat split; intros; lia. }
  exists h, out. repeat split; auto. eapply in_order_sorted; [|exact H4].
  unfold max_less. intros; lia.
Qed.

(** Histories. *)
Definition ev_of {A} (o : heap_op A) : option A :=
  match o with OpPush x => Some x | OpPop => None end.

Lemma heap_run_spec {A} (less : A -> A -> bool) (ops : list (heap_op A)) h :
  strict_weak less -> heap_ordered less h ->
  pops_allowed (length h) (map ev_of ops) ->
  exists outs h', heap_run less h ops = Ok (outs, h') /\
    heap_ordered less h' /\ pq_behaves less h (map ev_of ops) outs h'.
Proof.
  intros SW. revert h. induction ops as [|[x|] ops IH]; intros h H Hpa; cbn [heap_run].
  - exists [], h. repeat split; auto. constructor.
  - destruct (heap_Push_spec less SW h x H) as (h' & Hp & Hperm & Ho).
    rewrite Hp. cbn [rbind].
    destruct (IH h' Ho) as (outs & h2 & Hr & Ho2 & Hb).
    { rewrite (Permutation_length Hperm). done. }
    exists outs, h2. repeat split; auto. simpl. by apply pq_push with h'.
  - simpl in Hpa. destruct Hpa as (m & Hm & Hpa).
    destruct (heap_Pop_spec less SW h H) as (x & h' & Hp & Hperm & _ & Hl & Ho);
      [by destruct h|].
    rewrite Hp. cbn [rbind].
    destruct (IH h' Ho) as (outs & h2 & Hr & Ho2 & Hb).
    { apply Permutation_length in Hperm. simpl in Hperm.
      replace (length h') with m by lia. done. }
    rewrite Hr. cbn [rbind]. exists (x :: outs), h2. repeat split; auto.
    simpl. by apply pq_pop with h'.
Qed.

Lemma heap_Remove_out {A} (less : A -> A -> bool) h i :
  (i < 0)%Z \/ (Z.of_nat (length h) <= i)%Z -> heap_Remove less h i = Panic.
Proof.
  intros Hi. unfold heap_Remove, h_len.
  destruct (Z.of_nat (length h) - 1 =? i)%Z eqn:E; cbn [negb].
  - assert (length h = 0) by lia. destruct h; [|done]. reflexivity.
  - unfold h_swap. rewrite (getZ_None h i) by done. reflexivity.
Qed.

Lemma heap_Fix_above {A} (less : A -> A -> bool) h i :
  (Z.of_nat (length h) <= i)%Z -> (0 < i)%Z -> heap_Fix less h i = Panic.
Proof.
  intros Hi H0. unfold heap_Fix, h_len, down. cbn [down_loop].
  destruct ((Z.of_nat (length h) <=? 2 * i + 1)%Z || (2 * i + 1 <? 0)%Z) eqn:E; [|lia].
  cbn [rbind]. rewrite Z.ltb_irrefl. cbn [negb]. unfold up_.
  cbn [up]. destruct (Z.quot (i - 1) 2 =? i)%Z eqn:E2.
  - rewrite Z.quot_div_nonneg in E2 by lia. lia.
  - unfold h_less. rewrite (getZ_None h i) by auto. reflexivity.
Qed.

(** Histories with Remove and Fix. *)
Definition obs_events {A} (o : heap_obs A) : list (bag_event A) :=
  match o with
  | ObsPushed x => [EvAdd x]
  | ObsPopped x => [EvPopLeast x]
  | ObsRemoved x => [EvTake x]
  | ObsReplaced y x => [EvTake y; EvAdd x]
  end.

(** Calls whose index is valid for a heap of [n] elements, and how [n] changes. *)
Fixpoint ops_valid {A} (n : nat) (ops : list (heap_op2 A)) : Prop :=
  match ops with
  | [] => True
  | Op2Push _ :: ops => ops_valid (S n) ops
  | Op2Pop :: ops => exists m, n = S m /\ ops_valid m ops
  | Op2Remove i :: ops => (0 <= i < Z.of_nat n)%Z /\ exists m, n = S m /\ ops_valid m ops
  | Op2Set i _ :: ops => (0 <= i < Z.of_nat n)%Z /\ ops_valid n ops
  end.

Lemma bag_behaves_perm {A} (less : A -> A -> bool) b b' evs b2 :
  b ≡ₚ b' -> bag_behaves less b evs b2 -> bag_behaves less b' evs b2.
Proof.
  intros Hp Hb. revert b' Hp.
  induction Hb as [b b1 H|b x evs b2 _ IH|b b1 x evs b2 H Hl H' IH|b b1 x evs b2 H H' IH];
    intros b' Hp.
  - constructor. by rewrite <- Hp.
  - constructor. apply IH. by rewrite Hp.
  - apply bag_pop with b1; auto; [by rewrite <- Hp|].
    intros y Hy. apply Hl. by rewrite Hp.
  - apply bag_take with b1; auto. by rewrite <- Hp.
Qed.

Lemma insert_perm {A} (l : list A) k a b :
  l !! k = Some a -> exists r, l ≡ₚ a :: r /\ <[k := b]> l ≡ₚ b :: r.
Proof.
  intros Hk. exists (take k l ++ drop (S k) l).
  rewrite <- (take_drop_middle l k a Hk) at 1. split.
  - by rewrite Permutation_middle.
  - rewrite insert_take_drop by (by eapply lookup_lt_Some). by rewrite Permutation_middle.
Qed.

Lemma heap_run2_spec {A} (less : A -> A -> bool) (ops : list (heap_op2 A)) h :
  strict_weak less -> heap_ordered less h -> ops_valid (length h) ops ->
  exists obs h', heap_run2 less h ops = Ok (obs, h') /\ heap_ordered less h' /\
    bag_behaves less h (concat (map obs_events obs)) h'.
Proof.
  intros SW. revert h. induction ops as [|o ops IH]; intros h H Hv; cbn [heap_run2].
  - exists [], h. repeat split; auto. simpl. by constructor.
  - destruct o as [x| |i|i x].
    + destruct (heap_Push_spec less SW h x H) as (h' & Hp & Hperm & Ho).
      rewrite Hp. cbn [rbind].
      destruct (IH h' Ho) as (obs & h2 & Hr & Ho2 & Hb).
      { rewrite (Permutation_length Hperm). done. }
      rewrite Hr. cbn [rbind]. eexists _, h2. repeat split; auto. simpl.
      apply bag_add. by eapply bag_behaves_perm.
    + simpl in Hv. destruct Hv as (m & Hm & Hv).
      destruct (heap_Pop_spec less SW h H) as (x & h' & Hp & Hperm & _ & Hl & Ho);
        [by destruct h|].
      rewrite Hp. cbn [rbind].
      destruct (IH h' Ho) as (obs & h2 & Hr & Ho2 & Hb).
      { apply Permutation_length in Hperm. simpl in Hperm.
        replace (length h') with m by lia. done. }
      rewrite Hr. cbn [rbind]. eexists _, h2. repeat split; auto. simpl.
      by eapply bag_pop.
    + simpl in Hv. destruct Hv as (Hi & m & Hm & Hv).
      replace i with (Z.of_nat (Z.to_nat i)) by lia.
      destruct (lookup_lt_is_Some_2 h (Z.to_nat i)) as [x Hx]; [lia|].
      destruct (heap_Remove_spec less SW h _ x H Hx) as (h' & Hp & Hperm & Ho).
      rewrite Hp. cbn [rbind].
      destruct (IH h' Ho) as (obs & h2 & Hr & Ho2 & Hb).
      { apply Permutation_length in Hperm. simpl in Hperm.
        replace (length h') with m by lia. done. }
      rewrite Hr. cbn [rbind]. eexists _, h2. repeat split; auto. simpl.
      by eapply bag_take.
    + simpl in Hv. destruct Hv as (Hi & Hv).
      replace i with (Z.of_nat (Z.to_nat i)) by lia.
      destruct (lookup_lt_is_Some_2 h (Z.to_nat i)) as [y Hy]; [lia|].
      rewrite getZ_nat, Hy.
      destruct (heap_set_fix_spec less SW h (Z.to_nat i) x H) as (h' & Hp & Hperm & Ho); [lia|].
      rewrite Hp. cbn [rbind].
      destruct (IH h' Ho) as (obs & h2 & Hr & Ho2 & Hb).
      { rewrite (Permutation_length Hperm), insert_length. done. }
      rewrite Hr. cbn [rbind]. eexists _, h2. repeat split; auto. simpl.
      destruct (insert_perm h _ y x Hy) as (r & Hr1 & Hr2).
      eapply bag_take; [exact Hr1|]. apply bag_add.
      eapply bag_behaves_perm; [|exact Hb]. by rewrite Hperm.
Qed.

(** Without any assumption on [less]: the calls are total and keep the elements. *)
Section total.
  Context {A : Type} (less : A -> A -> bool).

  Lemma down_loop_total fuel (h : list A) (i n : nat) :
    n <= length h -> i < n \/ n <= 2 * i + 1 -> n - i < fuel ->
    exists (h' : list A) (i' : nat),
      down_loop less fuel h (Z.of_nat i) (Z.of_nat n) = Ok (h', Z.of_nat i') /\
      h' ≡ₚ h /\ (forall k, n <= k -> h' !! k = h !! k).
  Proof.
    revert h i. induction fuel as [|fuel IH]; intros h i Hlen Hin Hf; [lia|].
    cbn [down_loop].
    destruct ((Z.of_nat n <=? 2 * Z.of_nat i + 1)%Z ||
              (2 * Z.of_nat i + 1 <? 0)%Z) eqn:E1; [by exists h, i|].
    assert (Hn1 : 2 * i + 1 < n) by lia.
    destruct (lookup_lt_is_Some_2 h (2 * i + 1)) as [x1 Hx1]; [lia|].
    destruct (lookup_lt_is_Some_2 h i) as [xi Hxi]; [lia|].
    replace (2 * Z.of_nat i + 1)%Z with (Z.of_nat (2 * i + 1)) by lia.
    replace (Z.of_nat (2 * i + 1) + 1)%Z with (Z.of_nat (2 * i + 2)) by lia.
    assert (exists b2, (if (Z.of_nat (2 * i + 2) <? Z.of_nat n)%Z
                 then h_less less h (Z.of_nat (2 * i + 2)) (Z.of_nat (2 * i + 1))
                 else Ok false) = Ok b2 /\
            (b2 = true -> 2 * i + 2 < n)) as (b2 & Hb2 & Hb2n).
    { destruct (Z.of_nat (2 * i + 2) <? Z.of_nat n)%Z eqn:E2; [|by exists false].
      destruct (lookup_lt_is_Some_2 h (2 * i + 2)) as [x2 Hx2]; [lia|].
      eexists. split; [by apply h_less_nat|lia]. }
    rewrite Hb2. cbn [rbind].
    assert (exists j xj, (if b2 then Z.of_nat (2 * i + 2) else Z.of_nat (2 * i + 1)) = Z.of_nat j /\
      i < j < n /\ h !! j = Some xj) as (j & xj & -> & Hj & Hxj).
    { destruct b2.
      - destruct (lookup_lt_is_Some_2 h (2 * i + 2)) as [x2 Hx2]; [lia|].
        exists (2 * i + 2), x2. split; [done|]. split; [lia|done].
      - exists (2 * i + 1), x1. split; [done|]. split; [lia|done]. }
    rewrite (h_less_nat less _ _ _ _ _ Hxj Hxi). cbn [rbind].
    destruct (less xj xi); cbn [negb]; [|by exists h, i].
    rewrite (h_swap_nat _ _ _ _ _ Hxi Hxj). cbn [rbind].
    destruct (IH (swapn h i j xi xj) j) as (h2 & i2 & Hd & Hp & Hge); try lia.
    { by rewrite swapn_length. }
    exists h2, i2. split; [done|]. split; [rewrite Hp; by apply swapn_perm|].
    intros k Hk. rewrite Hge by done. rewrite swapn_lookup by done.
    rewrite decide_False by lia. by rewrite decide_False by lia.
  Qed.

  Lemma down_total (h : list A) (i n : nat) :
    n <= length h -> i < n \/ n <= 2 * i + 1 ->
    exists (h' : list A) mv, down less h (Z.of_nat i) (Z.of_nat n) = Ok (h', mv) /\
      h' ≡ₚ h /\ (forall k, n <= k -> h' !! k = h !! k).
  Proof.
    intros Hl Hi. unfold down.
    destruct (down_loop_total (S (length h)) h i n) as (h' & i' & Hd & Hp & Hg); auto; [lia|].
    rewrite Hd. cbn [rbind]. eauto.
  Qed.

  Lemma up_total fuel (h : list A) (j : nat) :
    j < length h -> j < fuel ->
    exists h', up less fuel h (Z.of_nat j) = Ok h' /\ h' ≡ₚ h /\
      (forall k, j < k -> h' !! k = h !! k).
  Proof.
    revert h j. induction fuel as [|fuel IH]; intros h j Hj Hf; [lia|].
    cbn [up].
    assert (Hq : Z.quot (Z.of_nat j - 1) 2 = Z.of_nat (par j)).
    { unfold par. destruct (decide (j = 0)) as [->|]; [reflexivity|].
      rewrite Z.quot_div_nonneg by lia. lia. }
    rewrite Hq.
    destruct (Z.of_nat (par j) =? Z.of_nat j)%Z eqn:E1; [by exists h|].
    assert (Hpj : par j < j) by (unfold par in *; lia).
    destruct (lookup_lt_is_Some_2 h j) as [xj Hxj]; [lia|].
    destruct (lookup_lt_is_Some_2 h (par j)) as [xp Hxp]; [lia|].
    rewrite (h_less_nat less _ _ _ _ _ Hxj Hxp). cbn [rbind].
    destruct (less xj xp); cbn [negb]; [|by exists h].
    rewrite (h_swap_nat _ _ _ _ _ Hxp Hxj). cbn [rbind].
    destruct (IH (swapn h (par j) j xp xj) (par j)) as (h2 & Hu & Hp & Hge); try lia.
    { rewrite swapn_length. lia. }
    exists h2. split; [done|]. split; [rewrite Hp; by apply swapn_perm|].
    intros k Hk. rewrite Hge by lia. rewrite swapn_lookup by done.
    rewrite decide_False by lia. by rewrite decide_False by lia.
  Qed.

  Lemma up__total (h : list A) (j : nat) :
    j < length h ->
    exists h', up_ less h (Z.of_nat j) = Ok h' /\ h' ≡ₚ h /\
      (forall k, j < k -> h' !! k = h !! k).
  Proof. intros Hj. unfold up_. apply up_total; auto. lia. Qed.

  Lemma init_loop_total cnt h n :
    n = length h -> 2 * cnt <= n + 1 ->
    exists h', init_loop less cnt h (Z.of_nat n) = Ok h' /\ h' ≡ₚ h.
  Proof.
    revert h. induction cnt as [|cnt IH]; intros h Hn Hc; cbn [init_loop]; [by exists h|].
    destruct (down_total h cnt n) as (h' & mv & Hd & Hp & _); try lia.
    rewrite Hd. cbn [rbind].
    destruct (IH h') as (h2 & Hi & Hp2); [|lia|].
    { by rewrite (Permutation_length Hp). }
    exists h2. split; [done|]. by rewrite Hp2.
  Qed.

  Lemma heap_calls_total (h : list A) :
    (exists h', heap_Init less h = Ok h' /\ h' ≡ₚ h) /\
    (forall x, exists h', heap_Push less h x = Ok h' /\ h' ≡ₚ x :: h) /\
    (h <> [] -> exists x h', heap_Pop less h = Ok (x, h') /\ h ≡ₚ x :: h') /\
    (forall i, i < length h -> exists x h', heap_Remove less h (Z.of_nat i) = Ok (x, h') /\
       h !! i = Some x /\ h ≡ₚ x :: h') /\
    (forall i, i < length h -> exists h', heap_Fix less h (Z.of_nat i) = Ok h' /\ h' ≡ₚ h).
  Proof.
    assert (Hrem : forall i, i < length h -> exists x h', heap_Remove less h (Z.of_nat i) = Ok (x, h') /\
       h !! i = Some x /\ h ≡ₚ x :: h').
    { intros i Hi. destruct (length h) as [|n] eqn:Hlen; [lia|].
      destruct (lookup_lt_is_Some_2 h i) as [x Hx]; [lia|].
      destruct (lookup_lt_is_Some_2 h n) as [y Hy]; [lia|].
      unfold heap_Remove, h_len. rewrite Hlen.
      replace (Z.of_nat (S n) - 1)%Z with (Z.of_nat n) by lia.
      destruct (Z.of_nat n =? Z.of_nat i)%Z eqn:E; cbn [negb].
      - assert (i = n) as -> by lia. assert (y = x) as -> by congruence.
        destruct (snoc_of_lookup h n x Hlen Hy) as (h' & -> & Hl').
        exists x, h'. rewrite h_pop_snoc. repeat split; auto.
        by rewrite Permutation_app_comm.
      - rewrite (h_swap_nat _ _ _ _ _ Hx Hy). cbn [rbind].
        assert (Hp1 : swapn h i n x y ≡ₚ h) by (by apply swapn_perm).
        destruct (down_total (swapn h i n x y) i n) as (h2 & mv & Hd & Hp & Hge).
        { rewrite swapn_length. lia. } { lia. }
        rewrite Hd. cbn [rbind].
        assert (exists h3, (if negb mv then up_ less h2 (Z.of_nat i) else Ok h2) = Ok h3 /\
          h3 ≡ₚ h2 /\ h3 !! n = h2 !! n) as (h3 & -> & Hp3 & Hl3).
        { destruct mv; cbn [negb]; [by exists h2|].
          destruct (up__total h2 i) as (h3 & Hu & Hp3 & Hg3).
          { rewrite (Permutation_length Hp), swapn_length. lia. }
          exists h3. repeat split; auto. apply Hg3. lia. }
        cbn [rbind].
        assert (Hlen3 : length h3 = S n).
        { by rewrite (Permutation_length Hp3), (Permutation_length Hp), swapn_length. }
        assert (Hlast : h3 !! n = Some x).
        { rewrite Hl3, Hge by done. rewrite swapn_lookup by done. by rewrite decide_True. }
        destruct (snoc_of_lookup h3 n x Hlen3 Hlast) as (h' & -> & Hl').
        exists x, h'. rewrite h_pop_snoc. repeat split; auto.
        rewrite <- Hp1, <- Hp, <- Hp3. by rewrite Permutation_app_comm. }
    split; [|split; [|split; [|split]]]; auto.
    - unfold heap_Init, h_len. apply init_loop_total; auto.
      rewrite Z.quot_div_nonneg by lia. lia.
    - intros x. unfold heap_Push, h_push, h_len.
      replace (Z.of_nat (length (h ++ [x])) - 1)%Z with (Z.of_nat (length h))
        by (rewrite app_length; simpl; lia).
      destruct (up__total (h ++ [x]) (length h)) as (h' & Hu & Hp & _).
      { rewrite app_length; simpl; lia. }
      exists h'. split; [done|]. rewrite Hp. by rewrite Permutation_app_comm.
    - intros Hne. destruct h as [|x t] eqn:Eh; [done|]. rewrite <- Eh in *.
      assert (Hx : h !! 0 = Some x) by (by rewrite Eh).
      assert (Hlen : length h = S (length t)) by (by rewrite Eh).
      destruct (lookup_lt_is_Some_2 h (length t)) as [y Hy]; [lia|].
      unfold heap_Pop, h_len.
      replace (Z.of_nat (length h) - 1)%Z with (Z.of_nat (length t)) by lia.
      change 0%Z with (Z.of_nat 0).
      rewrite (h_swap_nat _ _ _ _ _ Hx Hy). cbn [rbind].
      assert (Hp1 : swapn h 0 (length t) x y ≡ₚ h) by (by apply swapn_perm).
      destruct (down_total (swapn h 0 (length t) x y) 0 (length t)) as (h2 & mv & Hd & Hp & Hge).
      { rewrite swapn_length. lia. } { lia. }
      rewrite Hd. cbn [rbind].
      assert (Hl2 : length h2 = S (length t)).
      { by rewrite (Permutation_length Hp), swapn_length. }
      assert (Hlast : h2 !! length t = Some x).
      { rewrite Hge by done. rewrite swapn_lookup by done. by rewrite decide_True. }
      destruct (snoc_of_lookup h2 (length t) x Hl2 Hlast) as (h' & -> & Hl').
      exists x, h'. rewrite h_pop_snoc. split; [done|].
      rewrite <- Hp1, <- Hp. by rewrite Permutation_app_comm.
    - intros i Hi. unfold heap_Fix, h_len.
      destruct (down_total h i (length h)) as (h2 & mv & Hd & Hp & Hge); try lia.
      rewrite Hd. cbn [rbind]. destruct mv; cbn [negb]; [by exists h2|].
      destruct (up__total h2 i) as (h3 & Hu & Hp3 & _).
      { by rewrite (Permutation_length Hp). }
      exists h3. split; [done|]. by rewrite Hp3.
  Qed.
End total.
