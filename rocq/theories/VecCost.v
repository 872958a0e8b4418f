(** Proofs about what the searches of vec look at. *)
From Coq Require Import ZifyBool ZifyNat.
From Verif Require Import Base VecModel VecSpec VecCostSpec.

Section cost.
Context {T : Type}.
Implicit Types (l : list T) (i j k h : nat).

Lemma half_range i j : i < j -> i <= Nat.div2 (i + j) < j.
Proof. intros H. rewrite Nat.div2_div. split; [apply Nat.div_le_lower_bound; lia|apply Nat.div_lt_upper_bound; lia]. Qed.
(** Halving. *)
Lemma half_small i j k : i < j -> j - i < 2 ^ S k -> Nat.div2 (i + j) - i < 2 ^ k /\ j - S (Nat.div2 (i + j)) < 2 ^ k.
Proof.
  intros H Hk. rewrite Nat.pow_succ_r' in Hk. rewrite Nat.div2_div.
  pose proof (Nat.div_mod (i + j) 2 ltac:(lia)). pose proof (Nat.mod_upper_bound (i + j) 2 ltac:(lia)). lia.
Qed.

Lemma binarySearch_end (c : T -> res Z) l fuel i j : j <= i -> binarySearch fuel c l i j = Ok i.
Proof. intros H. assert ((i <? j) = false) as E by lia. destruct fuel; cbn [binarySearch]; by rewrite E. Qed.
Lemma binarySearch_looks (c : T -> res Z) l k : forall fuel i j, j <= length l -> j - i < 2 ^ k -> k <= fuel ->
  exists I : list nat, length I <= k /\ forall (c' : T -> res Z) l' fuel', same_at I l c l' c' -> k <= fuel' ->
    binarySearch fuel' c' l' i j = binarySearch fuel c l i j.
Proof.
  induction k as [|k IH]; intros fuel i j Hj Hk Hf.
  - exists []. split; [done|]. intros c' l' fuel' _ _. cbn in Hk.
    by rewrite !binarySearch_end by lia.
  - destruct fuel as [|fuel]; [lia|]. destruct (decide (i < j)) as [Hij|Hij].
    2:{ exists []. split; [cbn; lia|]. intros c' l' fuel' _ _. by rewrite !binarySearch_end by lia. }
    destruct (half_small i j k Hij Hk) as [K1 K2]. pose proof (half_range i j Hij) as Hh.
    set (h := Nat.div2 (i + j)) in *.
    destruct (lookup_lt_is_Some_2 l h) as [x Hx]; [lia|].
    destruct (IH fuel i h) as (I1&L1&H1); [lia|done|lia|]. destruct (IH fuel (S h) j) as (I2&L2&H2); [lia|done|lia|].
    assert (exists I : list nat, length I <= S k /\ h ∈ I /\
       ((forall z, c x = Ok z -> (z < 0)%Z -> forall y, y ∈ I2 -> y ∈ I) /\ (forall z, c x = Ok z -> (0 <= z)%Z -> forall y, y ∈ I1 -> y ∈ I))) as (I&HI&Hin&G1&G2).
    { destruct (c x) as [z| |].
      - destruct (decide (z < 0)%Z).
        + exists (h :: I2). split; [cbn; lia|]. split; [left|]. split; [by right|]. intros z' [= <-]. lia.
        + exists (h :: I1). split; [cbn; lia|]. split; [left|]. split; [intros z' [= <-]; lia|by right].
      - exists [h]. split; [cbn; lia|]. split; [left|]. split; intros ? [=].
      - exists [h]. split; [cbn; lia|]. split; [left|]. split; intros ? [=]. }
    exists I. split; [done|]. intros c' l' fuel' [Hl Hs] Hf'. destruct fuel' as [|fuel']; [lia|]. cbn [binarySearch].
    assert ((i <? j) = true) as -> by lia. fold h.
    destruct (Hs h x Hin Hx) as (x'&Hx'&Hc). rewrite Hx', Hx. rewrite Hc. destruct (c x) as [z| |] eqn:Ez; [|done..]. cbn [rbind].
    destruct (Z.ltb_spec z 0).
    + apply H2; [|lia]. split; [done|]. intros n y Hn. apply Hs. by eapply G1.
    + apply H1; [|lia]. split; [done|]. intros n y Hn. apply Hs. by eapply G2.
Qed.

Lemma search_looks (c : T -> res Z) l : exists I : list nat, length I <= Nat.log2 (length l) + 2 /\ (l = [] -> I = []) /\
  forall (c' : T -> res Z) l', same_at I l c l' c' -> s_BinarySearchFunc l' c' = s_BinarySearchFunc l c.
Proof.
  destruct (decide (length l = 0)) as [H0|H0].
  { exists []. split; [cbn; lia|]. split; [done|]. intros c' l' [Hl _]. apply nil_length_inv in H0. subst l.
    cbn in Hl. apply nil_length_inv in Hl. by subst l'. }
  assert (length l < 2 ^ S (Nat.log2 (length l))) as Hlog by (apply Nat.log2_spec; lia).
  assert (Nat.log2 (length l) < length l) as Hlt by (apply Nat.log2_lt_lin; lia).
  destruct (binarySearch_looks c l (S (Nat.log2 (length l))) (S (length l)) 0 (length l)) as (I&LI&HI); [lia|lia|lia|].
  unfold s_BinarySearchFunc. destruct (binarySearch (S (length l)) c l 0 (length l)) as [n| |] eqn:En.
  2,3: exists I; (split; [lia|]); (split; [by intros ->|]); intros c' l' [Hl Hs]; rewrite Hl, (HI c' l' _ (conj Hl Hs)) by lia; done.
  exists (n :: I). split; [cbn; lia|]. split; [by intros ->|]. intros c' l' [Hl Hs].
  assert (same_at I l c l' c') as HI' by (split; [done|]; intros i x Hi; apply Hs; by right).
  rewrite Hl, (HI c' l' _ HI') by lia. cbn.
  destruct (l !! n) as [x|] eqn:Ex.
  - destruct (Hs n x ltac:(left) Ex) as (x'&->&->). done.
  - assert (l' !! n = None) as ->; [|done]. apply lookup_ge_None. rewrite Hl. by apply lookup_ge_None.
Qed.

(** ** The searches from one end *)
Lemma indexFunc_until (f : T -> res bool) l i x r : (forall k y, k < i -> l !! k = Some y -> f y = Ok false) -> l !! i = Some x ->
  f x = r -> r <> Ok false -> forall a, indexFunc f a l = match r with Ok _ => Ok (a + Z.of_nat i)%Z | Panic => Panic | NoFuel => NoFuel end.
Proof.
  revert i. induction l as [|y l IH]; intros i Hb Hx Hf Hr a; [done|]. destruct i as [|i]; cbn.
  - injection Hx as ->. rewrite Hf. destruct r as [[]| |]; cbn; try done. by rewrite Z.add_0_r.
  - rewrite (Hb 0 y ltac:(lia) eq_refl). cbn. cbn in Hx. rewrite (IH i) by (try done; intros k z Hk; apply (Hb (S k)); lia).
    destruct r as [[]| |]; try done. f_equal. lia.
Qed.
Lemma equalFunc_until (eq : T -> T -> res bool) l1 l2 i x y r :
  (forall k a b, k < i -> l1 !! k = Some a -> l2 !! k = Some b -> eq a b = Ok true) -> l1 !! i = Some x -> l2 !! i = Some y ->
  eq x y = r -> r <> Ok true -> equalFunc eq l1 l2 = r.
Proof.
  revert l2 i. induction l1 as [|a l1 IH]; intros l2 i Hb Hx Hy He Hr; [done|]. destruct l2 as [|b l2]; [done|]. destruct i as [|i]; cbn.
  - injection Hx as ->. injection Hy as ->. rewrite He. by destruct r as [[]| |].
  - rewrite (Hb 0 a b ltac:(lia) eq_refl eq_refl). cbn. apply (IH l2 i); try done. intros k c d Hk. apply (Hb (S k)). lia.
Qed.
Lemma compareFunc_until (c : T -> T -> res Z) l1 l2 i x y r :
  (forall k a b, k < i -> l1 !! k = Some a -> l2 !! k = Some b -> c a b = Ok 0%Z) -> l1 !! i = Some x -> l2 !! i = Some y ->
  c x y = r -> r <> Ok 0%Z -> compareFunc c l1 l2 = r.
Proof.
  revert l2 i. induction l1 as [|a l1 IH]; intros l2 i Hb Hx Hy He Hr; [done|]. destruct l2 as [|b l2]; [done|]. destruct i as [|i]; cbn.
  - injection Hx as ->. injection Hy as ->. rewrite He. destruct r as [z| |]; try done. cbn. destruct (Z.eqb_spec z 0); congruence.
  - rewrite (Hb 0 a b ltac:(lia) eq_refl eq_refl). cbn. apply (IH l2 i); try done. intros k d e Hk. apply (Hb (S k)). lia.
Qed.
Lemma isSortedRev_until (c : T -> T -> res Z) l i x y r :
  (forall k a b, k < i -> l !! k = Some a -> l !! S k = Some b -> exists z, c a b = Ok z /\ (0 <= z)%Z) -> l !! i = Some x -> l !! S i = Some y ->
  c x y = r -> (forall z, r = Ok z -> (z < 0)%Z) -> isSortedRev c l = match r with Ok _ => Ok false | Panic => Panic | NoFuel => NoFuel end.
Proof.
  revert i. induction l as [|a l IH]; intros i Hb Hx Hy He Hr; [done|]. destruct l as [|b l]; [by destruct i|]. destruct i as [|i].
  - cbn in Hx, Hy. injection Hx as ->. injection Hy as ->. cbn. rewrite He. destruct r as [z| |]; try done. cbn.
    pose proof (Hr z eq_refl). destruct (Z.ltb_spec z 0); [done|lia].
  - destruct (Hb 0 a b ltac:(lia) eq_refl eq_refl) as (z&Ez&Hz).
    change (isSortedRev c (a :: b :: l)) with (match c a b with Ok z => if (z <? 0)%Z then Ok false else isSortedRev c (b :: l) | Panic => Panic | NoFuel => NoFuel end).
    rewrite Ez. destruct (Z.ltb_spec z 0); [lia|]. apply (IH i); try done. intros k d e Hk. apply (Hb (S k)). lia.
Qed.
End cost.
