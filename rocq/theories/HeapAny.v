(** Proofs about the heap functions when Less may answer anything. *)
From Verif Require Import Base HeapModel HeapSpec HeapProofs HeapIface HeapIfaceSpec HeapIfaceProofs HeapAnySpec.
From Coq Require Import ZifyBool ZifyNat.

Section any.
  Context {S A : Type} (I : iface S A) (rep : S -> list A -> Prop) (admits : A -> list A -> Prop).
  Hypothesis Im : keeps I rep admits.

  Lemma any_less s l (i j : nat) : rep s l -> i < length l -> j < length l ->
    exists b s', i_less I (Z.of_nat i) (Z.of_nat j) s = Ok (b, s') /\ rep s' l.
  Proof.
    intros Hr Hi Hj. destruct (lookup_lt_is_Some_2 l i Hi) as [x Hx], (lookup_lt_is_Some_2 l j Hj) as [y Hy].
    by eapply ke_less.
  Qed.
  Lemma any_swap s l (i j : nat) : rep s l -> i < length l -> j < length l ->
    exists s' l', i_swap I (Z.of_nat i) (Z.of_nat j) s = Ok s' /\ rep s' l' /\ l' ≡ₚ l /\
      l' !! j = l !! i /\ l' !! i = l !! j /\ forall k, k <> i -> k <> j -> l' !! k = l !! k.
  Proof.
    intros Hr Hi Hj. destruct (lookup_lt_is_Some_2 l i Hi) as [x Hx], (lookup_lt_is_Some_2 l j Hj) as [y Hy].
    destruct (ke_swap _ _ _ Im s l i j x y Hr Hx Hy) as (s'&Hs&Hr'). eexists s', _. split; [done|]. split; [done|].
    split; [by apply (swapn_perm l i j x y)|].
    pose proof (fun k => swapn_lookup l i j x y k Hx Hy) as Hl. unfold swapn in Hl. split_and!.
    - by rewrite Hl, decide_True.
    - rewrite Hl. case_decide; [by simplify_eq|]. by rewrite decide_True.
    - intros k H1 H2. by rewrite Hl, !decide_False.
  Qed.

  Lemma any_up fuel s l (j : nat) : rep s l -> j < length l -> fits (length l) -> j < fuel ->
    exists s' l', g_up I fuel s (Z.of_nat j) = Ok s' /\ rep s' l' /\ l' ≡ₚ l /\
      forall k, j < k -> l' !! k = l !! k.
  Proof.
    unfold fits. revert s l j. induction fuel as [|f IH]; intros s l j Hr Hj Hf Hfu; [lia|].
    cbn [g_up]. rewrite wrap_id by lia. destruct (Z.eqb_spec (Z.quot (Z.of_nat j - 1) 2) (Z.of_nat j)) as [E|E].
    { exists s, l. done. }
    assert (exists i : nat, Z.quot (Z.of_nat j - 1) 2 = Z.of_nat i /\ i < j) as (i&Hi&Hij).
    { exists (Z.to_nat (Z.quot (Z.of_nat j - 1) 2)). Z.to_euclidean_division_equations. lia. }
    rewrite Hi. destruct (any_less s l j i Hr ltac:(lia) ltac:(lia)) as (b&s1&->&Hr1). cbn [rbind].
    destruct b; cbn [negb]; [|exists s1, l; done].
    destruct (any_swap s1 l i j Hr1 ltac:(lia) ltac:(lia)) as (s2&l2&->&Hr2&Hp&_&_&Hk). cbn [rbind].
    pose proof (Permutation_length Hp) as Hlen.
    destruct (IH s2 l2 i Hr2 ltac:(lia) ltac:(lia) ltac:(lia)) as (s3&l3&->&Hr3&Hp3&Hk3).
    exists s3, l3. split; [done|]. split; [done|]. split; [by rewrite Hp3|].
    intros k Hlt. rewrite Hk3 by lia. apply Hk; lia.
  Qed.

  Lemma any_down_loop fuel s l (i n : nat) : rep s l -> n <= length l -> fits (length l) -> (Z.of_nat i < 2^63)%Z -> n < fuel + i ->
    0 < fuel ->
    exists s' l' i', g_down_loop I fuel s (Z.of_nat i) (Z.of_nat n) = Ok (s', i') /\ rep s' l' /\ l' ≡ₚ l /\
      (forall k, n <= k -> l' !! k = l !! k) /\ (Z.of_nat i <= i')%Z.
  Proof.
    unfold fits. revert s l i. induction fuel as [|f IH]; intros s l i Hr Hn Hf Hi Hfu Hf0; [lia|].
    cbn [g_down_loop].
    destruct (Z.leb_spec (Z.of_nat n) (2 * Z.of_nat i + 1)) as [Hle|Hgt].
    { exists s, l, (Z.of_nat i). split; [|done].
      destruct (decide (2 * Z.of_nat i + 1 < 2^63)%Z).
      - rewrite wrap_id by lia. by rewrite (proj2 (Z.leb_le _ _) Hle).
      - assert (wrap (2 * Z.of_nat i + 1) < 0)%Z as Hw by (apply wrap_over; lia).
        by rewrite (proj2 (Z.ltb_lt _ _) Hw), orb_true_r. }
    rewrite (wrap_id (2 * Z.of_nat i + 1)) by lia. rewrite (wrap_id (2 * Z.of_nat i + 1 + 1)) by lia.
    rewrite (proj2 (Z.leb_gt _ _) Hgt), (proj2 (Z.ltb_ge (2 * Z.of_nat i + 1) 0)) by lia. cbn [orb].
    replace (2 * Z.of_nat i + 1 + 1)%Z with (Z.of_nat (2 * i + 2)) by lia.
    replace (2 * Z.of_nat i + 1)%Z with (Z.of_nat (2 * i + 1)) by lia.
    assert (exists b2 s1, (if (Z.of_nat (2 * i + 2) <? Z.of_nat n)%Z then i_less I (Z.of_nat (2 * i + 2)) (Z.of_nat (2 * i + 1)) s
              else Ok (false, s)) = Ok (b2, s1) /\ rep s1 l /\ (b2 = true -> 2 * i + 2 < n)) as (b2&s1&->&Hr1&Hb2).
    { destruct (Z.ltb_spec (Z.of_nat (2 * i + 2)) (Z.of_nat n)).
      - destruct (any_less s l (2 * i + 2) (2 * i + 1) Hr ltac:(lia) ltac:(lia)) as (b&s1&->&Hr1). exists b, s1. split; [done|]. split; [done|]. lia.
      - exists false, s. done. }
    cbn [rbind]. 
    assert (exists j : nat, (if b2 then Z.of_nat (2 * i + 2) else Z.of_nat (2 * i + 1)) = Z.of_nat j /\ i < j < n) as (j&->&Hj).
    { destruct b2; [exists (2 * i + 2)|exists (2 * i + 1)]; split; [done|specialize (Hb2 eq_refl); lia|done|lia]. }
    destruct (any_less s1 l j i Hr1 ltac:(lia) ltac:(lia)) as (b&s2&->&Hr2). cbn [rbind].
    destruct b; cbn [negb]; [|exists s2, l, (Z.of_nat i); done].
    destruct (any_swap s2 l i j Hr2 ltac:(lia) ltac:(lia)) as (s3&l3&->&Hr3&Hp&_&_&Hk). cbn [rbind].
    pose proof (Permutation_length Hp) as Hlen.
    destruct (IH s3 l3 j Hr3 ltac:(lia) ltac:(lia) ltac:(lia) ltac:(lia) ltac:(lia)) as (s4&l4&i'&->&Hr4&Hp4&Hk4&Hi').
    exists s4, l4, i'. split; [done|]. split; [done|]. split; [by rewrite Hp4|]. split; [|lia].
    intros k Hlt. rewrite Hk4 by done. apply Hk; lia.
  Qed.

  Lemma any_down s l (i n : nat) : rep s l -> n <= length l -> fits (length l) -> (Z.of_nat i < 2^63)%Z ->
    exists s' l' b, g_down I s (Z.of_nat i) (Z.of_nat n) = Ok (s', b) /\ rep s' l' /\ l' ≡ₚ l /\
      (forall k, n <= k -> l' !! k = l !! k).
  Proof.
    intros Hr Hn Hf Hi. unfold g_down. rewrite (ke_len _ _ _ Im _ _ Hr), Nat2Z.id.
    destruct (any_down_loop (Datatypes.S (length l)) s l i n Hr Hn Hf Hi ltac:(lia) ltac:(lia)) as (s1&l1&i1&->&Hr1&Hp&Hk&_).
    cbn [rbind]. eauto 10.
  Qed.

  Lemma any_init_loop k s l (n : nat) : rep s l -> n <= length l -> fits (length l) -> k <= n ->
    exists s' l', g_init_loop I k s (Z.of_nat n) = Ok s' /\ rep s' l' /\ l' ≡ₚ l.
  Proof.
    revert s l. induction k as [|k IH]; intros s l Hr Hn Hf Hk; [by exists s, l|]. cbn [g_init_loop].
    destruct (any_down s l k n Hr Hn Hf ltac:(unfold fits in *; lia)) as (s1&l1&b&->&Hr1&Hp&_). cbn [rbind].
    pose proof (Permutation_length Hp) as Hlen.
    destruct (IH s1 l1 Hr1 ltac:(lia) ltac:(by rewrite Hlen) ltac:(lia)) as (s2&l2&->&Hr2&Hp2).
    exists s2, l2. split; [done|]. split; [done|]. by rewrite Hp2.
  Qed.

  Lemma any_Init s l : rep s l -> fits (length l) -> exists s' l', g_Init I s = Ok s' /\ rep s' l' /\ l' ≡ₚ l.
  Proof.
    intros Hr Hf. unfold g_Init. rewrite (ke_len _ _ _ Im _ _ Hr).
    apply any_init_loop; try done. Z.to_euclidean_division_equations. lia.
  Qed.
  Lemma any_Push s l x : rep s l -> admits x l -> fits (length l + 1) ->
    exists s' l', g_Push I s x = Ok s' /\ rep s' l' /\ l' ≡ₚ x :: l.
  Proof.
    intros Hr Hx Hf. unfold g_Push. destruct (ke_push _ _ _ Im _ _ x Hr Hx) as (s1&->&Hr1). cbn [rbind].
    rewrite (ke_len _ _ _ Im _ _ Hr1), app_length. cbn [length]. unfold fits in Hf. rewrite wrap_id by lia.
    unfold g_up_. replace (Z.of_nat (length l + 1) - 1)%Z with (Z.of_nat (length l)) by lia. rewrite Nat2Z.id.
    destruct (any_up (Datatypes.S (length l)) s1 (l ++ [x]) (length l) Hr1) as (s2&l2&->&Hr2&Hp&_);
      [rewrite app_length; cbn; lia|unfold fits; rewrite app_length; cbn; lia|lia|].
    exists s2, l2. split; [done|]. split; [done|]. rewrite Hp. symmetry. apply Permutation_cons_append.
  Qed.
  Lemma last_split (l : list A) x : l !! (length l - 1) = Some x -> exists l', l = l' ++ [x].
  Proof.
    destruct l as [|y l' _] using rev_ind; [done|]. rewrite app_length. cbn [length].
    replace (length l' + 1 - 1) with (length l') by lia. rewrite lookup_app_r, Nat.sub_diag by lia. intros [= ->]. by exists l'.
  Qed.
  Lemma any_pop s l x : rep s l -> l !! (length l - 1) = Some x ->
    exists s' l', i_pop I s = Ok (x, s') /\ rep s' l' /\ l ≡ₚ x :: l'.
  Proof.
    intros Hr Hl. apply last_split in Hl as [l' ->]. destruct (ke_pop _ _ _ Im _ _ _ Hr) as (s'&->&Hr').
    exists s', l'. split; [done|]. split; [done|]. symmetry. apply Permutation_cons_append.
  Qed.
  Lemma any_Pop s l x : rep s l -> fits (length l) -> l !! 0 = Some x ->
    exists s' l', g_Pop I s = Ok (x, s') /\ rep s' l' /\ l ≡ₚ x :: l'.
  Proof.
    unfold fits. intros Hr Hf Hx. pose proof (lookup_lt_Some _ _ _ Hx) as Hl. unfold g_Pop.
    rewrite (ke_len _ _ _ Im _ _ Hr), wrap_id by lia.
    replace (Z.of_nat (length l) - 1)%Z with (Z.of_nat (length l - 1)) by lia.
    destruct (any_swap s l 0 (length l - 1) Hr ltac:(lia) ltac:(lia)) as (s1&l1&Hs&Hr1&Hp1&Hj&_&_).
    change (Z.of_nat 0) with 0%Z in Hs. rewrite Hs. cbn [rbind]. pose proof (Permutation_length Hp1) as Hlen.
    destruct (any_down s1 l1 0 (length l - 1) Hr1 ltac:(lia) ltac:(unfold fits; lia) ltac:(lia)) as (s2&l2&b&Hd&Hr2&Hp2&Hk).
    change (Z.of_nat 0) with 0%Z in Hd. rewrite Hd. cbn [rbind]. pose proof (Permutation_length Hp2) as Hlen2.
    destruct (any_pop s2 l2 x Hr2) as (s3&l3&->&Hr3&Hp3).
    { rewrite Hlen2, Hlen, Hk by lia. by rewrite Hj. }
    exists s3, l3. split; [done|]. split; [done|]. by rewrite <- Hp3, Hp2, Hp1.
  Qed.
  Lemma any_Fix s l (i : nat) : rep s l -> fits (length l) -> i < length l ->
    exists s' l', g_Fix I s (Z.of_nat i) = Ok s' /\ rep s' l' /\ l' ≡ₚ l.
  Proof.
    intros Hr Hf Hi. unfold g_Fix. rewrite (ke_len _ _ _ Im _ _ Hr).
    destruct (any_down s l i (length l) Hr ltac:(lia) Hf ltac:(unfold fits in *; lia)) as (s1&l1&b&->&Hr1&Hp&_). cbn [rbind].
    pose proof (Permutation_length Hp) as Hlen. destruct b; cbn [negb]; [by exists s1, l1|]. unfold g_up_. rewrite Nat2Z.id.
    destruct (any_up (Datatypes.S i) s1 l1 i Hr1 ltac:(lia) ltac:(by rewrite Hlen) ltac:(lia)) as (s2&l2&->&Hr2&Hp2&_).
    exists s2, l2. split; [done|]. split; [done|]. by rewrite Hp2.
  Qed.
  Lemma any_Remove s l (i : nat) x : rep s l -> fits (length l) -> l !! i = Some x ->
    exists s' l', g_Remove I s (Z.of_nat i) = Ok (x, s') /\ rep s' l' /\ l ≡ₚ x :: l'.
  Proof.
    unfold fits. intros Hr Hf Hx. pose proof (lookup_lt_Some _ _ _ Hx) as Hl. unfold g_Remove.
    rewrite (ke_len _ _ _ Im _ _ Hr), wrap_id by lia.
    destruct (Z.eqb_spec (Z.of_nat (length l) - 1) (Z.of_nat i)) as [E|E]; cbn [negb].
    { apply any_pop; [done|]. replace (length l - 1) with i by lia. done. }
    replace (Z.of_nat (length l) - 1)%Z with (Z.of_nat (length l - 1)) by lia.
    destruct (any_swap s l i (length l - 1) Hr ltac:(lia) ltac:(lia)) as (s1&l1&->&Hr1&Hp1&Hj&_&_). cbn [rbind].
    pose proof (Permutation_length Hp1) as Hlen.
    destruct (any_down s1 l1 i (length l - 1) Hr1 ltac:(lia) ltac:(unfold fits; lia) ltac:(lia)) as (s2&l2&b&->&Hr2&Hp2&Hk). cbn [rbind].
    pose proof (Permutation_length Hp2) as Hlen2.
    assert (exists s3 l3, (if negb b then g_up_ I s2 (Z.of_nat i) else Ok s2) = Ok s3 /\ rep s3 l3 /\ l3 ≡ₚ l2 /\ l3 !! (length l - 1) = l2 !! (length l - 1))
      as (s3&l3&->&Hr3&Hp3&Hk3).
    { destruct b; cbn [negb]; [by exists s2, l2|]. unfold g_up_. rewrite Nat2Z.id.
      destruct (any_up (Datatypes.S i) s2 l2 i Hr2 ltac:(lia) ltac:(unfold fits; lia) ltac:(lia)) as (s3&l3&->&Hr3&Hp3&Hk3).
      exists s3, l3. split; [done|]. split; [done|]. split; [done|]. apply Hk3. lia. }
    cbn [rbind]. pose proof (Permutation_length Hp3) as Hlen3.
    destruct (any_pop s3 l3 x Hr3) as (s4&l4&->&Hr4&Hp4).
    { rewrite Hlen3, Hlen2, Hlen, Hk3, Hk by lia. by rewrite Hj. }
    exists s4, l4. split; [done|]. split; [done|]. by rewrite <- Hp4, Hp3, Hp2, Hp1.
  Qed.
  Lemma any_pops s l : rep s l -> fits (length l) ->
    exists out s', g_pops I (length l) s = Ok (out, s') /\ rep s' [] /\ out ≡ₚ l.
  Proof.
    remember (length l) as n eqn:Hn. revert s l Hn. induction n as [|n IH]; intros s l Hn Hr Hf.
    { destruct l; [|done]. by exists [], s. }
    destruct (lookup_lt_is_Some_2 l 0 ltac:(lia)) as [x Hx].
    destruct (any_Pop s l x Hr ltac:(by rewrite <- Hn) Hx) as (s1&l1&E1&Hr1&Hp). cbn [g_pops]. rewrite E1. cbn [rbind].
    pose proof (Permutation_length Hp) as Hlen. cbn [length] in Hlen.
    destruct (IH s1 l1 ltac:(lia) Hr1 ltac:(unfold fits in *; lia)) as (out&s2&->&Hr2&Hp2). cbn [rbind].
    exists (x :: out), s2. split; [done|]. split; [done|]. by rewrite Hp, Hp2.
  Qed.
End any.

Lemma implements_keeps {S A} (I : iface S A) less rep admits : implements I less rep admits -> keeps I rep admits.
Proof.
  intros Im. split.
  - apply Im.
  - intros s l i j x y Hr Hx Hy. destruct (im_less _ _ _ _ Im s l i j x y Hr Hx Hy) as (s'&?&?). eauto.
  - apply Im.
  - apply Im.
  - apply Im.
Qed.
Lemma coin_keeps {A} (coin : nat -> bool) : keeps (@coin_iface A coin) (fun s l => snd s = l) (fun _ _ => True).
Proof.
  pose proof (slice_implements (A:=A) (fun _ _ => false)) as Im. split.
  - intros [c s] l Hr. exact (im_len _ _ _ _ Im s l Hr).
  - intros [c s] l i j x y Hr Hx Hy. cbn [snd] in Hr.
    destruct (im_less _ _ _ _ Im s l i j x y Hr Hx Hy) as (s'&H&?). unfold coin_iface. cbn [i_less snd fst].
    cbn [i_less] in H. rewrite H. cbn [rbind]. eauto.
  - intros [c s] l i j x y Hr Hx Hy. cbn [snd] in Hr.
    destruct (im_swap _ _ _ _ Im s l i j x y Hr Hx Hy) as (s'&H&?). unfold coin_iface. cbn [i_swap snd fst].
    cbn [i_swap] in H. rewrite H. cbn [rbind]. eauto.
  - intros [c s] l x Hr Hx. cbn [snd] in Hr.
    destruct (im_push _ _ _ _ Im s l x Hr Hx) as (s'&H&?). unfold coin_iface. cbn [i_push snd fst].
    cbn [i_push] in H. rewrite H. cbn [rbind]. eauto.
  - intros [c s] l x Hr. cbn [snd] in Hr.
    destruct (im_pop _ _ _ _ Im s l x Hr) as (s'&H&?). unfold coin_iface. cbn [i_pop snd fst].
    cbn [i_pop] in H. rewrite H. cbn [rbind]. eauto.
Qed.
