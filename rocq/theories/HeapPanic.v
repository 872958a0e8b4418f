(** Proofs about the heap functions when Less may panic. *)
From Coq Require Import ZifyBool ZifyNat.
From Verif Require Import Base HeapModel HeapSpec HeapProofs HeapIface HeapIfaceSpec HeapIfaceProofs HeapAnySpec HeapAny HeapPanicSpec.

Section panics.
  Context {S A : Type} (I : piface S A) (rep : S -> list A -> Prop) (admits : A -> list A -> Prop).
  Hypothesis Im : keepsP I rep admits.
  Local Notation leaves := (leaves rep).

  Lemma leaves_bind {B C} (m : P S B) (k : B -> P S C) s Q R (Q' : C -> list A -> Prop) (R' : list A -> Prop) :
    leaves Q R (m s) -> (forall l, R l -> R' l) ->
    (forall b s' l', rep s' l' -> Q b l' -> leaves Q' R' (k b s')) -> leaves Q' R' (pbind m k s).
  Proof.
    unfold pbind. intros H HR Hk. destruct (m s) as [b s'|s'|]; cbn in H.
    - destruct H as (l & H1 & H2). by apply (Hk b s' l).
    - destruct H as (l & H1 & H2). exists l. split; [done|by apply HR].
    - done.
  Qed.
  Lemma leaves_len {C} (k : Z -> P S C) s l (Q' : C -> list A -> Prop) R' :
    rep s l -> leaves Q' R' (k (Z.of_nat (length l)) s) -> leaves Q' R' (pbind (get_len I) k s).
  Proof. intros Hr H. unfold pbind, get_len. by rewrite (kp_len _ _ _ Im _ _ Hr). Qed.

  Lemma pan_less s l (i j : nat) : rep s l -> i < length l -> j < length l ->
    leaves (fun _ l' => l' = l) (eq l) (p_less I (Z.of_nat i) (Z.of_nat j) s).
  Proof.
    intros Hr Hi Hj. destruct (lookup_lt_is_Some_2 l i Hi) as [x Hx], (lookup_lt_is_Some_2 l j Hj) as [y Hy].
    by eapply kp_less.
  Qed.
  Lemma pan_swap s l (i j : nat) : rep s l -> i < length l -> j < length l ->
    leaves (fun _ l' => l' ≡ₚ l /\ l' !! j = l !! i /\ forall k, k <> i -> k <> j -> l' !! k = l !! k) (fun _ => False)
      (p_swap I (Z.of_nat i) (Z.of_nat j) s).
  Proof.
    intros Hr Hi Hj. destruct (lookup_lt_is_Some_2 l i Hi) as [x Hx], (lookup_lt_is_Some_2 l j Hj) as [y Hy].
    destruct (kp_swap _ _ _ Im s l i j x y Hr Hx Hy) as (s'&->&Hr'). cbn. eexists. split; [done|].
    split; [by apply (swapn_perm l i j x y)|].
    pose proof (fun k => swapn_lookup l i j x y k Hx Hy) as Hl. unfold swapn in Hl. split.
    - by rewrite Hl, decide_True.
    - intros k H1 H2. by rewrite Hl, !decide_False.
  Qed.

  Lemma pan_up fuel s l (j : nat) : rep s l -> j < length l -> fits (length l) -> j < fuel ->
    leaves (fun _ l' => l' ≡ₚ l /\ forall k, j < k -> l' !! k = l !! k) (fun l' => l' ≡ₚ l) (p_up I fuel (Z.of_nat j) s).
  Proof.
    unfold fits. revert s l j. induction fuel as [|f IH]; intros s l j Hr Hj Hf Hfu; [lia|].
    cbn [p_up]. rewrite wrap_id by lia. destruct (Z.eqb_spec (Z.quot (Z.of_nat j - 1) 2) (Z.of_nat j)) as [E|E].
    { by exists l. }
    assert (exists i : nat, Z.quot (Z.of_nat j - 1) 2 = Z.of_nat i /\ i < j) as (i&Hi&Hij).
    { exists (Z.to_nat (Z.quot (Z.of_nat j - 1) 2)). Z.to_euclidean_division_equations. lia. }
    rewrite Hi. eapply leaves_bind; [by apply (pan_less s l j i Hr); lia|by intros ? <-|].
    intros b s1 ? Hr1 ->. destruct b; cbn [negb]; [|by exists l].
    eapply leaves_bind; [by apply (pan_swap s1 l i j Hr1); lia|done|].
    intros _ s2 l2 Hr2 (Hp & _ & Hk). pose proof (Permutation_length Hp) as Hlen.
    specialize (IH s2 l2 i Hr2 ltac:(lia) ltac:(lia) ltac:(lia)).
    destruct (p_up I f (Z.of_nat i) s2) as [[] s3|s3|]; cbn in IH |- *.
    - destruct IH as (l3 & Hr3 & Hp3 & Hk3). exists l3. split; [done|]. split; [by rewrite Hp3|].
      intros k Hlt. rewrite Hk3 by lia. apply Hk; lia.
    - destruct IH as (l3 & Hr3 & Hp3). exists l3. split; [done|]. by rewrite Hp3.
    - done.
  Qed.

  Lemma pan_down_loop fuel s l (i n : nat) : rep s l -> n <= length l -> fits (length l) -> (Z.of_nat i < 2^63)%Z -> n < fuel + i ->
    0 < fuel ->
    leaves (fun _ l' => l' ≡ₚ l /\ forall k, n <= k -> l' !! k = l !! k) (fun l' => l' ≡ₚ l)
      (p_down_loop I fuel (Z.of_nat i) (Z.of_nat n) s).
  Proof.
    unfold fits. revert s l i. induction fuel as [|f IH]; intros s l i Hr Hn Hf Hi Hfu Hf0; [lia|].
    cbn [p_down_loop].
    destruct (Z.leb_spec (Z.of_nat n) (2 * Z.of_nat i + 1)) as [Hle|Hgt].
    { assert (Hb : (Z.of_nat n <=? wrap (2 * Z.of_nat i + 1))%Z || (wrap (2 * Z.of_nat i + 1) <? 0)%Z = true).
      { destruct (decide (2 * Z.of_nat i + 1 < 2^63)%Z).
        - rewrite wrap_id by lia. by rewrite (proj2 (Z.leb_le _ _) Hle).
        - assert (wrap (2 * Z.of_nat i + 1) < 0)%Z as Hw by (apply wrap_over; lia).
          by rewrite (proj2 (Z.ltb_lt _ _) Hw), orb_true_r. }
      rewrite Hb. by exists l. }
    rewrite (wrap_id (2 * Z.of_nat i + 1)) by lia. rewrite (wrap_id (2 * Z.of_nat i + 1 + 1)) by lia.
    rewrite (proj2 (Z.leb_gt _ _) Hgt), (proj2 (Z.ltb_ge (2 * Z.of_nat i + 1) 0)) by lia. cbn [orb].
    replace (2 * Z.of_nat i + 1 + 1)%Z with (Z.of_nat (2 * i + 2)) by lia.
    replace (2 * Z.of_nat i + 1)%Z with (Z.of_nat (2 * i + 1)) by lia.
    eapply (leaves_bind _ _ _ (fun b2 l' => l' = l /\ (b2 = true -> 2 * i + 2 < n)) (eq l)); [|by intros ? <-|].
    { destruct (Z.ltb_spec (Z.of_nat (2 * i + 2)) (Z.of_nat n)).
      - pose proof (pan_less s l (2 * i + 2) (2 * i + 1) Hr ltac:(lia) ltac:(lia)) as Hl.
        destruct (p_less I _ _ s) as [b s1|s1|]; cbn in Hl |- *; [|done..].
        destruct Hl as (l' & Hl & ->). exists l. split; [done|]. split; [done|]. lia.
      - exists l. done. }
    intros b2 s1 ? Hr1 [-> Hb2].
    assert (exists j : nat, (if b2 then Z.of_nat (2 * i + 2) else Z.of_nat (2 * i + 1)) = Z.of_nat j /\ i < j < n) as (j&->&Hj).
    { destruct b2; [exists (2 * i + 2)|exists (2 * i + 1)]; split; [done|specialize (Hb2 eq_refl); lia|done|lia]. }
    eapply leaves_bind; [by apply (pan_less s1 l j i Hr1); lia|by intros ? <-|].
    intros b s2 ? Hr2 ->. destruct b; cbn [negb]; [|by exists l].
    eapply leaves_bind; [by apply (pan_swap s2 l i j Hr2); lia|done|].
    intros _ s3 l3 Hr3 (Hp & _ & Hk). pose proof (Permutation_length Hp) as Hlen.
    specialize (IH s3 l3 j Hr3 ltac:(lia) ltac:(lia) ltac:(lia) ltac:(lia) ltac:(lia)).
    destruct (p_down_loop I f _ _ s3) as [i' s4|s4|]; cbn in IH |- *.
    - destruct IH as (l4 & Hr4 & Hp4 & Hk4). exists l4. split; [done|]. split; [by rewrite Hp4|].
      intros k Hlt. rewrite Hk4 by lia. apply Hk; lia.
    - destruct IH as (l4 & Hr4 & Hp4). exists l4. split; [done|]. by rewrite Hp4.
    - done.
  Qed.
  Lemma pan_down s l (i n : nat) : rep s l -> n <= length l -> fits (length l) -> (Z.of_nat i < 2^63)%Z ->
    leaves (fun _ l' => l' ≡ₚ l /\ forall k, n <= k -> l' !! k = l !! k) (fun l' => l' ≡ₚ l) (p_down I (Z.of_nat i) (Z.of_nat n) s).
  Proof.
    intros Hr Hn Hf Hi. unfold p_down. apply (leaves_len _ s l); [done|]. rewrite Nat2Z.id.
    eapply leaves_bind; [apply (pan_down_loop (Datatypes.S (length l)) s l i n Hr Hn Hf Hi); lia|done|].
    intros i' s' l' Hr' Hq. by exists l'.
  Qed.

  Lemma pan_init_loop k s l (n : nat) : rep s l -> n <= length l -> fits (length l) -> k <= n ->
    leaves (fun _ l' => l' ≡ₚ l) (fun l' => l' ≡ₚ l) (p_init_loop I k (Z.of_nat n) s).
  Proof.
    revert s l. induction k as [|k IH]; intros s l Hr Hn Hf Hk; [by exists l|]. cbn [p_init_loop].
    eapply leaves_bind; [apply (pan_down s l k n Hr Hn Hf); unfold fits in *; lia|done|].
    intros b s1 l1 Hr1 (Hp & _). pose proof (Permutation_length Hp) as Hlen.
    specialize (IH s1 l1 Hr1 ltac:(lia) ltac:(by rewrite Hlen) ltac:(lia)).
    destruct (p_init_loop I k _ s1) as [? s2|s2|]; cbn in IH |- *; [..|done];
      destruct IH as (l2 & Hr2 & Hp2); exists l2; (split; [done|]); by rewrite Hp2.
  Qed.
  Lemma pan_Init s l : rep s l -> fits (length l) -> leaves (fun _ l' => l' ≡ₚ l) (fun l' => l' ≡ₚ l) (p_Init I s).
  Proof.
    intros Hr Hf. unfold p_Init. apply (leaves_len _ s l); [done|].
    apply pan_init_loop; try done. Z.to_euclidean_division_equations. lia.
  Qed.
  Lemma pan_Push s l x : rep s l -> admits x l -> fits (length l + 1) ->
    leaves (fun _ l' => l' ≡ₚ x :: l) (fun l' => l' ≡ₚ x :: l) (p_Push I x s).
  Proof.
    intros Hr Hx Hf. unfold p_Push, pbind at 1. destruct (kp_push _ _ _ Im _ _ x Hr Hx) as (s1&->&Hr1).
    apply (leaves_len _ s1 (l ++ [x])); [done|]. rewrite app_length. cbn [length]. unfold fits in Hf. rewrite wrap_id by lia.
    unfold p_up_. replace (Z.of_nat (length l + 1) - 1)%Z with (Z.of_nat (length l)) by lia. rewrite Nat2Z.id.
    pose proof (pan_up (Datatypes.S (length l)) s1 (l ++ [x]) (length l) Hr1) as H.
    assert (Hlen : length (l ++ [x]) = length l + 1) by (rewrite app_length; cbn; lia).
    specialize (H ltac:(lia) ltac:(unfold fits; lia) ltac:(lia)).
    destruct (p_up I _ _ s1) as [? s2|s2|]; cbn in H |- *; [..|done].
    - destruct H as (l2 & Hr2 & Hp2 & _). exists l2. split; [done|]. by rewrite Hp2, <- Permutation_cons_append.
    - destruct H as (l2 & Hr2 & Hp2). exists l2. split; [done|]. by rewrite Hp2, <- Permutation_cons_append.
  Qed.
  Lemma pan_pop s l x : rep s l -> l !! (length l - 1) = Some x ->
    leaves (fun x' l' => x' = x /\ l ≡ₚ x :: l') (fun _ => False) (p_pop I s).
  Proof.
    intros Hr Hl. apply last_split in Hl as [l' ->]. destruct (kp_pop _ _ _ Im _ _ _ Hr) as (s'&->&Hr').
    exists l'. split; [done|]. split; [done|]. symmetry. apply Permutation_cons_append.
  Qed.
  Lemma pan_Pop s l x : rep s l -> fits (length l) -> l !! 0 = Some x ->
    leaves (fun x' l' => x' = x /\ l ≡ₚ x :: l') (fun l' => l' ≡ₚ l) (p_Pop I s).
  Proof.
    unfold fits. intros Hr Hf Hx. pose proof (lookup_lt_Some _ _ _ Hx) as Hl. unfold p_Pop.
    apply (leaves_len _ s l); [done|]. rewrite wrap_id by lia.
    replace (Z.of_nat (length l) - 1)%Z with (Z.of_nat (length l - 1)) by lia.
    change 0%Z with (Z.of_nat 0).
    eapply leaves_bind; [by apply (pan_swap s l 0 (length l - 1) Hr); lia|done|].
    intros _ s1 l1 Hr1 (Hp1 & Hj & _). pose proof (Permutation_length Hp1) as Hlen.
    eapply leaves_bind; [apply (pan_down s1 l1 0 (length l - 1) Hr1); [lia|unfold fits; lia|lia]| |].
    { intros l' ->. done. }
    intros b s2 l2 Hr2 (Hp2 & Hk). pose proof (Permutation_length Hp2) as Hlen2.
    pose proof (pan_pop s2 l2 x Hr2) as H. rewrite Hlen2, Hlen, Hk, Hj in H by lia. specialize (H Hx).
    destruct (p_pop I s2) as [x' s3|s3|]; cbn in H |- *; [|by destruct H as (? & _ & [])|done].
    destruct H as (l3 & Hr3 & -> & Hp3). exists l3. split; [done|]. split; [done|]. by rewrite <- Hp3, Hp2, Hp1.
  Qed.
  Lemma pan_Fix s l (i : nat) : rep s l -> fits (length l) -> i < length l ->
    leaves (fun _ l' => l' ≡ₚ l) (fun l' => l' ≡ₚ l) (p_Fix I (Z.of_nat i) s).
  Proof.
    intros Hr Hf Hi. unfold p_Fix. apply (leaves_len _ s l); [done|].
    eapply leaves_bind; [apply (pan_down s l i (length l) Hr); [lia|done|unfold fits in *; lia]|done|].
    intros b s1 l1 Hr1 (Hp & _). pose proof (Permutation_length Hp) as Hlen. destruct b; cbn [negb]; [by exists l1|].
    unfold p_up_. rewrite Nat2Z.id.
    pose proof (pan_up (Datatypes.S i) s1 l1 i Hr1 ltac:(lia) ltac:(by rewrite Hlen) ltac:(lia)) as H.
    destruct (p_up I _ _ s1) as [? s2|s2|]; cbn in H |- *; [..|done].
    - destruct H as (l2 & Hr2 & Hp2 & _). exists l2. split; [done|]. by rewrite Hp2.
    - destruct H as (l2 & Hr2 & Hp2). exists l2. split; [done|]. by rewrite Hp2.
  Qed.
  Lemma pan_Remove s l (i : nat) x : rep s l -> fits (length l) -> l !! i = Some x ->
    leaves (fun x' l' => x' = x /\ l ≡ₚ x :: l') (fun l' => l' ≡ₚ l) (p_Remove I (Z.of_nat i) s).
  Proof.
    unfold fits. intros Hr Hf Hx. pose proof (lookup_lt_Some _ _ _ Hx) as Hl. unfold p_Remove.
    apply (leaves_len _ s l); [done|]. rewrite wrap_id by lia.
    destruct (Z.eqb_spec (Z.of_nat (length l) - 1) (Z.of_nat i)) as [E|E]; cbn [negb].
    { pose proof (pan_pop s l x Hr) as H. replace (length l - 1) with i in H by lia. specialize (H Hx).
      destruct (p_pop I s) as [x' s3|s3|]; cbn in H |- *; [done|by destruct H as (? & _ & [])|done]. }
    replace (Z.of_nat (length l) - 1)%Z with (Z.of_nat (length l - 1)) by lia.
    eapply leaves_bind; [by apply (pan_swap s l i (length l - 1) Hr); lia|done|].
    intros _ s1 l1 Hr1 (Hp1 & Hj & _). pose proof (Permutation_length Hp1) as Hlen.
    eapply leaves_bind; [apply (pan_down s1 l1 i (length l - 1) Hr1); [lia|unfold fits; lia|lia]| |].
    { intros l' ->. done. }
    intros b s2 l2 Hr2 (Hp2 & Hk). pose proof (Permutation_length Hp2) as Hlen2.
    eapply (leaves_bind _ _ _ (fun _ l3 => l3 ≡ₚ l2 /\ l3 !! (length l - 1) = l2 !! (length l - 1)) (fun l3 => l3 ≡ₚ l2)).
    { destruct b; cbn [negb]; [by exists l2|]. unfold p_up_. rewrite Nat2Z.id.
      pose proof (pan_up (Datatypes.S i) s2 l2 i Hr2 ltac:(lia) ltac:(unfold fits; lia) ltac:(lia)) as H.
      destruct (p_up I _ _ s2) as [? s3|s3|]; cbn in H |- *; [|done..].
      destruct H as (l3 & Hr3 & Hp3 & Hk3). exists l3. split; [done|]. split; [done|]. apply Hk3. lia. }
    { intros l3 ->. by rewrite Hp2. }
    intros _ s3 l3 Hr3 (Hp3 & Hk3). pose proof (Permutation_length Hp3) as Hlen3.
    pose proof (pan_pop s3 l3 x Hr3) as H. rewrite Hlen3, Hlen2, Hlen, Hk3, Hk, Hj in H by lia. specialize (H Hx).
    destruct (p_pop I s3) as [x' s4|s4|]; cbn in H |- *; [|by destruct H as (? & _ & [])|done].
    destruct H as (l4 & Hr4 & -> & Hp4). exists l4. split; [done|]. split; [done|]. by rewrite <- Hp4, Hp3, Hp2, Hp1.
  Qed.
End panics.

Lemma slice_keepsP {A} (less : A -> A -> option bool) : keepsP (slice_pface less) (fun s l => s = l) (fun _ _ => True).
Proof.
  pose proof (implements_keeps _ _ _ _ (slice_implements (fun _ _ : A => false))) as K. split.
  - by intros s l ->.
  - intros s l i j x y -> Hx Hy. cbn. rewrite !getZ_nat, Hx, Hy. destruct (less x y); cbn; eauto.
  - intros s l i j x y Hr Hx Hy. destruct (ke_swap _ _ _ K s l i j x y Hr Hx Hy) as (s' & H & Hr').
    cbn in H |- *. rewrite H. eauto.
  - intros s l x -> _. eexists. split; [done|]. done.
  - intros s l x Hr. destruct (ke_pop _ _ _ K s l x Hr) as (s' & H & Hr'). cbn in H |- *. rewrite H. eauto.
Qed.

(** ** The functions of HeapIface.v *)
Section same.
  Context {S A : Type} (I : iface S A).
  Local Notation J := (lift I).
  (** [p] is the result [r]; [f] takes the results of the two apart. *)
  Definition sim {R B} (f : R -> B * S) (r : res R) (p : pres S B) : Prop :=
    match r with
    | Ok x => p = Fine (fst (f x)) (snd (f x))
    | _ => p = PFuel \/ exists s, p = Broken s
    end.
  Definition only (s : S) : unit * S := (tt, s).
  Definition turn {B} (p : S * B) : B * S := (snd p, fst p).

  Lemma sim_bind {R R' B C} (f : R -> B * S) (g : R' -> C * S) (m : res R) (k : R -> res R') (m' : P S B) (k' : B -> P S C) s :
    sim f m (m' s) -> (forall x, sim g (k x) (k' (fst (f x)) (snd (f x)))) -> sim g (rbind m k) (pbind m' k' s).
  Proof.
    unfold pbind. intros H Hk. destruct m as [x| |]; cbn in H |- *; [rewrite H; apply Hk|..].
    - destruct H as [->|[s' ->]]; cbn; eauto.
    - destruct H as [->|[s' ->]]; cbn; eauto.
  Qed.
  Lemma sim_less i j s : sim id (i_less I i j s) (p_less J i j s).
  Proof. cbn. destruct (i_less I i j s) as [[b s']| |]; cbn; eauto. Qed.
  Lemma sim_swap i j s : sim only (i_swap I i j s) (p_swap J i j s).
  Proof. cbn. destruct (i_swap I i j s) as [s'| |]; cbn; eauto. Qed.
  Lemma sim_push x s : sim only (i_push I x s) (p_push J x s).
  Proof. cbn. destruct (i_push I x s) as [s'| |]; cbn; eauto. Qed.
  Lemma sim_pop s : sim id (i_pop I s) (p_pop J s).
  Proof. cbn. destruct (i_pop I s) as [[b s']| |]; cbn; eauto. Qed.

  Lemma sim_up fuel : forall s j, sim only (g_up I fuel s j) (p_up J fuel j s).
  Proof.
    induction fuel as [|fuel IH]; intros s j; cbn [g_up p_up]; [by left|].
    case_match; [done|]. apply (sim_bind id only); [apply sim_less|]. intros [b s1]. cbn [fst snd id].
    destruct (negb b); [done|]. apply (sim_bind only only); [apply sim_swap|]. intros s2. apply IH.
  Qed.
  Lemma sim_down_loop fuel n : forall s i, sim turn (g_down_loop I fuel s i n) (p_down_loop J fuel i n s).
  Proof.
    induction fuel as [|fuel IH]; intros s i; cbn [g_down_loop p_down_loop]; [by left|].
    destruct (_ || _); [done|]. apply (sim_bind id turn).
    { destruct (_ <? _)%Z; [apply sim_less|done]. }
    intros [b2 s1]. cbn [fst snd id]. apply (sim_bind id turn); [apply sim_less|]. intros [b s2]. cbn [fst snd id].
    destruct (negb b); [done|]. apply (sim_bind only turn); [apply sim_swap|]. intros s3. apply IH.
  Qed.
  Lemma sim_down s i n : sim turn (g_down I s i n) (p_down J i n s).
  Proof.
    unfold g_down, p_down, pbind at 1. cbn [get_len]. unfold get_len. cbn [p_len lift].
    apply (sim_bind turn turn); [apply sim_down_loop|]. intros [s1 i1]. done.
  Qed.
  Lemma sim_init_loop k n : forall s, sim only (g_init_loop I k s n) (p_init_loop J k n s).
  Proof.
    induction k as [|k IH]; intros s; cbn [g_init_loop p_init_loop]; [done|].
    apply (sim_bind turn only); [apply sim_down|]. intros [s1 b]. apply IH.
  Qed.
  Lemma sim_Init s : sim only (g_Init I s) (p_Init J s).
  Proof. apply sim_init_loop. Qed.
  Lemma sim_Push x s : sim only (g_Push I s x) (p_Push J x s).
  Proof.
    unfold g_Push, p_Push. apply (sim_bind only only); [apply sim_push|]. intros s1. cbn [only fst snd].
    unfold pbind, get_len. apply sim_up.
  Qed.
  Lemma sim_Pop s : sim id (g_Pop I s) (p_Pop J s).
  Proof.
    unfold g_Pop, p_Pop, pbind at 1, get_len. apply (sim_bind only id); [apply sim_swap|]. intros s1. cbn [only fst snd].
    apply (sim_bind turn id); [apply sim_down|]. intros [s2 b]. apply sim_pop.
  Qed.
  Lemma sim_Fix s i : sim only (g_Fix I s i) (p_Fix J i s).
  Proof.
    unfold g_Fix, p_Fix, pbind at 1, get_len.
    apply (sim_bind turn only); [apply sim_down|]. intros [s2 b]. cbn [turn fst snd]. destruct (negb b); [apply sim_up|done].
  Qed.
  Lemma sim_Remove s i : sim id (g_Remove I s i) (p_Remove J i s).
  Proof.
    unfold g_Remove, p_Remove, pbind at 1, get_len. cbn [p_len lift]. destruct (negb _); [|apply sim_pop].
    apply (sim_bind only id); [apply sim_swap|]. intros s1. cbn [only fst snd].
    apply (sim_bind turn id); [apply sim_down|]. intros [s2 b]. cbn [turn fst snd].
    apply (sim_bind only id); [destruct (negb b); [apply sim_up|done]|]. intros s3. apply sim_pop.
  Qed.
End same.
