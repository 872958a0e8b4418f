(** Proofs about the heap functions for any implementation of the interface. *)
From Verif Require Import Base HeapModel HeapSpec HeapProofs HeapIface HeapIfaceSpec.
From Coq Require Import ZifyBool ZifyNat.

Lemma wrap_id z : (- 2^63 <= z < 2^63)%Z -> wrap z = z.
Proof. intros H. unfold wrap. rewrite Z.mod_small; lia. Qed.
Lemma wrap_over z : (2^63 <= z < 2^64)%Z -> (wrap z < 0)%Z.
Proof.
  intros H. unfold wrap. replace (z + 2^63)%Z with (z - 2^63 + 1 * 2^64)%Z by lia.
  rewrite Z_mod_plus_full, Z.mod_small; lia.
Qed.

Lemma h_less_inv {A} (less : A -> A -> bool) l i j b : h_less less l i j = Ok b ->
  exists (a c : nat) x y, i = Z.of_nat a /\ j = Z.of_nat c /\ l !! a = Some x /\ l !! c = Some y /\ b = less x y.
Proof.
  unfold h_less. destruct (getZ l i) as [x|] eqn:Ei; [|done].
  destruct (getZ l j) as [y|] eqn:Ej; [|done]. intros [= <-].
  apply getZ_Some in Ei as (a&->&?). apply getZ_Some in Ej as (c&->&?). by exists a, c, x, y.
Qed.
Lemma h_swap_inv {A} (l l' : list A) i j : h_swap l i j = Ok l' ->
  exists (a c : nat) x y, i = Z.of_nat a /\ j = Z.of_nat c /\ l !! a = Some x /\ l !! c = Some y /\
    l' = <[c := x]> (<[a := y]> l).
Proof.
  unfold h_swap. destruct (getZ l i) as [x|] eqn:Ei; [|done].
  destruct (getZ l j) as [y|] eqn:Ej; [|done]. intros [= <-].
  apply getZ_Some in Ei as (a&->&?). apply getZ_Some in Ej as (c&->&?). exists a, c, x, y.
  by rewrite !Nat2Z.id.
Qed.
Lemma h_pop_inv {A} (l l' : list A) x : h_pop l = Ok (x, l') -> l = l' ++ [x].
Proof.
  destruct l as [|y l _] using rev_ind; [done|]. rewrite h_pop_snoc. by intros [= -> ->].
Qed.

Section sim.
  Context {S A : Type} (I : iface S A) (less : A -> A -> bool) (rep : S -> list A -> Prop)
    (admits : A -> list A -> Prop).
  Hypothesis Im : implements I less rep admits.

  Lemma less_sim s l i j b : rep s l -> h_less less l i j = Ok b ->
    exists s', i_less I i j s = Ok (b, s') /\ rep s' l.
  Proof.
    intros Hr H. apply h_less_inv in H as (a&c&x&y&->&->&Ha&Hc&->). by eapply im_less.
  Qed.
  Lemma swap_sim s l i j l' : rep s l -> h_swap l i j = Ok l' ->
    exists s', i_swap I i j s = Ok s' /\ rep s' l'.
  Proof.
    intros Hr H. apply h_swap_inv in H as (a&c&x&y&->&->&Ha&Hc&->). by eapply im_swap.
  Qed.
  Lemma pop_sim s l x l' : rep s l -> h_pop l = Ok (x, l') ->
    exists s', i_pop I s = Ok (x, s') /\ rep s' l'.
  Proof. intros Hr H. apply h_pop_inv in H as ->. by eapply im_pop. Qed.

  Lemma up_sim fuel s l j l' : rep s l -> up less fuel l j = Ok l' ->
    (-1 <= j < 2^63)%Z -> exists s', g_up I fuel s j = Ok s' /\ rep s' l'.
  Proof.
    revert s l j. induction fuel as [|f IH]; intros s l j Hr H Hj; [done|].
    cbn [up g_up] in *. rewrite wrap_id by lia. destruct (Z.eqb_spec (Z.quot (j - 1) 2) j) as [E|E].
    { injection H as <-. eauto. }
    destruct (h_less less l j (Z.quot (j - 1) 2)) as [b| |] eqn:El; try done. cbn [rbind] in H.
    destruct (less_sim _ _ _ _ _ Hr El) as (s1&->&Hr1). cbn [rbind].
    destruct b; cbn [negb] in *; [|injection H as <-; eauto].
    destruct (h_swap l (Z.quot (j - 1) 2) j) as [l1| |] eqn:Es; try done. cbn [rbind] in H.
    destruct (swap_sim _ _ _ _ _ Hr1 Es) as (s2&->&Hr2). cbn [rbind].
    eapply IH; [done|done|]. Z.to_euclidean_division_equations. lia.
  Qed.

  Lemma down_loop_sim fuel s l i n l' i' : rep s l -> (0 <= i < 2^63)%Z -> (n < 2^63)%Z ->
    down_loop less fuel l i n = Ok (l', i') ->
    exists s', g_down_loop I fuel s i n = Ok (s', i') /\ rep s' l'.
  Proof.
    revert s l i. induction fuel as [|f IH]; intros s l i Hr Hi Hn H; [done|].
    cbn [down_loop g_down_loop] in *.
    destruct (Z.leb_spec n (2 * i + 1)) as [Hle|Hgt].
    { cbn in H. injection H as <- <-. exists s. split; [|done].
      destruct (decide (2 * i + 1 < 2^63)%Z).
      - rewrite wrap_id by lia. by rewrite (proj2 (Z.leb_le _ _) Hle).
      - assert (wrap (2 * i + 1) < 0)%Z by (apply wrap_over; lia).
        by rewrite (proj2 (Z.ltb_lt _ _) H), orb_true_r. }
    rewrite (wrap_id (2 * i + 1)) by lia. rewrite (wrap_id (2 * i + 1 + 1)) by lia.
    rewrite (proj2 (Z.leb_gt _ _) Hgt), (proj2 (Z.ltb_ge (2 * i + 1) 0)) by lia.
    rewrite (proj2 (Z.ltb_ge (2 * i + 1) 0)) in H by lia. cbn [orb] in *.
    destruct (if (2 * i + 1 + 1 <? n)%Z then h_less less l (2 * i + 1 + 1) (2 * i + 1) else Ok false)
      as [b2| |] eqn:E2; try done. cbn [rbind] in H.
    assert (exists s1, (if (2 * i + 1 + 1 <? n)%Z then i_less I (2 * i + 1 + 1) (2 * i + 1) s
              else Ok (false, s)) = Ok (b2, s1) /\ rep s1 l /\ (b2 = true -> (2 * i + 1 + 1 < n)%Z))
      as (s1&->&Hr1&Hb2).
    { destruct (Z.ltb_spec (2 * i + 1 + 1) n).
      - destruct (less_sim _ _ _ _ _ Hr E2) as (s1&?&?). eauto.
      - injection E2 as <-. exists s. done. }
    cbn [rbind]. set (j := if b2 then (2 * i + 1 + 1)%Z else (2 * i + 1)%Z) in *.
    destruct (h_less less l j i) as [b| |] eqn:El; try done. cbn [rbind] in H.
    destruct (less_sim _ _ _ _ _ Hr1 El) as (s2&->&Hr2). cbn [rbind].
    destruct b; cbn [negb] in *; [|injection H as <- <-; eauto].
    destruct (h_swap l i j) as [l1| |] eqn:Es; try done. cbn [rbind] in H.
    destruct (swap_sim _ _ _ _ _ Hr2 Es) as (s3&->&Hr3). cbn [rbind].
    eapply IH; [done| |done|done]. unfold j. destruct b2; [specialize (Hb2 eq_refl)|]; lia.
  Qed.

  Lemma down_sim s l i n l' b : rep s l -> down less l i n = Ok (l', b) ->
    (0 <= i < 2^63)%Z -> (n < 2^63)%Z -> exists s', g_down I s i n = Ok (s', b) /\ rep s' l'.
  Proof.
    intros Hr H Hi Hn. unfold down, g_down in *.
    rewrite (im_len _ _ _ _ Im _ _ Hr), Nat2Z.id.
    destruct (down_loop less _ l i n) as [[l1 i1]| |] eqn:Ed; try done. cbn [rbind] in H.
    destruct (down_loop_sim _ _ _ _ _ _ _ Hr Hi Hn Ed) as (s1&->&Hr1). cbn [rbind].
    injection H as <- <-. eauto.
  Qed.

  Lemma init_loop_sim cnt s l n l' : rep s l -> (Z.of_nat cnt <= 2^63)%Z -> (n < 2^63)%Z ->
    init_loop less cnt l n = Ok l' -> exists s', g_init_loop I cnt s n = Ok s' /\ rep s' l'.
  Proof.
    revert s l. induction cnt as [|i IH]; intros s l Hr Hc Hn H; cbn [init_loop g_init_loop] in *.
    { injection H as <-. eauto. }
    destruct (down less l (Z.of_nat i) n) as [[l1 b]| |] eqn:Ed; try done. cbn [rbind] in H.
    destruct (down_sim _ _ _ _ _ _ Hr Ed ltac:(lia) Hn) as (s1&->&Hr1). cbn [rbind].
    eapply IH; eauto. lia.
  Qed.

  Lemma Init_sim s l l' : rep s l -> fits (length l) -> heap_Init less l = Ok l' ->
    exists s', g_Init I s = Ok s' /\ rep s' l'.
  Proof.
    unfold fits. intros Hr Hf H. unfold heap_Init, h_len, g_Init in *. rewrite (im_len _ _ _ _ Im _ _ Hr).
    eapply init_loop_sim; [done| |done|done]. Z.to_euclidean_division_equations. lia.
  Qed.

  Lemma Push_sim s l x l' : rep s l -> admits x l -> fits (Datatypes.S (length l)) -> heap_Push less l x = Ok l' ->
    exists s', g_Push I s x = Ok s' /\ rep s' l'.
  Proof.
    unfold fits. intros Hr Hx Hf H. unfold heap_Push, h_push, h_len, g_Push, up_, g_up_ in *.
    destruct (im_push _ _ _ _ Im _ _ x Hr Hx) as (s1&->&Hr1). cbn [rbind].
    rewrite (im_len _ _ _ _ Im _ _ Hr1).
    rewrite wrap_id by (rewrite app_length; cbn; lia).
    eapply up_sim; [done|done|]. rewrite app_length; cbn. lia.
  Qed.

  Lemma Pop_sim s l x l' : rep s l -> fits (length l) -> heap_Pop less l = Ok (x, l') ->
    exists s', g_Pop I s = Ok (x, s') /\ rep s' l'.
  Proof.
    unfold fits. intros Hr Hf H. unfold heap_Pop, h_len, g_Pop in *.
    rewrite (im_len _ _ _ _ Im _ _ Hr), wrap_id by lia.
    destruct (h_swap l 0 (Z.of_nat (length l) - 1)) as [l1| |] eqn:Es; try done. cbn [rbind] in H.
    destruct (swap_sim _ _ _ _ _ Hr Es) as (s1&->&Hr1). cbn [rbind].
    destruct (down less l1 0 (Z.of_nat (length l) - 1)) as [[l2 b]| |] eqn:Ed; try done.
    cbn [rbind] in H.
    destruct (down_sim _ _ _ _ _ _ Hr1 Ed ltac:(lia) ltac:(lia)) as (s2&->&Hr2). cbn [rbind].
    by eapply pop_sim.
  Qed.

  Lemma Remove_sim s l (i : nat) x l' : rep s l -> fits (length l) -> i < length l ->
    heap_Remove less l (Z.of_nat i) = Ok (x, l') ->
    exists s', g_Remove I s (Z.of_nat i) = Ok (x, s') /\ rep s' l'.
  Proof.
    unfold fits. intros Hr Hf Hi H. unfold heap_Remove, h_len, g_Remove, up_, g_up_ in *.
    rewrite (im_len _ _ _ _ Im _ _ Hr), wrap_id by lia.
    destruct (negb (Z.of_nat (length l) - 1 =? Z.of_nat i)%Z); [|by eapply pop_sim].
    destruct (h_swap l (Z.of_nat i) (Z.of_nat (length l) - 1)) as [l1| |] eqn:Es; try done.
    cbn [rbind] in H.
    destruct (swap_sim _ _ _ _ _ Hr Es) as (s1&->&Hr1). cbn [rbind].
    destruct (down less l1 (Z.of_nat i) (Z.of_nat (length l) - 1)) as [[l2 b]| |] eqn:Ed; try done.
    cbn [rbind] in H.
    destruct (down_sim _ _ _ _ _ _ Hr1 Ed ltac:(lia) ltac:(lia)) as (s2&->&Hr2). cbn [rbind].
    destruct b; cbn [negb] in *.
    - cbn [rbind] in *. by eapply pop_sim.
    - destruct (up less (Datatypes.S (Z.to_nat (Z.of_nat i))) l2 (Z.of_nat i)) as [l3| |] eqn:Eu; try done.
      cbn [rbind] in H. destruct (up_sim _ _ _ _ _ Hr2 Eu ltac:(lia)) as (s3&->&Hr3). cbn [rbind].
      by eapply pop_sim.
  Qed.

  Lemma Fix_sim s l (i : nat) l' : rep s l -> fits (length l) -> i < length l ->
    heap_Fix less l (Z.of_nat i) = Ok l' ->
    exists s', g_Fix I s (Z.of_nat i) = Ok s' /\ rep s' l'.
  Proof.
    unfold fits. intros Hr Hf Hi H. unfold heap_Fix, h_len, g_Fix, up_, g_up_ in *.
    rewrite (im_len _ _ _ _ Im _ _ Hr).
    destruct (down less l (Z.of_nat i) (Z.of_nat (length l))) as [[l2 b]| |] eqn:Ed; try done.
    cbn [rbind] in H.
    destruct (down_sim _ _ _ _ _ _ Hr Ed ltac:(lia) ltac:(lia)) as (s2&->&Hr2). cbn [rbind].
    destruct b; cbn [negb] in *; [injection H as <-; eauto|].
    eapply up_sim; [done|done|lia].
  Qed.

  (** Fix after an arbitrary change at one index. *)
  Lemma heap_Fix_changed less0 l0 l i : strict_weak less -> strict_weak less0 -> heap_ordered less0 l0 ->
    changed_at i less0 l0 less l -> i < length l ->
    exists l', heap_Fix less l (Z.of_nat i) = Ok l' /\ l' ≡ₚ l /\ heap_ordered less l'.
  Proof.
    intros SW SW0 Ho [Hlen Hc] Hi. unfold heap_Fix, h_len.
    destruct (fix_prefix less SW l i (length l)) as (l'&Hf&Hp&_&He); [done|done| | |].
    - intros c H0 Hcn Hp Hne a b Ha Hb.
      destruct (lookup_lt_is_Some_2 l0 c) as [x0 Hx0]; [lia|].
      destruct (lookup_lt_is_Some_2 l0 (par c)) as [y0 Hy0]; [unfold par; lia|].
      rewrite (Hc c (par c) x0 y0 a b) by done. by apply (Ho c).
    - intros c H0 Hcn Hp Hi0 a b Ha Hb.
      destruct (lookup_lt_is_Some_2 l0 c) as [x0 Hx0]; [lia|].
      destruct (lookup_lt_is_Some_2 l0 i) as [z0 Hz0]; [lia|].
      destruct (lookup_lt_is_Some_2 l0 (par i)) as [y0 Hy0]; [unfold par in *; lia|].
      rewrite (Hc c (par i) x0 y0 a b); [|unfold par in *; lia..|done|done|done|done].
      eapply (proj2 (proj2 SW0)); [eapply (Ho c x0 z0); [done|done|unfold par in Hp; by rewrite Hp]|].
      by apply (Ho i z0 y0).
    - exists l'. split; [exact Hf|]. split; [done|]. apply heap_edges.
      rewrite (Permutation_length Hp). exact He.
  Qed.
End sim.

(** The implementations. *)
Lemma slice_implements {A} (less : A -> A -> bool) :
  implements (slice_iface less) less (fun s l => s = l) (fun _ _ => True).
Proof.
  split.
  - by intros s l ->.
  - intros s l i j x y -> Hi Hj. exists l. cbn. unfold h_less. by rewrite !getZ_nat, Hi, Hj.
  - intros s l i j x y -> Hi Hj. eexists. cbn. unfold h_swap. rewrite !getZ_nat, Hi, Hj, !Nat2Z.id. done.
  - intros s l x -> _. by eexists.
  - intros s l x ->. eexists. cbn. by rewrite h_pop_snoc.
Qed.

Lemma counting_implements {S A} (I : iface S A) less rep admits : implements I less rep admits ->
  implements (counting I) less (fun c l => rep (c_state c) l) admits.
Proof.
  intros Im. split.
  - intros s l. cbn. apply Im.
  - intros s l i j x y Hr Hi Hj. destruct (im_less _ _ _ _ Im _ _ _ _ _ _ Hr Hi Hj) as (s'&E&Hr').
    eexists. cbn. rewrite E. cbn. done.
  - intros s l i j x y Hr Hi Hj. destruct (im_swap _ _ _ _ Im _ _ _ _ _ _ Hr Hi Hj) as (s'&E&Hr').
    eexists. cbn. rewrite E. cbn. done.
  - intros s l x Hr Hx. destruct (im_push _ _ _ _ Im _ _ x Hr Hx) as (s'&E&Hr').
    eexists. cbn. rewrite E. cbn. done.
  - intros s l x Hr. destruct (im_pop _ _ _ _ Im _ _ x Hr) as (s'&E&Hr').
    eexists. cbn. rewrite E. cbn. done.
Qed.

Lemma by_prio_strict_weak prio : strict_weak (by_prio prio).
Proof. unfold by_prio. split; [|split]; intros *; lia. Qed.

Lemma item_implements prio :
  implements item_iface (by_prio prio) (items_hold prio) (fun x l => x ∉ l).
Proof.
  split.
  - by intros q l (<-&_).
  - intros q l i j x y (<-&Hn&Hp&Hi) Hx Hy. exists q. cbn. rewrite !getZ_nat, Hx, Hy, !Hp. done.
  - intros q l i j x y (<-&Hn&Hp&Hi) Hx Hy. cbn. unfold h_swap.
    rewrite !getZ_nat, Hx, Hy. cbn [rbind]. rewrite !Nat2Z.id.
    assert (i < length (q_items q)) by by eapply lookup_lt_Some.
    assert (j < length (q_items q)) by by eapply lookup_lt_Some.
    assert (Hlk : forall k, <[j:=x]> (<[i:=y]> (q_items q)) !! k =
      if decide (k = j) then Some x else if decide (k = i) then Some y else q_items q !! k).
    { intros k. destruct (decide (k = j)) as [->|].
      - rewrite list_lookup_insert; [done|]. by rewrite insert_length.
      - rewrite list_lookup_insert_ne by done. destruct (decide (k = i)) as [->|].
        + by rewrite list_lookup_insert.
        + by rewrite list_lookup_insert_ne. }
    rewrite !getZ_nat, !Hlk. rewrite (decide_True (P := j = j)) by done.
    assert ((if decide (i = j) then Some x else if decide (i = i) then Some y else q_items q !! i) = Some y) as ->.
    { destruct (decide (i = j)) as [->|]; [congruence|]. by rewrite decide_True. }
    eexists. split; [done|]. cbn.
    assert (Hinj : forall a b z, q_items q !! a = Some z -> q_items q !! b = Some z -> a = b).
    { intros a b z. by apply NoDup_lookup. }
    split; [done|]. split; [|split; [done|]].
    + apply NoDup_alt. intros a b z. rewrite !Hlk.
      repeat destruct (decide _); subst; intros; simplify_eq; try done;
        repeat match goal with
        | H1 : q_items q !! ?a = Some ?z, H2 : q_items q !! ?b = Some ?z |- _ =>
            first [constr_eq a b; fail 1|pose proof (Hinj a b z H1 H2); subst; simplify_eq; clear H2]
        end; done.
    + intros k z. rewrite Hlk. cbn [set_index q_index].
      destruct (decide (k = j)) as [->|Hkj].
      { intros [= <-]. by rewrite Nat.eqb_refl. }
      destruct (decide (k = i)) as [->|Hki].
      { intros [= <-]. destruct (Nat.eqb_spec y x) as [->|].
        - exfalso. eauto.
        - by rewrite Nat.eqb_refl. }
      intros Hz. destruct (Nat.eqb_spec z x) as [->|]; [exfalso; eauto|].
      destruct (Nat.eqb_spec z y) as [->|]; [exfalso; eauto|]. auto.
  - intros q l x (<-&Hn&Hp&Hi) Hx. eexists. split; [done|]. cbn. unfold h_push, h_len.
    split; [done|]. split; [|split; [done|]].
    + apply NoDup_app. split; [done|]. split; [|apply NoDup_singleton].
      intros z Hz ->%elem_of_list_singleton. done.
    + intros i z Hz. cbn in *. apply lookup_app_Some in Hz as [Hz|[Hle Hz]].
      * destruct (Nat.eqb_spec z x) as [->|]; [|by auto]. exfalso. apply Hx. by eapply elem_of_list_lookup_2.
      * apply list_lookup_singleton_Some in Hz as [? <-]. rewrite Nat.eqb_refl. lia.
  - intros q l x (Hq&Hn&Hp&Hi). cbn. rewrite Hq, h_pop_snoc. cbn. eexists. split; [done|].
    apply NoDup_app in Hn as (Hn&Hd&_). split; [done|]. split; [done|]. split; [done|]. cbn.
    intros i z Hz. cbn. destruct (Nat.eqb_spec z x) as [->|].
    { exfalso. apply (Hd x); [by eapply elem_of_list_lookup_2|set_solver]. }
    apply Hi. by apply lookup_app_l_Some.
Qed.

Lemma item_update_ok prio q l x p : items_hold prio q l -> heap_ordered (by_prio prio) l -> x ∈ l ->
  fits (length l) ->
  exists q' l', item_update x p q = Ok q' /\ items_hold (with_prio prio x p) q' l' /\ l' ≡ₚ l /\
    heap_ordered (by_prio (with_prio prio x p)) l'.
Proof.
  intros (Hq&Hn&Hp&Hi) Ho Hx Hf. apply elem_of_list_lookup in Hx as [i Hx]. unfold item_update.
  rewrite (Hi _ _ Hx).
  destruct (heap_Fix_changed (by_prio (with_prio prio x p)) (by_prio prio) l l i) as (l'&HF&HP&HO).
  - apply by_prio_strict_weak.
  - apply by_prio_strict_weak.
  - done.
  - split; [done|]. intros a b x0 y0 x1 y1 Ha Hb H1 H2 H3 H4. simplify_eq.
    unfold by_prio, with_prio.
    destruct (Nat.eqb_spec y1 x) as [->|]; [exfalso; apply Hb; by eapply NoDup_lookup|].
    destruct (Nat.eqb_spec x1 x) as [->|]; [exfalso; apply Ha; by eapply NoDup_lookup|]. done.
  - by eapply lookup_lt_Some.
  - destruct (Fix_sim _ _ _ _ (item_implements (with_prio prio x p))
      (Items (q_items q) (fun y => if Nat.eqb y x then p else q_prio q y) (q_index q)) l i l')
      as (q'&HG&HR); [|done|by eapply lookup_lt_Some|done|].
    + split; [done|]. split; [done|]. split; [|done]. intros y. cbn. unfold with_prio. by rewrite Hp.
    + eauto 10.
Qed.

(** An item that leaves the queue has the index -1. *)
Lemma item_pop_index q x q' : i_pop item_iface q = Ok (x, q') -> q_index q' x = (-1)%Z.
Proof.
  cbn. destruct (h_pop (q_items q)) as [[y h]| |]; try done. cbn. intros [= <- <-]. cbn.
  by rewrite Nat.eqb_refl.
Qed.
Lemma rbind_inv {A B} (r : res A) (f : A -> res B) b : rbind r f = Ok b ->
  exists a, r = Ok a /\ f a = Ok b.
Proof. destruct r; try done. eauto. Qed.
Lemma item_Pop_index q x q' : g_Pop item_iface q = Ok (x, q') -> q_index q' x = (-1)%Z.
Proof.
  unfold g_Pop. intros H. apply rbind_inv in H as (?&_&H). apply rbind_inv in H as ([??]&_&H).
  by eapply item_pop_index.
Qed.
Lemma item_Remove_index q i x q' : g_Remove item_iface q i = Ok (x, q') -> q_index q' x = (-1)%Z.
Proof.
  unfold g_Remove. destruct (negb _); [|apply item_pop_index]. intros H.
  apply rbind_inv in H as (?&_&H). apply rbind_inv in H as ([??]&_&H).
  apply rbind_inv in H as (?&_&H). by eapply item_pop_index.
Qed.

(** What the functions cost. *)
Lemma log2_half n : 2 <= n -> Nat.log2 n = S (Nat.log2 (n / 2)).
Proof.
  intros H. rewrite <- Nat.div2_div. pose proof (Nat.div2_odd n) as E.
  destruct (Nat.odd n); cbn [Nat.b2n] in E.
  - rewrite E at 1. rewrite Nat.log2_succ_double; [done|]. lia.
  - rewrite E at 1. rewrite Nat.add_0_r, Nat.log2_double; [done|]. lia.
Qed.

Section cost.
  Context {S A : Type} (I : iface S A).
  Implicit Types c : counted S.

  Lemma less_cost c c' i j b : i_less (counting I) i j c = Ok (b, c') ->
    c_less c' = Datatypes.S (c_less c) /\ c_swap c' = c_swap c.
  Proof.
    cbn. intros H. apply rbind_inv in H as ([b1 s]&_&H). by injection H as <- <-.
  Qed.
  Lemma swap_cost c c' i j : i_swap (counting I) i j c = Ok c' ->
    c_less c' = c_less c /\ c_swap c' = Datatypes.S (c_swap c).
  Proof. cbn. intros H. apply rbind_inv in H as (s&_&H). by injection H as <-. Qed.
  Lemma push_cost c c' x : i_push (counting I) x c = Ok c' ->
    c_less c' = c_less c /\ c_swap c' = c_swap c /\ i_push I x (c_state c) = Ok (c_state c').
  Proof. cbn. intros H. apply rbind_inv in H as (s&?&H). by injection H as <-. Qed.
  Lemma pop_cost c c' x : i_pop (counting I) c = Ok (x, c') ->
    c_less c' = c_less c /\ c_swap c' = c_swap c.
  Proof. cbn. intros H. apply rbind_inv in H as ([y s]&_&H). by injection H as _ <-. Qed.

  Lemma up_cost fuel c c' (j : nat) : (Z.of_nat j < 2^63)%Z ->
    g_up (counting I) fuel c (Z.of_nat j) = Ok c' ->
    within c c' (Nat.log2 (j + 1)) (Nat.log2 (j + 1)).
  Proof.
    revert c j. induction fuel as [|f IH]; intros c j Hj H; [done|]. cbn [g_up] in H.
    rewrite wrap_id in H by lia.
    destruct (Z.eqb_spec (Z.quot (Z.of_nat j - 1) 2) (Z.of_nat j)) as [E|E].
    { injection H as <-. split; lia. }
    assert (j <> 0). { intros ->. by apply E. }
    assert (Eq : Z.quot (Z.of_nat j - 1) 2 = Z.of_nat ((j - 1) / 2)).
    { pose proof (Nat.div_mod (j - 1) 2). pose proof (Nat.mod_upper_bound (j - 1) 2).
      Z.to_euclidean_division_equations. lia. }
    rewrite Eq in H.
    assert (El : Nat.log2 (j + 1) = Datatypes.S (Nat.log2 ((j - 1) / 2 + 1))).
    { rewrite log2_half by lia. do 2 f_equal. rewrite <- Nat.div_add by done. f_equal. lia. }
    apply rbind_inv in H as ([b c1]&HH1&H). apply less_cost in HH1 as [? ?].
    destruct b; cbn [negb] in H; [|injection H as <-; split; lia].
    apply rbind_inv in H as (c2&HH2&H). apply swap_cost in HH2 as [? ?].
    apply IH in H as [? ?]; [|pose proof (Nat.div_le_upper_bound (j - 1) 2 j); lia]. split; lia.
  Qed.

  Lemma down_cost fuel c c' (i n : nat) i' : (Z.of_nat i < 2^63)%Z -> (Z.of_nat n < 2^63)%Z ->
    g_down_loop (counting I) fuel c (Z.of_nat i) (Z.of_nat n) = Ok (c', i') ->
    within c c' (2 * Nat.log2 (n / (i + 1))) (Nat.log2 (n / (i + 1))).
  Proof.
    revert c i. induction fuel as [|f IH]; intros c i Hi Hn H; [done|]. cbn [g_down_loop] in H.
    destruct (decide (n <= 2 * i + 1)) as [Hle|Hgt].
    { assert ((Z.of_nat n <=? wrap (2 * Z.of_nat i + 1))%Z || (wrap (2 * Z.of_nat i + 1) <? 0)%Z = true) as Eb.
      { destruct (decide (2 * Z.of_nat i + 1 < 2^63)%Z).
        - rewrite wrap_id by lia. rewrite (proj2 (Z.leb_le _ _)); [done|lia].
        - pose proof (wrap_over (2 * Z.of_nat i + 1)).
          rewrite (proj2 (Z.ltb_lt (wrap (2 * Z.of_nat i + 1)) 0)) by lia. by rewrite orb_true_r. }
      rewrite Eb in H. injection H as <- _. split; lia. }
    rewrite (wrap_id (2 * Z.of_nat i + 1)) in H by lia.
    rewrite (wrap_id (2 * Z.of_nat i + 1 + 1)) in H by lia.
    rewrite (proj2 (Z.leb_gt _ _)), (proj2 (Z.ltb_ge (2 * Z.of_nat i + 1) 0)) in H by lia. cbn [orb] in H.
    assert (Hq : 2 <= n / (i + 1)). { apply Nat.div_le_lower_bound; lia. }
    apply rbind_inv in H as ([b2 c1]&HH1&H).
    assert (c_less c1 <= c_less c + 1 /\ c_swap c1 = c_swap c /\
      (b2 = true -> (2 * Z.of_nat i + 1 + 1 < Z.of_nat n)%Z)) as (?&?&Hb2).
    { destruct (Z.ltb_spec (2 * Z.of_nat i + 1 + 1) (Z.of_nat n)).
      - apply less_cost in HH1 as [-> ->]. repeat split; [lia|done].
      - injection HH1 as <- <-. repeat split; [lia|done]. }
    apply rbind_inv in H as ([b c2]&HH2&H). apply less_cost in HH2 as [? ?].
    rewrite (log2_half _ Hq).
    destruct b; cbn [negb] in H; [|injection H as <- _; split; lia].
    apply rbind_inv in H as (c3&HH3&H). apply swap_cost in HH3 as [? ?].
    assert (exists j : nat, (if b2 then 2 * Z.of_nat i + 1 + 1 else 2 * Z.of_nat i + 1)%Z = Z.of_nat j /\
      2 * (i + 1) <= j + 1 /\ (Z.of_nat j < Z.of_nat n)%Z) as (j&Ej&Hj1&Hj2).
    { destruct b2; [specialize (Hb2 eq_refl); exists (2 * i + 2)|exists (2 * i + 1)]; lia. }
    rewrite Ej in H. apply IH in H as [? ?]; [|lia..].
    assert (Nat.log2 (n / (j + 1)) <= Nat.log2 (n / (i + 1) / 2)).
    { apply Nat.log2_le_mono. rewrite Nat.div_div by lia. apply Nat.div_le_compat_l. lia. }
    split; lia.
  Qed.
  Lemma gdown_cost c c' (i n : nat) b : (Z.of_nat i < 2^63)%Z -> (Z.of_nat n < 2^63)%Z ->
    g_down (counting I) c (Z.of_nat i) (Z.of_nat n) = Ok (c', b) ->
    within c c' (2 * Nat.log2 (n / (i + 1))) (Nat.log2 (n / (i + 1))).
  Proof.
    intros Hi Hn H. unfold g_down in H. apply rbind_inv in H as ([c1 i1]&H&E). injection E as <- _.
    by eapply down_cost.
  Qed.

  (** Rebuilding a heap. *)
  Fixpoint height_sum (n k : nat) : nat :=
    match k with 0 => 0 | Datatypes.S k' => Nat.log2 (n / Datatypes.S k') + height_sum n k' end.

  Lemma init_loop_cost k c c' (n : nat) : (Z.of_nat k <= 2^63)%Z -> (Z.of_nat n < 2^63)%Z ->
    g_init_loop (counting I) k c (Z.of_nat n) = Ok c' ->
    within c c' (2 * height_sum n k) (height_sum n k).
  Proof.
    revert c. induction k as [|k IH]; intros c Hk Hn H; cbn [g_init_loop height_sum] in *.
    { injection H as <-. split; lia. }
    apply rbind_inv in H as ([c1 b]&HH1&H). apply gdown_cost in HH1 as [? ?]; [|lia..].
    apply IH in H as [? ?]; [|lia..]. rewrite Nat.add_1_r in *. split; lia.
  Qed.
End cost.

Lemma height_sum_half n k : k <= n / 2 -> height_sum n k = k + height_sum (n / 2) k.
Proof.
  induction k as [|k IH]; intros Hk; [done|]. cbn [height_sum]. rewrite IH by lia.
  rewrite log2_half.
  - rewrite Nat.div_div, Nat.mul_comm, <- Nat.div_div by lia. lia.
  - apply Nat.div_le_lower_bound; [lia|]. pose proof (Nat.mul_div_le n 2). nia.
Qed.
Lemma height_sum_le n : height_sum n (n / 2) <= n.
Proof.
  induction n as [n IH] using lt_wf_ind. destruct n as [|n]; [done|].
  rewrite height_sum_half by done.
  set (m := Datatypes.S n / 2). assert (Hm : m < Datatypes.S n) by (apply Nat.div_lt; lia).
  assert (Hext : forall k, m / 2 <= k -> k <= m -> height_sum m k = height_sum m (m / 2)).
  { intros k HH1. induction HH1 as [|k HH1 IHk]; intros HH2; [done|]. cbn [height_sum].
    rewrite IHk by lia.
    assert (m / Datatypes.S k < 2) as Hlt.
    { apply Nat.div_lt_upper_bound; [lia|]. pose proof (Nat.div_mod m 2).
      pose proof (Nat.mod_upper_bound m 2). lia. }
    destruct (m / Datatypes.S k) as [|[|?]]; [done..|lia]. }
  rewrite (Hext m); [|apply Nat.div_le_upper_bound; lia|done].
  specialize (IH m Hm). pose proof (Nat.mul_div_le (Datatypes.S n) 2). fold m in H. lia.
Qed.

Section costs.
  Context {S A : Type} (I : iface S A).
  Implicit Types c : counted S.

  Lemma Init_cost c c' n : fits n -> i_len I (c_state c) = Z.of_nat n ->
    g_Init (counting I) c = Ok c' -> within c c' (2 * n) n.
  Proof.
    unfold fits. intros Hf Hl H. unfold g_Init in H. cbn [counting i_len] in H. rewrite Hl in H.
    assert (Eq : Z.to_nat (Z.quot (Z.of_nat n) 2) = n / 2).
    { pose proof (Nat.div_mod n 2). pose proof (Nat.mod_upper_bound n 2).
      Z.to_euclidean_division_equations. lia. }
    rewrite Eq in H. pose proof (Nat.div_le_upper_bound n 2 n).
    apply init_loop_cost in H as [? ?]; [|lia..]. pose proof (height_sum_le n). split; lia.
  Qed.

  Lemma Push_cost c c' x n : fits (n + 1) -> (forall s, i_push I x (c_state c) = Ok s -> i_len I s = Z.of_nat (n + 1)) ->
    g_Push (counting I) c x = Ok c' -> within c c' (Nat.log2 (n + 1)) (Nat.log2 (n + 1)).
  Proof.
    unfold fits. intros Hf Hl H. unfold g_Push in H. apply rbind_inv in H as (c1&HH1&H).
    apply push_cost in HH1 as (?&?&HH1). apply Hl in HH1. cbn [counting i_len] in H. rewrite HH1 in H.
    unfold g_up_ in H. rewrite wrap_id in H by lia.
    replace (Z.of_nat (n + 1) - 1)%Z with (Z.of_nat n) in H by lia.
    apply up_cost in H as [? ?]; [|lia]. split; lia.
  Qed.

  Lemma Pop_cost c c' x n : fits (n + 1) -> i_len I (c_state c) = Z.of_nat (n + 1) ->
    g_Pop (counting I) c = Ok (x, c') -> within c c' (2 * Nat.log2 n) (Nat.log2 n + 1).
  Proof.
    unfold fits. intros Hf Hl H. unfold g_Pop in H. cbn [counting i_len] in H. rewrite Hl in H.
    rewrite wrap_id in H by lia. replace (Z.of_nat (n + 1) - 1)%Z with (Z.of_nat n) in H by lia.
    apply rbind_inv in H as (c1&HH1&H). apply swap_cost in HH1 as [? ?].
    apply rbind_inv in H as ([c2 b]&HH2&H). apply (gdown_cost I c1 c2 0 n) in HH2 as [? ?]; [|lia..].
    apply pop_cost in H as [? ?]. rewrite Nat.add_0_l, Nat.div_1_r in *. split; lia.
  Qed.

  Lemma fix_cost c c1 c' (i n : nat) b : (Z.of_nat i < 2^63)%Z -> (Z.of_nat n < 2^63)%Z -> i < n ->
    g_down (counting I) c (Z.of_nat i) (Z.of_nat n) = Ok (c1, b) ->
    (if negb b then g_up_ (counting I) c1 (Z.of_nat i) else Ok c1) = Ok c' ->
    within c c' (2 * Nat.log2 n) (Nat.log2 n).
  Proof.
    intros Hi Hn Hin H H'. apply gdown_cost in H as [? ?]; [|lia..].
    assert (Hq : 0 < n / (i + 1)) by (apply Nat.div_str_pos; lia).
    assert (Hlog : Nat.log2 (n / (i + 1)) + Nat.log2 (i + 1) <= Nat.log2 n).
    { etrans; [apply Nat.log2_mul_below; lia|]. apply Nat.log2_le_mono.
      rewrite Nat.mul_comm. apply Nat.mul_div_le. lia. }
    destruct b; cbn [negb] in H'.
    - injection H' as <-. split; lia.
    - unfold g_up_ in H'. apply up_cost in H' as [? ?]; [|lia]. split; lia.
  Qed.

  Lemma Fix_cost c c' (i n : nat) : fits n -> i < n -> i_len I (c_state c) = Z.of_nat n ->
    g_Fix (counting I) c (Z.of_nat i) = Ok c' -> within c c' (2 * Nat.log2 n) (Nat.log2 n).
  Proof.
    unfold fits. intros Hf Hi Hl H. unfold g_Fix in H. cbn [counting i_len] in H. rewrite Hl in H.
    apply rbind_inv in H as ([c1 b]&HH1&H). eapply fix_cost; [..|done|done]; lia.
  Qed.

  Lemma Remove_cost c c' (i n : nat) x : fits (n + 1) -> i <= n -> i_len I (c_state c) = Z.of_nat (n + 1) ->
    g_Remove (counting I) c (Z.of_nat i) = Ok (x, c') -> within c c' (2 * Nat.log2 n) (Nat.log2 n + 1).
  Proof.
    unfold fits. intros Hf Hi Hl H. unfold g_Remove in H. cbn [counting i_len] in H. rewrite Hl in H.
    rewrite wrap_id in H by lia. replace (Z.of_nat (n + 1) - 1)%Z with (Z.of_nat n) in H by lia.
    destruct (Z.eqb_spec (Z.of_nat n) (Z.of_nat i)); cbn [negb] in H.
    { apply (pop_cost I) in H as [? ?]. split; lia. }
    apply rbind_inv in H as (c1&HH1&H). apply swap_cost in HH1 as [? ?].
    apply rbind_inv in H as ([c2 b]&HH2&H). apply rbind_inv in H as (c3&HH3&H).
    apply pop_cost in H as [? ?]. eapply fix_cost in HH2 as [? ?]; [..|done]; [|lia..]. split; lia.
  Qed.
End costs.

Section sorting.
  Context {S A : Type} (I : iface S A) (less : A -> A -> bool) (rep : S -> list A -> Prop)
    (admits : A -> list A -> Prop).
  Hypothesis Im : implements I less rep admits.

  Lemma pops_sim k s l out : rep s l -> fits (length l) -> length l = k -> pop_all less k l = Ok out ->
    exists s', g_pops I k s = Ok (out, s') /\ rep s' [].
  Proof.
    revert s l out. induction k as [|k IH]; intros s l out Hr Hf Hk H; cbn [pop_all g_pops] in *.
    { injection H as <-. apply nil_length_inv in Hk as ->. eauto. }
    apply rbind_inv in H as ([x l1]&HH1&H). apply rbind_inv in H as (xs&HH2&H). injection H as <-.
    destruct (Pop_sim I less rep admits Im _ _ _ _ Hr Hf HH1) as (s1&->&Hr1). cbn [rbind].
    destruct (heap_calls_total less l) as (_&_&Hpop&_).
    destruct Hpop as (y&l2&Hl2&Hp). { by intros ->. }
    rewrite HH1 in Hl2. injection Hl2 as <- <-. apply Permutation_length in Hp. cbn in Hp.
    unfold fits in *. destruct (IH s1 l1 xs) as (s2&->&Hr2); [done|lia..|done|]. cbn [rbind]. eauto.
  Qed.

  Lemma sort_sim s l : strict_weak less -> rep s l -> fits (length l) ->
    exists s1 out s2, g_Init I s = Ok s1 /\ g_pops I (length l) s1 = Ok (out, s2) /\ rep s2 [] /\
      out ≡ₚ l /\ in_order less out.
  Proof.
    intros SW Hr Hf. destruct (heap_sort_spec less SW l) as (h&out&Hi&Hpa&Hpo&Hord).
    destruct (heap_Init_spec less SW l) as (h'&Hi'&Hp&_). rewrite Hi in Hi'. injection Hi' as <-.
    destruct (Init_sim I less rep admits Im _ _ _ Hr Hf Hi) as (s1&HI&Hr1).
    pose proof (Permutation_length Hp) as Hlen.
    destruct (pops_sim (length l) s1 h out) as (s2&HP&Hr2); [done|by rewrite Hlen|done|done|].
    exists s1, out, s2. done.
  Qed.
End sorting.

Section sorting_cost.
  Context {S A : Type} (I : iface S A) (less : A -> A -> bool) (rep : S -> list A -> Prop)
    (admits : A -> list A -> Prop).
  Hypothesis Im : implements I less rep admits.

  Lemma pops_cost k N (c c' : counted S) l out : rep (c_state c) l -> fits (length l) -> length l = k ->
    k <= N -> g_pops (counting I) k c = Ok (out, c') ->
    within c c' (2 * k * Nat.log2 N) (k * (Nat.log2 N + 1)).
  Proof.
    revert c l out. induction k as [|k IH]; intros c l out Hr Hf Hk HN H; cbn [g_pops] in *.
    { injection H as _ <-. split; lia. }
    apply rbind_inv in H as ([x c1]&HH1&H). apply rbind_inv in H as ([xs c2]&HH2&H).
    injection H as _ <-.
    destruct (heap_calls_total less l) as (_&_&Hpop&_).
    destruct Hpop as (y&l2&Hl2&Hp). { by intros ->. }
    destruct (Pop_sim (counting I) less _ admits (counting_implements _ _ _ _ Im) c l _ _ Hr Hf Hl2)
      as (c1'&HP&Hr1). rewrite HH1 in HP. injection HP as -> <-.
    apply Permutation_length in Hp. cbn in Hp. unfold fits in *.
    apply (Pop_cost I _ _ _ k) in HH1 as [? ?];
      [|unfold fits; lia|rewrite (im_len _ _ _ _ Im _ _ Hr); lia].
    apply (IH _ _ _ Hr1) in HH2 as [? ?]; [|lia..].
    assert (Nat.log2 k <= Nat.log2 N) by (apply Nat.log2_le_mono; lia).
    split; nia.
  Qed.

  Lemma sort_cost c l : strict_weak less -> rep (c_state c) l -> fits (length l) ->
    exists c1 out c2, g_Init (counting I) c = Ok c1 /\ g_pops (counting I) (length l) c1 = Ok (out, c2) /\
      out ≡ₚ l /\ in_order less out /\
      within c c2 (2 * length l + 2 * length l * Nat.log2 (length l))
        (length l + length l * (Nat.log2 (length l) + 1)).
  Proof.
    intros SW Hr Hf. pose proof (counting_implements _ _ _ _ Im) as Im'.
    destruct (heap_sort_spec less SW l) as (h&out&Hi&Hpa&Hpo&Hord).
    destruct (heap_Init_spec less SW l) as (h'&Hi'&Hp&_). rewrite Hi in Hi'. injection Hi' as <-.
    destruct (Init_sim _ _ _ _ Im' c _ _ Hr Hf Hi) as (c1&HI&Hr1).
    pose proof (Permutation_length Hp) as Hlen.
    destruct (pops_sim _ _ _ _ Im' (length l) c1 h out) as (c2&HP&_); [done|by rewrite Hlen|done|done|].
    exists c1, out, c2. split; [done|]. split; [done|]. split; [done|]. split; [done|].
    apply (Init_cost I _ _ (length l)) in HI as [? ?]; [|done|by apply Im].
    eapply (pops_cost (length l) (length l)) in HP as [? ?];
      [|exact Hr1|by rewrite Hlen|done|done]. split; lia.
  Qed.
End sorting_cost.

(** Fix at -1 does nothing, so updating an item that has left the queue only changes the item. *)
Lemma Fix_minus_one {S A} (I : iface S A) s : (i_len I s < 2^63)%Z -> g_Fix I s (-1) = Ok s.
Proof.
  intros Hl. unfold g_Fix, g_down. cbn [g_down_loop].
  change (wrap (2 * -1 + 1)) with (-1)%Z. change (-1 <? 0)%Z with true.
  rewrite orb_true_r. reflexivity.
Qed.
Lemma item_update_outside prio q l x p : items_hold prio q l -> heap_ordered (by_prio prio) l -> x ∉ l ->
  fits (length l) -> q_index q x = (-1)%Z ->
  exists q', item_update x p q = Ok q' /\ items_hold (with_prio prio x p) q' l /\
    heap_ordered (by_prio (with_prio prio x p)) l.
Proof.
  intros (Hq&Hn&Hp&Hi) Ho Hx Hf Hix. unfold item_update. rewrite Hix.
  rewrite Fix_minus_one; [|by cbn; rewrite Hq].
  eexists. split; [done|]. split.
  - split; [done|]. split; [done|]. split; [|done]. intros y. cbn. unfold with_prio. by rewrite Hp.
  - intros i a b Hi0 Ha Hb. unfold by_prio, with_prio.
    destruct (Nat.eqb_spec a x) as [->|]; [exfalso; apply Hx; by eapply elem_of_list_lookup_2|].
    destruct (Nat.eqb_spec b x) as [->|]; [exfalso; apply Hx; by eapply elem_of_list_lookup_2|].
    by apply (Ho i).
Qed.
