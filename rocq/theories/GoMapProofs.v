From Verif Require Import Base GoMap GoMapSpec.

Global Arguments content : simpl never.

Section lem.
  Context {K V : Type} (eqb : K -> K -> bool) (upd : bool).
  Context (E : equivb eqb).
  Notation mlookup := (mlookup eqb). Notation mset := (mset eqb upd). Notation mdel := (mdel eqb).
  Implicit Types l : list (K * V).

  Lemma eq_refl' x : eqb x x = true. Proof. destruct E as (H & _ & _). apply H. Qed.
  Lemma eq_sym x y : eqb x y = eqb y x.
  Proof.
    destruct E as (_ & S & _).
    destruct (eqb x y) eqn:H1, (eqb y x) eqn:H2; auto; [apply S in H1|apply S in H2]; congruence.
  Qed.
  Lemma eq_trans' x y z : eqb x y = true -> eqb y z = true -> eqb x z = true.
  Proof. destruct E as (_ & _ & H). apply H. Qed.
  Lemma eq_congr x y z : eqb x y = true -> eqb x z = eqb y z.
  Proof.
    intros H. destruct (eqb y z) eqn:H1.
    - by eapply eq_trans'.
    - destruct (eqb x z) eqn:H2; auto. rewrite <- H1. symmetry.
      eapply eq_trans'; [|exact H2]. by rewrite eq_sym.
  Qed.

  Fixpoint keys_ok l : Prop :=
    match l with
    | [] => True
    | (k, v) :: l' => (forall e, e ∈ l' -> eqb k e.1 = false) /\ keys_ok l'
    end.

  Lemma keys_ok_perm l l' : l ≡ₚ l' -> keys_ok l -> keys_ok l'.
  Proof.
    induction 1 as [|[k v] l l' Hp IH|[k1 v1] [k2 v2] l|l1 l2 l3 H1 IH1 H2 IH2]; simpl; auto.
    - intros [Ha Hb]. split; auto. intros e He. apply Ha. by rewrite Hp.
    - intros (Ha & Hb & Hc). repeat split; auto.
      + intros e [->|He]%elem_of_cons; auto. simpl. rewrite eq_sym.
        apply (Ha (k1, v1)). set_solver.
      + intros e He. apply Ha. set_solver.
  Qed.

  Lemma keys_ok_inj l : keys_ok l ->
    forall i j x y, l !! i = Some x -> l !! j = Some y -> eqb x.1 y.1 = true -> i = j.
  Proof.
    induction l as [|[k v] l IH]; intros Hk i j x y Hi Hj Heq; [done|].
    destruct Hk as [Ha Hb]. destruct i as [|i], j as [|j]; simpl in *; auto.
    - simplify_eq. apply elem_of_list_lookup_2 in Hj. rewrite Ha in Heq; done.
    - simplify_eq. apply elem_of_list_lookup_2 in Hi. rewrite eq_sym, Ha in Heq; done.
    - f_equal. by eapply IH.
  Qed.

  Lemma mlookup_elem l k v : keys_ok l ->
    mlookup l k = Some v <-> exists k', (k', v) ∈ l /\ eqb k' k = true.
  Proof.
    induction l as [|[k1 v1] l IH]; simpl.
    - intros _. split; [done|]. intros (k' & H & _). by apply elem_of_nil in H.
    - intros [Ha Hb]. destruct (eqb k1 k) eqn:H1.
      + split.
        * intros [= ->]. exists k1. split; [set_solver|done].
        * intros (k' & [[= -> ->]|He]%elem_of_cons & Hk'); auto.
          exfalso. specialize (Ha _ He). simpl in Ha.
          rewrite (eq_congr k1 k) in Ha by done. rewrite eq_sym in Ha. congruence.
      + rewrite IH by done. split.
        * intros (k' & He & Hk'). exists k'. split; [set_solver|done].
        * intros (k' & [[= -> ->]|He]%elem_of_cons & Hk'); [congruence|eauto].
  Qed.

  Lemma mlookup_none l k : mlookup l k = None <-> forall e, e ∈ l -> eqb e.1 k = false.
  Proof.
    induction l as [|[k1 v1] l IH]; simpl.
    - split; auto. intros _ e He. by apply elem_of_nil in He.
    - destruct (eqb k1 k) eqn:H1.
      + split; [done|]. intros H. specialize (H (k1, v1)). simpl in H.
        rewrite H in H1; [done|set_solver].
      + rewrite IH. split.
        * intros H e [->|He]%elem_of_cons; auto.
        * intros H e He. apply H. set_solver.
  Qed.

  Lemma mlookup_proper l k k' : eqb k k' = true -> mlookup l k = mlookup l k'.
  Proof.
    intros H. induction l as [|[k1 v1] l IH]; simpl; auto.
    rewrite (eq_sym k1 k), (eq_sym k1 k'), (eq_congr k k') by done. by rewrite IH.
  Qed.

  Lemma mset_elem l k v e : e ∈ mset l k v -> e ∈ l \/ eqb e.1 k = true.
  Proof.
    induction l as [|[k1 v1] l IH]; simpl.
    - intros ->%elem_of_list_singleton. right. apply eq_refl'.
    - destruct (eqb k1 k) eqn:H1.
      + intros [->|He]%elem_of_cons; [right|left; set_solver]. destruct upd; simpl; auto using eq_refl'.
      + intros [->|He]%elem_of_cons; [left; set_solver|]. destruct (IH He); [left; set_solver|auto].
  Qed.

  Lemma keys_ok_mset l k v : keys_ok l -> keys_ok (mset l k v).
  Proof.
    induction l as [|[k1 v1] l IH]; simpl.
    - intros _. split; auto. intros e He. by apply elem_of_nil in He.
    - intros [Ha Hb]. destruct (eqb k1 k) eqn:H1; simpl.
      + split; auto. intros e He. specialize (Ha e He). destruct upd; auto.
        rewrite (eq_congr k1 k) in Ha; auto.
      + split; auto. intros e He. destruct (mset_elem _ _ _ _ He) as [He'|He']; auto.
        destruct (eqb k1 e.1) eqn:H2; auto. rewrite <- H1. symmetry. by eapply eq_trans'.
  Qed.

  Lemma mlookup_mset l k v k' :
    mlookup (mset l k v) k' = fupd eqb (mlookup l) k (Some v) k'.
  Proof.
    unfold fupd. induction l as [|[k1 v1] l IH]; simpl; [done|].
    destruct (eqb k1 k) eqn:H1; simpl.
    - assert (eqb (if upd then k else k1) k' = eqb k k') as ->.
      { destruct upd; auto. by apply eq_congr. }
      destruct (eqb k k') eqn:H2; auto. rewrite (eq_congr k1 k), H2; auto.
    - destruct (eqb k1 k') eqn:H2; auto.
      destruct (eqb k k') eqn:H3; auto. exfalso.
      rewrite (eq_trans' k1 k' k) in H1; [done|exact H2|]. by rewrite eq_sym.
  Qed.

  Lemma mdel_sub l k e : e ∈ mdel l k -> e ∈ l.
  Proof.
    induction l as [|[k1 v1] l IH]; simpl; auto.
    destruct (eqb k1 k) eqn:H1; intros He; [set_solver|].
    apply elem_of_cons in He as [->|He]; set_solver.
  Qed.
  Lemma keys_ok_mdel l k : keys_ok l -> keys_ok (mdel l k).
  Proof.
    induction l as [|[k1 v1] l IH]; simpl; auto. intros [Ha Hb].
    destruct (eqb k1 k) eqn:H1; auto. simpl. split; auto.
    intros e He. apply Ha. by eapply mdel_sub.
  Qed.
  Lemma mlookup_mdel l k k' : keys_ok l ->
    mlookup (mdel l k) k' = fupd eqb (mlookup l) k None k'.
  Proof.
    unfold fupd. induction l as [|[k1 v1] l IH]; simpl.
    - by destruct (eqb k k').
    - intros [Ha Hb]. destruct (eqb k1 k) eqn:H1; simpl.
      + destruct (eqb k k') eqn:H2.
        * apply mlookup_none. intros e He. specialize (Ha e He).
          rewrite (eq_sym e.1), <- (eq_congr k k'), <- (eq_congr k1 k); auto.
        * rewrite (eq_congr k1 k), H2; auto.
      + destruct (eqb k1 k') eqn:H2; auto.
        destruct (eqb k k') eqn:H3; auto. exfalso.
        rewrite (eq_trans' k1 k' k) in H1; [done|exact H2|]. by rewrite eq_sym.
  Qed.

  Lemma lists_entries_of l l' : keys_ok l -> l' ≡ₚ l -> lists_entries eqb (mlookup l) l'.
  Proof.
    intros Hk Hp. split.
    - intros k v. rewrite (mlookup_elem l k v Hk). by setoid_rewrite Hp.
    - apply keys_ok_inj. by eapply keys_ok_perm.
  Qed.

  Lemma lists_members_of l l' : keys_ok l -> l' ≡ₚ l ->
    lists_members eqb (fun k => mlookup l k <> None) (map fst l').
  Proof.
    intros Hk Hp. split.
    - intros k. split.
      + intros H. destruct (mlookup l k) as [v|] eqn:Hl; [|done].
        apply mlookup_elem in Hl as (k' & He & Hk'); auto. exists k'. split; auto.
        rewrite Hp. apply elem_of_list_fmap. by exists (k', v).
      + intros (k' & He & Hk') Hn. rewrite mlookup_none in Hn.
        apply elem_of_list_fmap in He as ([k1 v1] & -> & He). rewrite Hp in He.
        rewrite (Hn _ He) in Hk'. done.
    - intros i j x y. rewrite !list_lookup_fmap. intros Hi Hj Heq.
      apply fmap_Some in Hi as (ex & Hi & ->). apply fmap_Some in Hj as (ey & Hj & ->).
      apply (keys_ok_inj l' (keys_ok_perm _ _ (symmetry Hp) Hk) i j ex ey); auto.
  Qed.

  (** Worlds. *)
  Definition wf (w : world K V) : Prop :=
    (forall n, keys_ok (content w (Some n))) /\
    (forall n, next w <= n -> tables w !! n = None).

  Lemma wf_content w r : wf w -> keys_ok (content w r).
  Proof. destruct r; [intros [H _]; apply H|done]. Qed.

  Definition wput (w : world K V) (n : nat) l : world K V :=
    World (<[n := l]> (tables w)) (next w) (its w).

  Lemma content_wput w n l r :
    content (wput w n l) r = if decide (r = Some n) then l else content w r.
  Proof.
    destruct r as [n'|]; [|by rewrite decide_False]. unfold content, wput; cbn [tables].
    destruct (decide (n' = n)) as [->|].
    - rewrite lookup_insert. by rewrite decide_True.
    - rewrite lookup_insert_ne, decide_False; congruence.
  Qed.
  Lemma wf_wput w n l : wf w -> keys_ok l -> n < next w -> wf (wput w n l).
  Proof.
    intros [H1 H2] Hl Hn. split.
    - intros n'. rewrite content_wput. destruct (decide _); auto.
    - intros n' Hn'. simpl in *. rewrite lookup_insert_ne by lia. auto.
  Qed.

  Definition tick (w : world K V) : world K V := World (tables w) (next w) (S (its w)).
  Lemma content_tick w r : content (tick w) r = content w r. Proof. by destruct r. Qed.
  Lemma wf_tick w : wf w -> wf (tick w). Proof. intros H. exact H. Qed.

  Definition wnew (w : world K V) l : world K V :=
    World (<[next w := l]> (tables w)) (S (next w)) (its w).
  Lemma content_wnew w l r :
    content (wnew w l) r = if decide (r = Some (next w)) then l else content w r.
  Proof. apply (content_wput w (next w) l r). Qed.
  Lemma wf_wnew w l : wf w -> keys_ok l -> wf (wnew w l).
  Proof.
    intros [H1 H2] Hl. split.
    - intros n'. rewrite content_wnew. destruct (decide _); auto.
    - intros n' Hn'. simpl in *. rewrite lookup_insert_ne by lia. apply H2. lia.
  Qed.

  Lemma go_set_some n k v w :
    go_set eqb upd (Some n) k v w = Ok (tt, wput w n (mset (content w (Some n)) k v)).
  Proof. done. Qed.

  (** Only the map [n] differs between two worlds, and it holds [l]. *)
  Definition wonly (w w' : world K V) (n : nat) l : Prop :=
    next w' = next w /\ content w' (Some n) = l /\
    forall r, r <> Some n -> content w' r = content w r.

  Lemma wonly_wf w w' n l : wonly w w' n l -> wf w -> keys_ok l -> n < next w ->
    (forall n', next w' <= n' -> tables w' !! n' = None) -> wf w'.
  Proof.
    intros (H1 & H2 & H3) [Hw1 Hw2] Hl Hn Hf. split; auto. intros n'.
    destruct (decide (n' = n)) as [->|]; [by rewrite H2|]. rewrite H3 by congruence. apply Hw1.
  Qed.

  Definition setall (m : K -> option V) (es : list (K * V)) : K -> option V :=
    foldl (fun m e => fupd eqb m e.1 (Some e.2)) m es.

  Lemma setall_ext m m' es : (forall k, m k = m' k) -> forall k, setall m es k = setall m' es k.
  Proof.
    revert m m'. induction es as [|e es IH]; intros m m' H k; simpl; auto.
    apply IH. intros k'. unfold fupd. destruct (eqb e.1 k'); auto.
  Qed.

  (** A batch of assignments to one map. *)
  Lemma for_each_set n (es : list (K * V)) w :
    wf w -> n < next w ->
    exists w' l', for_each es (fun e => go_set eqb upd (Some n) e.1 e.2) w = Ok (tt, w') /\
      wf w' /\ wonly w w' n l' /\ its w' = its w /\
      forall k, mlookup l' k = setall (mlookup (content w (Some n))) es k.
  Proof.
    revert w. induction es as [|e es IH]; intros w Hw Hn.
    - exists w, (content w (Some n)). repeat split; auto; apply Hw.
    - cbn [for_each]. unfold bind at 1. rewrite go_set_some.
      set (w1 := wput w n _).
      destruct (IH w1) as (w' & l' & He & Hw' & Ho & Hi & Hl); auto.
      { apply wf_wput; auto. apply keys_ok_mset. by apply wf_content. }
      exists w', l'. split; [done|]. split; [done|]. split; [|split; [done|]].
      + destruct Ho as (H1 & H2 & H3). split; [done|]. split; [done|].
        intros r Hr. rewrite H3 by done. unfold w1. rewrite content_wput. by rewrite decide_False.
      + intros k. rewrite Hl. simpl. apply setall_ext. intros k'.
        unfold w1. rewrite content_wput, decide_True by done. apply mlookup_mset.
  Qed.

  Lemma setall_none m es k : (forall e, e ∈ es -> eqb e.1 k = false) -> setall m es k = m k.
  Proof.
    revert m. induction es as [|e es IH]; intros m H; simpl; auto.
    rewrite IH by (intros; apply H; set_solver). unfold fupd. rewrite H; [done|set_solver].
  Qed.

  Lemma setall_over m es k : keys_ok es -> setall m es k = over m (mlookup es) k.
  Proof.
    unfold over. revert m. induction es as [|[k1 v1] es IH]; intros m; simpl; auto.
    intros [Ha Hb]. destruct (eqb k1 k) eqn:H1.
    - rewrite setall_none.
      + unfold fupd. by rewrite H1.
      + intros e He. rewrite eq_sym. rewrite <- (eq_congr k1 k); auto.
    - rewrite IH by done. destruct (mlookup es k); auto. unfold fupd. by rewrite H1.
  Qed.

  Lemma mlookup_perm l l' k : keys_ok l -> l ≡ₚ l' -> mlookup l' k = mlookup l k.
  Proof.
    intros Hk Hp. apply option_eq. intros v.
    rewrite !mlookup_elem by (auto; by eapply keys_ok_perm). by setoid_rewrite Hp.
  Qed.

  Context (ord : nat -> list (K * V) -> list (K * V)).
  Context (ordP : forall n l, ord n l ≡ₚ l).

  Lemma maps_Copy_some n src w :
    wf w -> n < next w ->
    exists w' l', maps_Copy eqb upd ord (Some n) src w = Ok (tt, w') /\
      wf w' /\ wonly w w' n l' /\
      forall k, mlookup l' k = over (mlookup (content w (Some n))) (mlookup (content w src)) k.
  Proof.
    intros Hw Hn. unfold maps_Copy, bind, go_range.
    destruct (for_each_set n (ord (its w) (content w src)) (tick w)) as (w' & l' & He & Hw' & Ho & _ & Hl); auto.
    exists w', l'. split; [exact He|]. split; [done|]. split.
    { destruct Ho as (H1 & H2 & H3). split; [done|]. split; [done|]. intros r Hr.
      rewrite H3 by done. apply content_tick. }
    intros k. rewrite Hl, content_tick.
    assert (Hk : keys_ok (content w src)) by (by apply wf_content).
    rewrite setall_over by (eapply keys_ok_perm; [symmetry; apply ordP|done]).
    unfold over. rewrite (mlookup_perm (content w src)); [done|done|]. symmetry. apply ordP.
  Qed.

  Lemma maps_Copy_nil src w : wf w ->
    (content w src = [] /\ maps_Copy eqb upd ord None src w = Ok (tt, tick w)) \/
    (content w src <> [] /\ maps_Copy eqb upd ord None src w = Panic).
  Proof.
    intros Hw. unfold maps_Copy, bind, go_range.
    pose proof (ordP (its w) (content w src)) as Hp.
    destruct (ord (its w) (content w src)) as [|e es] eqn:Ho.
    - left. split; [by apply Permutation_nil|]. done.
    - right. split; [|done]. intros Hc. rewrite Hc in Hp. symmetry in Hp.
      by apply Permutation_nil in Hp.
  Qed.

  Lemma content_empty w r : wf w -> content w r = [] <-> forall k, mlookup (content w r) k = None.
  Proof.
    intros Hw. split; [by intros ->|]. intros H.
    destruct (content w r) as [|[k v] l]; auto.
    specialize (H k). simpl in H. by rewrite eq_refl' in H.
  Qed.

  (** A pure loop body. *)
  Lemma for_while_pure {A} (f : A -> bool) (l : list A) w seen :
    for_while l (fun e (seen : list A) => ret (f e, seen ++ [e])) seen w
    = Ok ((forallb f l, seen ++ visited f l), w : world K V).
  Proof.
    revert seen. induction l as [|x l IH]; intros seen; simpl.
    - unfold ret. by rewrite app_nil_r.
    - unfold bind, ret. simpl. destruct (f x); simpl; [|done].
      rewrite IH. by rewrite <- app_assoc.
  Qed.

  Lemma for_while_read {A} (f : A -> M (world K V) (bool * unit)) (g : A -> bool) (l : list A) w :
    (forall x, f x w = Ok ((g x, tt), w)) ->
    for_while l (fun e _ => f e) tt w = Ok ((forallb g l, tt), w).
  Proof.
    intros H. induction l as [|x l IH]; simpl; [done|].
    unfold bind. rewrite H. simpl. destruct (g x); simpl; auto.
  Qed.

  Lemma submap_length l1 l2 : keys_ok l1 -> keys_ok l2 ->
    (forall k, mlookup l1 k <> None -> mlookup l2 k <> None) -> length l1 <= length l2.
  Proof.
    revert l2. induction l1 as [|[k1 v1] l1 IH]; intros l2 Hk1 Hk2 H; simpl; [lia|].
    destruct Hk1 as [Ha Hb].
    assert (mlookup l2 k1 <> None) as Hne.
    { apply H. simpl. by rewrite eq_refl'. }
    destruct (mlookup l2 k1) as [v2|] eqn:Hl2; [|done].
    apply mlookup_elem in Hl2 as (k2 & He & Hk); auto.
    apply elem_of_Permutation in He as [l2' Hp]. rewrite Hp. simpl. apply le_n_S.
    assert (Hk2' : keys_ok ((k2, v2) :: l2')) by (by eapply keys_ok_perm).
    apply IH; auto; [apply Hk2'|].
    intros k Hk'. assert (eqb k1 k = false).
    { destruct (mlookup l1 k) as [v|] eqn:Hl1; [|done].
      apply mlookup_elem in Hl1 as (k3 & He3 & Hk3); auto. specialize (Ha _ He3). simpl in Ha.
      destruct (eqb k1 k) eqn:H1; auto. rewrite <- Ha. symmetry. eapply eq_trans'; [exact H1|].
      by rewrite eq_sym. }
    specialize (H k). simpl in H. rewrite H0 in H. specialize (H Hk').
    rewrite <- (mlookup_perm l2 ((k2, v2) :: l2')) in H; auto. simpl in H.
    rewrite (eq_congr k2 k1), H0 in H by done. done.
  Qed.

  Lemma sub_full l1 l2 : keys_ok l1 -> keys_ok l2 -> length l1 = length l2 ->
    (forall k, mlookup l1 k <> None -> mlookup l2 k <> None) ->
    forall k, mlookup l2 k <> None -> mlookup l1 k <> None.
  Proof.
    intros Hk1 Hk2 Hlen H k H2 H1.
    destruct (mlookup l2 k) as [v2|] eqn:Hl2; [|done].
    apply mlookup_elem in Hl2 as (k2 & He & Hk); auto.
    apply elem_of_Permutation in He as [l2' Hp].
    assert (Hk2' : keys_ok ((k2, v2) :: l2')) by (by eapply keys_ok_perm).
    assert (length l1 <= length l2').
    { apply submap_length; auto; [apply Hk2'|]. intros k' Hk'. specialize (H k' Hk').
      rewrite <- (mlookup_perm l2 ((k2, v2) :: l2')) in H; auto. simpl in H.
      destruct (eqb k2 k') eqn:E2; auto. exfalso. apply Hk'.
      rewrite <- (mlookup_proper l1 k k'); auto. rewrite (eq_congr k k2); auto. by rewrite eq_sym. }
    rewrite Hp in Hlen. simpl in Hlen. lia.
  Qed.

  Lemma maps_EqualFunc_spec m1 m2 eq w : wf w ->
    exists b w', maps_EqualFunc eqb ord m1 m2 eq w = Ok (b, w') /\
      (w' = w \/ w' = tick w) /\
      (b = true <-> forall k, match mlookup (content w m1) k, mlookup (content w m2) k with
                              | Some x, Some y => eq x y = true
                              | None, None => True
                              | _, _ => False
                              end).
  Proof.
    intros Hw. unfold maps_EqualFunc, bind, go_len.
    pose proof (wf_content w m1 Hw) as K1. pose proof (wf_content w m2 Hw) as K2.
    destruct (Nat.eqb (length (content w m1)) (length (content w m2))) eqn:Hlen; cbn [negb].
    - apply Nat.eqb_eq in Hlen. unfold go_range.
      set (g := fun e : K * V => match mlookup (content w m2) e.1 with
                       | Some v2 => eq e.2 v2 | None => false end).
      rewrite (for_while_read _ g).
      + exists (forallb g (ord (its w) (content w m1))), (tick w).
        split; [done|]. split; [by right|].
        assert (Hp := ordP (its w) (content w m1)).
        rewrite forallb_forall. split.
        * intros H.
          assert (H' : forall e, e ∈ content w m1 -> g e = true).
          { intros e He. apply H. apply elem_of_list_In. by rewrite Hp. }
          assert (Hdom : forall k, mlookup (content w m1) k <> None -> mlookup (content w m2) k <> None).
          { intros k Hk. destruct (mlookup (content w m1) k) as [v|] eqn:Hl; [|done].
            apply mlookup_elem in Hl as (k' & He & Hk'); auto. specialize (H' _ He). unfold g in H'.
            simpl in H'. rewrite (mlookup_proper _ _ _ Hk') in H'. by destruct (mlookup (content w m2) k). }
          intros k. destruct (mlookup (content w m1) k) as [v|] eqn:Hl.
          -- apply mlookup_elem in Hl as (k' & He & Hk'); auto. specialize (H' _ He). unfold g in H'.
             simpl in H'. rewrite (mlookup_proper _ _ _ Hk') in H'. by destruct (mlookup (content w m2) k).
          -- destruct (mlookup (content w m2) k) eqn:Hl2; auto.
             apply (sub_full (content w m1) (content w m2) K1 K2 Hlen Hdom k); congruence.
        * intros H e He. apply elem_of_list_In in He. rewrite Hp in He. unfold g.
          specialize (H e.1).
          assert (mlookup (content w m1) e.1 = Some e.2) as Hl.
          { apply mlookup_elem; auto. exists e.1. split; [by destruct e|apply eq_refl']. }
          rewrite Hl in H. by destruct (mlookup (content w m2) e.1).
      + intros x. unfold bind, go_get, ret.
        change (content {| tables := tables w; next := next w; its := S (its w) |} m2)
          with (content (tick w) m2).
        by rewrite content_tick.
    - apply Nat.eqb_neq in Hlen. exists false, w. split; [done|]. split; [by left|].
      split; [done|]. intros H. exfalso. apply Hlen.
      apply Nat.le_antisymm; apply submap_length; auto; intros k Hk; specialize (H k);
        destruct (mlookup (content w m1) k), (mlookup (content w m2) k); done.
  Qed.

  (** DeleteFunc: deleting the entries of [es] that satisfy [f]. *)
  Lemma for_each_del n (f : K -> V -> bool) (es : list (K * V)) w :
    wf w -> n < next w ->
    exists w' l', for_each es (fun e => if f e.1 e.2 then go_delete eqb (Some n) e.1 else ret tt) w = Ok (tt, w') /\
      wf w' /\ wonly w w' n l' /\
      forall k, mlookup l' k =
        if existsb (fun e => f e.1 e.2 && eqb e.1 k) es then None else mlookup (content w (Some n)) k.
  Proof.
    revert w. induction es as [|e es IH]; intros w Hw Hn.
    - exists w, (content w (Some n)). repeat split; auto; apply Hw.
    - cbn [for_each]. unfold bind at 1. destruct (f e.1 e.2) eqn:Hf.
      + unfold go_delete at 1. fold (wput w n (mdel (content w (Some n)) e.1)).
        set (w1 := wput w n _).
        destruct (IH w1) as (w' & l' & He & Hw' & Ho & Hl); auto.
        { apply wf_wput; auto. apply keys_ok_mdel. by apply wf_content. }
        exists w', l'. split; [done|]. split; [done|]. split.
        * destruct Ho as (H1 & H2 & H3). split; [done|]. split; [done|].
          intros r Hr. rewrite H3 by done. unfold w1. rewrite content_wput. by rewrite decide_False.
        * intros k. rewrite Hl. simpl. rewrite Hf. simpl.
          destruct (existsb _ es); [by rewrite orb_true_r|]. rewrite orb_false_r.
          unfold w1. rewrite content_wput, decide_True by done.
          rewrite mlookup_mdel by (by apply wf_content). done.
      + unfold ret at 1. destruct (IH w) as (w' & l' & He & Hw' & Ho & Hl); auto.
        exists w', l'. split; [done|]. split; [done|]. split; [done|].
        intros k. rewrite Hl. simpl. by rewrite Hf.
  Qed.
End lem.

Lemma refs_below (rs : list ref) (m : nat) :
  forallb (fun r => match r with Some n => Nat.ltb n m | None => true end) rs = true ->
  forall n, Some n ∈ rs -> n < m.
Proof.
  rewrite forallb_forall. intros H n Hn. apply elem_of_list_In in Hn.
  specialize (H _ Hn). simpl in H. by apply Nat.ltb_lt.
Qed.
