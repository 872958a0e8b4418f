(** Proofs about Dllist.Sort with a comparison function that may panic. *)
From Coq Require Import ZifyBool ZifyNat.
From Verif Require Import Base Chain DllistModel DllistSpec DllistProofs DllistSteps DllistSteps2 DllistSteps3
  DllistSelf DllistSort DllistHistory DllistSortAnySpec DllistSortAny DllistSortPanicSpec.

Section sort.
  Context {T A : Type} (zero : T) (cmp : T -> T -> A -> option bool * A).
  Implicit Types (w : dworld T) (l : nat).

  Definition partP_to (p : T) sm la : option nat -> bool * A -> M (dworld T) (bool * (bool * A)) :=
    fun e r =>
      v <- rd e e_val ;;
      let ba := cmp v p (snd r) in
      match fst ba with
      | None => ret (false, (false, snd ba))
      | Some b =>
          (if b then v <- rd e e_val ;; dl_PushBack sm v else v <- rd e e_val ;; dl_PushBack la v) ;;;
          ret (true, (true, snd ba))
      end.
  Lemma partP_step p sm la x w r :
    Inv w -> sm < n_lists w -> la < n_lists w -> sm <> la ->
    exists w' b a', partP_to p sm la (Some x) r w = Ok ((b, (b, a')), w') /\
      grow w w' (fun l' => l' = sm \/ l' = la) /\ n_lists w' = n_lists w /\
      (b = true -> vals w' sm ++ vals w' la ≡ₚ e_val w x :: vals w sm ++ vals w la).
  Proof.
    intros HI Hsm Hla Hne. unfold partP_to, rd at 1, bind at 1.
    destruct (cmp (e_val w x) p (snd r)) as [[[]|] a1] eqn:E; cbn [fst snd].
    - destruct (grow_PushBack w sm (e_val w x) HI Hsm) as (w1 & q & H1 & G1 & V1 & N1 & _).
      exists w1, true, a1. split_and!; [| |done|].
      + unfold bind at 1, rd, bind at 1. by rewrite H1.
      + apply (grow_trans _ w _ _ (eq sm)); [by apply grow_refl|done|]. intros. left. done.
      + intros _. rewrite V1, (grow_vals w w1 _ la HI G1) by done. rewrite <- app_assoc. cbn. by rewrite <- Permutation_middle.
    - destruct (grow_PushBack w la (e_val w x) HI Hla) as (w1 & q & H1 & G1 & V1 & N1 & _).
      exists w1, true, a1. split_and!; [| |done|].
      + unfold bind at 1, rd, bind at 1. by rewrite H1.
      + apply (grow_trans _ w _ _ (eq la)); [by apply grow_refl|done|]. intros. right. done.
      + intros _. rewrite V1, (grow_vals w w1 _ sm HI G1) by (done || congruence). by rewrite app_assoc, <- Permutation_cons_append.
    - exists w, false, a1. split_and!; [done|by apply grow_refl|done|done].
  Qed.
  Lemma partP_all p sm la ids : sm <> la -> forall w a,
    Inv w -> sm < n_lists w -> la < n_lists w -> (forall x, x ∈ ids -> x < n_elems w) ->
    exists w' b a', fold_until (partP_to p sm la) (true, a) ids w = Ok ((b, (b, a')), w') /\
      grow w w' (fun l' => l' = sm \/ l' = la) /\ n_lists w' = n_lists w /\
      (b = true -> vals w' sm ++ vals w' la ≡ₚ map (e_val w) ids ++ vals w sm ++ vals w la).
  Proof.
    intros Hne. induction ids as [|x ids IH]; intros w a HI Hsm Hla Hx.
    - exists w, true, a. cbn. split_and!; try done. by apply grow_refl.
    - destruct (partP_step p sm la x w (true, a) HI Hsm Hla Hne) as (w1 & b & a1 & H1 & G1 & N1 & V1).
      cbn [fold_until]. rewrite (bind_ok _ _ _ _ _ H1). cbn [fst snd]. destruct b.
      + destruct (IH w1 a1) as (w2 & b & a2 & H2 & G2 & N2 & V2); [apply G1|lia|lia| |].
        { intros y Hy. pose proof (g_ne _ _ _ G1). assert (y < n_elems w) by (apply Hx; by right). lia. }
        assert (Hm : map (e_val w1) ids = map (e_val w) ids).
        { apply map_ext_elem. intros y Hy. apply (g_cell _ _ _ G1). apply Hx. by right. }
        exists w2, b, a2. split_and!; [done|by apply (grow_trans _ _ _ _ _ G1 G2)|lia|].
        intros Hb. rewrite V2, Hm, V1 by done. cbn. by rewrite <- Permutation_middle.
      + exists w1, false, a1. split_and!; [done|done|done|done].
  Qed.
  Lemma partP_keeps p sm la l ids : l <> sm -> l <> la -> sm <> la ->
    keeps (fun w => sm < n_lists w /\ la < n_lists w) l ids (partP_to p sm la).
  Proof.
    intros H1 H2 H3 x a r w w' [J1 J2] HI Hl Hs Hx H.
    destruct (partP_step p sm la x w a HI J1 J2 H3) as (w1 & b & a1 & E1 & G1 & N1 & _).
    rewrite E1 in H. injection H as <- <-.
    split_and!; [lia|lia|apply G1|lia|]. rewrite (g_seq _ _ _ G1) by (done || intros [?|?]; congruence). done.
  Qed.

  Lemma SortP_ok rf : forall fuel w l a,
    Inv w -> l < n_lists w -> length (seq_of w l) < rf -> length (seq_of w l) <= fuel ->
    exists w' b a', dl_SortP zero rf (S fuel) cmp l a w = Ok ((b, a'), w') /\
      grow w w' (fun l' => b = true /\ l = l') /\ (b = true -> vals w' l ≡ₚ vals w l).
  Proof.
    induction fuel as [|fuel IH]; intros w l a HI Hl Hrf Hf; cbn [dl_SortP]; unfold rd_l at 1, bind at 1; rewrite inv_len by done.
    { rewrite (proj2 (Z.leb_le _ _)) by lia. exists w, true, a. split_and!; try done. by apply grow_refl. }
    destruct (Z.leb_spec (Z.of_nat (length (seq_of w l))) 1) as [Hle|Hgt].
    { exists w, true, a. split_and!; try done. by apply grow_refl. }
    rewrite (bind_ok _ _ _ _ _ (Front_ok w l HI Hl)).
    destruct (seq_of w l) as [|x ids] eqn:Hs; [cbn in Hgt; lia|]. cbn [head]. cbn in Hgt, Hf, Hrf.
    unfold rd at 1, bind at 1. set (p := e_val w x).
    destruct (grow_New zero w HI) as (w1 & E1 & G1 & N1 & S1). rewrite (bind_ok _ _ _ _ _ E1).
    destruct (grow_New zero w1 (g_inv _ _ _ G1)) as (w2 & E2 & G2 & N2 & S2). rewrite (bind_ok _ _ _ _ _ E2).
    set (sm := n_lists w) in *. set (la := n_lists w1) in *.
    assert (G02 : grow w w2 (fun _ => False)) by by apply (grow_trans _ _ _ _ _ G1 G2).
    pose proof (g_inv _ _ _ G02) as HI2.
    assert (Hs2 : seq_of w2 l = x :: ids) by (rewrite (g_seq _ _ _ G02 l Hl); [done|by intros []]).
    rewrite (bind_ok _ _ _ _ _ (Front_ok w2 l HI2 ltac:(lia))). rewrite Hs2. cbn [head].
    rewrite (bind_ok _ _ _ _ _ (el_Next_ok w2 l [] x ids HI2 ltac:(lia) Hs2)).
    assert (Hd : l <> sm /\ l <> la /\ sm <> la) by (unfold sm, la; lia). destruct Hd as (Hd1 & Hd2 & Hd3).
    (* partition *)
    destruct (partP_all p sm la ids Hd3 w2 a) as (w3 & b1 & a1 & E3 & G3 & N3 & V3); [done|lia|lia| |].
    { intros y Hy. apply (inv_elem w2 l); [done|lia|]. rewrite Hs2. by right. }
    assert (Hv2 : map (e_val w2) ids = map (e_val w) ids).
    { apply map_ext_elem. intros y Hy. apply (g_cell _ _ _ G02). apply (inv_elem w l); [done|done|]. rewrite Hs. by right. }
    rewrite Hv2 in V3.
    assert (E3' : el_Range rf (head ids) (partP_to p sm la) (true, a) w2 = Ok ((b1, a1), w3)).
    { unfold el_Range. rewrite (bind_ok _ _ w2 (b1, (b1, a1)) w3); [done|].
      rewrite (range_loop_fold _ l (x :: ids) _ (partP_keeps p sm la l _ Hd1 Hd2 Hd3) ids [x]); try done; lia. }
    unfold partP_to in E3'. rewrite (bind_ok _ _ _ _ _ E3'). cbn [fst snd].
    assert (G03 : grow w w3 (fun _ => False)).
    { apply (grow_trans _ _ _ _ _ G02 G3). intros l' Hl' [->| ->]; unfold sm, la in *; lia. }
    destruct b1; cbn [negb].
    2: { exists w3, false, a1. split_and!; [done| |done]. apply (grow_trans w w w3 _ (fun _ => False)); [by apply grow_refl|done|done]. }
    specialize (V3 eq_refl).
    assert (Hsm2 : seq_of w2 sm = []) by (rewrite (g_seq _ _ _ G2) by (done || lia); done).
    assert (V32 : vals w2 sm ++ vals w2 la = []) by (unfold vals; by rewrite Hsm2, S2).
    rewrite V32, app_nil_r in V3. clear V32.
    pose proof (g_inv _ _ _ G03) as HI3.
    pose proof (Permutation_length V3) as Hlen. rewrite app_length, map_length, !vals_length in Hlen.
    (* sort smaller, then larger *)
    destruct (IH w3 sm a1 HI3) as (w4 & b2 & a2 & E4 & G4 & Q4); [lia|lia|lia|]. rewrite (bind_ok _ _ _ _ _ E4). cbn [fst snd].
    pose proof (g_inv _ _ _ G4) as HI4. pose proof (g_nl _ _ _ G4) as N4.
    assert (G04 : grow w w4 (fun _ => False)).
    { apply (grow_trans _ _ _ _ _ G03 G4). intros l' Hl' [_ <-]. unfold sm in *. lia. }
    destruct b2; cbn [negb].
    2: { exists w4, false, a2. split_and!; [done| |done]. apply (grow_trans w w w4 _ (fun _ => False)); [by apply grow_refl|done|done]. }
    specialize (Q4 eq_refl).
    assert (Hla4 : seq_of w4 la = seq_of w3 la) by (apply (g_seq _ _ _ G4); [lia|intros [_ ?]; congruence]).
    destruct (IH w4 la a2 HI4) as (w5 & b3 & a3 & E5 & G5 & Q5); [lia|rewrite Hla4; lia|rewrite Hla4; lia|].
    rewrite (bind_ok _ _ _ _ _ E5). cbn [fst snd].
    pose proof (g_inv _ _ _ G5) as HI5. pose proof (g_nl _ _ _ G5) as N5.
    assert (G05 : grow w w5 (fun _ => False)).
    { apply (grow_trans _ _ _ _ _ G04 G5). intros l' Hl' [_ <-]. unfold la in *. lia. }
    destruct b3; cbn [negb].
    2: { exists w5, false, a3. split_and!; [done| |done]. apply (grow_trans w w w5 _ (fun _ => False)); [by apply grow_refl|done|done]. }
    specialize (Q5 eq_refl).
    assert (V5 : vals w5 sm = vals w4 sm) by (apply (grow_vals _ _ _ sm HI4 G5); [lia|intros [_ ?]; congruence]).
    assert (V4 : vals w4 la = vals w3 la) by (apply (grow_vals _ _ _ la HI3 G4); [lia|intros [_ ?]; congruence]).
    (* put the values back *)
    destruct (grow_Clear w5 l HI5) as (w6 & E6 & G6 & S6 & N6); [lia|]. rewrite (bind_ok _ _ _ _ _ E6).
    pose proof (g_inv _ _ _ G6) as HI6.
    assert (V6 : vals w6 sm = vals w5 sm) by (apply (grow_vals _ _ _ sm HI5 G6); [lia|congruence]).
    assert (V6' : vals w6 la = vals w5 la) by (apply (grow_vals _ _ _ la HI5 G6); [lia|congruence]).
    assert (Lsm : length (vals w6 sm) < rf) by (rewrite V6, V5, Q4, vals_length; lia).
    assert (Lla : length (vals w6 la) < rf) by (rewrite V6', Q5, V4, vals_length; lia).
    rewrite vals_length in Lsm, Lla.
    destruct (push_list rf sm l w6 HI6) as (w7 & E7 & G7 & V7 & N7); [lia|lia|done|done|].
    unfold push_to in E7. rewrite (bind_ok _ _ _ _ _ E7). pose proof (g_inv _ _ _ G7) as HI7.
    destruct (grow_PushBack w7 l p HI7) as (w8 & q & E8 & G8 & V8 & N8 & _); [lia|]. rewrite (bind_ok _ _ _ _ _ E8).
    pose proof (g_inv _ _ _ G8) as HI8.
    assert (S8 : seq_of w8 la = seq_of w6 la).
    { rewrite (g_seq _ _ _ G8), (g_seq _ _ _ G7) by (done || lia). done. }
    assert (V8' : vals w8 la = vals w6 la).
    { rewrite (grow_vals _ _ _ la HI7 G8), (grow_vals _ _ _ la HI6 G7) by (done || lia). done. }
    destruct (push_list rf la l w8 HI8) as (w9 & E9 & G9 & V9 & N9); [lia|lia|done|by rewrite S8|].
    unfold push_to in E9. rewrite (bind_ok _ _ _ _ _ E9).
    assert (G69 : grow w6 w9 (eq l)).
    { apply (grow_trans w6 w8 w9 _ (eq l)); [|done|done]. by apply (grow_trans w6 w7 w8 _ (eq l)). }
    assert (G59 : grow w5 w9 (eq l)) by by apply (grow_trans w5 w6 w9 _ (eq l)).
    exists w9, true, a3. split_and!; [done| |].
    - apply (grow_trans w w5 w9 _ (eq l)); [|done|done].
      apply (grow_trans w w w5 _ (fun _ => False)); [by apply grow_refl|done|done].
    - intros _. rewrite V9, V8, V8', V7, V6, V5, V6', Q4, Q5, V4. unfold vals at 1 4. rewrite Hs, S6. cbn [map app]. fold p.
      rewrite <- app_assoc. cbn. rewrite <- Permutation_middle. by rewrite V3.
  Qed.

  Lemma sort_panic w l a :
    reached zero w -> dlists (dabs w) l ->
    exists w' b a', sort_callP zero cmp l a w = Ok ((b, a'), w') /\ usable zero w' /\
      (b = true -> values w' l ≡ₚ values w l) /\
      (forall l', dlists (dabs w) l' -> (b = true -> l' <> l) ->
        dlists (dabs w') l' /\ dseq (dabs w') l' = dseq (dabs w) l') /\
      same_vals (dabs w) (dabs w').
  Proof.
    intros HR Hl. pose proof (reached_inv _ _ HR) as HI. cbn in Hl. pose proof (inv_bound w l HI Hl) as Hb.
    destruct (SortP_ok (S (n_elems w)) (n_elems w) w l a HI Hl) as (w' & b & a' & E & G & Q); [lia|lia|].
    exists w', b, a'. split; [exact E|]. pose proof (g_inv _ _ _ G) as HI'. split; [|split; [exact Q|split]].
    - split; [by apply seqs_ok_dabs|]. intros c Hc.
      destruct (dl_step zero w' c HI' Hc) as (r & w2 & H1 & _ & H2). eauto.
    - intros l' Hl' Hne. cbn in *. split; [pose proof (g_nl _ _ _ G); lia|]. apply (g_seq _ _ _ G); [done|].
      intros [Hb' <-]. by apply Hne.
    - intros e He. by apply (g_cell _ _ _ G).
  Qed.
End sort.

(** With a function that does not panic it is the Sort of C125. *)
Section same.
  Context {T A : Type} (zero : T) (cmp : T -> T -> A -> bool * A).
  Definition with_true (r : res (A * dworld T)) : res ((bool * A) * dworld T) :=
    match r with Ok (a, w) => Ok ((true, a), w) | Panic => Panic | NoFuel => NoFuel end.
  Lemma bind_with_true {B} (m : M (dworld T) B) (k : B -> M (dworld T) A) k' w :
    (forall b w', k' b w' = with_true (k b w')) -> bind m k' w = with_true (bind m k w).
  Proof. intros H. unfold bind. destruct (m w) as [[b w']| |]; [apply H|done..]. Qed.
  Lemma bind_with_true2 (m : M (dworld T) A) m' (k : A -> M (dworld T) A) k' w :
    m' w = with_true (m w) -> (forall a w', k' (true, a) w' = with_true (k a w')) ->
    bind m' k' w = with_true (bind m k w).
  Proof. intros H1 H2. unfold bind. rewrite H1. destruct (m w) as [[a w']| |]; [apply H2|done..]. Qed.

  Lemma range_with_true (f : option nat -> A -> M (dworld T) (bool * A)) g :
    (forall e a w, g e (true, a) w = match f e a w with
                           | Ok ((b, a'), w') => Ok ((b, (true, a')), w') | Panic => Panic | NoFuel => NoFuel end) ->
    forall rf e a w, el_Range rf e g (true, a) w = with_true (el_Range rf e f a w).
  Proof.
    intros H rf e a w. unfold el_Range, bind.
    assert (forall rf e a w, range_loop rf e g (true, a) w =
      match range_loop rf e f a w with
      | Ok ((b, a'), w') => Ok ((b, (true, a')), w') | Panic => Panic | NoFuel => NoFuel end) as Hl.
    { clear rf e a w. intros rf. induction rf as [|rf IH]; intros e a w; [done|].
      cbn. destruct e as [x|]; [|done]. unfold bind at 1 3. rewrite H.
      destruct (f (Some x) a w) as [[[b a1] w1]| |]; [|done..]. cbn.
      destruct b; [|done]. unfold bind. destruct (el_Next (Some x) w1) as [[e' w2]| |]; [|done..]. apply IH. }
    rewrite Hl. by destruct (range_loop rf e f a w) as [[[b a'] w']| |].
  Qed.

  Lemma SortP_same rf : forall fuel l a w,
    dl_SortP zero rf fuel (total cmp) l a w = with_true (dl_SortA zero rf fuel cmp l a w).
  Proof.
    induction fuel as [|fuel IH]; intros l a w; [done|]. cbn [dl_SortP dl_SortA].
    apply bind_with_true. intros n w0. destruct (n <=? 1)%Z; [done|].
    apply bind_with_true. intros f w1. apply bind_with_true. intros p w2.
    apply bind_with_true. intros sm w3. apply bind_with_true. intros la w4.
    apply bind_with_true. intros f' w5. apply bind_with_true. intros e2 w6.
    apply bind_with_true2.
    { apply range_with_true. intros e a0 w7. unfold bind, total. cbn.
      destruct (rd e e_val w7) as [[v w8]| |]; [|done..]. destruct (fst (cmp v p a0)).
      - destruct (rd e e_val w8) as [[v' w9]| |]; [|done..]. by destruct (dl_PushBack sm v' w9) as [[? ?]| |].
      - destruct (rd e e_val w8) as [[v' w9]| |]; [|done..]. by destruct (dl_PushBack la v' w9) as [[? ?]| |]. }
    intros a1 w7. cbn [fst snd negb]. apply bind_with_true2; [apply IH|]. intros a2 w8. cbn [fst snd negb].
    apply bind_with_true2; [apply IH|]. intros a3 w9. cbn [fst snd negb].
    apply bind_with_true. intros ? w10. apply bind_with_true. intros ? w11.
    apply bind_with_true. intros ? w12. apply bind_with_true. intros ? w13. done.
  Qed.
End same.
