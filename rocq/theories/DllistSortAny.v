(** Proofs about Dllist.Sort with any comparison function. *)
From Coq Require Import ZifyBool ZifyNat.
From Verif Require Import Base Chain DllistModel DllistSpec DllistProofs DllistSteps DllistSteps2 DllistSteps3
  DllistSelf DllistSort DllistHistory DllistSortAnySpec.

(** The partition and the sort on lists of values. *)
Section lists.
  Context {T A : Type} (cmp : T -> T -> A -> bool * A).

  Fixpoint parts (p : T) (vs : list T) (a : A) : list T * list T * A :=
    match vs with
    | [] => ([], [], a)
    | v :: vs =>
        let ba := cmp v p a in
        let r := parts p vs (snd ba) in
        if fst ba then (v :: fst (fst r), snd (fst r), snd r) else (fst (fst r), v :: snd (fst r), snd r)
    end.

  Inductive qsA : A -> list T -> list T -> A -> Prop :=
  | qsA_short a vs : length vs <= 1 -> qsA a vs vs a
  | qsA_rec a p vs s l a1 s' a2 l' a3 :
      1 <= length vs -> parts p vs a = (s, l, a1) -> qsA a1 s s' a2 -> qsA a2 l l' a3 ->
      qsA a (p :: vs) (s' ++ p :: l') a3.

  Lemma parts_perm p vs : forall a, fst (fst (parts p vs a)) ++ snd (fst (parts p vs a)) ≡ₚ vs.
  Proof.
    induction vs as [|v vs IH]; intros a; cbn; [done|].
    destruct (cmp v p a) as [[] a1]; cbn; [by rewrite IH|by rewrite <- Permutation_middle, IH].
  Qed.
  Lemma parts_length p vs a s l a1 : parts p vs a = (s, l, a1) -> length s + length l = length vs.
  Proof.
    intros H. pose proof (parts_perm p vs a) as Hp. rewrite H in Hp. cbn in Hp.
    apply Permutation_length in Hp. by rewrite app_length in Hp.
  Qed.
  Lemma qsA_perm a vs vs' a' : qsA a vs vs' a' -> vs' ≡ₚ vs.
  Proof.
    induction 1 as [|a p vs s l a1 s' a2 l' a3 _ Hp _ IH1 _ IH2]; [done|].
    rewrite <- Permutation_middle, IH1, IH2. f_equiv.
    pose proof (parts_perm p vs a) as H. by rewrite Hp in H.
  Qed.
End lists.

Section counting.
  Context {T A : Type} (cmp : T -> T -> A -> bool * A).

  Lemma parts_count p vs : forall n a, fst (snd (parts (counted cmp) p vs (n, a))) = n + length vs.
  Proof.
    induction vs as [|v vs IH]; intros n a; cbn; [lia|].
    destruct (cmp v p a) as [[] a1]; cbn; rewrite IH; lia.
  Qed.
  Lemma qsA_count na vs vs' na' : qsA (counted cmp) na vs vs' na' ->
    fst na + (length vs - 1) <= fst na' /\
    2 * fst na' <= 2 * fst na + length vs * (length vs - 1).
  Proof.
    induction 1 as [|[n a] p vs s l [n1 a1] s' [n2 a2] l' [n3 a3] _ Hp _ IH1 _ IH2]; [nia|].
    pose proof (parts_length _ _ _ _ _ _ _ Hp) as Hl.
    pose proof (parts_count p vs n a) as Hc. rewrite Hp in Hc. cbn in *.
    split; [lia|]. rewrite Nat.sub_0_r. rewrite <- Hl in *.
    assert (forall x, x * (x - 1) + x = x * x) as Hx by (intros []; cbn; lia).
    pose proof (Hx (length s)). pose proof (Hx (length l)).
    assert ((length s + length l) * (length s + length l) =
      length s * length s + 2 * (length s * length l) + length l * length l) as Hq by (generalize (length s), (length l); nia).
    rewrite Hq. lia.
  Qed.
End counting.

(** Sorted lists: every element is compared with all those after it. *)
Section sorted.
  Context {T : Type} (less : T -> T -> bool).
  Lemma parts_sorted p vs : Forall (fun v => less v p = false) vs -> forall n,
    parts (counted (stateless less)) p vs (n, tt) = ([], vs, (n + length vs, tt)).
  Proof.
    induction 1 as [|v vs Hv _ IH]; intros n; cbn; [do 2 f_equal; lia|].
    rewrite Hv, IH. cbn. do 3 f_equal. lia.
  Qed.
  Lemma qsA_sorted vs : StronglySorted (fun x y => less y x = false) vs -> forall n vs' na,
    qsA (counted (stateless less)) (n, tt) vs vs' na -> vs' = vs /\ 2 * fst na = 2 * n + length vs * (length vs - 1).
  Proof.
    induction 1 as [|p vs Hs IH Hp]; intros n vs' na H; inversion H; subst; cbn in *; try done.
    - split; [done|]. destruct vs; cbn in *; lia.
    - match goal with X : parts _ _ _ _ = _ |- _ => rewrite parts_sorted in X by done; injection X as <- <- <- end.
      match goal with X : qsA _ _ [] _ _ |- _ => inversion X; subst end.
      match goal with X : qsA _ _ vs _ _ |- _ => apply IH in X as [-> X] end.
      split; [done|]. destruct vs; cbn in *; lia.
  Qed.
End sorted.

Section sort.
  Context {T A : Type} (zero : T) (cmp : T -> T -> A -> bool * A).
  Implicit Types (w : dworld T) (l : nat).

  Definition partA_to (p : T) sm la : option nat -> A -> M (dworld T) (bool * A) :=
    fun e a =>
      v <- rd e e_val ;;
      let ba := cmp v p a in
      (if fst ba then v <- rd e e_val ;; dl_PushBack sm v else v <- rd e e_val ;; dl_PushBack la v) ;;;
      ret (true, snd ba).
  Lemma partA_step p sm la x w a :
    Inv w -> sm < n_lists w -> la < n_lists w -> sm <> la ->
    exists w', partA_to p sm la (Some x) a w = Ok ((true, snd (cmp (e_val w x) p a)), w') /\
      grow w w' (fun l' => l' = sm \/ l' = la) /\ n_lists w' = n_lists w /\
      vals w' sm = vals w sm ++ fst (fst (parts cmp p [e_val w x] a)) /\
      vals w' la = vals w la ++ snd (fst (parts cmp p [e_val w x] a)).
  Proof.
    intros HI Hsm Hla Hne. unfold partA_to, rd at 1, bind at 1. cbn [parts].
    destruct (cmp (e_val w x) p a) as [[] a1] eqn:E; cbn [fst snd].
    - destruct (grow_PushBack w sm (e_val w x) HI Hsm) as (w1 & q & H1 & G1 & V1 & N1 & _).
      exists w1. split_and!; [| |done|done|].
      + unfold bind at 1, rd, bind at 1. by rewrite H1.
      + apply (grow_trans _ w _ _ (eq sm)); [by apply grow_refl|done|]. intros. left. done.
      + rewrite (grow_vals w w1 _ la HI G1) by done. by rewrite app_nil_r.
    - destruct (grow_PushBack w la (e_val w x) HI Hla) as (w1 & q & H1 & G1 & V1 & N1 & _).
      exists w1. split_and!; [| |done| |done].
      + unfold bind at 1, rd, bind at 1. by rewrite H1.
      + apply (grow_trans _ w _ _ (eq la)); [by apply grow_refl|done|]. intros. right. done.
      + rewrite (grow_vals w w1 _ sm HI G1) by (done || congruence). by rewrite app_nil_r.
  Qed.
  Lemma partA_all p sm la ids : sm <> la -> forall w a,
    Inv w -> sm < n_lists w -> la < n_lists w -> (forall x, x ∈ ids -> x < n_elems w) ->
    exists w', fold_until (partA_to p sm la) a ids w = Ok ((true, snd (parts cmp p (map (e_val w) ids) a)), w') /\
      grow w w' (fun l' => l' = sm \/ l' = la) /\ n_lists w' = n_lists w /\
      vals w' sm = vals w sm ++ fst (fst (parts cmp p (map (e_val w) ids) a)) /\
      vals w' la = vals w la ++ snd (fst (parts cmp p (map (e_val w) ids) a)).
  Proof.
    intros Hne. induction ids as [|x ids IH]; intros w a HI Hsm Hla Hx.
    - exists w. cbn. rewrite ?app_nil_r. split_and!; try done. by apply grow_refl.
    - destruct (partA_step p sm la x w a HI Hsm Hla Hne) as (w1 & H1 & G1 & N1 & V1 & V1').
      destruct (IH w1 (snd (cmp (e_val w x) p a))) as (w2 & H2 & G2 & N2 & V2 & V2'); [apply G1|lia|lia| |].
      { intros y Hy. pose proof (g_ne _ _ _ G1). assert (y < n_elems w) by (apply Hx; by right). lia. }
      assert (Hm : map (e_val w1) ids = map (e_val w) ids).
      { apply map_ext_elem. intros y Hy. apply (g_cell _ _ _ G1). apply Hx. by right. }
      exists w2. rewrite Hm in *. split_and!; [| |lia| |].
      + cbn [fold_until]. rewrite (bind_ok _ _ _ _ _ H1). cbn [fst snd map parts].
        destruct (cmp (e_val w x) p a) as [[] a1]; exact H2.
      + by apply (grow_trans _ _ _ _ _ G1 G2).
      + rewrite V2, V1, <- app_assoc. f_equal. cbn. destruct (cmp (e_val w x) p a) as [[] a1]; done.
      + rewrite V2', V1', <- app_assoc. f_equal. cbn. destruct (cmp (e_val w x) p a) as [[] a1]; done.
  Qed.
  Lemma partA_keeps p sm la l ids : l <> sm -> l <> la -> sm <> la ->
    keeps (fun w => sm < n_lists w /\ la < n_lists w) l ids (partA_to p sm la).
  Proof.
    intros H1 H2 H3 x a r w w' [J1 J2] HI Hl Hs Hx H.
    destruct (partA_step p sm la x w a HI J1 J2 H3) as (w1 & E1 & G1 & N1 & _).
    rewrite E1 in H. injection H as <- <-.
    split_and!; [lia|lia|apply G1|lia|]. rewrite (g_seq _ _ _ G1) by (done || intros [?|?]; congruence). done.
  Qed.

  Lemma SortA_ok rf : forall fuel w l a,
    Inv w -> l < n_lists w -> length (seq_of w l) < rf -> length (seq_of w l) <= fuel ->
    exists w' a', dl_SortA zero rf (S fuel) cmp l a w = Ok (a', w') /\ grow w w' (eq l) /\
      qsA cmp a (vals w l) (vals w' l) a'.
  Proof.
    induction fuel as [|fuel IH]; intros w l a HI Hl Hrf Hf; cbn [dl_SortA]; unfold rd_l at 1, bind at 1; rewrite inv_len by done.
    { rewrite (proj2 (Z.leb_le _ _)) by lia. exists w, a. split_and!; try done; [by apply grow_refl|constructor; rewrite vals_length; lia]. }
    destruct (Z.leb_spec (Z.of_nat (length (seq_of w l))) 1) as [Hle|Hgt].
    { exists w, a. split_and!; try done; [by apply grow_refl|constructor; rewrite vals_length; lia]. }
    rewrite (bind_ok _ _ _ _ _ (Front_ok w l HI Hl)).
    destruct (seq_of w l) as [|x ids] eqn:Hs; [cbn in Hgt; lia|]. cbn [head]. cbn in Hgt, Hf, Hrf.
    unfold rd at 1, bind at 1. set (p := e_val w x).
    destruct (grow_New zero w HI) as (w1 & E1 & G1 & N1 & S1). rewrite (bind_ok _ _ _ _ _ E1).
    destruct (grow_New zero w1 (g_inv _ _ _ G1)) as (w2 & E2 & G2 & N2 & S2). rewrite (bind_ok _ _ _ _ _ E2).
    set (sm := n_lists w) in *. set (la := n_lists w1) in *.
    assert (G02 : grow w w2 (fun _ => False)) by by apply (grow_trans _ _ _ _ _ G1 G2).
    pose proof (g_inv _ _ _ G02) as HI2.
    assert (Hs2 : seq_of w2 l = x :: ids) by (rewrite (g_seq _ _ _ G02 l Hl); [done|by intros []]).
    rewrite (bind_ok _ _ _ _ _ (Front_ok w2 l HI2 ltac:(lia))). rewrite Hs2. cbn [head].
    rewrite (bind_ok _ _ _ _ _ (el_Next_ok w2 l [] x ids HI2 ltac:(lia) Hs2)).
    assert (Hd : l <> sm /\ l <> la /\ sm <> la) by (unfold sm, la; lia). destruct Hd as (Hd1 & Hd2 & Hd3).
    (* partition *)
    destruct (partA_all p sm la ids Hd3 w2 a) as (w3 & E3 & G3 & N3 & V3 & V3'); [done|lia|lia| |].
    { intros y Hy. apply (inv_elem w2 l); [done|lia|]. rewrite Hs2. by right. }
    assert (Hv2 : map (e_val w2) ids = map (e_val w) ids).
    { apply map_ext_elem. intros y Hy. apply (g_cell _ _ _ G02). apply (inv_elem w l); [done|done|]. rewrite Hs. by right. }
    rewrite Hv2 in E3, V3, V3'.
    destruct (parts cmp p (map (e_val w) ids) a) as [[vs1 vs2] a1] eqn:Hparts. cbn [fst snd] in E3, V3, V3'.
    assert (E3' : el_Range rf (head ids) (partA_to p sm la) a w2 = Ok (a1, w3)).
    { unfold el_Range. rewrite (bind_ok _ _ w2 (true, a1) w3); [done|].
      rewrite (range_loop_fold _ l (x :: ids) _ (partA_keeps p sm la l _ Hd1 Hd2 Hd3) ids [x]); try done; lia. }
    unfold partA_to in E3'. rewrite (bind_ok _ _ _ _ _ E3').
    assert (Hsm2 : seq_of w2 sm = []).
    { rewrite (g_seq _ _ _ G2) by (done || lia). done. }
    assert (Hvs : vals w3 sm = vs1) by (rewrite V3; unfold vals; by rewrite Hsm2).
    assert (Hvl : vals w3 la = vs2) by (rewrite V3'; unfold vals; by rewrite S2).
    assert (G03 : grow w w3 (fun _ => False)).
    { apply (grow_trans _ _ _ _ _ G02 G3). intros l' Hl' [->| ->]; unfold sm, la in *; lia. }
    pose proof (g_inv _ _ _ G03) as HI3.
    pose proof (parts_length _ _ _ _ _ _ _ Hparts) as Hlen. rewrite map_length in Hlen.
    assert (Hlsm : length (seq_of w3 sm) <= length ids) by (rewrite <- vals_length, Hvs; lia).
    assert (Hlla : length (seq_of w3 la) <= length ids) by (rewrite <- vals_length, Hvl; lia).
    (* sort smaller, then larger *)
    destruct (IH w3 sm a1 HI3) as (w4 & a2 & E4 & G4 & Q4); [lia|lia|lia|]. rewrite (bind_ok _ _ _ _ _ E4).
    pose proof (g_inv _ _ _ G4) as HI4. pose proof (g_nl _ _ _ G4) as N4.
    assert (Hla4 : seq_of w4 la = seq_of w3 la) by (apply (g_seq _ _ _ G4); [lia|congruence]).
    destruct (IH w4 la a2 HI4) as (w5 & a3 & E5 & G5 & Q5); [lia|rewrite Hla4; lia|rewrite Hla4; lia|]. rewrite (bind_ok _ _ _ _ _ E5).
    pose proof (g_inv _ _ _ G5) as HI5. pose proof (g_nl _ _ _ G5) as N5.
    assert (V5 : vals w5 sm = vals w4 sm) by (apply (grow_vals _ _ _ sm HI4 G5); [lia|congruence]).
    rewrite (grow_vals _ _ _ la HI3 G4), Hvl in Q5 by (lia || congruence). rewrite Hvs in Q4.
    assert (G05 : grow w w5 (eq l)).
    { apply (grow_trans w w4 w5 _ (eq la)); [|done|intros l' Hl' <-; unfold la in *; lia].
      apply (grow_trans w w3 w4 _ (eq sm)); [|done|intros l' Hl' <-; unfold sm in *; lia].
      apply (grow_trans w w w3 _ (fun _ => False)); [by apply grow_refl|done|done]. }
    (* put the values back *)
    destruct (grow_Clear w5 l HI5) as (w6 & E6 & G6 & S6 & N6); [lia|]. rewrite (bind_ok _ _ _ _ _ E6).
    pose proof (g_inv _ _ _ G6) as HI6.
    assert (V6 : vals w6 sm = vals w5 sm) by (apply (grow_vals _ _ _ sm HI5 G6); [lia|congruence]).
    assert (V6' : vals w6 la = vals w5 la) by (apply (grow_vals _ _ _ la HI5 G6); [lia|congruence]).
    assert (Lsm : length (vals w6 sm) < rf).
    { rewrite V6, V5, (qsA_perm _ _ _ _ _ Q4), <- Hvs, vals_length. lia. }
    assert (Lla : length (vals w6 la) < rf).
    { rewrite V6', (qsA_perm _ _ _ _ _ Q5), <- Hvl, vals_length. lia. }
    rewrite vals_length in Lsm, Lla.
    destruct (push_list rf sm l w6 HI6) as (w7 & E7 & G7 & V7 & N7); [lia|lia|done|done|].
    unfold push_to in E7. rewrite (bind_ok _ _ _ _ _ E7). pose proof (g_inv _ _ _ G7) as HI7.
    destruct (grow_PushBack w7 l p HI7) as (w8 & q & E8 & G8 & V8 & N8 & _); [lia|]. rewrite (bind_ok _ _ _ _ _ E8).
    pose proof (g_inv _ _ _ G8) as HI8.
    assert (S8 : seq_of w8 la = seq_of w6 la).
    { rewrite (g_seq _ _ _ G8), (g_seq _ _ _ G7) by (done || lia). done. }
    assert (V8' : vals w8 la = vals w6 la).
    { rewrite (grow_vals _ _ _ la HI7 G8), (grow_vals _ _ _ la HI6 G7) by (done || lia). done. }
    destruct (push_list rf la l w8 HI8) as (w9 & E9 & G9 & V9 & N9); [lia|lia|done|by rewrite S8|].
    unfold push_to in E9. rewrite (bind_ok _ _ _ _ _ E9).
    assert (G69 : grow w6 w9 (eq l)).
    { apply (grow_trans w6 w8 w9 _ (eq l)); [|done|done]. by apply (grow_trans w6 w7 w8 _ (eq l)). }
    assert (G09 : grow w w9 (eq l)).
    { apply (grow_trans w w6 w9 _ (eq l)); [|done|done]. by apply (grow_trans w w5 w6 _ (eq l)). }
    exists w9, a3. split_and!; [done|done|].
    rewrite V9, V8, V8', V7, V6, V5, V6'. unfold vals at 1 2 3. rewrite Hs, S6. cbn [map app]. fold p.
    rewrite <- app_assoc. cbn. econstructor; [rewrite map_length; lia|exact Hparts|exact Q4|exact Q5].
  Qed.

  Lemma sort_any w l a :
    reached zero w -> dlists (dabs w) l ->
    exists w' a', sort_call zero cmp l a w = Ok (a', w') /\ usable zero w' /\
      qsA cmp a (values w l) (values w' l) a' /\
      (forall l', dlists (dabs w) l' -> l' <> l -> dlists (dabs w') l' /\ dseq (dabs w') l' = dseq (dabs w) l') /\
      same_vals (dabs w) (dabs w').
  Proof.
    intros HR Hl. pose proof (reached_inv _ _ HR) as HI. cbn in Hl. pose proof (inv_bound w l HI Hl) as Hb.
    destruct (SortA_ok (S (n_elems w)) (n_elems w) w l a HI Hl) as (w' & a' & E & G & Q); [lia|lia|].
    exists w', a'. split; [exact E|]. pose proof (g_inv _ _ _ G) as HI'. split; [|split; [exact Q|split]].
    - split; [by apply seqs_ok_dabs|]. intros c Hc.
      destruct (dl_step zero w' c HI' Hc) as (r & w2 & H1 & _ & H2). eauto.
    - intros l' Hl' Hne. cbn in *. split; [pose proof (g_nl _ _ _ G); lia|]. apply (g_seq _ _ _ G); [done|congruence].
    - intros e He. by apply (g_cell _ _ _ G).
  Qed.
End sort.

(** Without a state it is the Sort of the model. *)
Section same.
  Context {T A : Type} (zero : T) (less : T -> T -> bool).
  Definition with_state {B} (a : A) (r : res (B * dworld T)) : res (A * dworld T) :=
    match r with Ok (_, w) => Ok (a, w) | Panic => Panic | NoFuel => NoFuel end.
  Lemma bind_with_state {B C} (m : M (dworld T) B) (k : B -> M (dworld T) C) (k' : B -> M (dworld T) A) a w :
    (forall b w', k' b w' = with_state a (k b w')) -> bind m k' w = with_state a (bind m k w).
  Proof. intros H. unfold bind. destruct (m w) as [[b w']| |]; [apply H|done..]. Qed.
  Lemma bind_with_state2 {C} (m : M (dworld T) unit) (m' : M (dworld T) A) (k : unit -> M (dworld T) C)
      (k' : A -> M (dworld T) A) a w :
    m' w = with_state a (m w) -> (forall w', k' a w' = with_state a (k tt w')) ->
    bind m' k' w = with_state a (bind m k w).
  Proof. intros H1 H2. unfold bind. rewrite H1. destruct (m w) as [[[] w']| |]; [apply H2|done..]. Qed.

  Lemma range_with_state (f : option nat -> unit -> M (dworld T) (bool * unit))
      (g : option nat -> A -> M (dworld T) (bool * A)) a :
    (forall e w, g e a w = match f e tt w with
                           | Ok ((b, _), w') => Ok ((b, a), w') | Panic => Panic | NoFuel => NoFuel end) ->
    forall rf e w, el_Range rf e g a w = with_state a (el_Range rf e f tt w).
  Proof.
    intros H rf e w. unfold el_Range, bind.
    assert (forall rf e w, range_loop rf e g a w =
      match range_loop rf e f tt w with
      | Ok ((b, _), w') => Ok ((b, a), w') | Panic => Panic | NoFuel => NoFuel end) as Hl.
    { clear rf e w. intros rf. induction rf as [|rf IH]; intros e w; [done|].
      cbn. destruct e as [x|]; [|done]. unfold bind at 1 3. rewrite H.
      destruct (f (Some x) tt w) as [[[b []] w1]| |]; [|done..]. cbn.
      destruct b; [|done]. unfold bind. destruct (el_Next (Some x) w1) as [[e' w2]| |]; [|done..]. apply IH. }
    rewrite Hl. by destruct (range_loop rf e f tt w) as [[[b []] w']| |].
  Qed.

  Lemma SortA_same rf : forall fuel l a w,
    dl_SortA zero rf fuel (stateless less) l a w = with_state a (dl_Sort zero rf fuel less l w).
  Proof.
    induction fuel as [|fuel IH]; intros l a w; [done|]. cbn [dl_SortA dl_Sort].
    apply bind_with_state. intros n w0. destruct (n <=? 1)%Z; [done|].
    apply bind_with_state. intros f w1. apply bind_with_state. intros p w2.
    apply bind_with_state. intros sm w3. apply bind_with_state. intros la w4.
    apply bind_with_state. intros f' w5. apply bind_with_state. intros e2 w6.
    apply bind_with_state2.
    { apply range_with_state. intros e w7. unfold bind, stateless. cbn.
      destruct (rd e e_val w7) as [[v w8]| |]; [|done..]. destruct (less v p).
      - destruct (rd e e_val w8) as [[v' w9]| |]; [|done..]. by destruct (dl_PushBack sm v' w9) as [[? ?]| |].
      - destruct (rd e e_val w8) as [[v' w9]| |]; [|done..]. by destruct (dl_PushBack la v' w9) as [[? ?]| |]. }
    intros w7. apply bind_with_state2; [apply IH|]. intros w8. apply bind_with_state2; [apply IH|]. intros w9.
    apply bind_with_state. intros ? w10. apply bind_with_state. intros ? w11.
    apply bind_with_state. intros ? w12. apply bind_with_state. intros ? w13. done.
  Qed.
End same.

(** Lists with any values can be made. *)
Lemma make_list {T} (zero : T) vs : exists w, reached zero w /\ dlists (dabs w) 0 /\ values w 0 = vs.
Proof.
  induction vs as [|v vs IH] using rev_ind.
  - assert (call_ok (dabs (empty_dworld zero)) DNew) as Hc.
    { split; intros ? H; cbn in H; by apply elem_of_nil in H. }
    assert (reached zero (empty_dworld zero)) as HR by (exists []; constructor).
    destruct (total_spec zero _ _ HR Hc) as (r & w & E & _ & _ & HRw).
    destruct (grow_New zero (empty_dworld zero) (Inv_empty zero)) as (w1 & E1 & G1 & N1 & S1).
    cbn [dl_exec] in E. unfold dmap in E. rewrite (bind_ok _ _ _ _ _ E1) in E. injection E as _ <-.
    exists w1. split; [done|]. cbn in *. split; [lia|]. unfold values. cbn. by rewrite S1.
  - destruct IH as (w & HR & Hl & Hv).
    assert (call_ok (dabs w) (DPushBack 0 v)) as Hc.
    { split; intros ? H; cbn [call_lists call_elems] in H; [|by apply elem_of_nil in H].
      apply elem_of_list_singleton in H as ->. done. }
    destruct (total_spec zero _ _ HR Hc) as (r & w' & E & _ & _ & HRw).
    destruct (grow_PushBack w 0 v (reached_inv _ _ HR) Hl) as (w1 & p & E1 & G1 & V1 & N1 & _).
    cbn [dl_exec] in E. unfold dmap in E. rewrite (bind_ok _ _ _ _ _ E1) in E. injection E as _ <-.
    exists w1. split; [done|]. cbn in *. split; [lia|]. unfold values in *. cbn in *. unfold vals in V1. by rewrite V1, Hv.
Qed.

Lemma square_pow m : 4 <= m -> m * m <= 2 ^ m.
Proof.
  induction 1 as [|m Hm IH]; [cbn; lia|]. rewrite Nat.pow_succ_r'. nia.
Qed.
Lemma pow_beats c : exists m, 1 <= m /\ 2 * c * m + 1 < 2 ^ m.
Proof.
  exists (4 * c + 4). split; [lia|]. pose proof (square_pow (4 * c + 4) ltac:(lia)). nia.
Qed.
