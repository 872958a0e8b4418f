(** Dllist.Sort *)
From Coq Require Import ZifyBool ZifyNat.
From Verif Require Import Base Chain DllistModel DllistSpec DllistProofs DllistSteps DllistSteps2 DllistSteps3.

(** The quicksort of dllist.go lines 255-289, on values. *)
Inductive qs {T} (less : T -> T -> bool) : list T -> list T -> Prop :=
| qs_short vs : length vs <= 1 -> qs less vs vs
| qs_rec p vs a b :
    qs less (filter (fun v => less v p = true) vs) a ->
    qs less (filter (fun v => less v p = false) vs) b ->
    qs less (p :: vs) (a ++ p :: b).

Section qs.
  Context {T : Type} (less : T -> T -> bool).

  Lemma filter_split_perm (P Q : T -> Prop) `{forall x, Decision (P x)} `{forall x, Decision (Q x)} (vs : list T) :
    (forall x, P x <-> ~ Q x) -> filter P vs ++ filter Q vs ≡ₚ vs.
  Proof.
    intros HPQ. induction vs as [|v vs IH]; [done|]. rewrite !filter_cons.
    destruct (decide (P v)) as [HP|HP], (decide (Q v)) as [HQ|HQ].
    - by apply HPQ in HP.
    - cbn. by rewrite IH.
    - by rewrite <- Permutation_middle, IH.
    - exfalso. apply HP, HPQ, HQ.
  Qed.
  Lemma qs_perm vs vs' : qs less vs vs' -> vs' ≡ₚ vs.
  Proof.
    induction 1 as [|p vs a b _ IHa _ IHb]; [done|].
    rewrite <- Permutation_middle, IHa, IHb. f_equiv. apply filter_split_perm.
    intros x. destruct (less x p); split; congruence.
  Qed.

  Lemma filter_filter_comm (P Q : T -> Prop) `{forall x, Decision (P x)} `{forall x, Decision (Q x)} (vs : list T) :
    filter P (filter Q vs) = filter Q (filter P vs).
  Proof.
    induction vs as [|v vs IH]; [done|]. rewrite !filter_cons.
    destruct (decide (P v)), (decide (Q v)); rewrite ?filter_cons; rewrite ?decide_True, ?decide_False by done; by rewrite ?IH.
  Qed.
  Lemma filter_none (P : T -> Prop) `{forall x, Decision (P x)} (vs : list T) : (forall x, x ∈ vs -> ~ P x) -> filter P vs = [].
  Proof.
    induction vs as [|v vs IH]; intros Hn; [done|]. rewrite filter_cons, decide_False by (apply Hn; by left).
    apply IH. intros x Hx. apply Hn. by right.
  Qed.
  Lemma filter_all (P : T -> Prop) `{forall x, Decision (P x)} (vs : list T) : (forall x, x ∈ vs -> P x) -> filter P vs = vs.
  Proof.
    induction vs as [|v vs IH]; intros Hn; [done|]. rewrite filter_cons, decide_True by (apply Hn; by left). f_equal.
    apply IH. intros x Hx. apply Hn. by right.
  Qed.
  Lemma filter_iff_in (P Q : T -> Prop) `{forall x, Decision (P x)} `{forall x, Decision (Q x)} (vs : list T) :
    (forall x, x ∈ vs -> P x <-> Q x) -> filter P vs = filter Q vs.
  Proof.
    induction vs as [|v vs IH]; intros Hn; [done|]. rewrite !filter_cons, IH.
    2: { intros x Hx. apply Hn. by right. }
    destruct (Hn v) as [H1 H2]; [by left|].
    destruct (decide (P v)), (decide (Q v)); tauto.
  Qed.

  Lemma sw_neg (Hsw : strict_weak less) x y z : less y x = false -> less z y = false -> less z x = false.
  Proof.
    destruct Hsw as (_ & _ & H3). intros A B. destruct (less z x) eqn:C; [|done].
    destruct (H3 z x y C); congruence.
  Qed.

  Lemma qs_stable vs vs' : strict_weak less -> qs less vs vs' -> stably_sorted less vs vs'.
  Proof.
    intros Hsw H. split; [by apply qs_perm|]. pose proof Hsw as (Hirr & Htr & Hw).
    induction H as [vs Hl|p vs a b Ha [IHa1 IHa2] Hb [IHb1 IHb2]].
    - split; [|done]. intros i j x y Hij Hi Hj. apply lookup_lt_Some in Hi, Hj. lia.
    - assert (Hina : forall x, x ∈ a -> less x p = true).
      { intros x Hx. rewrite (qs_perm _ _ Ha) in Hx. by apply elem_of_list_filter in Hx as [? _]. }
      assert (Hinb : forall x, x ∈ b -> less x p = false).
      { intros x Hx. rewrite (qs_perm _ _ Hb) in Hx. by apply elem_of_list_filter in Hx as [? _]. }
      split.
      + intros i j x y Hij Hi Hj.
        apply lookup_app_Some in Hi as [Hi|[Hi1 Hi]]; apply lookup_app_Some in Hj as [Hj|[Hj1 Hj]].
        * by apply (IHa1 i j).
        * assert (Hx : less x p = true) by (eapply Hina, elem_of_list_lookup_2, Hi).
          assert (Hy : less y p = false).
          { destruct (j - length a) as [|k]; cbn in Hj; [injection Hj as <-; by apply Hirr|].
            eapply Hinb, elem_of_list_lookup_2, Hj. }
          destruct (less y x) eqn:E; [|done]. rewrite (Htr _ _ _ E Hx) in Hy. done.
        * apply lookup_lt_Some in Hj. lia.
        * destruct (i - length a) as [|ki] eqn:Ei; cbn in Hi.
          -- injection Hi as <-. destruct (j - length a) as [|kj] eqn:Ej; [lia|]. cbn in Hj.
             eapply Hinb, elem_of_list_lookup_2, Hj.
          -- destruct (j - length a) as [|kj] eqn:Ej; [lia|]. cbn in Hj. apply (IHb1 ki kj); [lia|done|done].
      + intros x. set (P := fun y => equivalent less x y = true).
        rewrite filter_app, filter_cons.
        change (filter (fun y => equivalent less x y = true) a) with (filter P a).
        change (filter (fun y => equivalent less x y = true) b) with (filter P b).
        specialize (IHa2 x). specialize (IHb2 x). fold P in IHa2, IHb2. rewrite IHa2, IHb2.
        rewrite (filter_cons _ p vs). fold P.
        rewrite (filter_filter_comm P (fun v => less v p = true)), (filter_filter_comm P (fun v => less v p = false)).
        assert (Heq : forall y, P y -> less y p = less x p).
        { intros y Hy. unfold P, equivalent in Hy. apply andb_true_iff in Hy as [H1 H2]. apply negb_true_iff in H1, H2.
          destruct (less y p) eqn:E1, (less x p) eqn:E2; try done.
          - destruct (Hw _ _ x E1); congruence.
          - destruct (Hw _ _ y E2); congruence. }
        destruct (less x p) eqn:Ex.
        * rewrite (filter_all (fun v => less v p = true)) by (intros y [Hy _]%elem_of_list_filter; by apply Heq).
          rewrite (filter_none (fun v => less v p = false)) by (intros y [Hy _]%elem_of_list_filter; rewrite Heq; done).
          rewrite !decide_False; [by rewrite app_nil_r|..]; unfold P, equivalent; rewrite Ex; done.
        * rewrite (filter_none (fun v => less v p = true)) by (intros y [Hy _]%elem_of_list_filter; rewrite Heq; done).
          rewrite (filter_all (fun v => less v p = false)) by (intros y [Hy _]%elem_of_list_filter; by apply Heq).
          done.
  Qed.
End qs.

Section sort.
  Context {T : Type} (zero : T).
  Implicit Types (w : dworld T) (l : nat).
  Notation good := (good zero).

  Definition vals w l : list T := map (e_val w) (seq_of w l).

  (** Only the lists in [L] and new ones change, and only by losing and gaining elements; gained
      elements are new. *)
  Record grow w w' (L : nat -> Prop) : Prop := {
    g_inv : Inv w';
    g_nl : n_lists w <= n_lists w';
    g_ne : n_elems w <= n_elems w';
    g_seq : forall l', l' < n_lists w -> ~ L l' -> seq_of w' l' = seq_of w l';
    g_new : forall l' e, l' < n_lists w' -> e ∈ seq_of w' l' -> (l' < n_lists w /\ e ∈ seq_of w l') \/ n_elems w <= e;
    g_cell : forall x, x < n_elems w -> e_val w' x = e_val w x /\ e_list w' x = e_list w x;
    g_root : forall l', l' < n_lists w -> l_root w' l' = l_root w l';
    g_nroot : forall l', n_lists w <= l' -> l' < n_lists w' -> n_elems w <= l_root w' l' }.

  Lemma grow_refl w L : Inv w -> grow w w L.
  Proof. intros HI. split; try done; [|lia]. intros. by left. Qed.
  Lemma grow_trans w w1 w2 (L L1 : nat -> Prop) :
    grow w w1 L -> grow w1 w2 L1 -> (forall l', l' < n_lists w -> L1 l' -> L l') -> grow w w2 L.
  Proof.
    intros A B HL. pose proof (g_nl _ _ _ A). pose proof (g_nl _ _ _ B). pose proof (g_ne _ _ _ A). pose proof (g_ne _ _ _ B).
    split; [apply B|lia|lia|..].
    - intros l' Hl' Hn. rewrite (g_seq _ _ _ B) by (lia || auto). by apply (g_seq _ _ _ A).
    - intros l' e Hl' He. destruct (g_new _ _ _ B l' e Hl' He) as [[H3 H4]|H3]; [|right; lia].
      by apply (g_new _ _ _ A l' e).
    - intros x Hx. destruct (g_cell _ _ _ A x Hx) as [<- <-]. apply (g_cell _ _ _ B). lia.
    - intros l' Hl'. rewrite (g_root _ _ _ B) by lia. by apply (g_root _ _ _ A).
    - intros l' H5 H6. destruct (decide (l' < n_lists w1)).
      + rewrite (g_root _ _ _ B) by lia. by apply (g_nroot _ _ _ A).
      + pose proof (g_nroot _ _ _ B l' ltac:(lia) H6). lia.
  Qed.
  Lemma grow_vals w w' L l : Inv w -> grow w w' L -> l < n_lists w -> ~ L l -> vals w' l = vals w l.
  Proof.
    intros HI G Hl Hn. unfold vals. rewrite (g_seq _ _ _ G l Hl Hn). apply map_ext_elem. intros x Hx.
    apply (g_cell _ _ _ G). by apply (inv_elem w l).
  Qed.

  Lemma grow_New w : Inv w ->
    exists w', dl_New zero w = Ok (n_lists w, w') /\ grow w w' (fun _ => False) /\ n_lists w' = S (n_lists w) /\
      seq_of w' (n_lists w) = [].
  Proof.
    intros HI. destruct (New_ok zero w HI) as (w' & H1 & H2 & H3 & H4 & H5 & H6 & H7 & H8).
    exists w'. split_and!; try done. split; try done; try lia.
    - intros l' Hl' _. by apply H6.
    - intros l' e Hl' He. destruct (decide (l' = n_lists w)) as [->|Hne].
      + rewrite H7 in He. by apply elem_of_nil in He.
      + left. assert (Hl : l' < n_lists w) by lia. split; [done|]. by rewrite <- (proj1 (H6 l' Hl)).
    - intros l' Hl'. by apply H6.
    - intros l' A B. assert (l' = n_lists w) as -> by lia. rewrite H5. lia.
  Qed.
  Lemma grow_PushBack w l v : Inv w -> l < n_lists w ->
    exists w' p, dl_PushBack l v w = Ok (p, w') /\ grow w w' (eq l) /\ vals w' l = vals w l ++ [v] /\ n_lists w' = n_lists w /\
      length (seq_of w' l) = S (length (seq_of w l)).
  Proof.
    intros HI Hl. destruct (PushBack_ok w l v HI Hl) as (w' & H1 & P & H2 & H3 & H4 & H5).
    exists w', (Some (n_elems w)). split_and!; [done| | |apply (p_nl _ _ _ _ P)|].
    - split; [apply P|by rewrite (p_nl _ _ _ _ P)|apply (p_ne _ _ _ _ P)| | |done|done|].
      + intros l' Hl' Hn. by apply (p_others _ _ _ _ P); [|congruence].
      + intros l' e Hl' He. rewrite (p_nl _ _ _ _ P) in Hl'. destruct (decide (l' = l)) as [->|Hne].
        * rewrite (p_seq _ _ _ _ P) in He. apply elem_of_app in He as [He|He%elem_of_list_singleton]; [by left|right; lia].
        * left. split; [done|]. by rewrite <- (p_others _ _ _ _ P).
      + intros l' A B. rewrite (p_nl _ _ _ _ P) in B. lia.
    - unfold vals. rewrite (p_seq _ _ _ _ P), map_app. cbn. rewrite H3. f_equal. apply map_ext_elem. intros x Hx.
      apply H2. by apply (inv_elem w l).
    - rewrite (p_seq _ _ _ _ P), app_length. cbn. lia.
  Qed.
  Lemma grow_Clear w l : Inv w -> l < n_lists w ->
    exists w', dl_Clear l w = Ok (l, w') /\ grow w w' (eq l) /\ seq_of w' l = [] /\ n_lists w' = n_lists w.
  Proof.
    intros HI Hl. destruct (Clear_ok w l HI Hl) as (w' & G1 & G2 & F & G4 & G5 & G6 & G7 & G8 & G9).
    exists w'. split_and!; try done; [|apply F]. split; try done; try lia.
    - rewrite (f_nl _ _ _ _ F). lia.
    - intros l' Hl' Hn. apply G6; [done|congruence].
    - intros l' e Hl' He. rewrite (f_nl _ _ _ _ F) in Hl'. destruct (decide (l' = l)) as [->|Hne].
      + rewrite G5 in He. by apply elem_of_nil in He.
      + left. split; [done|]. by rewrite <- G6.
    - intros l' Hl'. apply (f_root _ _ _ _ F).
    - intros l' A B. rewrite (f_nl _ _ _ _ F) in B. lia.
  Qed.

  (** Copying a list's values to the back of another *)
  Definition push_to l : option nat -> unit -> M (dworld T) (bool * unit) :=
    fun e _ => v <- rd e e_val ;; dl_PushBack l v ;;; ret (true, tt).
  Lemma push_keeps src l ids : src <> l -> keeps (fun w => l < n_lists w) src ids (push_to l).
  Proof.
    intros Hne x a r w w' HJ HI Hl Hs Hx H.
    destruct (grow_PushBack w l (e_val w x) HI HJ) as (w1 & p & H1 & G1 & V1 & N1 & _).
    unfold push_to, bind at 1, rd in H. rewrite (bind_ok _ _ _ _ _ H1) in H. injection H as <- <-.
    split_and!; [lia|apply G1|lia|]. rewrite (g_seq _ _ _ G1) by (done || congruence). done.
  Qed.

  Lemma push_all l ids : forall w,
    Inv w -> l < n_lists w -> (forall x, x ∈ ids -> x < n_elems w) ->
    exists w', fold_until (push_to l) tt ids w = Ok ((true, tt), w') /\ grow w w' (eq l) /\
      vals w' l = vals w l ++ map (e_val w) ids /\ n_lists w' = n_lists w.
  Proof.
    induction ids as [|x ids IH]; intros w HI Hl Hx.
    - exists w. cbn. rewrite app_nil_r. split_and!; try done. by apply grow_refl.
    - destruct (grow_PushBack w l (e_val w x) HI Hl) as (w1 & p & H1 & G1 & V1 & N1 & _).
      destruct (IH w1) as (w2 & H2 & G2 & V2 & N2); [apply G1|lia| |].
      { intros y Hy. pose proof (g_ne _ _ _ G1). assert (y < n_elems w) by (apply Hx; by right). lia. }
      exists w2. split_and!; [| | |lia].
      + cbn [fold_until]. unfold push_to at 1. unfold bind at 1 2, rd at 1. rewrite (bind_ok _ _ _ _ _ H1). exact H2.
      + by apply (grow_trans _ _ _ _ _ G1 G2).
      + rewrite V2, V1, <- app_assoc. cbn. do 2 f_equal. apply map_ext_elem. intros y Hy.
        apply (g_cell _ _ _ G1). apply Hx. by right.
  Qed.

  Lemma push_list rf src l w :
    Inv w -> src < n_lists w -> l < n_lists w -> src <> l -> length (seq_of w src) < rf ->
    exists w', dl_Range rf src (push_to l) tt w = Ok ((true, tt), w') /\ grow w w' (eq l) /\
      vals w' l = vals w l ++ vals w src /\ n_lists w' = n_lists w.
  Proof.
    intros HI Hs Hl Hne Hf. rewrite (Range_fold (fun w => l < n_lists w)) by (done || by apply push_keeps).
    apply push_all; [done|done|]. intros x Hx. by apply (inv_elem w src).
  Qed.

  (** The partition loop *)
  Definition part_to (less : T -> T -> bool) (p : T) sm la : option nat -> unit -> M (dworld T) (bool * unit) :=
    fun e (_ : unit) =>
      v <- rd e e_val ;;
      (if less v p then v <- rd e e_val ;; dl_PushBack sm v else v <- rd e e_val ;; dl_PushBack la v) ;;;
      ret (true, tt).
  Lemma part_step less p sm la x w :
    Inv w -> sm < n_lists w -> la < n_lists w -> sm <> la ->
    exists w', part_to less p sm la (Some x) tt w = Ok ((true, tt), w') /\
      grow w w' (fun l' => l' = sm \/ l' = la) /\ n_lists w' = n_lists w /\
      vals w' sm = vals w sm ++ filter (fun v => less v p = true) [e_val w x] /\
      vals w' la = vals w la ++ filter (fun v => less v p = false) [e_val w x].
  Proof.
    intros HI Hsm Hla Hne. unfold part_to, rd at 1, bind at 1. rewrite !filter_cons, !filter_nil.
    destruct (less (e_val w x) p) eqn:E.
    - destruct (grow_PushBack w sm (e_val w x) HI Hsm) as (w1 & q & H1 & G1 & V1 & N1 & _).
      exists w1. split_and!; [| |done| |].
      + unfold bind at 1, rd, bind at 1. by rewrite H1.
      + apply (grow_trans _ w _ _ (eq sm)); [by apply grow_refl|done|]. intros. left. done.
      + rewrite V1. by rewrite decide_True.
      + rewrite (grow_vals w w1 _ la HI G1) by done. by rewrite decide_False, app_nil_r by done.
    - destruct (grow_PushBack w la (e_val w x) HI Hla) as (w1 & q & H1 & G1 & V1 & N1 & _).
      exists w1. split_and!; [| |done| |].
      + unfold bind at 1, rd, bind at 1. by rewrite H1.
      + apply (grow_trans _ w _ _ (eq la)); [by apply grow_refl|done|]. intros. right. done.
      + rewrite (grow_vals w w1 _ sm HI G1) by (done || congruence). by rewrite decide_False, app_nil_r by done.
      + rewrite V1. by rewrite decide_True.
  Qed.
  Lemma part_all less p sm la ids : sm <> la -> forall w,
    Inv w -> sm < n_lists w -> la < n_lists w -> (forall x, x ∈ ids -> x < n_elems w) ->
    exists w', fold_until (part_to less p sm la) tt ids w = Ok ((true, tt), w') /\
      grow w w' (fun l' => l' = sm \/ l' = la) /\ n_lists w' = n_lists w /\
      vals w' sm = vals w sm ++ filter (fun v => less v p = true) (map (e_val w) ids) /\
      vals w' la = vals w la ++ filter (fun v => less v p = false) (map (e_val w) ids).
  Proof.
    intros Hne. induction ids as [|x ids IH]; intros w HI Hsm Hla Hx.
    - exists w. cbn [map]. rewrite ?filter_nil, ?app_nil_r. split_and!; try done. by apply grow_refl.
    - destruct (part_step less p sm la x w HI Hsm Hla Hne) as (w1 & H1 & G1 & N1 & V1 & V1').
      destruct (IH w1) as (w2 & H2 & G2 & N2 & V2 & V2'); [apply G1|lia|lia| |].
      { intros y Hy. pose proof (g_ne _ _ _ G1). assert (y < n_elems w) by (apply Hx; by right). lia. }
      assert (Hm : map (e_val w1) ids = map (e_val w) ids).
      { apply map_ext_elem. intros y Hy. apply (g_cell _ _ _ G1). apply Hx. by right. }
      exists w2. split_and!; [| |lia| |].
      + cbn [fold_until]. rewrite (bind_ok _ _ _ _ _ H1). exact H2.
      + by apply (grow_trans _ _ _ _ _ G1 G2).
      + rewrite V2, V1, <- app_assoc, Hm, <- filter_app. done.
      + rewrite V2', V1', <- app_assoc, Hm, <- filter_app. done.
  Qed.
  Lemma part_keeps less p sm la l ids : l <> sm -> l <> la -> sm <> la ->
    keeps (fun w => sm < n_lists w /\ la < n_lists w) l ids (part_to less p sm la).
  Proof.
    intros H1 H2 H3 x [] r w w' [J1 J2] HI Hl Hs Hx H.
    destruct (part_step less p sm la x w HI J1 J2 H3) as (w1 & E1 & G1 & N1 & _).
    rewrite E1 in H. injection H as <- <-.
    split_and!; [lia|lia|apply G1|lia|]. rewrite (g_seq _ _ _ G1) by (done || intros [?|?]; congruence). done.
  Qed.

  Lemma vals_length w l : length (vals w l) = length (seq_of w l).
  Proof. apply map_length. Qed.

  Lemma Sort_ok rf less : forall fuel w l,
    Inv w -> l < n_lists w -> length (seq_of w l) < rf -> length (seq_of w l) <= fuel ->
    exists w', dl_Sort zero rf (S fuel) less l w = Ok (tt, w') /\ grow w w' (eq l) /\ qs less (vals w l) (vals w' l) /\
      (length (seq_of w l) <= 1 -> w' = w) /\
      (1 < length (seq_of w l) -> forall e, e ∈ seq_of w' l -> n_elems w <= e).
  Proof.
    induction fuel as [|fuel IH]; intros w l HI Hl Hrf Hf; cbn [dl_Sort]; unfold rd_l at 1, bind at 1; rewrite inv_len by done.
    { rewrite (proj2 (Z.leb_le _ _)) by lia. exists w. split_and!; try done; [by apply grow_refl|constructor; rewrite vals_length; lia|lia]. }
    destruct (Z.leb_spec (Z.of_nat (length (seq_of w l))) 1) as [Hle|Hgt].
    { exists w. split_and!; try done; [by apply grow_refl|constructor; rewrite vals_length; lia|lia]. }
    rewrite (bind_ok _ _ _ _ _ (Front_ok w l HI Hl)).
    destruct (seq_of w l) as [|x ids] eqn:Hs; [cbn in Hgt; lia|]. cbn [head]. cbn in Hgt, Hf, Hrf.
    unfold rd at 1, bind at 1. set (p := e_val w x).
    destruct (grow_New w HI) as (w1 & E1 & G1 & N1 & S1). rewrite (bind_ok _ _ _ _ _ E1).
    destruct (grow_New w1 (g_inv _ _ _ G1)) as (w2 & E2 & G2 & N2 & S2). rewrite (bind_ok _ _ _ _ _ E2).
    set (sm := n_lists w) in *. set (la := n_lists w1) in *.
    assert (G02 : grow w w2 (fun _ => False)) by by apply (grow_trans _ _ _ _ _ G1 G2).
    pose proof (g_inv _ _ _ G02) as HI2.
    assert (Hs2 : seq_of w2 l = x :: ids) by (rewrite (g_seq _ _ _ G02 l Hl); [done|by intros []]).
    rewrite (bind_ok _ _ _ _ _ (Front_ok w2 l HI2 ltac:(lia))). rewrite Hs2. cbn [head].
    rewrite (bind_ok _ _ _ _ _ (el_Next_ok w2 l [] x ids HI2 ltac:(lia) Hs2)).
    assert (Hd : l <> sm /\ l <> la /\ sm <> la) by (unfold sm, la; lia). destruct Hd as (Hd1 & Hd2 & Hd3).
    (* partition *)
    destruct (part_all less p sm la ids Hd3 w2) as (w3 & E3 & G3 & N3 & V3 & V3'); [done|lia|lia| |].
    { intros y Hy. apply (inv_elem w2 l); [done|lia|]. rewrite Hs2. by right. }
    assert (E3' : el_Range rf (head ids) (part_to less p sm la) tt w2 = Ok (tt, w3)).
    { unfold el_Range. rewrite (bind_ok _ _ w2 (true, tt) w3); [done|].
      rewrite (range_loop_fold _ l (x :: ids) _ (part_keeps less p sm la l _ Hd1 Hd2 Hd3) ids [x]); try done; lia. }
    unfold part_to in E3'. rewrite (bind_ok _ _ _ _ _ E3').
    assert (Hv2 : map (e_val w2) ids = map (e_val w) ids).
    { apply map_ext_elem. intros y Hy. apply (g_cell _ _ _ G02). apply (inv_elem w l); [done|done|]. rewrite Hs. by right. }
    assert (Hsm2 : seq_of w2 sm = []).
    { rewrite (g_seq _ _ _ G2) by (done || lia). done. }
    assert (Hvs : vals w3 sm = filter (fun v => less v p = true) (map (e_val w) ids)).
    { rewrite V3, Hv2. unfold vals. by rewrite Hsm2. }
    assert (Hvl : vals w3 la = filter (fun v => less v p = false) (map (e_val w) ids)).
    { rewrite V3', Hv2. unfold vals. by rewrite S2. }
    assert (G03 : grow w w3 (fun _ => False)).
    { apply (grow_trans _ _ _ _ _ G02 G3). intros l' Hl' [->| ->]; unfold sm, la in *; lia. }
    pose proof (g_inv _ _ _ G03) as HI3.
    assert (Hlen : forall l', l' = sm \/ l' = la -> length (seq_of w3 l') <= length ids).
    { intros l' [->| ->]; rewrite <- vals_length, ?Hvs, ?Hvl; etrans; [apply filter_length| |apply filter_length|]; by rewrite map_length. }
    pose proof (Hlen sm (or_introl eq_refl)) as Hlsm. pose proof (Hlen la (or_intror eq_refl)) as Hlla.
    (* sort smaller, then larger *)
    destruct (IH w3 sm HI3) as (w4 & E4 & G4 & Q4 & _); [lia|lia|lia|]. rewrite (bind_ok _ _ _ _ _ E4).
    pose proof (g_inv _ _ _ G4) as HI4. pose proof (g_nl _ _ _ G4) as N4.
    assert (Hla4 : seq_of w4 la = seq_of w3 la) by (apply (g_seq _ _ _ G4); [lia|congruence]).
    destruct (IH w4 la HI4) as (w5 & E5 & G5 & Q5 & _); [lia|rewrite Hla4; lia|rewrite Hla4; lia|]. rewrite (bind_ok _ _ _ _ _ E5).
    pose proof (g_inv _ _ _ G5) as HI5. pose proof (g_nl _ _ _ G5) as N5.
    assert (V5 : vals w5 sm = vals w4 sm) by (apply (grow_vals _ _ _ sm HI4 G5); [lia|congruence]).
    rewrite (grow_vals _ _ _ la HI3 G4), Hvl in Q5 by (lia || congruence). rewrite Hvs in Q4.
    assert (G05 : grow w w5 (eq l)).
    { apply (grow_trans w w4 w5 _ (eq la)); [|done|intros l' Hl' <-; unfold la in *; lia].
      apply (grow_trans w w3 w4 _ (eq sm)); [|done|intros l' Hl' <-; unfold sm in *; lia].
      apply (grow_trans w w w3 _ (fun _ => False)); [by apply grow_refl|done|done]. }
    (* put the values back *)
    destruct (grow_Clear w5 l HI5) as (w6 & E6 & G6 & S6 & N6); [lia|]. rewrite (bind_ok _ _ _ _ _ E6).
    pose proof (g_inv _ _ _ G6) as HI6.
    assert (V6 : vals w6 sm = vals w5 sm) by (apply (grow_vals _ _ _ sm HI5 G6); [lia|congruence]).
    assert (V6' : vals w6 la = vals w5 la) by (apply (grow_vals _ _ _ la HI5 G6); [lia|congruence]).
    assert (Lsm : length (vals w6 sm) < rf).
    { rewrite V6, V5, (qs_perm _ _ _ Q4), <- Hvs, vals_length. lia. }
    assert (Lla : length (vals w6 la) < rf).
    { rewrite V6', (qs_perm _ _ _ Q5), <- Hvl, vals_length. lia. }
    rewrite vals_length in Lsm, Lla.
    destruct (push_list rf sm l w6 HI6) as (w7 & E7 & G7 & V7 & N7); [lia|lia|done|done|].
    unfold push_to in E7. rewrite (bind_ok _ _ _ _ _ E7). pose proof (g_inv _ _ _ G7) as HI7.
    destruct (grow_PushBack w7 l p HI7) as (w8 & q & E8 & G8 & V8 & N8 & _); [lia|]. rewrite (bind_ok _ _ _ _ _ E8).
    pose proof (g_inv _ _ _ G8) as HI8.
    assert (S8 : seq_of w8 la = seq_of w6 la).
    { rewrite (g_seq _ _ _ G8), (g_seq _ _ _ G7) by (done || lia). done. }
    assert (V8' : vals w8 la = vals w6 la).
    { rewrite (grow_vals _ _ _ la HI7 G8), (grow_vals _ _ _ la HI6 G7) by (done || lia). done. }
    destruct (push_list rf la l w8 HI8) as (w9 & E9 & G9 & V9 & N9); [lia|lia|done|by rewrite S8|].
    unfold push_to in E9. rewrite (bind_ok _ _ _ _ _ E9).
    assert (G69 : grow w6 w9 (eq l)).
    { apply (grow_trans w6 w8 w9 _ (eq l)); [|done|done]. by apply (grow_trans w6 w7 w8 _ (eq l)). }
    assert (G09 : grow w w9 (eq l)).
    { apply (grow_trans w w6 w9 _ (eq l)); [|done|done]. by apply (grow_trans w w5 w6 _ (eq l)). }
    exists w9. split_and!; [done|done| |cbn; lia|].
    - rewrite V9, V8, V8', V7, V6, V5, V6'. unfold vals at 1 2 3. rewrite Hs, S6. cbn [map app]. fold p.
      rewrite <- app_assoc. cbn. by constructor.
    - intros _ e He. destruct (g_new _ _ _ G69 l e) as [[_ H]|H]; [rewrite N9, N8, N7; lia|done| |].
      + rewrite S6 in H. by apply elem_of_nil in H.
      + pose proof (g_ne _ _ _ G05). pose proof (g_ne _ _ _ G6). lia.
  Qed.

  Lemma step_Sort w l less : Inv w -> l < n_lists w -> good w (DSort l less).
  Proof.
    intros HI Hl. pose proof (inv_bound w l HI Hl) as Hb.
    destruct (Sort_ok (S (n_elems w)) less (n_elems w) w l HI Hl) as (w' & E & G & Q & Hshort & Hlong); [lia|lia|].
    exists DUnit, w'. split; [by apply (dmap_ok (fun _ => DUnit)) with (a := tt)|]. split; [apply G|].
    destruct (decide (length (seq_of w l) <= 1)) as [Hle|Hgt].
    - rewrite (Hshort Hle). apply dd_Sort_short; [done|]. by apply sameW_same, sameW_refl.
    - pose proof (g_inv _ _ _ G) as HI'. pose proof (g_nl _ _ _ G) as N1. pose proof (g_ne _ _ _ G) as N2.
      assert (Hnew : forall e, e ∈ seq_of w' l -> n_elems w <= e) by (apply Hlong; lia).
      apply (dd_Sort (dabs w) (dabs w') l less (seq_of w' l) (vals w' l)).
      + by apply (qs_perm less).
      + intros Hsw. by apply qs_stable.
      + cbn. lia.
      + split; [by apply inv_nodup; [|lia]|]. split; [|done].
        intros e He. split; [cbn; specialize (Hnew e He); lia|].
        assert (Hv : live (dabs w') e) by (apply (so_live _ (seqs_ok_dabs _ HI') l e); [cbn; lia|done]).
        split; [by apply (so_known _ (seqs_ok_dabs _ HI'))|done].
      + split; [done|]. split; cbn; [lia|]. intros l' Hl' Hne. apply (g_seq _ _ _ G); [done|congruence].
      + intros e He. by apply (g_cell _ _ _ G).
      + intros e He. cbn in *. lia.
      + intros e He. cbn in He |- *. destruct (g_cell _ _ _ G e He) as [_ EL]. rewrite EL.
        assert (Hroot : is_root w' e <-> is_root w e).
        { unfold is_root. split; intros (l' & Hl' & E1).
          - destruct (decide (l' < n_lists w)) as [H|H].
            + exists l'. split; [done|]. by rewrite <- (g_root _ _ _ G).
            + pose proof (g_nroot _ _ _ G l' ltac:(lia) Hl'). lia.
          - exists l'. split; [lia|]. by rewrite (g_root _ _ _ G). }
        rewrite Hroot. split.
        * intros (A & B & C). split_and!; [done|done| |].
          -- intros l' Hl'. destruct (C l' Hl') as [C1 C2]. destruct (g_new _ _ _ G l' e C1 C2) as [?|H]; [done|lia].
          -- intros Hin. destruct (inv_elem _ _ _ HI Hl Hin) as [E1 _]. destruct (C l E1) as [_ C2].
             apply Hnew in C2. lia.
        * intros ((A & B & C) & D). split_and!; [lia|done|].
          intros l' Hl'. destruct (C l' Hl') as [C1 C2]. split; [lia|].
          rewrite (g_seq _ _ _ G); [done|done|]. intros <-. done.
  Qed.
End sort.
