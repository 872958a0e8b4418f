From Coq Require Import ZifyBool ZifyNat.
From Verif Require Import Base Chain DllistModel DllistSpec DllistProofs DllistSteps DllistSteps2.

Section copy.
  Context {T : Type} (zero : T).
  Implicit Types (w : dworld T) (l : nat).
  Notation good := (good zero).

  Lemma fresh_seq w w' l ids (es : list nat) vs k :
    Inv w -> l < n_lists w -> post w w' l ids -> n_elems w' = n_elems w + k ->
    es ≡ₚ seq (n_elems w) k -> (forall e, e ∈ es -> e ∈ ids) -> map (e_val w') es = vs ->
    fresh_elems (dabs w) (dabs w') es vs.
  Proof.
    intros HI Hl P Hn Hp Hin Hv. pose proof (p_inv _ _ _ _ P) as HI'.
    assert (Hl' : l < n_lists w') by by rewrite (p_nl _ _ _ _ P).
    split; [rewrite Hp; apply NoDup_seq|]. split; [|done].
    intros e He. assert (Hr : n_elems w <= e < n_elems w').
    { assert (He' : e ∈ seq (n_elems w) k) by by rewrite <- Hp. apply elem_of_seq in He'. lia. }
    split; [cbn; lia|]. split; [cbn; lia|].
    apply (so_live _ (seqs_ok_dabs _ HI') l e Hl'). cbn. rewrite (p_seq _ _ _ _ P). auto.
  Qed.
  Lemma map_ext_elem {A B} (f g : A -> B) (l : list A) : (forall x, x ∈ l -> f x = g x) -> map f l = map g l.
  Proof.
    induction l as [|x l IH]; intros H; [done|]. cbn. rewrite (H x) by by left. f_equal. apply IH. intros y Hy. apply H. by right.
  Qed.

  Definition first_is (rem : list nat) (e : option nat) : Prop :=
    match rem with [] => True | x :: _ => e = Some x end.
  Lemma first_is_head rem tl : first_is rem (head (rem ++ tl)).
  Proof. by destruct rem. Qed.

  Lemma pbl_ok l o rem : forall pre tl w e,
    Inv w -> l < n_lists w -> o < n_lists w -> l_init w l = true ->
    seq_of w o = pre ++ rem ++ tl -> first_is rem e ->
    exists w', pbl_loop (length rem) l e w = Ok (tt, w') /\
      post w w' l (seq_of w l ++ seq (n_elems w) (length rem)) /\ n_elems w' = n_elems w + length rem /\
      (forall x, x < n_elems w -> e_val w' x = e_val w x) /\
      map (e_val w') (seq (n_elems w) (length rem)) = map (e_val w) rem.
  Proof.
    induction rem as [|x rem IH]; intros pre tl w e HI Hl Ho Hi Hs He.
    { exists w. cbn. rewrite app_nil_r. split_and!; first [done|by apply post_same|lia]. }
    cbn in He. subst e. cbn [length pbl_loop].
    unfold rd at 1, bind at 1, root_of, bind at 1, rd at 1, bind at 1. rewrite root_prev by done.
    destruct (last_cons_some (l_root w l) (seq_of w l)) as (a & Ha & _). rewrite Ha.
    destruct (insertValue_ok w l (e_val w x) (seq_of w l) [] a) as (w1 & G1 & P & G2 & G3 & G4 & G5 & G6 & G7 & G8);
      [done|done|done|by rewrite app_nil_r|done|].
    rewrite (bind_ok _ _ _ _ _ G1). pose proof (p_inv _ _ _ _ P) as HI1. pose proof (p_nl _ _ _ _ P) as N1.
    assert (exists tl', seq_of w1 o = pre ++ x :: rem ++ tl') as (tl' & Hs').
    { destruct (decide (o = l)) as [->|Hne].
      - exists (tl ++ [n_elems w]). rewrite (p_seq _ _ _ _ P), Hs, <- app_assoc. cbn. by rewrite <- app_assoc.
      - exists tl. by rewrite (p_others _ _ _ _ P). }
    rewrite (bind_ok _ _ _ _ _ (el_Next_ok w1 o pre x _ HI1 ltac:(lia) Hs')).
    destruct (IH (pre ++ [x]) tl' w1 (head (rem ++ tl'))) as (w2 & K1 & K2 & K3 & K4 & K5);
      [done|lia|lia|done|by rewrite <- app_assoc|by apply first_is_head|].
    exists w2. rewrite G5 in *. rewrite (p_seq _ _ _ _ P), <- app_assoc in K2. cbn [seq app] in K2 |- *. split_and!; [done| |lia| |].
    - by eapply post_trans.
    - intros y Hy. rewrite K4 by lia. auto.
    - cbn. rewrite K5, K4, G4 by lia. f_equal. apply map_ext_elem. intros y Hy. apply G3.
      apply (inv_elem w o); [done|done|]. rewrite Hs. mem.
  Qed.

  Lemma step_PushBackList w l o : Inv w -> l < n_lists w -> o < n_lists w -> good w (DPushBackList l o).
  Proof.
    intros HI Hl Ho. destruct (lazyInit_same w l HI Hl) as (w1 & H1 & S1 & Hi).
    pose proof (s_nl _ _ S1) as N1. pose proof (s_ne _ _ S1) as N2. pose proof (s_inv _ _ S1) as HI1.
    pose proof (s_seq _ _ S1 l Hl) as Hs. pose proof (s_seq _ _ S1 o Ho) as Hso.
    destruct (pbl_ok l o (seq_of w o) [] [] w1 (head (seq_of w o))) as (w2 & K1 & K2 & K3 & K4 & K5);
      [done|lia|lia|done|by rewrite Hso, app_nil_r|by destruct (seq_of w o)|].
    rewrite N2, Hs in *.
    assert (P : post w w2 l (seq_of w l ++ seq (n_elems w) (length (seq_of w o)))) by by eapply post_sameW_l.
    exists DUnit, w2. split; [|split; [apply P|]].
    - apply (dmap_ok (fun _ => DUnit)) with (a := tt). unfold dl_PushBackList. rewrite (bind_ok _ _ _ _ _ H1).
      unfold rd_l at 1, bind at 1. rewrite inv_len, Hso, Nat2Z.id by (done || lia).
      by rewrite (bind_ok _ _ _ _ _ (Front_ok w1 o HI1 ltac:(lia))), Hso.
    - apply (dd_PushBackList _ _ l o (seq (n_elems w) (length (seq_of w o)))).
      + apply (fresh_seq w w2 l _ _ _ (length (seq_of w o)) HI Hl P); [done|done|intros; mem|].
        rewrite K5. apply map_ext. intros. apply (s_val _ _ S1).
      + by apply post_only.
      + apply (post_rest _ _ _ _ P). intros x Hx. rewrite K4 by done. apply (s_val _ _ S1).
  Qed.

  Lemma pfl_ok l o rem : forall post_ tl w e,
    Inv w -> l < n_lists w -> o < n_lists w -> l_init w l = true ->
    seq_of w o = tl ++ rev rem ++ post_ -> first_is rem e ->
    exists w', pfl_loop (length rem) l e w = Ok (tt, w') /\
      post w w' l (rev (seq (n_elems w) (length rem)) ++ seq_of w l) /\ n_elems w' = n_elems w + length rem /\
      (forall x, x < n_elems w -> e_val w' x = e_val w x) /\
      map (e_val w') (seq (n_elems w) (length rem)) = map (e_val w) rem.
  Proof.
    induction rem as [|x rem IH]; intros post_ tl w e HI Hl Ho Hi Hs He.
    { exists w. cbn. split_and!; first [done|by apply post_same|lia]. }
    cbn in He. subst e. cbn [length pfl_loop].
    unfold rd at 1, bind at 1, root_of, bind at 1.
    destruct (insertValue_ok w l (e_val w x) [] (seq_of w l) (l_root w l)) as (w1 & G1 & P & G2 & G3 & G4 & G5 & G6 & G7 & G8);
      [done|done|done|done|done|].
    rewrite (bind_ok _ _ _ _ _ G1). pose proof (p_inv _ _ _ _ P) as HI1. pose proof (p_nl _ _ _ _ P) as N1.
    assert (exists tl', seq_of w1 o = (tl' ++ rev rem) ++ x :: post_) as (tl' & Hs').
    { destruct (decide (o = l)) as [->|Hne].
      - exists (n_elems w :: tl). rewrite (p_seq _ _ _ _ P), Hs. cbn. by rewrite <- !app_assoc.
      - exists tl. rewrite (p_others _ _ _ _ P), Hs by done. cbn. by rewrite <- !app_assoc. }
    rewrite (bind_ok _ _ _ _ _ (el_Prev_ok w1 o _ x _ HI1 ltac:(lia) Hs')).
    destruct (IH (x :: post_) tl' w1 (last (tl' ++ rev rem))) as (w2 & K1 & K2 & K3 & K4 & K5);
      [done|lia|lia|done|by rewrite Hs', <- app_assoc| |].
    { destruct rem as [|y rem]; [done|]. cbn. by rewrite app_assoc, last_snoc. }
    exists w2. rewrite G5 in *. rewrite (p_seq _ _ _ _ P) in K2. cbn [seq rev app] in K2 |- *. split_and!; [done| |lia| |].
    - rewrite <- app_assoc. by eapply post_trans.
    - intros y Hy. rewrite K4 by lia. auto.
    - cbn. rewrite K5, K4, G4 by lia. f_equal. apply map_ext_elem. intros y Hy. apply G3.
      apply (inv_elem w o); [done|done|]. rewrite Hs. cbn. rewrite <- elem_of_reverse, <- rev_reverse in Hy || idtac.
      apply elem_of_app. right. apply elem_of_app. left. apply elem_of_app. left. by apply elem_of_list_In, in_rev; rewrite ?rev_involutive; apply elem_of_list_In.
  Qed.

  Lemma head_rev {A} (s : list A) : last s = head (rev s).
  Proof. destruct s as [|x s _] using rev_ind; [done|]. by rewrite last_snoc, rev_app_distr. Qed.

  Lemma step_PushFrontList w l o : Inv w -> l < n_lists w -> o < n_lists w -> good w (DPushFrontList l o).
  Proof.
    intros HI Hl Ho. destruct (lazyInit_same w l HI Hl) as (w1 & H1 & S1 & Hi).
    pose proof (s_nl _ _ S1) as N1. pose proof (s_ne _ _ S1) as N2. pose proof (s_inv _ _ S1) as HI1.
    pose proof (s_seq _ _ S1 l Hl) as Hs. pose proof (s_seq _ _ S1 o Ho) as Hso.
    destruct (pfl_ok l o (rev (seq_of w o)) [] [] w1 (last (seq_of w o))) as (w2 & K1 & K2 & K3 & K4 & K5);
      [done|lia|lia|done|by rewrite Hso, rev_involutive, app_nil_r|rewrite head_rev; by destruct (rev (seq_of w o))|].
    rewrite rev_length in *. rewrite N2, Hs in *.
    set (k := length (seq_of w o)) in *.
    assert (P : post w w2 l (rev (seq (n_elems w) k) ++ seq_of w l)) by by eapply post_sameW_l.
    exists DUnit, w2. split; [|split; [apply P|]].
    - apply (dmap_ok (fun _ => DUnit)) with (a := tt). unfold dl_PushFrontList. rewrite (bind_ok _ _ _ _ _ H1).
      unfold rd_l at 1, bind at 1. rewrite inv_len, Hso, Nat2Z.id by (done || lia).
      by rewrite (bind_ok _ _ _ _ _ (Back_ok w1 o HI1 ltac:(lia))), Hso.
    - apply (dd_PushFrontList _ _ l o (rev (seq (n_elems w) k))).
      + apply (fresh_seq w w2 l _ _ _ k HI Hl P); [done|by rewrite <- Permutation_rev|intros; mem|].
        rewrite map_rev, K5, map_rev, rev_involutive. apply map_ext. intros. apply (s_val _ _ S1).
      + by apply post_only.
      + apply (post_rest _ _ _ _ P). intros x Hx. rewrite K4 by done. apply (s_val _ _ S1).
  Qed.

  (** Copies inserted after a mark, from another list, forwards or backwards *)
  Lemma pblt_ok l o p m : l <> o -> forall rem pre tl q w e,
    Inv w -> l < n_lists w -> o < n_lists w -> seq_of w l = p ++ m :: q ->
    seq_of w o = pre ++ rem ++ tl -> first_is rem e ->
    exists w', pblt_loop (length rem) l e (Some m) w = Ok (tt, w') /\
      post w w' l (p ++ m :: rev (seq (n_elems w) (length rem)) ++ q) /\ n_elems w' = n_elems w + length rem /\
      (forall x, x < n_elems w -> e_val w' x = e_val w x) /\
      map (e_val w') (seq (n_elems w) (length rem)) = map (e_val w) rem.
  Proof.
    intros Hlo. induction rem as [|x rem IH]; intros pre tl q w e HI Hl Ho Hsl Hs He.
    { exists w. cbn. rewrite <- Hsl. split_and!; first [done|by apply post_same|lia]. }
    cbn in He. subst e. cbn [length pblt_loop].
    unfold rd at 1, bind at 1.
    destruct (insert_after_ok w l (e_val w x) p m q HI Hl Hsl) as (w1 & G1 & P & G3 & G4 & G5).
    rewrite (bind_ok _ _ _ _ _ G1). pose proof (p_inv _ _ _ _ P) as HI1. pose proof (p_nl _ _ _ _ P) as N1.
    assert (Hs' : seq_of w1 o = pre ++ x :: rem ++ tl) by by rewrite (p_others _ _ _ _ P).
    rewrite (bind_ok _ _ _ _ _ (el_Next_ok w1 o pre x _ HI1 ltac:(lia) Hs')).
    destruct (IH (pre ++ [x]) tl (n_elems w :: q) w1 (head (rem ++ tl))) as (w2 & K1 & K2 & K3 & K4 & K5);
      [done|lia|lia|by rewrite (p_seq _ _ _ _ P), <- app_assoc|by rewrite <- app_assoc|by apply first_is_head|].
    exists w2. rewrite G5 in *. cbn [seq rev app] in K2 |- *. split_and!; [done| |lia| |].
    - rewrite <- app_assoc. by eapply post_trans.
    - intros y Hy. rewrite K4 by lia. by apply G3.
    - cbn. rewrite K5, K4, G4 by lia. f_equal. apply map_ext_elem. intros y Hy. apply G3.
      apply (inv_elem w o); [done|done|]. rewrite Hs. mem.
  Qed.
  Lemma pflt_ok l o p m : l <> o -> forall rem post_ tl q w e,
    Inv w -> l < n_lists w -> o < n_lists w -> seq_of w l = p ++ m :: q ->
    seq_of w o = tl ++ rev rem ++ post_ -> first_is rem e ->
    exists w', pflt_loop (length rem) l e (Some m) w = Ok (tt, w') /\
      post w w' l (p ++ m :: rev (seq (n_elems w) (length rem)) ++ q) /\ n_elems w' = n_elems w + length rem /\
      (forall x, x < n_elems w -> e_val w' x = e_val w x) /\
      map (e_val w') (seq (n_elems w) (length rem)) = map (e_val w) rem.
  Proof.
    intros Hlo. induction rem as [|x rem IH]; intros post_ tl q w e HI Hl Ho Hsl Hs He.
    { exists w. cbn. rewrite <- Hsl. split_and!; first [done|by apply post_same|lia]. }
    cbn in He. subst e. cbn [length pflt_loop].
    unfold rd at 1, bind at 1.
    destruct (insert_after_ok w l (e_val w x) p m q HI Hl Hsl) as (w1 & G1 & P & G3 & G4 & G5).
    rewrite (bind_ok _ _ _ _ _ G1). pose proof (p_inv _ _ _ _ P) as HI1. pose proof (p_nl _ _ _ _ P) as N1.
    assert (Hs' : seq_of w1 o = (tl ++ rev rem) ++ x :: post_).
    { rewrite (p_others _ _ _ _ P), Hs by done. cbn. by rewrite <- !app_assoc. }
    rewrite (bind_ok _ _ _ _ _ (el_Prev_ok w1 o _ x _ HI1 ltac:(lia) Hs')).
    destruct (IH (x :: post_) tl (n_elems w :: q) w1 (last (tl ++ rev rem))) as (w2 & K1 & K2 & K3 & K4 & K5);
      [done|lia|lia|by rewrite (p_seq _ _ _ _ P), <- app_assoc|by rewrite Hs', <- app_assoc| |].
    { destruct rem as [|y rem]; [done|]. cbn. by rewrite app_assoc, last_snoc. }
    exists w2. rewrite G5 in *. cbn [seq rev app] in K2 |- *. split_and!; [done| |lia| |].
    - rewrite <- app_assoc. by eapply post_trans.
    - intros y Hy. rewrite K4 by lia. by apply G3.
    - cbn. rewrite K5, K4, G4 by lia. f_equal. apply map_ext_elem. intros y Hy. apply G3.
      apply (inv_elem w o); [done|done|]. rewrite Hs. cbn.
      apply elem_of_app. right. apply elem_of_app. left. apply elem_of_app. left. by apply elem_of_list_In, in_rev; rewrite ?rev_involutive; apply elem_of_list_In.
  Qed.

  Lemma step_PushBackListTo w l o m :
    Inv w -> l < n_lists w -> o < n_lists w -> live (dabs w) m -> l <> o -> good w (DPushBackListTo l o m).
  Proof.
    intros HI Hl Ho Hv Hlo. destruct (owner_cases w l m HI Hl Hv) as [(E & p & q & Hs)|(E & Hn)].
    2: { eapply good_same; [apply (dmap_ok (fun _ => DUnit)) with (a := tt); unfold dl_PushBackListTo, rd, bind at 1; by rewrite E|by apply sameW_refl|].
         intros D. by apply dd_PushBackListTo_foreign. }
    destruct (pblt_ok l o p m Hlo (seq_of w o) [] [] q w (head (seq_of w o))) as (w2 & K1 & P & K3 & K4 & K5);
      [done|done|done|done|by rewrite app_nil_r|by destruct (seq_of w o)|].
    set (k := length (seq_of w o)) in *.
    exists DUnit, w2. split; [|split; [apply P|]].
    - apply (dmap_ok (fun _ => DUnit)) with (a := tt). unfold dl_PushBackListTo, rd at 1, bind at 1. rewrite E.
      unfold rd_l at 1, bind at 1. rewrite inv_len, Nat2Z.id by done.
      by rewrite (bind_ok _ _ _ _ _ (Front_ok w o HI Ho)).
    - apply (dd_PushBackListTo _ _ l o m p q (rev (seq (n_elems w) k))).
      + done.
      + done.
      + apply (fresh_seq w w2 l _ _ _ k HI Hl P); [done|by rewrite <- Permutation_rev|intros; mem|].
        by rewrite map_rev, K5.
      + by apply post_only.
      + by apply (post_rest _ _ _ _ P).
  Qed.
  Lemma step_PushFrontListTo w l o m :
    Inv w -> l < n_lists w -> o < n_lists w -> live (dabs w) m -> l <> o -> good w (DPushFrontListTo l o m).
  Proof.
    intros HI Hl Ho Hv Hlo. destruct (owner_cases w l m HI Hl Hv) as [(E & p & q & Hs)|(E & Hn)].
    2: { eapply good_same; [apply (dmap_ok (fun _ => DUnit)) with (a := tt); unfold dl_PushFrontListTo, rd, bind at 1; by rewrite E|by apply sameW_refl|].
         intros D. by apply dd_PushFrontListTo_foreign. }
    destruct (pflt_ok l o p m Hlo (rev (seq_of w o)) [] [] q w (last (seq_of w o))) as (w2 & K1 & P & K3 & K4 & K5);
      [done|done|done|done|by rewrite rev_involutive, app_nil_r|rewrite head_rev; by destruct (rev (seq_of w o))|].
    rewrite rev_length in *. set (k := length (seq_of w o)) in *.
    exists DUnit, w2. split; [|split; [apply P|]].
    - apply (dmap_ok (fun _ => DUnit)) with (a := tt). unfold dl_PushFrontListTo, rd at 1, bind at 1. rewrite E.
      unfold rd_l at 1, bind at 1. rewrite inv_len, Nat2Z.id by done.
      by rewrite (bind_ok _ _ _ _ _ (Back_ok w o HI Ho)).
    - apply (dd_PushFrontListTo _ _ l o m p q (rev (seq (n_elems w) k))).
      + done.
      + done.
      + apply (fresh_seq w w2 l _ _ _ k HI Hl P); [done|by rewrite <- Permutation_rev|intros; mem|].
        by rewrite map_rev, K5, map_rev, rev_involutive.
      + by apply post_only.
      + by apply (post_rest _ _ _ _ P).
  Qed.
End copy.

(** Iteration *)
Section range.
  Context {T : Type} (zero : T).
  Implicit Types (w : dworld T) (l : nat).
  Notation good := (good zero).

  (** The callback leaves the sequence of the list alone. *)
  Definition keeps {A} (J : dworld T -> Prop) l (ids : list nat) (f : option nat -> A -> M (dworld T) (bool * A)) : Prop :=
    forall x a r w w', J w -> Inv w -> l < n_lists w -> seq_of w l = ids -> x ∈ ids -> f (Some x) a w = Ok (r, w') ->
      J w' /\ Inv w' /\ l < n_lists w' /\ seq_of w' l = ids.

  Lemma range_loop_fold {A} (J : dworld T -> Prop) l ids (f : option nat -> A -> M (dworld T) (bool * A)) :
    keeps J l ids f -> forall rem pre fuel a w,
    J w -> Inv w -> l < n_lists w -> seq_of w l = ids -> ids = pre ++ rem -> length rem < fuel ->
    range_loop fuel (head rem) f a w = fold_until f a rem w.
  Proof.
    intros Hk. induction rem as [|x rem IH]; intros pre fuel a w HJ HI Hl Hs Hids Hf; (destruct fuel as [|fuel]; [lia|]); [done|].
    cbn [range_loop head fold_until]. unfold bind at 1 3. destruct (f (Some x) a w) as [[[b a'] w1]| |] eqn:E; [|done..].
    cbn [fst snd]. destruct b; [|done].
    destruct (Hk x a (true, a') w w1 HJ HI Hl Hs) as (HJ1 & HI1 & Hl1 & Hs1); [rewrite Hids; mem|done|].
    assert (Hs2 : seq_of w1 l = pre ++ x :: rem) by by rewrite Hs1.
    rewrite (bind_ok _ _ _ _ _ (el_Next_ok w1 l pre x rem HI1 Hl1 Hs2)).
    apply (IH (pre ++ [x])); try done; [by rewrite <- app_assoc|cbn in Hf; lia].
  Qed.
  Lemma Range_fold {A} (J : dworld T -> Prop) l (f : option nat -> A -> M (dworld T) (bool * A)) fuel a w :
    J w -> Inv w -> l < n_lists w -> keeps J l (seq_of w l) f -> length (seq_of w l) < fuel ->
    dl_Range fuel l f a w = fold_until f a (seq_of w l) w.
  Proof.
    intros HJ HI Hl Hk Hf. unfold dl_Range. rewrite (bind_ok _ _ _ _ _ (Front_ok w l HI Hl)).
    by apply (range_loop_fold J l (seq_of w l) f Hk _ []).
  Qed.

  Lemma visit_keeps l ids f : keeps (fun _ => True) l ids (visit f).
  Proof. intros x a r w w' HJ HI Hl Hs Hx H. unfold visit in H. prims. by injection H as <- <-. Qed.
  Lemma visit_fold f ids w : forall acc,
    fold_until (visit f) acc ids w = Ok ((fst (seen f (e_val w) ids), acc ++ snd (seen f (e_val w) ids)), w).
  Proof.
    induction ids as [|x ids IH]; intros acc; cbn [fold_until seen].
    - unfold ret. cbn. by rewrite app_nil_r.
    - unfold bind at 1. unfold visit at 1. unfold rd, bind, ret. cbn [fst snd].
      destruct (f x (e_val w x)); [|done]. rewrite IH. cbn. by rewrite <- app_assoc.
  Qed.

  Lemma step_Range w l f : Inv w -> l < n_lists w -> good w (DRange l f).
  Proof.
    intros HI Hl. pose proof (inv_bound w l HI Hl) as Hb.
    eapply good_same; [eapply dmap_ok|by apply sameW_refl|].
    - rewrite (Range_fold (fun _ => True)); [|done|done|done|apply visit_keeps|lia]. apply visit_fold.
    - intros D. apply (dd_Range (dabs w)). done.
  Qed.

  Lemma step_Slice w l : Inv w -> l < n_lists w -> good w (DSlice l).
  Proof.
    intros HI Hl. pose proof (inv_bound w l HI Hl) as Hb.
    eapply good_same; [eapply dmap_ok|by apply sameW_refl|].
    - unfold dl_Slice.
      assert (Hk : keeps (fun _ => True) l (seq_of w l) (fun e s => v <- rd e e_val ;; ret (true, s ++ [v]))).
      { intros x a r w1 w2 _ HI1 Hl1 Hs1 Hx H. prims. by injection H as <- <-. }
      assert (Hfold : forall ids acc, fold_until (fun e s => v <- rd e e_val ;; ret (true, s ++ [v])) acc ids w =
        Ok ((true, acc ++ map (e_val w) ids), w)).
      { induction ids as [|x ids IH]; intros acc; cbn [fold_until map].
        - unfold ret. by rewrite app_nil_r.
        - unfold bind at 1, rd, bind, ret. cbn [fst snd]. rewrite IH. by rewrite <- app_assoc. }
      erewrite bind_ok; [|rewrite (Range_fold (fun _ => True)); [apply Hfold|done|done|done|exact Hk|lia]]. reflexivity.
    - intros D. apply (dd_Slice (dabs w)). done.
  Qed.

  Lemma step_ERange w e f : Inv w -> live (dabs w) e -> good w (DERange e f).
  Proof.
    intros HI Hv. destruct (live_cases _ _ HI Hv) as [(E & _ & L)|(l & pre & ps & E & Hl & Hs)].
    - assert (0 < n_elems w) by (pose proof (so_known _ (seqs_ok_dabs _ HI) _ Hv) as Hk; cbn in Hk; lia).
      assert (Hr : range_loop (S (n_elems w)) (Some e) (visit f) [] w = Ok ((f e (e_val w e), [e]), w)).
      { cbn [range_loop]. unfold visit at 1. unfold bind at 1, rd, bind at 1, ret at 1. cbn [fst snd].
        destruct (n_elems w) as [|n]; [lia|]. destruct (f e (e_val w e)); [|done].
        by rewrite (bind_ok _ _ _ _ _ (el_Next_loose w e E)). }
      eapply good_same; [eapply dmap_ok|by apply sameW_refl|].
      + unfold el_Range. rewrite (bind_ok _ _ _ _ _ Hr). reflexivity.
      + intros D. by apply (dd_ERange_loose (dabs w)).
    - pose proof (inv_bound w l HI Hl) as Hb. rewrite Hs, app_length in Hb. cbn in Hb.
      eapply good_same; [eapply dmap_ok|by apply sameW_refl|].
      + unfold el_Range. erewrite bind_ok; [reflexivity|]. change (Some e) with (head (e :: ps)).
        rewrite (range_loop_fold (fun _ => True) l (seq_of w l) (visit f) (visit_keeps _ _ _) (e :: ps) pre); try done; [|cbn; lia].
        apply visit_fold.
      + intros D. cbn [app snd]. by apply (dd_ERange (dabs w) _ e f l pre ps).
  Qed.
End range.
