(** PushBackListTo and PushFrontListTo given the list itself. *)
From Coq Require Import ZifyBool ZifyNat.
From Verif Require Import Base Chain DllistModel DllistSpec DllistProofs DllistSteps DllistSteps2 DllistSteps3.

Section self.
  Context {T : Type} (zero : T).
  Implicit Types (w : dworld T) (l : nat).
  Notation good := (good zero).

  (** The walk is behind the mark, going on to the back. *)
  Lemma pblt_behind l p m n : forall q1 q2 w e,
    Inv w -> l < n_lists w -> seq_of w l = p ++ m :: q1 ++ q2 -> n <= length q2 -> first_is q2 e ->
    exists w', pblt_loop n l e (Some m) w = Ok (tt, w') /\
      post w w' l (p ++ m :: rev (seq (n_elems w) n) ++ q1 ++ q2) /\ n_elems w' = n_elems w + n /\
      (forall x, x < n_elems w -> e_val w' x = e_val w x) /\
      map (e_val w') (seq (n_elems w) n) = map (e_val w) (take n q2).
  Proof.
    induction n as [|n IH]; intros q1 q2 w e HI Hl Hs Hn He.
    { exists w. cbn. rewrite <- Hs. split_and!; first [done|by apply post_same|lia]. }
    destruct q2 as [|x q2]; cbn in Hn; [lia|]. cbn in He. subst e. cbn [pblt_loop].
    unfold rd at 1, bind at 1.
    destruct (insert_after_ok w l (e_val w x) p m _ HI Hl Hs) as (w1 & G1 & P & G3 & G4 & G5).
    rewrite (bind_ok _ _ _ _ _ G1). pose proof (p_inv _ _ _ _ P) as HI1. pose proof (p_nl _ _ _ _ P) as N1.
    assert (Hs' : seq_of w1 l = (p ++ m :: n_elems w :: q1) ++ x :: q2).
    { rewrite (p_seq _ _ _ _ P), <- !app_assoc. by cbn. }
    rewrite (bind_ok _ _ _ _ _ (el_Next_ok w1 l _ x _ HI1 ltac:(lia) Hs')).
    destruct (IH (n_elems w :: q1 ++ [x]) q2 w1 (head q2)) as (w2 & K1 & K2 & K3 & K4 & K5);
      [done|lia| |lia|by destruct q2|].
    { rewrite Hs', <- app_assoc. cbn. by rewrite <- app_assoc. }
    exists w2. rewrite G5 in *. cbn [seq rev app] in K2 |- *. split_and!; [done| |lia| |].
    - rewrite <- !app_assoc in K2 |- *. cbn in K2 |- *. by eapply post_trans.
    - intros y Hy. rewrite K4 by lia. by apply G3.
    - cbn. rewrite K5, K4, G4 by lia. f_equal. apply map_ext_elem. intros y Hy. apply G3.
      apply (inv_elem w l); [done|done|]. rewrite Hs. apply elem_of_take in Hy as (i & Hy & _).
      apply elem_of_list_lookup_2 in Hy. mem.
  Qed.

  (** The walk is before the mark, going on to the mark; [k] turns are left when it gets there. *)
  Lemma pblt_before l m k rem : forall p1 q w e,
    Inv w -> l < n_lists w -> seq_of w l = (p1 ++ rem) ++ m :: q -> first_is (rem ++ [m]) e ->
    exists w', pblt_loop (length rem + k) l e (Some m) w = pblt_loop k l (Some m) (Some m) w' /\
      post w w' l ((p1 ++ rem) ++ m :: rev (seq (n_elems w) (length rem)) ++ q) /\
      n_elems w' = n_elems w + length rem /\
      (forall x, x < n_elems w -> e_val w' x = e_val w x) /\
      map (e_val w') (seq (n_elems w) (length rem)) = map (e_val w) rem.
  Proof.
    induction rem as [|x rem IH]; intros p1 q w e HI Hl Hs He.
    { exists w. cbn in *. subst e. rewrite <- Hs. split_and!; first [done|by apply post_same|lia]. }
    cbn in He. subst e. cbn [length pblt_loop Nat.add].
    unfold rd at 1, bind at 1.
    destruct (insert_after_ok w l (e_val w x) _ m q HI Hl Hs) as (w1 & G1 & P & G3 & G4 & G5).
    rewrite (bind_ok _ _ _ _ _ G1). pose proof (p_inv _ _ _ _ P) as HI1. pose proof (p_nl _ _ _ _ P) as N1.
    assert (Hs' : seq_of w1 l = p1 ++ x :: rem ++ m :: n_elems w :: q).
    { by rewrite (p_seq _ _ _ _ P), <- !app_assoc. }
    rewrite (bind_ok _ _ _ _ _ (el_Next_ok w1 l _ x _ HI1 ltac:(lia) Hs')).
    destruct (IH (p1 ++ [x]) (n_elems w :: q) w1 (head (rem ++ m :: n_elems w :: q))) as (w2 & K1 & K2 & K3 & K4 & K5);
      [done|lia| |by destruct rem|].
    { rewrite Hs', <- !app_assoc. by cbn. }
    exists w2. rewrite G5 in *. cbn [seq rev app] in K2 |- *. split_and!; [done| |lia| |].
    - rewrite <- !app_assoc in K2 |- *. cbn in K2 |- *. by eapply post_trans.
    - intros y Hy. rewrite K4 by lia. by apply G3.
    - cbn. rewrite K5, K4, G4 by lia. f_equal. apply map_ext_elem. intros y Hy. apply G3.
      apply (inv_elem w l); [done|done|]. rewrite Hs. mem.
  Qed.

  Lemma pblt_self w l p m q :
    Inv w -> l < n_lists w -> seq_of w l = p ++ m :: q ->
    let n := S (length p + length q) in
    exists w', pblt_loop n l (head (seq_of w l)) (Some m) w = Ok (tt, w') /\
      post w w' l (p ++ m :: rev (seq (n_elems w) n) ++ q) /\ n_elems w' = n_elems w + n /\
      (forall x, x < n_elems w -> e_val w' x = e_val w x) /\
      map (e_val w') (seq (n_elems w) n) =
        rev (self_back (map (e_val w) p) (e_val w m) (map (e_val w) q)).
  Proof.
    intros HI Hl Hs n.
    destruct (pblt_before l m (S (length q)) p [] q w (head (seq_of w l))) as (w1 & A1 & A2 & A3 & A4 & A5);
      [done|done|done|rewrite Hs; by destruct p|].
    cbn [app] in A2. pose proof (p_inv _ _ _ _ A2) as HI1. pose proof (p_nl _ _ _ _ A2) as N1.
    pose proof (p_seq _ _ _ _ A2) as Hs1.
    destruct (insert_after_ok w1 l (e_val w1 m) p m _ HI1 ltac:(lia) Hs1) as (w2 & B1 & B2 & B3 & B4 & B5).
    pose proof (p_inv _ _ _ _ B2) as HI2. pose proof (p_nl _ _ _ _ B2) as N2. pose proof (p_seq _ _ _ _ B2) as Hs2.
    rewrite <- app_assoc in Hs2. cbn in Hs2.
    set (c := rev (seq (n_elems w) (length p))) in *.
    destruct (pblt_behind l p m (length q) [] (n_elems w1 :: c ++ q) w2 (Some (n_elems w1))) as (w3 & D1 & D2 & D3 & D4 & D5);
      [done|lia|done|cbn; rewrite app_length; lia|done|].
    cbn [app] in D2.
    assert (Hm : m < n_elems w) by (apply (inv_elem w l); [done|done|]; rewrite Hs; mem).
    exists w3. split_and!.
    - unfold n. rewrite <- Nat.add_succ_r, A1. cbn [pblt_loop]. unfold rd at 1, bind at 1.
      rewrite (bind_ok _ _ _ _ _ B1). by rewrite (bind_ok _ _ _ _ _ (el_Next_ok w2 l p m _ HI2 ltac:(lia) Hs2)).
    - eapply post_trans; [exact A2|]. eapply post_trans; [exact B2|].
      replace (rev (seq (n_elems w) n) ++ q) with (rev (seq (n_elems w2) (length q)) ++ n_elems w1 :: c ++ q); [done|].
      unfold n, c. rewrite <- Nat.add_succ_r, seq_app, rev_app_distr, <- !app_assoc.
      cbn [seq rev]. rewrite <- app_assoc, B5, A3. done.
    - lia.
    - intros x Hx. rewrite D4 by lia. rewrite (proj1 (B3 x ltac:(lia))). auto.
    - unfold self_back. rewrite rev_involutive, !map_length.
      unfold n. rewrite <- Nat.add_succ_r, seq_app, map_app.
      rewrite <- (map_length (e_val w) p) at 3. rewrite firstn_app_2. f_equal.
      + rewrite <- A5. apply map_ext_elem. intros y Hy%elem_of_seq. rewrite D4 by lia. apply B3. lia.
      + cbn [seq map take]. f_equal.
        * rewrite <- A3, D4, B4 by lia. by apply A4.
        * rewrite <- A3, <- B5, D5. rewrite <- firstn_map. f_equal. cbn [map]. f_equal.
          { rewrite B4. by apply A4. }
          rewrite map_app. f_equal.
          { unfold c. rewrite map_rev. f_equal. rewrite <- A5. apply map_ext_elem. intros y Hy%elem_of_seq. apply B3. lia. }
          apply map_ext_elem. intros y Hy. assert (y < n_elems w) by (apply (inv_elem w l); [done|done|]; rewrite Hs; mem).
          rewrite (proj1 (B3 y ltac:(lia))). auto.
  Qed.

  (** The walk is behind the mark and going to the front: it meets only copies. *)
  Fixpoint rot {A} (n : nat) (r : list A) : list A :=
    match n, r with S n, x :: r => x :: rot n (r ++ [x]) | _, _ => [] end.
  Lemma concat_rot {A} (x : A) r n :
    concat (replicate (S n) (x :: r)) = x :: concat (replicate n (r ++ [x])) ++ r.
  Proof.
    induction n as [|n IH]; [cbn; by rewrite app_nil_r|].
    change (replicate (S (S n)) (x :: r)) with ((x :: r) :: replicate (S n) (x :: r)).
    change (replicate (S n) (r ++ [x])) with ((r ++ [x]) :: replicate n (r ++ [x])).
    cbn [concat]. rewrite IH. cbn. f_equal. rewrite <- !app_assoc. done.
  Qed.
  Lemma length_concat {A} (r : list A) n : length (concat (replicate n r)) = n * length r.
  Proof. induction n as [|n IH]; cbn; [done|]. by rewrite app_length, IH. Qed.
  Lemma rot_take {A} n : forall r : list A, rot n r = take n (concat (replicate n r)).
  Proof.
    induction n as [|n IH]; [done|]. intros [|x r].
    { assert (E : concat (replicate (S n) (@nil A)) = []) by (apply nil_length_inv; by rewrite length_concat, Nat.mul_0_r).
      by rewrite E. }
    rewrite concat_rot. cbn [rot take]. f_equal. rewrite IH, take_app_le; [done|].
    rewrite length_concat, app_length. cbn. nia.
  Qed.

  Lemma pflt_behind l p m n : forall q1 q2 w e,
    Inv w -> l < n_lists w -> seq_of w l = p ++ m :: q1 ++ q2 -> q1 <> [] -> first_is (rev q1) e ->
    exists w', pflt_loop n l e (Some m) w = Ok (tt, w') /\
      post w w' l (p ++ m :: rev (seq (n_elems w) n) ++ q1 ++ q2) /\ n_elems w' = n_elems w + n /\
      (forall x, x < n_elems w -> e_val w' x = e_val w x) /\
      map (e_val w') (seq (n_elems w) n) = rot n (map (e_val w) (rev q1)).
  Proof.
    induction n as [|n IH]; intros q1 q2 w e HI Hl Hs Hn He.
    { exists w. cbn. rewrite <- Hs. split_and!; first [done|by apply post_same|lia]. }
    destruct q1 as [|x q1 _] using rev_ind; [done|]. rewrite rev_app_distr in *. cbn in He. subst e.
    rewrite <- app_assoc in Hs. cbn [pflt_loop].
    unfold rd at 1, bind at 1.
    destruct (insert_after_ok w l (e_val w x) p m _ HI Hl Hs) as (w1 & G1 & P & G3 & G4 & G5).
    rewrite (bind_ok _ _ _ _ _ G1). pose proof (p_inv _ _ _ _ P) as HI1. pose proof (p_nl _ _ _ _ P) as N1.
    assert (Hs' : seq_of w1 l = (p ++ m :: n_elems w :: q1) ++ x :: q2).
    { rewrite (p_seq _ _ _ _ P), <- !app_assoc. by cbn. }
    rewrite (bind_ok _ _ _ _ _ (el_Prev_ok w1 l _ x _ HI1 ltac:(lia) Hs')).
    destruct (IH (n_elems w :: q1) (x :: q2) w1 (last (p ++ m :: n_elems w :: q1))) as (w2 & K1 & K2 & K3 & K4 & K5);
      [done|lia| |done| |].
    { by rewrite Hs', <- app_assoc. }
    { destruct q1 as [|y q1 _] using rev_ind.
      - cbn. change (p ++ [m; n_elems w]) with (p ++ [m] ++ [n_elems w]). by rewrite app_assoc, last_snoc.
      - rewrite app_comm_cons, rev_app_distr. cbn. rewrite !app_comm_cons, app_assoc. by rewrite last_snoc. }
    exists w2. rewrite G5 in *. cbn [seq rev app] in K2 |- *. split_and!; [done| |lia| |].
    - rewrite <- !app_assoc. cbn. by eapply post_trans.
    - intros y Hy. rewrite K4 by lia. by apply G3.
    - cbn. rewrite K5, K4, G4 by lia. f_equal. f_equal. cbn [rev]. rewrite map_app. cbn [map]. rewrite G4. f_equal.
      apply map_ext_elem. intros y Hy%elem_of_list_In%in_rev%elem_of_list_In. apply G3.
      apply (inv_elem w l); [done|done|]. rewrite Hs. mem.
  Qed.
  (** The walk is before the mark and going to the front. *)
  Lemma pflt_before l m rem : forall tl p2 q w e,
    Inv w -> l < n_lists w -> seq_of w l = (tl ++ rev rem ++ p2) ++ m :: q -> first_is rem e ->
    exists w', pflt_loop (length rem) l e (Some m) w = Ok (tt, w') /\
      post w w' l ((tl ++ rev rem ++ p2) ++ m :: rev (seq (n_elems w) (length rem)) ++ q) /\
      n_elems w' = n_elems w + length rem /\
      (forall x, x < n_elems w -> e_val w' x = e_val w x) /\
      map (e_val w') (seq (n_elems w) (length rem)) = map (e_val w) rem.
  Proof.
    induction rem as [|x rem IH]; intros tl p2 q w e HI Hl Hs He.
    { exists w. cbn in *. rewrite <- Hs. split_and!; first [done|by apply post_same|lia]. }
    cbn in He. subst e. cbn [length pflt_loop].
    unfold rd at 1, bind at 1.
    destruct (insert_after_ok w l (e_val w x) _ m q HI Hl Hs) as (w1 & G1 & P & G3 & G4 & G5).
    rewrite (bind_ok _ _ _ _ _ G1). pose proof (p_inv _ _ _ _ P) as HI1. pose proof (p_nl _ _ _ _ P) as N1.
    cbn [rev] in Hs, P |- *.
    assert (Hs' : seq_of w1 l = (tl ++ rev rem) ++ x :: p2 ++ m :: n_elems w :: q).
    { rewrite (p_seq _ _ _ _ P), <- !app_assoc. by cbn. }
    rewrite (bind_ok _ _ _ _ _ (el_Prev_ok w1 l _ x _ HI1 ltac:(lia) Hs')).
    destruct (IH tl (x :: p2) (n_elems w :: q) w1 (last (tl ++ rev rem))) as (w2 & K1 & K2 & K3 & K4 & K5);
      [done|lia| | |].
    { rewrite Hs', <- !app_assoc. by cbn. }
    { destruct rem as [|y rem]; [done|]. cbn. by rewrite app_assoc, last_snoc. }
    exists w2. rewrite G5 in *. cbn [seq rev app] in K2 |- *. split_and!; [done| |lia| |].
    - repeat rewrite <- app_assoc in P. repeat rewrite <- app_assoc in K2. repeat rewrite <- app_assoc. cbn in K2, P |- *. by eapply post_trans.
    - intros y Hy. rewrite K4 by lia. by apply G3.
    - cbn. rewrite K5, K4, G4 by lia. f_equal. apply map_ext_elem. intros y Hy. apply G3.
      apply (inv_elem w l); [done|done|]. rewrite Hs.
      apply elem_of_list_In, in_rev, elem_of_list_In in Hy. mem.
  Qed.

  Lemma pflt_self w l p m q :
    Inv w -> l < n_lists w -> seq_of w l = p ++ m :: q ->
    let n := S (length p + length q) in
    exists w', pflt_loop n l (last (seq_of w l)) (Some m) w = Ok (tt, w') /\
      post w w' l (p ++ m :: rev (seq (n_elems w) n) ++ q) /\ n_elems w' = n_elems w + n /\
      (forall x, x < n_elems w -> e_val w' x = e_val w x) /\
      map (e_val w') (seq (n_elems w) n) =
        rev (self_front (map (e_val w) p) (e_val w m) (map (e_val w) q)).
  Proof.
    intros HI Hl Hs n. destruct (decide (q = [])) as [->|Hq].
    - destruct (insert_after_ok w l (e_val w m) p m [] HI Hl Hs) as (w1 & B1 & B2 & B3 & B4 & B5).
      pose proof (p_inv _ _ _ _ B2) as HI1. pose proof (p_nl _ _ _ _ B2) as N1. pose proof (p_seq _ _ _ _ B2) as Hs1.
      rewrite <- app_assoc in Hs1. cbn in Hs1.
      destruct (pflt_before l m (rev p) [] [] [n_elems w] w1 (last p)) as (w2 & D1 & D2 & D3 & D4 & D5);
        [done|lia|by rewrite rev_involutive, app_nil_r|rewrite head_rev; by destruct (rev p)|].
      rewrite rev_involutive, app_nil_r in D2. rewrite rev_length in *. cbn [app] in D2.
      exists w2. unfold n. cbn [length] in *. rewrite Nat.add_0_r in *. split_and!.
      + rewrite Hs, last_snoc. cbn [pflt_loop]. unfold rd at 1, bind at 1.
        rewrite (bind_ok _ _ _ _ _ B1). by rewrite (bind_ok _ _ _ _ _ (el_Prev_ok w1 l p m _ HI1 ltac:(lia) Hs1)).
      + cbn [seq rev]. rewrite app_nil_r, <- B5. eapply post_trans; [exact B2|exact D2].
      + lia.
      + intros x Hx. rewrite D4 by lia. by apply B3.
      + cbn [seq map self_front]. rewrite rev_app_distr. cbn. rewrite <- B5, D5, D4, B4 by lia. f_equal.
        rewrite <- map_rev. apply map_ext_elem. intros y Hy%elem_of_list_In%in_rev%elem_of_list_In. apply B3.
        apply (inv_elem w l); [done|done|]. rewrite Hs. mem.
    - destruct (pflt_behind l p m n q [] w (last (seq_of w l))) as (w' & D1 & D2 & D3 & D4 & D5);
        [done|done|by rewrite app_nil_r|done| |].
      { rewrite Hs. destruct q as [|y q _] using rev_ind; [done|].
        rewrite app_comm_cons, app_assoc, last_snoc, rev_app_distr. done. }
      rewrite app_nil_r in D2. exists w'. split_and!; [done..|].
      rewrite D5, rot_take, map_rev. unfold self_front, n. rewrite !map_length.
      destruct q as [|y q]; [done|]. cbn [map]. by rewrite rev_involutive.
  Qed.

  Lemma step_PushBackListTo_self w l m :
    Inv w -> l < n_lists w -> live (dabs w) m -> good w (DPushBackListTo l l m).
  Proof.
    intros HI Hl Hv. destruct (owner_cases w l m HI Hl Hv) as [(E & p & q & Hs)|(E & Hn)].
    2: { eapply good_same; [apply (dmap_ok (fun _ => DUnit)) with (a := tt); unfold dl_PushBackListTo, rd, bind at 1; by rewrite E|by apply sameW_refl|].
         intros D. by apply dd_PushBackListTo_foreign. }
    destruct (pblt_self w l p m q HI Hl Hs) as (w2 & K1 & P & K3 & K4 & K5).
    set (k := S (length p + length q)) in *.
    exists DUnit, w2. split; [|split; [apply P|]].
    - apply (dmap_ok (fun _ => DUnit)) with (a := tt). unfold dl_PushBackListTo, rd at 1, bind at 1. rewrite E.
      unfold rd_l at 1, bind at 1. rewrite inv_len, Nat2Z.id by done.
      rewrite (bind_ok _ _ _ _ _ (Front_ok w l HI Hl)).
      replace (length (seq_of w l)) with k; [done|]. rewrite Hs, app_length. cbn. lia.
    - apply (dd_PushBackListTo_self _ _ l m p q (rev (seq (n_elems w) k))).
      + done.
      + apply (fresh_seq w w2 l _ _ _ k HI Hl P); [done|by rewrite <- Permutation_rev|intros; mem|].
        by rewrite map_rev, K5, rev_involutive.
      + by apply post_only.
      + by apply (post_rest _ _ _ _ P).
  Qed.
  Lemma step_PushFrontListTo_self w l m :
    Inv w -> l < n_lists w -> live (dabs w) m -> good w (DPushFrontListTo l l m).
  Proof.
    intros HI Hl Hv. destruct (owner_cases w l m HI Hl Hv) as [(E & p & q & Hs)|(E & Hn)].
    2: { eapply good_same; [apply (dmap_ok (fun _ => DUnit)) with (a := tt); unfold dl_PushFrontListTo, rd, bind at 1; by rewrite E|by apply sameW_refl|].
         intros D. by apply dd_PushFrontListTo_foreign. }
    destruct (pflt_self w l p m q HI Hl Hs) as (w2 & K1 & P & K3 & K4 & K5).
    set (k := S (length p + length q)) in *.
    exists DUnit, w2. split; [|split; [apply P|]].
    - apply (dmap_ok (fun _ => DUnit)) with (a := tt). unfold dl_PushFrontListTo, rd at 1, bind at 1. rewrite E.
      unfold rd_l at 1, bind at 1. rewrite inv_len, Nat2Z.id by done.
      rewrite (bind_ok _ _ _ _ _ (Back_ok w l HI Hl)).
      replace (length (seq_of w l)) with k; [done|]. rewrite Hs, app_length. cbn. lia.
    - apply (dd_PushFrontListTo_self _ _ l m p q (rev (seq (n_elems w) k))).
      + done.
      + apply (fresh_seq w w2 l _ _ _ k HI Hl P); [done|by rewrite <- Permutation_rev|intros; mem|].
        by rewrite map_rev, K5, rev_involutive.
      + by apply post_only.
      + by apply (post_rest _ _ _ _ P).
  Qed.
End self.
