From Coq Require Import ZifyBool ZifyNat.
From Verif Require Import Base Chain GoMap GoMapSpec DllistModel DllistSpec DllistProofs DllistSteps DllistSteps2 DllistSteps3 DllistHistory.
From Verif Require Import LHashMapModel LHashMapSpec.

Section proofs.
  Context {K V : Type} (eqb : K -> K -> bool) (upd : bool) (zero_k : K) (zero : V).
  Context (P : per eqb).
  Implicit Types (w : lhm K V) (k : K) (v : V) (d : dworld (option nat)).
  Notation kv := (kv_of zero_k zero).
  Notation lab := (labs zero_k zero).
  Notation mlookup := (GoMap.mlookup eqb).

  Record LInv w : Prop := {
    li_inv : Inv (lh_d w);
    li_l : lh_l w < n_lists (lh_d w);
    li_ptr : forall e, e ∈ lh_ids w -> exists p, e_val (lh_d w) e = Some p /\ p < lh_nent w;
    li_inj : forall e e', e ∈ lh_ids w -> e' ∈ lh_ids w -> e_val (lh_d w) e = e_val (lh_d w) e' -> e = e';
    li_tab : lh_m w ≡ₚ map (fun e => ((kv w e).1, e)) (lh_ids w);
    li_keys : forall e e', e ∈ lh_ids w -> e' ∈ lh_ids w -> eqb (kv w e).1 (kv w e').1 = true -> e = e' }.

  (** Tables *)
  Lemma mlookup_some (m : list (K * nat)) k e : mlookup m k = Some e ->
    exists a b k', m = a ++ (k', e) :: b /\ eqb k' k = true /\ mdel eqb m k = a ++ b.
  Proof.
    induction m as [|[k1 e1] m IH]; [done|]. cbn. destruct (eqb k1 k) eqn:E.
    - intros [= ->]. by exists [], m, k1.
    - intros H. destruct (IH H) as (a & b & k' & -> & E' & ->). by exists ((k1, e1) :: a), b, k'.
  Qed.
  Lemma mlookup_none' (m : list (K * nat)) k : mlookup m k = None -> forall x, x ∈ m -> eqb x.1 k = false.
  Proof.
    induction m as [|[k1 e1] m IH]; cbn; [intros _ x Hx; by apply elem_of_nil in Hx|].
    destruct (eqb k1 k) eqn:E; [done|]. intros H x Hx. apply elem_of_cons in Hx as [->|Hx]; [done|by apply IH].
  Qed.
  Lemma mset_absent (m : list (K * nat)) k e : mlookup m k = None -> mset eqb upd m k e = m ++ [(k, e)].
  Proof. induction m as [|[k1 e1] m IH]; cbn; [done|]. destruct (eqb k1 k); [done|]. intros H. by rewrite IH. Qed.

  Lemma lookup_hit w k e : LInv w -> mlookup (lh_m w) k = Some e -> e ∈ lh_ids w /\ eqb (kv w e).1 k = true.
  Proof.
    intros L H. destruct (mlookup_some _ _ _ H) as (a & b & k' & E & Ek & _).
    assert (Hin : (k', e) ∈ lh_m w) by (rewrite E; mem). rewrite (li_tab _ L) in Hin.
    apply elem_of_list_In, in_map_iff in Hin as (x & [= <- ->] & Hx). split; [by apply elem_of_list_In|done].
  Qed.
  Lemma lookup_miss w k : LInv w -> mlookup (lh_m w) k = None -> forall e, e ∈ lh_ids w -> eqb (kv w e).1 k = false.
  Proof.
    intros L H e He. apply (mlookup_none' _ _ H ((kv w e).1, e)). rewrite (li_tab _ L).
    apply elem_of_list_In, in_map_iff. exists e. split; [done|by apply elem_of_list_In].
  Qed.
  Lemma lookup_own w e : LInv w -> e ∈ lh_ids w -> eqb (kv w e).1 (kv w e).1 = true -> mlookup (lh_m w) (kv w e).1 = Some e.
  Proof.
    intros L He Er. destruct (mlookup (lh_m w) (kv w e).1) as [x|] eqn:E.
    - destruct (lookup_hit _ _ _ L E) as [Hx Ex]. f_equal. by apply (li_keys _ L).
    - rewrite (lookup_miss _ _ L E e He) in Er. done.
  Qed.

  Lemma absent_of w k : LInv w -> mlookup (lh_m w) k = None -> absent eqb (lab w) k.
  Proof.
    intros L H x Hx. apply elem_of_list_In, in_map_iff in Hx as (e & <- & He).
    apply (lookup_miss _ _ L H). by apply elem_of_list_In.
  Qed.
  Lemma one_each_of w : LInv w -> one_each eqb (lab w).
  Proof.
    intros L i j x y Hi Hj E. unfold labs in *.
    apply list_lookup_fmap_inv in Hi as (e & -> & Hi). apply list_lookup_fmap_inv in Hj as (e' & -> & Hj).
    assert (e = e') as -> by (apply (li_keys _ L); [by eapply elem_of_list_lookup_2..|done]).
    pose proof (inv_nodup _ _ (li_inv _ L) (li_l _ L)) as Hn. by eapply NoDup_lookup.
  Qed.
  Lemma ids_live w e : LInv w -> e ∈ lh_ids w -> live (dabs (lh_d w)) e.
  Proof. intros L He. apply (so_live _ (seqs_ok_dabs _ (li_inv _ L)) (lh_l w)); [apply L|done]. Qed.
  Lemma ids_known w e : LInv w -> e ∈ lh_ids w -> known (dabs (lh_d w)) e.
  Proof. intros L He. by apply (inv_elem _ _ _ (li_inv _ L) (li_l _ L)). Qed.

  Lemma dmap_inv {A B} (f : A -> B) (m : M (dworld (option nat)) A) d r d' :
    dmap f m d = Ok (r, d') -> exists a, m d = Ok (a, d') /\ r = f a.
  Proof. unfold dmap, bind, ret. destruct (m d) as [[a d1]| |]; [|done..]. intros [= <- <-]. by exists a. Qed.
  Lemma ld_ok {A} (m : M (dworld (option nat)) A) w a d :
    m (lh_d w) = Ok (a, d) -> ld m w = Ok (a, mk_lhm d (lh_ent w) (lh_nent w) (lh_m w) (lh_l w)).
  Proof. unfold ld. by intros ->. Qed.
  Definition with_d w d : lhm K V := mk_lhm d (lh_ent w) (lh_nent w) (lh_m w) (lh_l w).

  (** The list is rearranged. *)
  Lemma LInv_move w d ids : LInv w -> Inv d -> moved (dabs (lh_d w)) (dabs d) (lh_l w) ids -> ids ≡ₚ lh_ids w ->
    LInv (with_d w d) /\ lh_ids (with_d w d) = ids /\ (forall e, e ∈ ids -> kv (with_d w d) e = kv w e).
  Proof.
    intros L HI ((O1 & O2 & _) & (V1 & _)) Hp.
    assert (Hids : lh_ids (with_d w d) = ids) by done.
    assert (Hv : forall e, e ∈ ids -> e_val d e = e_val (lh_d w) e).
    { intros e He. apply V1, ids_known; [done|]. by rewrite <- Hp. }
    assert (Hkv : forall e, e ∈ ids -> kv (with_d w d) e = kv w e).
    { intros e He. unfold kv_of. cbn. by rewrite Hv. }
    split; [|done]. split.
    - done.
    - apply (O2 _ (li_l _ L)).
    - rewrite Hids. intros e He. cbn. rewrite Hv by done. apply (li_ptr _ L). by rewrite <- Hp.
    - rewrite Hids. intros e e' He He'. cbn. rewrite !Hv by done. apply (li_inj _ L); by rewrite <- Hp.
    - rewrite Hids. cbn. rewrite (li_tab _ L), <- Hp. apply Permutation_refl'. apply map_ext_elem. intros e He. by rewrite Hkv.
    - rewrite Hids. intros e e' He He'. rewrite !Hkv by done. apply (li_keys _ L); by rewrite <- Hp.
  Qed.

  Lemma MoveToFront_w w e pre post : LInv w -> lh_ids w = pre ++ e :: post ->
    exists d, ld (dl_MoveToFront (lh_l w) (Some e)) w = Ok (tt, with_d w d) /\ LInv (with_d w d) /\
      lh_ids (with_d w d) = e :: pre ++ post /\ (forall x, x ∈ lh_ids w -> kv (with_d w d) x = kv w x).
  Proof.
    intros L Hs. assert (He : e ∈ lh_ids w) by (rewrite Hs; mem).
    destruct (dl_step None (lh_d w) (DMoveToFront (lh_l w) e) (li_inv _ L)) as (r & d & H & HI & D).
    { split; intros z Hz; cbn in Hz; apply elem_of_list_singleton in Hz as ->; [apply L|by apply ids_live]. }
    apply dmap_inv in H as ([] & H & _). exists d.
    pose proof (inv_nodup _ _ (li_inv _ L) (li_l _ L)) as Hnd. fold (lh_ids w) in Hnd.
    inversion D; subst; [|exfalso; by match goal with X : _ ∉ _ |- _ => apply X end].
    match goal with X : dseq _ _ = _ |- _ => rename X into Hs2 end.
    cbn in Hs2. fold (lh_ids w) in Hs2. rewrite Hs in Hs2, Hnd. destruct (nodup_pos _ _ _ _ _ Hnd Hs2) as [<- <-].
    destruct (LInv_move w d (e :: pre ++ post) L HI) as (L' & Hi & Hk); [done|rewrite Hs; by rewrite <- Permutation_middle|].
    split; [by rewrite (ld_ok _ _ _ _ H)|]. split; [done|]. split; [done|].
    intros x Hx. apply Hk. rewrite Hs in Hx. mem.
  Qed.

  Lemma Load_hit w k e pre post : LInv w -> mlookup (lh_m w) k = Some e -> lh_ids w = pre ++ e :: post ->
    exists w', lh_Load eqb zero k w = Ok (((kv w e).2, true), w') /\ LInv w' /\
      lh_ids w' = e :: pre ++ post /\ (forall x, x ∈ lh_ids w -> kv w' x = kv w x).
  Proof.
    intros L H Hs. destruct (lookup_hit _ _ _ L H) as [He _].
    destruct (MoveToFront_w w e pre post L Hs) as (d & H1 & L1 & I1 & K1).
    exists (with_d w d). split; [|done].
    unfold lh_Load, tab_get, the_list, bind at 1. rewrite H. unfold bind at 1. rewrite (bind_ok _ _ _ _ _ H1).
    destruct (li_ptr _ L1 e) as (p & Hp & _); [rewrite I1; by left|].
    assert (H2 : ld (rd (Some e) e_val) (with_d w d) = Ok (Some p, with_d w d)) by (unfold ld, rd; by rewrite Hp).
    rewrite (bind_ok _ _ _ _ _ H2). rewrite <- (K1 e He). unfold kv_of. by rewrite Hp.
  Qed.

  Lemma labs_split w pre e post : lh_ids w = pre ++ e :: post ->
    lab w = map (kv w) pre ++ kv w e :: map (kv w) post.
  Proof. intros H. unfold labs. by rewrite H, map_app. Qed.
  Lemma labs_as w w' ids : lh_ids w' = ids -> (forall x, x ∈ ids -> kv w' x = kv w x) -> lab w' = map (kv w) ids.
  Proof. intros H Hk. unfold labs. rewrite H. by apply map_ext_elem. Qed.
  Lemma kv_pair w e : kv w e = ((kv w e).1, (kv w e).2). Proof. by destruct (kv w e). Qed.

  Definition lgood w (c : lh_call K V) : Prop :=
    exists r w', lh_exec eqb upd zero c w = Ok (r, w') /\ LInv w' /\ lh_does eqb zero (lab w) (lab w') c r.

  Lemma lmap_ok {A B} (f : A -> B) (m : M (lhm K V) A) w a w' :
    m w = Ok (a, w') -> lmap f m w = Ok (f a, w').
  Proof. unfold lmap, bind, ret. by intros ->. Qed.

  Lemma lstep_Load w k : LInv w -> lgood w (LLoad k).
  Proof.
    intros L. destruct (mlookup (lh_m w) k) as [e|] eqn:H.
    - destruct (lookup_hit _ _ _ L H) as [He Ek]. apply elem_of_list_split in He as (pre & post & Hs).
      destruct (Load_hit w k e pre post L H Hs) as (w' & H1 & L' & I1 & K1).
      exists (LVal (kv w e).2 true), w'. split; [by apply (lmap_ok (fun r => LVal (fst r) (snd r)) _ _ _ _ H1)|]. split; [done|].
      rewrite (labs_as w w' _ I1) by (intros x Hx; apply K1; rewrite Hs; mem).
      cbn. rewrite map_app, (kv_pair w e). cbn. eapply ll_Load; [|exact Ek]. by rewrite (labs_split _ _ _ _ Hs), <- kv_pair.
    - exists (LVal zero false), w. split; [|split; [done|]].
      + apply (lmap_ok (fun r => LVal (fst r) (snd r)) _ _ (zero, false)). unfold lh_Load, tab_get, bind. by rewrite H.
      + apply ll_Load_none. by apply absent_of.
  Qed.

  Lemma LInv_write w e p v : LInv w -> e ∈ lh_ids w -> e_val (lh_d w) e = Some p ->
    let w' := mk_lhm (lh_d w) (<[p := ((lh_ent w p).1, v)]> (lh_ent w)) (lh_nent w) (lh_m w) (lh_l w) in
    LInv w' /\ lh_ids w' = lh_ids w /\ kv w' e = ((kv w e).1, v) /\
    (forall x, x ∈ lh_ids w -> x <> e -> kv w' x = kv w x).
  Proof.
    intros L He Hp w'.
    assert (K1 : kv w' e = ((kv w e).1, v)) by (unfold kv_of; cbn; rewrite Hp; by rewrite fn_lookup_insert).
    assert (K2 : forall x, x ∈ lh_ids w -> x <> e -> kv w' x = kv w x).
    { intros x Hx Hne. unfold kv_of. cbn. destruct (li_ptr _ L x Hx) as (q & Hq & _). rewrite Hq.
      rewrite fn_lookup_insert_ne; [done|]. intros ->. apply Hne. apply (li_inj _ L); [done|done|congruence]. }
    assert (K3 : forall x, x ∈ lh_ids w -> (kv w' x).1 = (kv w x).1).
    { intros x Hx. destruct (decide (x = e)) as [->|Hne]; [by rewrite K1|by rewrite K2]. }
    split; [|done]. split; try apply L.
    - cbn. rewrite (li_tab _ L). apply Permutation_refl'. apply map_ext_elem. intros x Hx. by rewrite K3.
    - intros x y Hx Hy. rewrite !K3 by done. by apply (li_keys _ L).
  Qed.

  Lemma lstep_Store w k v : LInv w -> lgood w (LStore k v).
  Proof.
    intros L. destruct (mlookup (lh_m w) k) as [e|] eqn:H.
    - destruct (lookup_hit _ _ _ L H) as [He Ek]. destruct (li_ptr _ L e He) as (p & Hp & _).
      destruct (LInv_write w e p v L He Hp) as (L1 & I1 & K1 & K1').
      set (w1 := mk_lhm _ _ _ _ _) in *.
      apply elem_of_list_split in He as (pre & post & Hs).
      destruct (MoveToFront_w w1 e pre post L1) as (d & H2 & L2 & I2 & K2); [by rewrite I1|].
      exists LUnit, (with_d w1 d). split; [|split; [done|]].
      + apply (lmap_ok (fun _ => LUnit) _ _ tt). unfold lh_Store, tab_get, bind at 1. rewrite H.
        assert (H3 : ld (rd (Some e) e_val) w = Ok (Some p, w)) by (unfold ld, rd; rewrite Hp; by destruct w).
        rewrite (bind_ok _ _ _ _ _ H3). exact H2.
      + assert (Hnd : NoDup (pre ++ e :: post)).
        { rewrite <- Hs. apply (inv_nodup _ _ (li_inv _ L) (li_l _ L)). }
        rewrite (labs_as w1 (with_d w1 d) _ I2) by (intros x Hx; apply K2; rewrite I1, Hs; mem).
        cbn [map]. rewrite K1, map_app.
        assert (Hn : e ∉ pre ++ post) by (rewrite <- Permutation_middle in Hnd; by apply NoDup_cons in Hnd as [Hnd _]).
        assert (Q : forall l : list nat, (forall x, x ∈ l -> x ∈ pre ++ post) -> map (kv w1) l = map (kv w) l).
        { intros l Hl. apply map_ext_elem. intros x Hx. apply K1'; [|intros ->; by apply Hn, Hl].
          specialize (Hl x Hx). rewrite Hs. mem. }
        rewrite !Q by (intros x Hx; mem).
        eapply ll_Store; [|exact Ek]. rewrite (labs_split _ _ _ _ Hs), (kv_pair w e). reflexivity.
    - set (p := lh_nent w). set (w1 := mk_lhm (lh_d w) (<[p := (k, v)]> (lh_ent w)) (S p) (lh_m w) (lh_l w)).
      destruct (dl_step None (lh_d w) (DPushFront (lh_l w) (Some p)) (li_inv _ L)) as (r & d & H1 & HI & D).
      { split; intros z Hz; cbn in Hz; [apply elem_of_list_singleton in Hz as ->; apply L|by apply elem_of_nil in Hz]. }
      apply dmap_inv in H1 as (oe & H1 & ->). inversion D; subst.
      match goal with X : inserted _ _ _ _ _ _ _ |- _ => destruct X as (_ & (_ & F & Fv) & (O1 & O2 & _) & (V1 & _)) end.
      cbn [map] in Fv. injection Fv as Fv. destruct (F e) as (F1 & _); [by left|].
      set (w2 := mk_lhm d (<[p := (k, v)]> (lh_ent w)) (S p) (lh_m w ++ [(k, e)]) (lh_l w)).
      exists LUnit, w2. split.
      { apply (lmap_ok (fun _ => LUnit) _ _ tt). unfold lh_Store, tab_get, bind at 1. rewrite H.
        unfold new_ent, the_list, bind at 1 2. fold p. fold w1. cbn [lh_l w1].
        rewrite (bind_ok _ _ _ _ _ (ld_ok _ w1 _ _ H1)). cbn. by rewrite mset_absent. }
      assert (Hids : lh_ids w2 = e :: lh_ids w) by done.
      assert (Hv : forall x, x ∈ lh_ids w -> e_val d x = e_val (lh_d w) x) by (intros x Hx; by apply V1, ids_known).
      assert (K1 : kv w2 e = (k, v)).
      { unfold kv_of. cbn in Fv |- *. rewrite Fv. by rewrite fn_lookup_insert. }
      assert (K2 : forall x, x ∈ lh_ids w -> kv w2 x = kv w x).
      { intros x Hx. unfold kv_of. cbn. rewrite Hv by done. destruct (li_ptr _ L x Hx) as (q & -> & Hq).
        rewrite fn_lookup_insert_ne; [done|]. unfold p. lia. }
      assert (Hne : e ∉ lh_ids w) by (intros X; by apply F1, ids_known).
      assert (L2 : LInv w2).
      { split.
        - done.
        - apply (O2 _ (li_l _ L)).
        - rewrite Hids. intros x Hx. apply elem_of_cons in Hx as [->|Hx]; cbn; [exists p; split; [done|lia]|].
          rewrite Hv by done. destruct (li_ptr _ L x Hx) as (q & Hq & Hq'). exists q. split; [done|]. unfold p. lia.
        - assert (Hx0 : forall x, x ∈ lh_ids w -> e_val d x = e_val d e -> False).
          { intros x Hx. rewrite Hv by done. cbn in Fv. rewrite Fv. destruct (li_ptr _ L x Hx) as (q & -> & Hq). unfold p. intros [= ->]. lia. }
          rewrite Hids. intros x y Hx Hy. cbn.
          apply elem_of_cons in Hx as [->|Hx]; apply elem_of_cons in Hy as [->|Hy]; [done|intros X; by exfalso; eapply Hx0|intros X; by exfalso; eapply Hx0|].
          rewrite !Hv by done. by apply (li_inj _ L).
        - rewrite Hids. cbn [map lh_m w2]. rewrite K1. cbn. rewrite <- Permutation_cons_append. constructor. rewrite (li_tab _ L).
          apply Permutation_refl'. apply map_ext_elem. intros x Hx. by rewrite K2.
        - rewrite Hids. destruct P as [Ps _]. intros x y Hx Hy.
          apply elem_of_cons in Hx as [->|Hx]; apply elem_of_cons in Hy as [->|Hy]; [done|rewrite K1, K2 by done|rewrite K1, K2 by done|].
          + intros E. apply Ps in E. cbn in E. by rewrite (lookup_miss _ _ L H) in E.
          + cbn. intros E. by rewrite (lookup_miss _ _ L H) in E.
          + rewrite !K2 by done. by apply (li_keys _ L). }
      split; [done|]. unfold labs at 2. rewrite Hids. cbn [map]. rewrite K1.
      rewrite (map_ext_elem (kv w2) (kv w)) by done. apply ll_Store_new. by apply absent_of.
  Qed.

  Lemma Remove_hit w k e pre post : LInv w -> mlookup (lh_m w) k = Some e -> lh_ids w = pre ++ e :: post ->
    exists w', lh_Remove eqb k w = Ok (tt, w') /\ LInv w' /\
      lh_ids w' = pre ++ post /\ (forall x, x ∈ pre ++ post -> kv w' x = kv w x) /\
      live (dabs (lh_d w')) e /\ loose (dabs (lh_d w')) e.
  Proof.
    intros L H Hs. destruct (lookup_hit _ _ _ L H) as [He _].
    destruct (dl_step None (lh_d w) (DRemove (lh_l w) e) (li_inv _ L)) as (r & d & H1 & HI & D).
    { split; intros z Hz; cbn in Hz; apply elem_of_list_singleton in Hz as ->; [apply L|by apply ids_live]. }
    apply dmap_inv in H1 as (ov & H1 & ->).
    pose proof (inv_nodup _ _ (li_inv _ L) (li_l _ L)) as Hnd. fold (lh_ids w) in Hnd.
    inversion D; subst; [|exfalso; by match goal with X : _ ∉ _ |- _ => apply X end].
    match goal with X : dseq _ _ = _ |- _ => rename X into Hs2 end.
    cbn in Hs2. fold (lh_ids w) in Hs2. rewrite Hs in Hs2, Hnd. destruct (nodup_pos _ _ _ _ _ Hnd Hs2) as [<- <-].
    match goal with X : only_list _ _ _ _ |- _ => destruct X as (O1 & O2 & O3) end.
    match goal with X : rest _ _ |- _ => destruct X as (V1 & Lv & _) end.
    set (w' := mk_lhm d (lh_ent w) (lh_nent w) (mdel eqb (lh_m w) k) (lh_l w)).
    assert (Hids : lh_ids w' = pre ++ post) by done.
    assert (Hsub : forall x, x ∈ pre ++ post -> x ∈ lh_ids w) by (intros x Hx; rewrite Hs; mem).
    assert (Hv : forall x, x ∈ pre ++ post -> e_val d x = e_val (lh_d w) x) by (intros x Hx; by apply V1, ids_known; [|apply Hsub]).
    assert (K1 : forall x, x ∈ pre ++ post -> kv w' x = kv w x) by (intros x Hx; unfold kv_of; cbn; by rewrite Hv).
    assert (Hne : e ∉ pre ++ post) by (rewrite <- Permutation_middle in Hnd; by apply NoDup_cons in Hnd as [Hnd _]).
    exists w'. split.
    { unfold lh_Remove, tab_get, the_list, bind at 1. rewrite H. unfold bind at 1. by rewrite (bind_ok _ _ _ _ _ (ld_ok _ _ _ _ H1)). }
    split; [split|split; [done|split; [done|split]]].
    - done.
    - apply (O2 _ (li_l _ L)).
    - rewrite Hids. intros x Hx. cbn. rewrite Hv by done. by apply (li_ptr _ L), Hsub.
    - rewrite Hids. intros x y Hx Hy. cbn. rewrite !Hv by done. apply (li_inj _ L); by apply Hsub.
    - rewrite Hids. cbn. destruct (mlookup_some _ _ _ H) as (a & b & k' & E & Ek & ->).
      pose proof (li_tab _ L) as T. rewrite E, Hs, map_app in T. cbn in T. rewrite <- !Permutation_middle, <- map_app in T.
      assert (k' = (kv w e).1) as ->.
      { assert (Hin : (k', e) ∈ (k', e) :: a ++ b) by by left. rewrite T in Hin.
        apply elem_of_cons in Hin as [[= ->]|Hin]; [done|]. apply elem_of_list_In, in_map_iff in Hin as (x & [= <- ->] & _). done. }
      apply Permutation_cons_inv in T. rewrite T. apply Permutation_refl', map_ext_elem. intros x Hx. by rewrite K1.
    - rewrite Hids. intros x y Hx Hy. rewrite !K1 by done. apply (li_keys _ L); by apply Hsub.
    - apply Lv; [by apply ids_known|by apply ids_live].
    - intros l' Hl' X. cbn in Hl', X.
      destruct (remove_ok (lh_d w) (lh_l w) pre e post (li_inv _ L) (li_l _ L) Hs) as (d1 & R1 & _ & _ & _ & _ & _ & R2).
      destruct (inv_elem _ _ _ (li_inv _ L) (li_l _ L) He) as [El _].
      unfold dl_Remove, rd at 1, bind at 1 in H1. rewrite El, bool_decide_eq_true_2 in H1 by done.
      rewrite (bind_ok _ _ _ _ _ R1) in H1. injection H1 as _ <-.
      destruct (inv_elem _ _ _ HI Hl' X) as [E _]. congruence.
  Qed.

  Lemma lstep_Remove w k : LInv w -> lgood w (LRemove k).
  Proof.
    intros L. destruct (mlookup (lh_m w) k) as [e|] eqn:H.
    - destruct (lookup_hit _ _ _ L H) as [He Ek]. apply elem_of_list_split in He as (pre & post & Hs).
      destruct (Remove_hit w k e pre post L H Hs) as (w' & H1 & L' & I1 & K1 & _).
      exists LUnit, w'. split; [by apply (lmap_ok (fun _ => LUnit) _ _ _ _ H1)|]. split; [done|].
      rewrite (labs_as w w' _ I1 K1), map_app. eapply ll_Remove; [|exact Ek].
      rewrite (labs_split _ _ _ _ Hs), (kv_pair w e). reflexivity.
    - exists LUnit, w. split; [|split; [done|]].
      + apply (lmap_ok (fun _ => LUnit) _ _ tt). unfold lh_Remove, tab_get, bind. by rewrite H.
      + apply ll_Remove_none. by apply absent_of.
  Qed.

  Lemma tab_length w : LInv w -> length (lh_m w) = length (lab w).
  Proof. intros L. rewrite (li_tab _ L). unfold labs. by rewrite !map_length. Qed.
  Lemma lstep_Len w : LInv w -> lgood w LLen.
  Proof.
    intros L. exists (LInt (Z.of_nat (length (lab w)))), w. split; [|split; [done|apply ll_Len]].
    rewrite <- tab_length by done. reflexivity.
  Qed.
  Lemma lstep_Clear w : LInv w -> lgood w LClear.
  Proof.
    intros L. destruct (Clear_ok (lh_d w) (lh_l w) (li_inv _ L) (li_l _ L)) as (d & H1 & HI & F & _ & S1 & _).
    set (w' := mk_lhm d (lh_ent w) (lh_nent w) [] (lh_l w)).
    assert (Hids : lh_ids w' = []) by done.
    exists LUnit, w'. split; [|split].
    - apply (lmap_ok (fun _ => LUnit) _ _ tt). unfold lh_Clear, set_tab, the_list, bind at 1 2. cbn [lh_l].
      by rewrite (bind_ok _ _ _ _ _ (ld_ok _ (mk_lhm (lh_d w) (lh_ent w) (lh_nent w) [] (lh_l w)) _ _ H1)).
    - split; rewrite ?Hids; try done.
      + cbn. rewrite (f_nl _ _ _ _ F). apply L.
      + intros e He. by apply elem_of_nil in He.
      + intros e e' He. by apply elem_of_nil in He.
      + intros e e' He. by apply elem_of_nil in He.
    - assert (lab w' = []) as -> by (unfold labs; by rewrite Hids). apply ll_Clear.
  Qed.

  Lemma with_same w : with_d w (lh_d w) = w. Proof. by destruct w. Qed.
  Lemma rd_val w e : LInv w -> e ∈ lh_ids w -> exists p, ld (rd (Some e) e_val) w = Ok (Some p, w) /\ rd_ent (Some p) w = Ok (kv w e, w).
  Proof.
    intros L He. destruct (li_ptr _ L e He) as (p & Hp & _). exists p. split.
    - unfold ld, rd. rewrite Hp. by destruct w.
    - unfold rd_ent, kv_of. by rewrite Hp.
  Qed.
  Lemma ld_Next w pre e post : LInv w -> lh_ids w = pre ++ e :: post -> ld (el_Next (Some e)) w = Ok (head post, w).
  Proof.
    intros L Hs. rewrite (ld_ok _ w _ _ (el_Next_ok (lh_d w) (lh_l w) pre e post (li_inv _ L) (li_l _ L) Hs)).
    by destruct w.
  Qed.
  Lemma ld_Front w : LInv w -> ld (dl_Front (lh_l w)) w = Ok (head (lh_ids w), w).
  Proof.
    intros L. rewrite (ld_ok _ w _ _ (Front_ok (lh_d w) (lh_l w) (li_inv _ L) (li_l _ L))). by destruct w.
  Qed.

  (** The callback keeps the list as it is. *)
  Definition lkeeps {A} (J : lhm K V -> Prop) (ids : list nat) (s : list (K * V)) (f : K -> V -> A -> M (lhm K V) (bool * A)) : Prop :=
    forall x a r w1 w2, J w1 -> LInv w1 -> lh_ids w1 = ids -> lab w1 = s -> x ∈ s ->
      f x.1 x.2 a w1 = Ok (r, w2) -> J w2 /\ LInv w2 /\ lh_ids w2 = ids /\ lab w2 = s.
  Lemma range_loop_ok {A} (J : lhm K V -> Prop) (f : K -> V -> A -> M (lhm K V) (bool * A)) ids s :
    lkeeps J ids s f -> forall post pre a fuel w,
    J w -> LInv w -> lh_ids w = ids -> lab w = s -> ids = pre ++ post -> length post < fuel ->
    lh_range_loop fuel (head post) f a w = lh_fold f a (map (kv w) post) w.
  Proof.
    intros Hk. induction post as [|x post IH]; intros pre a fuel w HJ L Hi Hs Hids Hf; (destruct fuel as [|fuel]; [lia|]); [done|].
    cbn [lh_range_loop head lh_fold map].
    assert (Hx : x ∈ lh_ids w) by (rewrite Hi, Hids; mem).
    destruct (rd_val w x L Hx) as (p & R1 & R2). rewrite (bind_ok _ _ _ _ _ R1), (bind_ok _ _ _ _ _ R2).
    unfold bind at 1 3. destruct (f (kv w x).1 (kv w x).2 a w) as [[[b a'] w1]| |] eqn:E; [|done..].
    cbn [fst snd]. destruct b; [|done].
    destruct (Hk (kv w x) a (true, a') w w1 HJ L Hi Hs) as (HJ1 & L1 & Hi1 & Hs1); [|done|].
    { rewrite <- Hs. by apply elem_of_list_fmap_1. }
    assert (Hs2 : lh_ids w1 = pre ++ x :: post) by by rewrite Hi1.
    rewrite (bind_ok _ _ _ _ _ (ld_Next _ _ _ _ L1 Hs2)).
    rewrite (IH (pre ++ [x])); try done; [|by rewrite <- app_assoc|cbn in Hf; lia].
    f_equal. rewrite <- Hs in Hs1. unfold labs in Hs1. rewrite Hs2, Hi, Hids, !map_app in Hs1.
    apply app_inj_1 in Hs1 as [_ Hs1]; [|by rewrite !map_length]. by injection Hs1.
  Qed.
  Lemma Range_ok {A} (J : lhm K V -> Prop) (f : K -> V -> A -> M (lhm K V) (bool * A)) a fuel w :
    J w -> LInv w -> lkeeps J (lh_ids w) (lab w) f -> length (lh_ids w) < fuel ->
    lh_Range fuel f a w = lh_fold f a (lab w) w.
  Proof.
    intros HJ L Hk Hf. unfold lh_Range, the_list, bind at 1. rewrite (bind_ok _ _ _ _ _ (ld_Front w L)).
    by apply (range_loop_ok J f (lh_ids w) (lab w) Hk _ []).
  Qed.
  Lemma note_fold f s w : forall acc, lh_fold (note f) acc s w = Ok (acc ++ visited (fun x => f x.1 x.2) s, w).
  Proof.
    induction s as [|x s IH]; intros acc; cbn; [by rewrite app_nil_r|].
    unfold bind, note, ret at 1. cbn. destruct x as [k v]. cbn. destruct (f k v); [|done]. rewrite IH. by rewrite <- app_assoc.
  Qed.
  Lemma lstep_Range w f : LInv w -> lgood w (LRange f).
  Proof.
    intros L. exists (LSeen (visited (fun x => f x.1 x.2) (lab w))), w. split; [|split; [done|apply ll_Range]].
    apply (lmap_ok LSeen). rewrite (Range_ok (fun _ => True)); [|done|done| |].
    - by rewrite note_fold.
    - intros x a r w1 w2 _ L1 Hi Hs Hx H. unfold note, ret in H. by injection H as <- <-.
    - pose proof (inv_bound (lh_d w) (lh_l w) (li_inv _ L) (li_l _ L)). unfold lh_ids. lia.
  Qed.

  Lemma lh_step w c : LInv w -> lgood w c.
  Proof.
    intros L. destruct c; [by apply lstep_Load|by apply lstep_Store|by apply lstep_Remove|by apply lstep_Len|
      by apply lstep_Range|by apply lstep_Clear].
  Qed.

  Lemma New_ok : exists w, lh_New zero_k zero = Ok (tt, w) /\ LInv w /\ lab w = [].
  Proof.
    destruct (step_New (None : option nat) (empty_dworld None) (Inv_empty None)) as (r & d & H & HI & D).
    apply dmap_inv in H as (l & H & ->). inversion D; subst.
    set (w := mk_lhm d (fun _ => (zero_k, zero)) 0 [] l).
    assert (Hids : lh_ids w = []) by done.
    exists w. split; [|split].
    - unfold lh_New. by rewrite (bind_ok _ _ _ _ _ (ld_ok _ (lh_blank zero_k zero) _ _ H)).
    - split; rewrite ?Hids; try done.
      + intros e He. by apply elem_of_nil in He.
      + intros e e' He. by apply elem_of_nil in He.
      + intros e e' He. by apply elem_of_nil in He.
    - unfold labs. by rewrite Hids.
  Qed.

  Lemma lh_steps_from w h w' : LInv w -> lh_steps eqb upd zero w h w' -> LInv w' /\ lh_behaves eqb zero (lab w) h (lab w').
  Proof.
    intros L H. induction H as [w|w c r w1 h w2 He Hh IH]; [split; [done|constructor]|].
    destruct (lh_step w c L) as (r1 & w1' & He' & L1 & D). rewrite He in He'. injection He' as <- <-.
    destruct (IH L1) as [L2 B]. split; [done|]. econstructor; [exact D|by apply one_each_of|done].
  Qed.
  Lemma lh_reached_inv w : lh_reached eqb upd zero_k zero w -> LInv w.
  Proof.
    intros (h & w0 & H0 & Hs). destruct New_ok as (w1 & H1 & L & _). rewrite H0 in H1. injection H1 as <-.
    by apply (lh_steps_from w0 h w L Hs).
  Qed.
  Lemma lh_history_spec h w : lh_history eqb upd zero_k zero h w -> lh_behaves eqb zero [] h (lab w) /\ one_each eqb (lab w).
  Proof.
    intros (w0 & H0 & Hs). destruct New_ok as (w1 & H1 & L & E). rewrite H0 in H1. injection H1 as <-.
    destruct (lh_steps_from w0 h w L Hs) as [L' B]. rewrite E in B. split; [done|by apply one_each_of].
  Qed.
  Lemma lh_steps_snoc w h w1 c r w2 : lh_steps eqb upd zero w h w1 -> lh_exec eqb upd zero c w1 = Ok (r, w2) ->
    lh_steps eqb upd zero w (h ++ [(c, r)]) w2.
  Proof. intros H E. induction H; cbn; [econstructor; [done|constructor]|econstructor; [done|auto]]. Qed.
  Lemma lh_total_spec w c : lh_reached eqb upd zero_k zero w ->
    exists r w', lh_exec eqb upd zero c w = Ok (r, w') /\ lh_does eqb zero (lab w) (lab w') c r /\
      lh_reached eqb upd zero_k zero w'.
  Proof.
    intros R. destruct (lh_step w c (lh_reached_inv w R)) as (r & w' & H & L & D). exists r, w'. split_and!; [done|done|].
    destruct R as (h & w0 & H0 & Hs). exists (h ++ [(c, r)]), w0. split; [done|by eapply lh_steps_snoc].
  Qed.

  (** Lookups in the abstract list. *)
  Fixpoint val_at (s : list (K * V)) k : option V :=
    match s with [] => None | x :: s => if eqb x.1 k then Some x.2 else val_at s k end.
  Lemma val_absent (s : list (K * V)) k : absent eqb s k -> val_at s k = None.
  Proof.
    induction s as [|x s IH]; intros H; [done|]. cbn. rewrite (H x) by (by left). apply IH. intros y Hy. apply H. by right.
  Qed.
  Lemma eqb_sym x y : eqb x y = eqb y x.
  Proof. destruct P as [Ps _]. destruct (eqb x y) eqn:A, (eqb y x) eqn:B; auto; apply Ps in A || apply Ps in B; congruence. Qed.
  Lemma eqb_congr x y z : eqb x y = true -> eqb x z = eqb y z.
  Proof.
    intros E. destruct P as [Ps Pt]. destruct (eqb y z) eqn:B; [by eapply Pt|].
    destruct (eqb x z) eqn:A; [|done]. rewrite <- B. symmetry. eapply Pt; [|exact A]. by apply Ps.
  Qed.
  Lemma val_app s1 s2 k : val_at (s1 ++ s2) k = match val_at s1 k with Some v => Some v | None => val_at s2 k end.
  Proof. induction s1 as [|x s1 IH]; [done|]. cbn. by destruct (eqb x.1 k). Qed.
  Lemma one_each_cons (pre : list (K * V)) x post k : one_each eqb (pre ++ x :: post) -> eqb x.1 k = true -> absent eqb (pre ++ post) k.
  Proof.
    intros H E y Hy. destruct (eqb y.1 k) eqn:Ey; [|done]. exfalso.
    assert (Exy : eqb x.1 y.1 = true) by (rewrite (eqb_congr _ _ _ E), eqb_sym; done).
    apply elem_of_app in Hy as [Hy|Hy]; apply elem_of_list_lookup in Hy as [i Hi].
    - pose proof (lookup_lt_Some _ _ _ Hi).
      assert (X : length pre = i).
      { apply (H (length pre) i x y); [by apply list_lookup_middle|by rewrite lookup_app_l|done]. }
      lia.
    - assert (X : length pre = length pre + S i).
      { apply (H (length pre) (length pre + S i) x y); [by apply list_lookup_middle| |done].
        rewrite lookup_app_r by lia. by replace (length pre + S i - length pre) with (S i) by lia. }
      lia.
  Qed.
  Lemma val_middle (pre : list (K * V)) x post k : one_each eqb (pre ++ x :: post) -> val_at (pre ++ x :: post) k = val_at (x :: pre ++ post) k.
  Proof.
    intros H. cbn. destruct (eqb x.1 k) eqn:E.
    - pose proof (one_each_cons _ _ _ _ H E) as A. rewrite val_app. cbn. rewrite E.
      rewrite val_absent; [done|]. intros y Hy. apply A. apply elem_of_app. by left.
    - rewrite !val_app. cbn. by rewrite E.
  Qed.

  Lemma last_stored_spec h : forall s s' k, one_each eqb s -> lh_behaves eqb zero s h s' ->
    last_stored eqb k (val_at s k) h = val_at s' k.
  Proof.
    induction h as [|[c r] h IH]; intros s s' k O B; inversion B; subst; [done|].
    match goal with X : lh_behaves _ _ _ _ _, Y : one_each _ s1 |- _ => specialize (IH s1 s' k Y X); rename X into B1; rename Y into O1 end.
    rewrite <- IH.
    match goal with X : lh_does _ _ _ _ _ _ |- _ => inversion X; subst end; cbn; try done.
    - rewrite val_middle by done. done.
    - rewrite val_middle by done. cbn.
      match goal with X : eqb k' _ = true |- _ => rewrite (eqb_congr _ _ k X) end. by destruct (eqb k0 k).
    - match goal with X : eqb k' _ = true |- _ => pose proof (eqb_congr _ _ k X) as Ek end.
      rewrite val_middle by done. cbn. rewrite Ek. destruct (eqb k0 k) eqn:E; [|done].
      rewrite (val_absent (pre ++ post)); [done|]. eapply one_each_cons; [done|]. cbn. by rewrite Ek.
    - destruct (eqb k0 k) eqn:E; [|done]. rewrite (val_absent s1); [done|].
      intros y Hy. match goal with X : absent _ _ _ |- _ => rewrite <- (X y Hy) end.
      rewrite !(eqb_sym y.1). symmetry. by apply eqb_congr.
  Qed.

  (** Load after a history gives the value last stored and not removed. *)
  Lemma load_last_spec h w k : lh_history eqb upd zero_k zero h w ->
    exists w', lh_Load eqb zero k w =
      Ok (match last_stored eqb k None h with Some v => (v, true) | None => (zero, false) end, w').
  Proof.
    intros H. pose proof (lh_history_spec _ _ H) as [B O].
    assert (R : lh_reached eqb upd zero_k zero w) by by exists h.
    assert (O0 : one_each eqb ([] : list (K * V))) by (intros i j x y; by rewrite lookup_nil).
    pose proof (last_stored_spec h [] _ k O0 B) as E. cbn in E. rewrite E.
    destruct (lh_total_spec w (LLoad k) R) as (r & w' & H1 & D & _).
    cbn in H1. unfold lmap, bind, ret in H1. destruct (lh_Load eqb zero k w) as [[[v b] w1]| |] eqn:El; [|done..].
    injection H1 as <- <-. exists w1. f_equal. f_equal. inversion D; subst.
    - match goal with X : lab w = _ |- _ => rewrite X in O |- * end. rewrite val_middle by done. cbn.
      match goal with X : eqb k' k = true |- _ => by rewrite X end.
    - by rewrite val_absent.
  Qed.

  (** Range with a callback that loads the key it is given *)
  Definition loading {A} : K -> V -> A -> M (lhm K V) (bool * A) := fun k _ a => lh_Load eqb zero k ;;; ret (true, a).
  Lemma loading_loop {A} (fuel : nat) : forall (a : A) w x y t,
    LInv w -> lh_ids w = x :: y :: t -> (forall e, e ∈ [x; y] -> eqb (kv w e).1 (kv w e).1 = true) ->
    lh_range_loop fuel (Some y) loading a w = NoFuel.
  Proof.
    induction fuel as [|fuel IH]; intros a w x y t L Hi Hr; [done|]. cbn [lh_range_loop].
    assert (Hy : y ∈ lh_ids w) by (rewrite Hi; mem).
    destruct (rd_val w y L Hy) as (p & R1 & R2). rewrite (bind_ok _ _ _ _ _ R1), (bind_ok _ _ _ _ _ R2).
    assert (Hl : mlookup (lh_m w) (kv w y).1 = Some y) by (apply lookup_own; [done|done|apply Hr; mem]).
    destruct (Load_hit w (kv w y).1 y [x] t L Hl Hi) as (w1 & H1 & L1 & I1 & K1).
    unfold loading at 1. erewrite bind_ok; [|rewrite (bind_ok _ _ _ _ _ H1); reflexivity]. cbn [fst snd].
    rewrite (bind_ok _ _ _ _ _ (ld_Next w1 [] y (x :: t) L1 I1)). cbn [head].
    apply (IH a w1 y x t); [done|done|]. intros e He.
    assert (e ∈ lh_ids w) by (rewrite Hi; mem). rewrite K1 by done. apply Hr. mem.
  Qed.
  Lemma loading_spec {A} w x y t (a : A) :
    lh_reached eqb upd zero_k zero w -> lab w = x :: y :: t -> eqb x.1 x.1 = true -> eqb y.1 y.1 = true ->
    forall fuel, lh_Range fuel loading a w = NoFuel.
  Proof.
    intros R Hs Hx Hy fuel. pose proof (lh_reached_inv w R) as L. unfold labs in Hs.
    destruct (lh_ids w) as [|e1 [|e2 ids]] eqn:Hi; [done|done|]. cbn in Hs. injection Hs as Ex Ey Et. subst.
    unfold lh_Range, the_list, bind at 1. rewrite (bind_ok _ _ _ _ _ (ld_Front w L)), Hi. cbn [head].
    destruct fuel as [|fuel]; [done|]. cbn [lh_range_loop].
    assert (H1 : e1 ∈ lh_ids w) by (rewrite Hi; mem).
    destruct (rd_val w e1 L H1) as (p & R1 & R2). rewrite (bind_ok _ _ _ _ _ R1), (bind_ok _ _ _ _ _ R2).
    assert (Hl : mlookup (lh_m w) (kv w e1).1 = Some e1) by (by apply lookup_own).
    destruct (Load_hit w (kv w e1).1 e1 [] (e2 :: ids) L Hl Hi) as (w1 & E1 & L1 & I1 & K1).
    unfold loading at 1. erewrite bind_ok; [|rewrite (bind_ok _ _ _ _ _ E1); reflexivity]. cbn [fst snd].
    rewrite (bind_ok _ _ _ _ _ (ld_Next w1 [] e1 (e2 :: ids) L1 I1)). cbn [head].
    apply (loading_loop fuel a w1 e1 e2 ids L1 I1). intros e He. rewrite K1 by (rewrite Hi; mem).
    apply elem_of_cons in He as [->|He]; [done|]. by apply elem_of_list_singleton in He as ->.
  Qed.

  (** Range with a callback that removes the key it is given *)
  Definition removing (f : K -> V -> bool) : K -> V -> list (K * V) -> M (lhm K V) (bool * list (K * V)) :=
    fun k v a => lh_Remove eqb k ;;; note f k v a.
  Lemma removing_spec w x t f fuel :
    lh_reached eqb upd zero_k zero w -> lab w = x :: t -> eqb x.1 x.1 = true ->
    exists w', lh_Range (S (S fuel)) (removing f) [] w = Ok ([x], w') /\ lab w' = t.
  Proof.
    intros R Hs Hx. pose proof (lh_reached_inv w R) as L. unfold labs in Hs.
    destruct (lh_ids w) as [|e1 ids] eqn:Hi; [done|]. cbn in Hs. injection Hs as Ex Et. subst.
    unfold lh_Range, the_list, bind at 1. rewrite (bind_ok _ _ _ _ _ (ld_Front w L)), Hi. cbn [head lh_range_loop].
    assert (H1 : e1 ∈ lh_ids w) by (rewrite Hi; mem).
    destruct (rd_val w e1 L H1) as (p & R1 & R2). rewrite (bind_ok _ _ _ _ _ R1), (bind_ok _ _ _ _ _ R2).
    assert (Hl : mlookup (lh_m w) (kv w e1).1 = Some e1) by (by apply lookup_own).
    destruct (Remove_hit w (kv w e1).1 e1 [] ids L Hl Hi) as (w1 & E1 & L1 & I1 & K1 & Lv & Lo).
    exists w1. split; [|by rewrite (labs_as w w1 _ I1 K1)].
    unfold removing at 1, note. erewrite bind_ok; [|rewrite (bind_ok _ _ _ _ _ E1); reflexivity]. cbn [fst snd].
    assert (En : e_list (lh_d w1) e1 = None).
    { destruct (e_list (lh_d w1) e1) as [l'|] eqn:E; [|done]. destruct (live_in _ _ _ Lv E) as [A B]. by destruct (Lo l'). }
    destruct (f _ _); cbn; rewrite <- kv_pair; [|done].
    erewrite bind_ok; [|apply ld_ok, el_Next_loose, En]. cbn. by destruct w1.
  Qed.

  Lemma lrange_spec {A} w (f : K -> V -> A -> M (lhm K V) (bool * A)) a fuel :
    lh_reached eqb upd zero_k zero w ->
    (forall x a r w1 w2, lh_reached eqb upd zero_k zero w1 -> lh_ids w1 = lh_ids w -> lab w1 = lab w -> x ∈ lab w ->
       f x.1 x.2 a w1 = Ok (r, w2) -> lh_reached eqb upd zero_k zero w2 /\ lh_ids w2 = lh_ids w /\ lab w2 = lab w) ->
    length (lab w) < fuel ->
    lh_Range fuel f a w = lh_fold f a (lab w) w.
  Proof.
    intros R Hf Hl. pose proof (lh_reached_inv w R) as L.
    apply (Range_ok (lh_reached eqb upd zero_k zero)); [done|done| |unfold labs in Hl; by rewrite map_length in Hl].
    intros x b r w1 w2 HJ L1 Hi1 Hs1 Hx H. destruct (Hf x b r w1 w2 HJ Hi1 Hs1 Hx H) as (R2 & I2 & S2).
    split_and!; [done|by apply lh_reached_inv|done|done].
  Qed.
End proofs.
