(** A deletedCallback that stores into the cache: proofs. *)
From Coq Require Import ZifyBool ZifyNat.
From Verif Require Import Base GoMap GoMapSpec RwMapAnyModel RwMapAnySpec RwMapAnyTable RwMapAny RwMapAnyRange SyncCacheAnyModel SyncCacheAnySpec SyncCacheAny SyncCacheStoreModel SyncCacheStoreSpec.

Section proofs.
  Context {K V : Type} (eqb : K -> K -> bool) (P : per eqb) (upd : bool) (veq : V -> V -> bool).
  Context (ord : nat -> list (K * nat) -> list (K * nat)) (Hord : forall n l, ord n l ≡ₚ l).
  Context (stores : V -> list (K * V * Z)).
  Notation C := (cache K V).
  Notation content := (@content K V).
  Notation rel := (rel eqb).
  Implicit Types (s : C) (t : content) (k : K) (e : nat) (v : V).

  Lemma store_ok now k v d s t : rel s t -> exists s', c_Store eqb upd ord now k v d s = Ok (tt, s') /\ rel s' (stored eqb now k v d t) /\ c_log s' = c_log s.
  Proof.
    intros R. destruct (make_ok eqb s t now v d R) as (s1&E1&R1&L1). unfold c_Store, bind. rewrite E1.
    pose proof R1 as (H1&He1&Hn1). destruct (Swap_ok eqb P upd Nat.eqb ord Hord (c_map s1) k (t_new t) (proj1 H1)) as (m2&E2&H2&Hp&Hl).
    unfold on_map, Store, bind. rewrite E2. cbn [ret]. rewrite upto_nil.
    eexists. split; [reflexivity|]. split; [|by rewrite log_upto, app_nil_r, L1].
    apply insert_rel; [done..|]. by eapply has_put.
  Qed.
  Definition put_all (now : nat -> Z) (l : list (K * V * Z)) t : content := fold_left (fun t '(k, v, d) => stored eqb now k v d t) l t.
  Lemma store_all_ok now l : forall s t, rel s t -> exists s', store_all eqb upd ord now l s = Ok (tt, s') /\ rel s' (put_all now l t) /\ c_log s' = c_log s.
  Proof.
    induction l as [|[[k v] d] l IH]; intros s t R; [by exists s|]. destruct (store_ok now k v d s t R) as (s1&E1&R1&L1).
    destruct (IH s1 _ R1) as (s2&E2&R2&L2). exists s2. cbn [store_all]. unfold bind. rewrite E1, E2. split; [done|]. split; [done|]. by rewrite L2.
  Qed.
  (** Called for an entry that was just taken out. *)
  Lemma deleted_s_ok now k e s t : rel s (remove eqb k t) -> exists s', deleted_s eqb upd ord stores now e s = Ok (tt, s') /\
    rel s' (replaced eqb stores now k e t) /\ c_log s' = c_log s ++ [EDel (value t e)].
  Proof.
    intros R. pose proof R as (H&He&Hn).
    assert (R1 : rel (upto s (c_map s) [EDel (value t e)]) (remove eqb k t)) by (by apply rel_upto0).
    destruct (store_all_ok now (stores (value t e)) _ _ R1) as (s'&E1&R2&L2). exists s'. split; [|done].
    unfold deleted_s, bind, ent, log. unfold upto in E1. rewrite He in E1 |- *. exact E1.
  Qed.
  Lemma s_CAD_ok now k e s t : rel s t -> exists s', s_CompareAndDelete eqb upd ord stores now k e s = Ok (bool_decide (t_map t k = Some e), s') /\
    rel s' (if decide (t_map t k = Some e) then replaced eqb stores now k e t else t) /\
    c_log s' = c_log s ++ (if decide (t_map t k = Some e) then [EDel (value t e)] else []).
  Proof.
    intros R. destruct (CAD_ok eqb P false ord Hord s t k e R) as (m'&E1&H1).
    assert (E2 : on_map (CompareAndDelete eqb Nat.eqb k e) s = Ok (bool_decide (t_map t k = Some e), upto s m' [])).
    { unfold c_CompareAndDelete in E1. unfold bind, deleted in E1. destruct (on_map _ s) as [[b s1]| |]; [|done..].
      destruct b; cbn [ret] in E1; injection E1 as Eb Es; subst s1; rewrite <- Eb; f_equal; f_equal; by case_match. }
    unfold s_CompareAndDelete. unfold bind at 1. rewrite E2. destruct (decide (t_map t k = Some e)) as [E|E].
    - rewrite bool_decide_eq_true_2 by done. assert (R1 : rel (upto s m' []) (remove eqb k t)) by (by apply rel_upto).
      destruct (deleted_s_ok now k e _ t R1) as (s'&E3&R3&L3). exists s'. unfold bind. rewrite E3. split; [done|]. split; [done|].
      by rewrite L3, log_upto, app_nil_r.
    - rewrite bool_decide_eq_false_2 by done. eexists. split; [reflexivity|]. split; [by apply rel_upto0|done].
  Qed.
  Lemma s_CAD_found now k e s t : rel s t -> t_map t k = Some e -> exists s', s_CompareAndDelete eqb upd ord stores now k e s = Ok (true, s') /\
    rel s' (replaced eqb stores now k e t) /\ c_log s' = c_log s ++ [EDel (value t e)].
  Proof.
    intros R E. destruct (s_CAD_ok now k e s t R) as (s'&E1&R1&L1). exists s'. rewrite decide_True in R1 by done. rewrite decide_True in L1 by done. by rewrite bool_decide_eq_true_2 in E1.
  Qed.

  (** Entries in the cache exist. *)
  Lemma fit_made t now v d : fit t -> fit (make now v d t).
  Proof. intros [F1 F2]. split; cbn; [intros k e E; specialize (F1 k e E)|intros p Hp; specialize (F2 p Hp)]; clear - F1 F2; lia. Qed.
  Lemma made_ent t now v d e : e < t_new t -> t_ent (make now v d t) e = t_ent t e.
  Proof. intros Hlt. cbn. rewrite fn_lookup_insert_ne; [done|clear - Hlt; lia]. Qed.
  Lemma fit_stored t now k v d : fit t -> fit (stored eqb now k v d t).
  Proof. intros F. apply fit_insert; [by apply fit_made|cbn; apply Nat.lt_succ_diag_r]. Qed.
  Lemma fit_put_all now l : forall t, fit t -> fit (put_all now l t).
  Proof. induction l as [|[[k v] d] l IH]; intros t F; [done|]. cbn. apply IH. by apply fit_stored. Qed.
  Lemma fit_replaced now k e t : fit t -> fit (replaced eqb stores now k e t).
  Proof. intros F. apply fit_put_all. by apply fit_remove. Qed.
  Lemma fit_ls now chk k v d t r t' evs : load_or_store eqb stores now chk k v d t r t' evs -> fit t -> fit t'.
  Proof. induction 1; intros F; auto using fit_stored, fit_made, fit_replaced. Qed.
  Lemma fit_walk now doomed use f l t t' evs b : walk eqb stores now doomed use f l t t' evs b -> fit t -> fit t'.
  Proof. induction 1; intros F; auto using fit_replaced. Qed.
  Lemma fit_through now doomed use f t t' evs : through eqb stores now doomed use f t t' evs -> fit t -> fit t'.
  Proof. intros (l&b&H&_). by eapply fit_walk. Qed.
  Lemma fit_effect_s now chk c t r t' evs : fit t -> effect_s eqb veq stores now chk c t r t' evs -> fit t'.
  Proof.
    intros F. destruct c as [k v d|k|k v d|k|k|k e|k v| |f| |e a|e d]; cbn [effect_s]; try done.
    - intros (_&->&_). by apply fit_stored.
    - repeat case_match; intros (_&->&_); auto using fit_replaced.
    - intros H. by eapply fit_ls.
    - repeat case_match; intros (_&->&_); auto using fit_replaced.
    - repeat case_match; intros (_&->&_); auto using fit_replaced.
    - repeat case_match; intros (_&->&_); auto using fit_replaced.
    - repeat case_match; intros (_&->&_); auto using fit_replaced.
    - intros (_&H). by eapply fit_through.
    - intros (_&H). by eapply fit_through.
    - intros (_&H). by eapply fit_through.
    - intros (_&->&_). exact F.
    - intros (_&->&_). exact F.
  Qed.
  Lemma expired_make t now chk v d e k : fit t -> t_map t k = Some e -> expired (make now v d t) chk e = expired t chk e.
  Proof. intros F Ek. unfold expired, expires. rewrite made_ent; [done|]. by eapply F. Qed.
  Lemma value_make t now v d e k : fit t -> t_map t k = Some e -> value (make now v d t) e = value t e.
  Proof. intros F Ek. unfold value. rewrite made_ent; [done|]. by eapply F. Qed.

  (** One time around the loop of LoadOrStore. *)
  Lemma round_ok fuel now chk k v d s t : rel s t -> fit t ->
    (exists r s' t', s_LoadOrStore eqb upd ord stores now chk (S fuel) k v d s = Ok (r, s') /\ rel s' t' /\ c_log s' = c_log s /\
       load_or_store eqb stores now chk k v d t (RLoaded (fst r) (snd r)) t' []) \/
    (exists e s1, t_map t k = Some e /\ expired t chk e = true /\
       s_LoadOrStore eqb upd ord stores now chk (S fuel) k v d s = s_LoadOrStore eqb upd ord stores now chk fuel k v d s1 /\
       rel s1 (replaced eqb stores now k e (make now v d t)) /\ c_log s1 = c_log s ++ [EDel (value t e)]).
  Proof.
    intros R F. remember (s_LoadOrStore eqb upd ord stores now chk (S fuel) k v d s) as X eqn:EX. cbn [s_LoadOrStore] in EX.
    destruct (make_ok eqb s t now v d R) as (s1&E1&R1&L1). unfold bind at 1 in EX. rewrite E1 in EX.
    destruct (map_LoadOrStore eqb P upd ord Hord s1 _ k (t_new t) R1) as (s2&E2&R2&L2). cbn [t_map make] in E2, R2.
    unfold bind at 1 in EX. rewrite E2 in EX.
    destruct (t_map t k) as [e|] eqn:Ek.
    - unfold bind at 1 in EX. rewrite (expired_eq0 s2 _ chk e (proj1 (proj2 R2))) in EX. rewrite (expired_make t now chk v d e k F Ek) in EX.
      destruct (expired t chk e) eqn:Ex.
      + right. destruct (s_CAD_found now k e s2 _ R2 Ek) as (s3&E3&R3&L3). exists e, s3. split; [done|]. split; [done|].
        unfold bind at 1 in EX. rewrite E3 in EX. split; [done|]. split; [done|]. rewrite L3, L2, L1. rewrite (value_make t now v d e k F Ek). done.
      + left. eexists _, _, _. split; [exact EX|]. split; [exact R2|]. split; [by rewrite L2|]. by constructor.
    - left. eexists _, _, _. split; [exact EX|]. split; [exact R2|]. split; [by rewrite L2|]. by constructor.
  Qed.
  Lemma ls_ok now chk k v d fuel : forall s t r s', rel s t -> fit t -> s_LoadOrStore eqb upd ord stores now chk fuel k v d s = Ok (r, s') ->
    exists t' evs, load_or_store eqb stores now chk k v d t (RLoaded (fst r) (snd r)) t' evs /\ rel s' t' /\ c_log s' = c_log s ++ evs.
  Proof.
    induction fuel as [|fuel IH]; intros s t r s' R F E; [done|].
    destruct (round_ok fuel now chk k v d s t R F) as [(r1&s1&t1&E1&R1&L1&H1)|(e&s1&Ek&Ex&E1&R1&L1)].
    - rewrite E1 in E. injection E as -> ->. exists t1, []. by rewrite app_nil_r.
    - rewrite E1 in E. destruct (IH _ _ _ _ R1 (fit_replaced _ _ _ _ (fit_made _ _ _ _ F)) E) as (t'&evs&H&R'&L').
      exists t', (EDel (value t e) :: evs). split; [by eapply ls_again|]. split; [done|]. rewrite L', L1. by rewrite <- app_assoc.
  Qed.


  (** ** Loops *)
  Notation ok := (RwMapAny.ok (V := nat) eqb).
  Notation find := (mlookup eqb).
  Lemma frame_store now k v d s t u s' : rel s t -> c_Store eqb upd ord now k v d s = Ok (u, s') -> frame eqb (c_map s) (c_map s').
  Proof.
    intros (H&_&_). unfold c_Store, bind, NewEntry, on_map, Store, bind. cbn [c_map].
    destruct (Swap eqb upd ord k (c_new s) (c_map s)) as [[o m']| |] eqn:E1; [|done..]. cbn [ret]. intros [= _ <-]. cbn [c_map].
    by apply (frame_Swap eqb P upd ord Hord Nat.eqb _ _ _ _ _ (proj1 H) E1).
  Qed.
  Lemma frame_store_all now l : forall s t u s', rel s t -> store_all eqb upd ord now l s = Ok (u, s') -> frame eqb (c_map s) (c_map s').
  Proof.
    induction l as [|[[k v] d] l IH]; intros s t u s' R E; cbn [store_all] in E.
    - injection E as _ <-. apply frame_refl.
    - destruct (store_ok now k v d s t R) as (s1&E1&R1&_). unfold bind in E. rewrite E1 in E.
      eapply frame_trans; [by eapply frame_store|by eapply IH].
  Qed.
  Lemma but_CAD now k e s t b s' : rel s t -> s_CompareAndDelete eqb upd ord stores now k e s = Ok (b, s') -> frame_but eqb k (c_map s) (c_map s').
  Proof.
    intros R. pose proof R as (H&He&Hn). unfold s_CompareAndDelete. unfold bind at 1, on_map.
    destruct (CompareAndDelete_ok eqb P Nat.eqb ord Hord (c_map s) k e (proj1 H)) as (m'&E1&Hm&Hd&Hl). rewrite E1.
    pose proof (but_CompareAndDelete eqb P ord Hord Nat.eqb _ _ _ _ _ (proj1 H) E1) as Hb.
    destruct (matches Nat.eqb (find (all (c_map s)) k) e) eqn:Em.
    2:{ intros [= _ <-]. done. }
    set (s1 := mk_cache m' (c_ent s) (c_new s) (c_log s)).
    assert (R1 : rel (upto s1 m' [EDel (value t e)]) (remove eqb k t)).
    { pose proof H as (H1&H2&H3&H4). split; [|done]. apply (has_drop eqb ord Hord (c_map s) m' (t_map t) (t_odd t) k H Hm Hd). rewrite Hl. unfold matches in Em. destruct (find _ k); [cbn; lia|done]. }
    unfold bind, deleted_s, bind, ent, log. cbn [c_ent s1 c_map c_new c_log].
    replace (fst (c_ent s e)) with (value t e) by (unfold value; by rewrite He).
    destruct (store_all_ok now (stores (value t e)) _ _ R1) as (s2&E2&R2&L2).
    change (mk_cache m' (c_ent s) (c_new s) (c_log s ++ [EDel (value t e)])) with (upto s1 m' [EDel (value t e)]).
    rewrite E2. intros [= _ <-]. pose proof (frame_store_all now _ _ _ _ _ R1 E2) as (F1&F2&F3). cbn [c_map upto] in F1, F2, F3.
    destruct Hb as (B1&B2&B3). split; [lia|]. split; [auto|]. intros e1 Hlt Hp. destruct (B3 e1 Hlt Hp) as [Hp1|Hk]; [left|by right].
    apply F3; [lia|done].
  Qed.
  Lemma tracked_in s t k a e : rel s t -> tracked eqb k a (c_map s) -> a_slot (c_map s) a = APtr e -> in_cache eqb t k e.
  Proof.
    intros ((H&_&Hf&Ho)&_) HT Es. destruct (tracked_cur eqb P (c_map s) k a H HT ltac:(unfold ptr; by rewrite Es)) as (k'&Hs&Hin).
    assert (Hall : (k', e) ∈ all (c_map s)) by (apply live_elem; by exists a). destruct (eqb k k) eqn:Ek.
    - left. rewrite <- Hf. apply (find_elem eqb P); [by apply (kok_all eqb)|]. exists k'. split; [done|]. destruct Hs as [->|Hs]; [done|]. by rewrite (per_sym eqb P).
    - right. split; [done|]. assert (k' = k) as ->. { destruct Hs as [->|Hs]; [done|]. rewrite (per_trans eqb P k k' k) in Ek; [done..|by rewrite (per_sym eqb P)]. }
      rewrite <- Ho. apply elem_of_list_In, filter_In. split; [by apply elem_of_list_In|]. unfold odd. cbn. by rewrite Ek.
  Qed.

  (** The bodies of the three loops. *)
  Definition body_s (now : nat -> Z) (doomed : V * Z -> nat -> bool) (use : bool) (f : K -> nat -> bool) (body : K -> nat -> M C bool) : Prop :=
    forall s k e, body k e s =
      if doomed (c_ent s e) e then
        match s_CompareAndDelete eqb upd ord stores now k e s with Ok (_, s1) => Ok (true, s1) | Panic => Panic | NoFuel => NoFuel end
      else Ok (f k e, upto s (c_map s) (shown use k e)).
  Lemma loop_s now doomed use f body : body_s now doomed use f body -> forall es s t,
    rel s t -> fit t -> kok eqb es -> NoDup es.*2 -> (forall k a, (k, a) ∈ es -> tracked eqb k a (c_map s)) ->
    exists s' t' l evs b, loop body es s = Ok (tt, s') /\ walk eqb stores now doomed use f l t t' evs b /\ rel s' t' /\
      c_log s' = c_log s ++ evs /\ l.*1 `sublist_of` es.*1 /\
      (b = false -> forall k a, (k, a) ∈ es -> ptr (c_map s) a -> exists e, (k, e) ∈ l).
  Proof.
    intros Hb. induction es as [|[k a] es IH]; intros s t R F Hk Hn HT.
    - exists s, t, [], [], false. split; [done|]. split; [constructor|]. split; [done|]. split; [by rewrite app_nil_r|]. split; [constructor|].
      intros _ k a Hin. by apply elem_of_nil in Hin.
    - cbn in Hn. apply NoDup_cons in Hn as [Hn1 Hn2]. pose proof Hk as [Hk1 Hk2].
      assert (HT2 : forall k a, (k, a) ∈ es -> tracked eqb k a (c_map s)) by (intros k1 a1 Hin; apply HT; by right).
      cbn [loop]. unfold bind at 1, on_map, e_load, gets. 
      assert (Es0 : mk_cache (c_map s) (c_ent s) (c_new s) (c_log s) = s) by (by destruct s). rewrite Es0.
      destruct (a_slot (c_map s) a) as [| |e] eqn:Es; cbn [val].
      1,2: destruct (IH s t R F Hk2 Hn2 HT2) as (s'&t'&l&evs&b&E1&H1&R1&L1&S1&C1); exists s', t', l, evs, b; split; [done|]; split; [done|];
        split; [done|]; split; [done|]; split; [by constructor|]; intros Hbf k1 a1 Hin Hp;
        apply elem_of_cons in Hin as [Hin|Hin]; [injection Hin as -> ->; unfold ptr in Hp; by rewrite Es in Hp|by eapply C1].
      assert (HI : in_cache eqb t k e). { apply (tracked_in s t k a e R); [apply HT; by left|done]. }
      pose proof R as (HR&He&HN). unfold bind at 1. rewrite (Hb s k e), He. destruct (doomed (t_ent t e) e) eqn:Ed.
      + (* taken out, if the key is [==] to itself *)
        destruct (s_CAD_ok now k e s t R) as (s1&E1&R1&L1). rewrite E1.
        pose proof (but_CAD now k e s t _ _ R E1) as (B1&B2&B3).
        assert (F1 : fit (if decide (t_map t k = Some e) then replaced eqb stores now k e t else t)) by (case_match; auto using fit_replaced).
        destruct (IH s1 _ R1 F1 Hk2 Hn2) as (s'&t'&l&evs&b&E2&H2&R2&L2&S2&C2). { intros k1 a1 Hin. apply B2. by apply HT2. }
        assert (Hc : b = false -> forall k1 a1, (k1, a1) ∈ (k, a) :: es -> ptr (c_map s) a1 -> exists e1, (k1, e1) ∈ (k, e) :: l).
        { intros Hbf k1 a1 Hin Hp. apply elem_of_cons in Hin as [Hin|Hin]; [injection Hin as -> ->; exists e; by left|].
          destruct (C2 Hbf k1 a1 Hin) as (e1&He1); [|exists e1; by right].
          destruct (HT2 k1 a1 Hin) as [Hlt _]. destruct (B3 a1 Hlt Hp) as [Hp1|(k2&Hin2&E2')]; [done|]. exfalso.
          destruct (tracked_cur eqb P (c_map s) k1 a1 (proj1 HR) (HT2 k1 a1 Hin) Hp) as (k3&Hs3&Hin3).
          assert (k3 = k2) as ->.
          { assert (Hnd : NoDup (cur (c_map s)).*2).
            { pose proof (proj1 HR) as Hi. unfold cur. rewrite dirty_map_default. destruct (a_amended (c_map s)); [apply (i_dn _ _ _ _ _ _ Hi)|apply (i_rn _ _ _ _ _ _ Hi)]. }
            apply elem_of_list_lookup in Hin2 as [i Hi]. apply elem_of_list_lookup in Hin3 as [j Hj].
            assert (i = j). { eapply (NoDup_lookup _ _ _ a1 Hnd); rewrite list_lookup_fmap; [by rewrite Hi|by rewrite Hj]. }
            subst j. rewrite Hi in Hj. by injection Hj as ->. }
          assert (Ekk : eqb k k1 = true).
          { rewrite (per_sym eqb P). destruct Hs3 as [->|Hs3]; [done|]. by eapply (per_trans eqb P). }
          assert (a = a1). { apply (kok_same eqb P ((k, a) :: es) (k, a) (k1, a1) Hk); [by left|by right|done]. }
          subst a1. apply Hn1. apply elem_of_list_fmap. by exists (k1, a). }
        destruct (decide (t_map t k = Some e)) as [Et|Et].
        * exists s', t', ((k, e) :: l), (EDel (value t e) :: evs), b. split; [done|]. split; [by apply w_out|]. split; [done|].
          split; [by rewrite L2, L1, <- app_assoc|]. split; [by constructor|done].
        * destruct HI as [HI|[Hk0 Hodd]]; [done|]. exists s', t', ((k, e) :: l), evs, b. split; [done|]. split; [by apply w_odd|]. split; [done|].
          split; [by rewrite L2, L1, app_nil_r|]. split; [by constructor|done].
      + assert (R1 : rel (upto s (c_map s) (shown use k e)) t) by (by apply rel_upto0). destruct (f k e) eqn:Ef.
        * destruct (IH _ t R1 F Hk2 Hn2 HT2) as (s'&t'&l&evs&b&E2&H2&R2&L2&S2&C2).
          exists s', t', ((k, e) :: l), (shown use k e ++ evs), b. split; [done|]. split; [by apply w_use|]. split; [done|].
          split; [by rewrite L2, log_upto, <- app_assoc|]. split; [by constructor|].
          intros Hbf k1 a1 Hin Hp. apply elem_of_cons in Hin as [Hin|Hin]; [injection Hin as -> ->; exists e; by left|].
          destruct (C2 Hbf k1 a1 Hin Hp) as (e1&He1). exists e1. by right.
        * exists (upto s (c_map s) (shown use k e)), t, [(k, e)], (shown use k e), true. split; [done|]. split; [by apply w_stop|]. split; [done|].
          split; [done|]. split; [cbn; constructor; apply sublist_nil_l|done].
  Qed.
  Lemma through_ok now doomed use f body s t : body_s now doomed use f body -> rel s t -> fit t ->
    exists s' t' evs, map_Range ord body s = Ok (tt, s') /\ through eqb stores now doomed use f t t' evs /\ rel s' t' /\ c_log s' = c_log s ++ evs.
  Proof.
    intros Hb (H&He&Hn) F. unfold map_Range. unfold bind at 1, on_map.
    assert (exists m1, (m0 <- gets id ;; (if a_amended m0 then promote else ret tt) ;;; m1 <- gets id ;; iterate ord (a_read m1)) (c_map s) =
        Ok (ord (a_its m1) (a_read m1), mk_amap (a_read m1) (a_amended m1) (a_dirty m1) (a_len m1) (a_misses m1) (a_slot m1) (a_new m1) (S (a_its m1))) /\
        quiet eqb (c_map s) m1 /\ a_amended m1 = false) as (m1&E1&Hq&Ha).
    { unfold bind at 1, gets at 1, id. cbv beta iota. destruct (a_amended (c_map s)) eqn:Ea.
      - destruct (promote_quiet eqb (c_map s) (proj1 H) Ea) as (m1&E1&Hq&_&Ha). exists m1. unfold bind at 1. rewrite E1. done.
      - exists (c_map s). split; [done|]. split; [by apply quiet_refl; apply H|done]. }
    rewrite E1. set (m2 := mk_amap _ _ _ _ _ _ _ _). rewrite upto_nil.
    pose proof (has_quiet eqb _ _ _ _ H Hq) as H1. assert (H2 : has eqb m2 (t_map t) (t_odd t)) by exact H1.
    pose proof (Hord (a_its m1) (a_read m1)) as Hp. set (es := ord (a_its m1) (a_read m1)) in *.
    assert (R2 : rel (upto s m2 []) t) by (split; [exact H2|done]).
    assert (Hk : kok eqb es). { eapply (kok_perm eqb P); [symmetry; exact Hp|]. apply (i_rm _ _ _ _ _ _ (proj1 H1)). }
    destruct (loop_s now doomed use f body Hb es _ t R2 F Hk) as (s'&t'&l&evs&b&E2&H3&R3&L3&S3&C3).
    { rewrite Hp. apply (i_rn _ _ _ _ _ _ (proj1 H1)). }
    { intros k a Hin. rewrite Hp in Hin. split; [apply (i_rlt _ _ _ _ _ _ (proj1 H1) (k, a) Hin)|]. left. exists k. split; [by left|]. by left. }
    exists s', t', evs. split; [exact E2|]. split; [|split; [done|by rewrite L3, log_upto, app_nil_r]].
    exists l, b. split; [done|]. split; [by eapply (apart_sub eqb P es)|]. intros Hbf k Hf.
    destruct H2 as (Hok&_&Hfind&_). rewrite <- Hfind, (find_all eqb P m2 k Hok) in Hf.
    destruct (find (cur m2) k) as [a|] eqn:Ef; [|done]. pose proof Ef as Ef2. apply (find_elem eqb P) in Ef2 as (k0&Hin&E0); [|by apply (kok_cur eqb)].
    unfold cur in Hin. cbn in Hin. rewrite Ha in Hin.
    destruct (C3 Hbf k0 a) as (e&He0); [by rewrite Hp| |by exists k0, e].
    unfold ptr. cbn in Hf |- *. by destruct (a_slot m1 a).
  Qed.

  Definition loops (c : c_call K V) : bool := match c with CLoadOrStore _ _ _ => true | _ => false end.
  Lemma effect_s_ok fuel now chk c s t : rel s t -> fit t -> loops c = false ->
    exists r s' t' evs, s_exec eqb upd veq ord stores fuel now chk c s = Ok (r, s') /\ effect_s eqb veq stores now chk c t r t' evs /\ rel s' t' /\ c_log s' = c_log s ++ evs.
  Proof.
    intros R F Hl. pose proof R as (H&He&Hn). destruct c as [k v d|k|k v d|k|k|k e|k v| |f| |e a|e d]; cbn [s_exec effect_s] in *; try done; clear Hl.
    - destruct (store_ok now k v d s t R) as (s1&E1&R1&L1). unfold bind. rewrite E1.
      eexists _, _, _, _. split; [reflexivity|]. split; [done|]. split; [done|]. by rewrite app_nil_r.
    - destruct (map_Load eqb P s t k R) as (s1&E1&R1&L1). unfold s_Load, bind at 1. unfold bind at 1. rewrite E1.
      destruct (t_map t k) as [e|] eqn:Ek.
      + unfold bind at 1. rewrite (expired_eq0 s1 t chk e); [|apply R1]. destruct (expired t chk e).
        * destruct (s_CAD_found now k e s1 t R1 Ek) as (s2&E2&R2&L2). unfold bind at 1. rewrite E2. cbn [ret].
          eexists _, _, _, _. split; [reflexivity|]. split; [done|]. split; [done|]. by rewrite L2, L1.
        * eexists _, _, _, _. split; [reflexivity|]. split; [done|]. split; [done|]. by rewrite app_nil_r.
      + eexists _, _, _, _. split; [reflexivity|]. split; [done|]. split; [done|]. by rewrite app_nil_r.
    - destruct (map_LoadAndDelete eqb P ord Hord s t k R) as (s1&E1&R1&L1). unfold s_Delete, bind at 1. unfold bind at 1. rewrite E1.
      destruct (t_map t k) as [e|] eqn:Ek.
      + destruct (deleted_s_ok now k e s1 t R1) as (s2&E2&R2&L2). rewrite E2. eexists _, _, _, _. split; [reflexivity|]. split; [done|]. split; [done|]. by rewrite L2, L1.
      + eexists _, _, _, _. split; [reflexivity|]. split; [done|]. split; [by eapply remove_none|]. by rewrite app_nil_r.
    - destruct (map_LoadAndDelete eqb P ord Hord s t k R) as (s1&E1&R1&L1). unfold s_LoadAndDelete, bind at 1. unfold bind at 1. rewrite E1.
      destruct (t_map t k) as [e|] eqn:Ek.
      + unfold bind at 1. rewrite (expired_eq0 s1 t chk e); [|apply R1].
        destruct (deleted_s_ok now k e s1 t R1) as (s2&E2&R2&L2). unfold bind at 1. rewrite E2. eexists _, _, _, _. split; [reflexivity|]. split; [done|]. split; [done|]. by rewrite L2, L1.
      + eexists _, _, _, _. split; [reflexivity|]. split; [done|]. split; [by eapply remove_none|]. by rewrite app_nil_r.
    - destruct (s_CAD_ok now k e s t R) as (s1&E1&R1&L1). unfold bind. rewrite E1. eexists _, _, _, _. split; [reflexivity|]. split; [|split; [exact R1|exact L1]].
      destruct (decide (t_map t k = Some e)); [by rewrite bool_decide_eq_true_2|by rewrite bool_decide_eq_false_2].
    - destruct (map_Load eqb P s t k R) as (s1&E1&R1&L1). unfold s_CompareValueAndDelete, s_Load, bind at 1. unfold bind at 1. unfold bind at 1. rewrite E1.
      destruct (t_map t k) as [e|] eqn:Ek.
      + unfold bind at 1. rewrite (expired_eq0 s1 t chk e); [|apply R1]. destruct (expired t chk e).
        * destruct (s_CAD_found now k e s1 t R1 Ek) as (s2&E2&R2&L2). unfold bind at 1. rewrite E2. cbn [ret].
          eexists _, _, _, _. split; [reflexivity|]. split; [done|]. split; [done|]. by rewrite L2, L1.
        * unfold ret at 1. unfold bind at 1, ent at 1. replace (fst (c_ent s1 e)) with (value t e) by (unfold value; by rewrite (proj1 (proj2 R1))).
          destruct (veq v (value t e)).
          -- destruct (s_CAD_found now k e s1 t R1 Ek) as (s2&E2&R2&L2). rewrite E2.
             eexists _, _, _, _. split; [reflexivity|]. split; [done|]. split; [done|]. by rewrite L2, L1.
          -- eexists _, _, _, _. split; [reflexivity|]. split; [done|]. split; [done|]. by rewrite app_nil_r.
      + eexists _, _, _, _. split; [reflexivity|]. split; [done|]. split; [done|]. by rewrite app_nil_r.
    - destruct (through_ok now (fun _ _ => true) false (fun _ _ => true) (fun k e => s_CompareAndDelete eqb upd ord stores now k e ;;; ret true) s t) as (s'&t'&evs&E1&H1&R1&L1); [|done|done|].
      { intros s0 k e. unfold bind, ret. by destruct (s_CompareAndDelete eqb upd ord stores now k e s0) as [[]| |]. }
      unfold bind, s_Clear. rewrite E1. eexists _, _, _, _. split; [reflexivity|]. split; [by split|]. done.
    - unfold s_Range. set (body := fun k e => x <- IsExpired chk e ;; _).
      destruct (through_ok now (fun x e => snd x <? chk e / 1000000)%Z true f body s t) as (s'&t'&evs&E1&H1&R1&L1); [|done|done|].
      { intros s0 k e. unfold body, IsExpired, bind, ent, ret, milli. destruct (_ <? _)%Z; [|done]. by destruct (s_CompareAndDelete eqb upd ord stores now k e s0) as [[]| |]. }
      unfold bind. rewrite E1. eexists _, _, _, _. split; [reflexivity|]. split; [by split|]. done.
    - unfold s_trim. set (body := fun k e => x <- ent e ;; _).
      destruct (through_ok now (fun x _ => snd x <? chk 0%nat / 1000000)%Z false (fun _ _ => true) body s t) as (s'&t'&evs&E1&H1&R1&L1); [|done|done|].
      { intros s0 k e. unfold body, bind, ent, ret, milli. destruct (_ <? _)%Z; [|unfold shown; by rewrite upto_id]. by destruct (s_CompareAndDelete eqb upd ord stores now k e s0) as [[]| |]. }
      unfold bind. rewrite E1. eexists _, _, _, _. split; [reflexivity|]. split; [by split|]. done.
    - destruct (effect_ok eqb P upd veq false ord Hord now (CSetExpiration e a) s t R F) as (r&s'&t'&evs&E1&H1&R1&L1). exists r, s', t', evs. done.
    - destruct (effect_ok eqb P upd veq false ord Hord now (CAddExpiration e d) s t R F) as (r&s'&t'&evs&E1&H1&R1&L1). exists r, s', t', evs. done.
  Qed.

  Lemma history_s fuel cs : forall s t rs s', rel s t -> fit t -> s_run eqb upd veq ord stores fuel s cs = Some (rs, s') ->
    exists t' evs, effects_s eqb veq stores t cs rs t' evs /\ rel s' t' /\ fit t' /\ c_log s' = c_log s ++ evs.
  Proof.
    induction cs as [|[[now chk] c] cs IH]; intros s t rs s' R F E; cbn [s_run] in E.
    - injection E as <- <-. exists t, []. cbn. by rewrite app_nil_r.
    - destruct (s_exec eqb upd veq ord stores fuel now chk c s) as [[r s1]| |] eqn:E1; [|done..].
      destruct (s_run _ _ _ _ _ _ s1 cs) as [[rs1 s2]|] eqn:E2; [|done]. injection E as <- <-.
      assert (exists t1 evs1, effect_s eqb veq stores now chk c t r t1 evs1 /\ rel s1 t1 /\ c_log s1 = c_log s ++ evs1) as (t1&evs1&H1&R1&L1).
      { destruct (loops c) eqn:El.
        - destruct c; try done. cbn [s_exec] in E1. unfold bind in E1.
          destruct (s_LoadOrStore _ _ _ _ _ _ _ _ _ _ s) as [[r0 s0]| |] eqn:E0; [|done..]. injection E1 as <- <-. cbn [effect_s]. by eapply ls_ok.
        - destruct (effect_s_ok fuel now chk c s t R F El) as (r'&s'&t'&evs&E'&H'&R'&L'). rewrite E1 in E'. injection E' as <- <-. by exists t', evs. }
      destruct (IH _ _ _ _ R1 (fit_effect_s _ _ _ _ _ _ _ F H1) E2) as (t2&evs2&H2&R2&F2&L2).
      exists t2, (evs1 ++ evs2). split; [cbn; by exists t1, evs1, evs2|]. split; [done|]. split; [done|]. by rewrite L2, L1, <- app_assoc.
  Qed.

  (** ** LoadOrStore returns if what the callback stores has not expired *)
  Definition fine chk k t : Prop := forall e, t_map t k = Some e -> expired t chk e = false.
  Lemma fine_stored now chk k j v d t : fit t -> (forall e, (chk e / 1000000 <= (now e + d) / 1000000)%Z) -> fine chk k t -> fine chk k (stored eqb now j v d t).
  Proof.
    intros F Hd Hf e. unfold stored, insert. destruct (eqb j j); cbn [t_map with_map make].
    - unfold fupd. destruct (eqb j k).
      + intros [= <-]. unfold expired, expires. cbn. rewrite fn_lookup_insert. cbn. specialize (Hd (t_new t)). lia.
      + intros Ek. rewrite <- (Hf e Ek). change (expired (make now v d t) chk e = expired t chk e). by eapply expired_make.
    - intros Ek. rewrite <- (Hf e Ek). change (expired (make now v d t) chk e = expired t chk e). by eapply expired_make.
  Qed.
  Lemma fine_put_all now chk k l : forall t, fit t -> (forall j v d, (j, v, d) ∈ l -> forall e, (chk e / 1000000 <= (now e + d) / 1000000)%Z) ->
    fine chk k t -> fine chk k (put_all now l t).
  Proof.
    induction l as [|[[j v] d] l IH]; intros t F Hl Hf; [done|]. cbn. apply IH; [by apply fit_stored| |].
    - intros j' v' d' Hin. apply (Hl j' v' d'). by right.
    - apply fine_stored; [done| |done]. apply (Hl j v d). by left.
  Qed.
  Lemma fine_replaced now chk k e t s : rel s t -> fit t -> t_map t k = Some e -> fresh_stores stores now chk -> fine chk k (replaced eqb stores now k e t).
  Proof.
    intros R F Ek Hs. unfold replaced. apply fine_put_all; [by apply fit_remove| |].
    - intros j v d Hin. by apply (Hs (value t e) j v d).
    - intros e'. cbn. unfold fupd. rewrite (rel_self eqb P s t k e R Ek). done.
  Qed.
  Lemma ls_returns fuel now chk k v d s t : rel s t -> fit t -> fresh_stores stores now chk -> exists r s', s_LoadOrStore eqb upd ord stores now chk (S (S fuel)) k v d s = Ok (r, s').
  Proof.
    intros R F Hs. destruct (round_ok (S fuel) now chk k v d s t R F) as [(r1&s1&t1&E1&_)|(e&s1&Ek&Ex&E1&R1&L1)]; [by exists r1, s1|].
    rewrite E1. assert (Fm : fit (make now v d t)) by (by apply fit_made).
    destruct (make_ok eqb s t now v d R) as (s0&_&R0&_).
    pose proof (fine_replaced now chk k e (make now v d t) s0 R0 Fm Ek Hs) as Hf.
    destruct (round_ok fuel now chk k v d s1 _ R1 (fit_replaced _ _ _ _ Fm)) as [(r2&s2&t2&E2&_)|(e2&s2&Ek2&Ex2&_)]; [by exists r2, s2|].
    rewrite (Hf e2 Ek2) in Ex2. done.
  Qed.
  (** ** and does not if it stores expired ones again and again *)
  Lemma ls_forever now chk k v d fuel : (forall t e, fit t -> t_map t k = Some e -> expired t chk e = true ->
      exists e', t_map (replaced eqb stores now k e (make now v d t)) k = Some e' /\ expired (replaced eqb stores now k e (make now v d t)) chk e' = true) ->
    forall s t e, rel s t -> fit t -> t_map t k = Some e -> expired t chk e = true -> s_LoadOrStore eqb upd ord stores now chk fuel k v d s = NoFuel.
  Proof.
    intros Hr. induction fuel as [|fuel IH]; intros s t e R F Ek Ex; [done|].
    destruct (round_ok fuel now chk k v d s t R F) as [(r1&s1&t1&E1&_&_&H1)|(e1&s1&Ek1&Ex1&E1&R1&L1)].
    - inversion H1; congruence.
    - rewrite Ek in Ek1. injection Ek1 as <-. rewrite E1. destruct (Hr t e F Ek Ex) as (e'&Ek'&Ex').
      eapply IH; [exact R1|by apply fit_replaced, fit_made|exact Ek'|exact Ex'].
  Qed.

  (** ** What is found after Clear and trim *)
  Definition cong t : Prop := forall k j, eqb k j = true -> t_map t j = t_map t k.
  Lemma rel_cong s t : rel s t -> cong t.
  Proof. intros (H&_) k j E. by apply (has_same eqb P _ _ _ _ _ H). Qed.
  Lemma cong_fupd (g : K -> option nat) k o : (forall i j, eqb i j = true -> g j = g i) -> forall i j, eqb i j = true -> fupd eqb g k o j = fupd eqb g k o i.
  Proof.
    intros Hg i j E. unfold fupd. replace (eqb k j) with (eqb k i); [destruct (eqb k i); auto|].
    destruct (eqb k i) eqn:E1, (eqb k j) eqn:E2; try done.
    - by rewrite (per_trans eqb P k i j) in E2.
    - rewrite (per_trans eqb P k j i) in E1; [done..|by rewrite (per_sym eqb P)].
  Qed.
  Lemma cong_stored now k v d t : cong t -> cong (stored eqb now k v d t).
  Proof. intros Hc. unfold stored, insert. destruct (eqb k k); [|exact Hc]. intros i j. cbn. by apply cong_fupd. Qed.
  Lemma cong_replaced now k e t : cong t -> cong (replaced eqb stores now k e t).
  Proof.
    intros Hc. unfold replaced. assert (Hr : cong (remove eqb k t)) by (intros i j; cbn; by apply cong_fupd).
    revert Hr. generalize (remove eqb k t). induction (stores (value t e)) as [|[[k1 v1] d1] l IH]; intros t1 Hr; [done|]. cbn. apply IH. by apply cong_stored.
  Qed.
  Lemma put_all_new now l : forall t, t_new t <= t_new (put_all now l t) /\ (forall e, e < t_new t -> t_ent (put_all now l t) e = t_ent t e) /\
    (forall k e, t_map (put_all now l t) k = Some e -> t_new t <= e \/ t_map t k = Some e).
  Proof.
    induction l as [|[[k v] d] l IH]; intros t; [cbn; auto|]. cbn [put_all fold_left]. destruct (IH (stored eqb now k v d t)) as (A1&A2&A3).
    assert (Hn : t_new (stored eqb now k v d t) = S (t_new t)) by (unfold stored, insert; by destruct (eqb k k)).
    assert (He : forall e, e < t_new t -> t_ent (stored eqb now k v d t) e = t_ent t e).
    { intros e Hlt. rewrite <- (made_ent t now v d e Hlt). unfold stored, insert. by destruct (eqb k k). }
    unfold put_all in *. split; [lia|]. split.
    - intros e Hlt. rewrite A2 by lia. by apply He.
    - intros k1 e E1. destruct (A3 k1 e E1) as [H1|H1]; [left; lia|]. unfold stored, insert in H1. destruct (eqb k k); [|by right].
      cbn in H1. unfold fupd in H1. destruct (eqb k k1); [|by right]. injection H1 as <-. by left.
  Qed.
  Lemma replaced_new now k e t : t_new t <= t_new (replaced eqb stores now k e t) /\
    (forall e1, e1 < t_new t -> t_ent (replaced eqb stores now k e t) e1 = t_ent t e1) /\
    (forall k1 e1, t_map (replaced eqb stores now k e t) k1 = Some e1 -> t_new t <= e1 \/ t_map t k1 = Some e1 /\ eqb k k1 = false).
  Proof.
    destruct (put_all_new now (stores (value t e)) (remove eqb k t)) as (A1&A2&A3). split; [exact A1|]. split; [exact A2|].
    intros k1 e1 E1. destruct (A3 k1 e1 E1) as [H1|H1]; [by left|]. right. cbn in H1. unfold fupd in H1. by destruct (eqb k k1).
  Qed.
  Lemma walk_found now doomed use f l t t' evs b n : walk eqb stores now doomed use f l t t' evs b -> fit t -> cong t -> n <= t_new t ->
    forall k e, t_map t' k = Some e -> n <= e \/
      t_map t k = Some e /\ (doomed (t_ent t e) e = false \/ forall k1 e1, (k1, e1) ∈ l -> eqb k1 k = false).
  Proof.
    assert (Hsee : forall t k e k0 e0, cong t -> in_cache eqb t k0 e0 -> t_map t k = Some e -> eqb k0 k = true -> e0 = e).
    { intros t0 k e k0 e0 Hc Hi Ek E0. destruct Hi as [Hi|[Hi _]].
      - rewrite (Hc k0 k E0), Hi in Ek. by injection Ek.
      - rewrite (per_trans eqb P k0 k k0) in Hi; [done..|by rewrite (per_sym eqb P)]. }
    induction 1 as [t|t k0 e0 l t' evs b Hm Hd Hw IH|t k0 e0 l t' evs b Hk Ho Hd Hw IH|t k0 e0 l t' evs b Hi Hd Hf Hw IH|t k0 e0 Hi Hd Hf]; intros F Hc Hn k e Ek.
    - right. split; [done|]. right. intros k1 e1 Hin. by apply elem_of_nil in Hin.
    - destruct (replaced_new now k0 e0 t) as (A1&A2&A3).
      destruct (IH (fit_replaced _ _ _ _ F) (cong_replaced _ _ _ _ Hc) ltac:(lia) k e Ek) as [H1|[H1 H2]]; [by left|].
      destruct (A3 k e H1) as [H3|[H3 H4]]; [left; lia|]. right. split; [done|]. destruct H2 as [H2|H2].
      + left. rewrite <- (A2 e); [done|]. by eapply F.
      + right. intros k1 e1 [[= -> ->]|Hin]%elem_of_cons; [done|by eapply H2].
    - destruct (IH F Hc Hn k e Ek) as [H1|[H1 H2]]; [by left|]. right. split; [done|]. destruct H2 as [H2|H2]; [by left|right].
      intros k1 e1 [[= -> ->]|Hin]%elem_of_cons; [|by eapply H2]. destruct (eqb k0 k) eqn:E0; [|done].
      rewrite (per_trans eqb P k0 k k0) in Hk; [done..|by rewrite (per_sym eqb P)].
    - destruct (IH F Hc Hn k e Ek) as [H1|[H1 H2]]; [by left|]. right. split; [done|]. destruct H2 as [H2|H2]; [by left|].
      destruct (eqb k0 k) eqn:E0.
      + left. by rewrite (Hsee t k e k0 e0 Hc Hi H1 E0) in Hd.
      + right. intros k1 e1 [[= -> ->]|Hin]%elem_of_cons; [done|by eapply H2].
    - right. split; [done|]. destruct (eqb k0 k) eqn:E0.
      + left. by rewrite (Hsee t k e k0 e0 Hc Hi Ek E0) in Hd.
      + right. intros k1 e1 [= -> ->]%elem_of_list_singleton. done.
  Qed.
  Lemma walk_all now doomed use l t t' evs b : walk eqb stores now doomed use (fun _ _ => true) l t t' evs b -> b = false.
  Proof. by induction 1. Qed.
  Lemma through_found now doomed use s t t' evs : rel s t -> fit t -> through eqb stores now doomed use (fun _ _ => true) t t' evs ->
    forall k e, t_map t' k = Some e -> t_new t <= e \/ t_map t k = Some e /\ doomed (t_ent t e) e = false.
  Proof.
    intros R F (l&b&Hw&_&Hl) k e Ek. destruct (walk_found _ _ _ _ _ _ _ _ _ (t_new t) Hw F (rel_cong _ _ R) ltac:(lia) k e Ek) as [H1|[H1 [H2|H2]]]; [by left|by right|].
    exfalso. destruct (Hl (walk_all _ _ _ _ _ _ _ _ Hw) k ltac:(by rewrite H1)) as (k'&e'&Hin&E'). by rewrite (H2 k' e' Hin) in E'.
  Qed.
End proofs.
