(** The cache used by one goroutine does what SyncCacheAnySpec.v says, for every key type. *)
From Coq Require Import ZifyBool ZifyNat.
From Verif Require Import Base GoMap GoMapSpec RwMapAnyModel RwMapAnySpec RwMapAnyTable RwMapAny SyncCacheAnyModel SyncCacheAnySpec.

Section proofs.
  Context {K V : Type} (eqb : K -> K -> bool) (P : per eqb) (upd : bool) (veq : V -> V -> bool) (has_cb : bool).
  Context (ord : nat -> list (K * nat) -> list (K * nat)) (Hord : forall n l, ord n l ≡ₚ l).
  Notation C := (cache K V).
  Notation content := (@content K V).
  Notation find := (mlookup eqb).
  Notation kok := (kok eqb).
  Notation ok := (RwMapAny.ok (V := nat) eqb).
  Notation all := (RwMapAny.all (V := nat)).
  Notation odds := (List.filter (odd (V := nat) eqb)).
  Implicit Types (s : C) (m : amap K nat) (t : content) (k : K) (e : nat) (v : V).

  (** [m] contains the map and the odd pairs. *)
  Definition has m (g : K -> option nat) (o : list (K * nat)) : Prop :=
    ok m /\ a_len m = Z.of_nat (length (all m)) /\ (forall k, find (all m) k = g k) /\ odds (all m) ≡ₚ o.
  Definition rel s t : Prop := has (c_map s) (t_map t) (t_odd t) /\ c_ent s = t_ent t /\ c_new s = t_new t.

  Lemma has_ext m g g' o : has m g o -> (forall k, g k = g' k) -> has m g' o.
  Proof. intros (H1&H2&H3&H4) He. split; [done|]. split; [done|]. split; [|done]. intros k. by rewrite H3. Qed.
  Lemma has_quiet m m' g o : has m g o -> quiet eqb m m' -> has m' g o.
  Proof.
    intros (H1&H2&H3&H4) Hq. pose proof (quiet_all eqb _ _ Hq) as Hqa. destruct Hq as (Hq1&_&_&Hq4). unfold has. rewrite Hqa, Hq4. done.
  Qed.
  Lemma has_perm m m' g o : has m g o -> ok m' -> all m' ≡ₚ all m -> a_len m' = a_len m -> has m' g o.
  Proof.
    intros (H1&H2&H3&H4) H5 Hp Hl. split; [done|]. rewrite (Permutation_length Hp), Hl. split; [done|].
    split.
    - intros k. rewrite <- H3. apply (find_perm eqb P); [by apply (kok_all eqb)|done].
    - rewrite <- H4. by apply (filter_perm eqb).
  Qed.
  Lemma has_put m m' g o k e : has m g o -> ok m' -> put eqb (all m) k e (all m') -> a_len m' = (a_len m + new1 (find (all m) k))%Z ->
    has m' (if eqb k k then fupd eqb g k (Some e) else g) (if eqb k k then o else (k, e) :: o).
  Proof.
    intros (H1&H2&H3&H4) H5 (Hp1&Hp2&Hp3&Hp4) Hl. split; [done|]. split; [|split].
    - destruct (find (all m) k); cbn [new1 is_found] in *; lia.
    - intros j. rewrite Hp2. rewrite H3. destruct (eqb k k) eqn:E; [done|]. destruct (eqb k j) eqn:Ej; [|done].
      rewrite (per_trans eqb P k j k) in E; [done..|by rewrite (per_sym eqb P)].
    - rewrite Hp3. destruct (eqb k k); [done|]. by rewrite H4.
  Qed.
  Lemma has_drop m m' g o k : has m g o -> ok m' -> dropped eqb (all m) k (all m') -> a_len m' = (a_len m - 1 + new1 (find (all m) k))%Z ->
    has m' (fupd eqb g k None) o.
  Proof.
    intros (H1&H2&H3&H4) H5 (Hp1&Hp2&Hp3&Hp4) Hl. split; [done|]. split; [|split].
    - destruct (find (all m) k); cbn [new1 is_found] in *; lia.
    - intros j. rewrite Hp2, H3. done.
    - by rewrite Hp3.
  Qed.
  Lemma fupd_none (g : K -> option nat) k : (forall j, eqb k j = true -> g j = None) -> forall j, g j = fupd eqb g k None j.
  Proof. intros H j. unfold fupd. destruct (eqb k j) eqn:E; [by apply H|done]. Qed.
  Lemma has_same m g o k j : has m g o -> eqb k j = true -> g j = g k.
  Proof. intros (H1&_&H3&_) E. rewrite <- !H3. apply (find_sim eqb P). right. by rewrite (per_sym eqb P). Qed.

  (** * Parts of the calls *)
  Definition upto s (m : amap K nat) evs : C := mk_cache m (c_ent s) (c_new s) (c_log s ++ evs).
  Lemma upto_nil s m : mk_cache m (c_ent s) (c_new s) (c_log s) = upto s m [].
  Proof. unfold upto. by rewrite app_nil_r. Qed.
  Lemma upto_upto s m1 evs1 m2 evs2 : upto (upto s m1 evs1) m2 evs2 = upto s m2 (evs1 ++ evs2).
  Proof. unfold upto. cbn. by rewrite <- app_assoc. Qed.
  Lemma upto_id s : upto s (c_map s) [] = s.
  Proof. unfold upto. rewrite app_nil_r. by destruct s. Qed.
  Lemma deleted_ok s t e : c_ent s = t_ent t -> deleted has_cb e s = Ok (tt, upto s (c_map s) (reported has_cb t e)).
  Proof.
    intros He. unfold deleted, reported, value. destruct has_cb; [|by rewrite upto_id]. unfold bind, ent, log, upto. by rewrite <- He.
  Qed.
  Lemma deleted_upto s t e m evs : c_ent s = t_ent t -> deleted has_cb e (upto s m evs) = Ok (tt, upto s m (evs ++ reported has_cb t e)).
  Proof. intros He. rewrite (deleted_ok (upto s m evs) t e He). by rewrite upto_upto. Qed.

  Lemma CAD_ok s t k e : rel s t -> exists m', c_CompareAndDelete eqb has_cb k e s =
    Ok (bool_decide (t_map t k = Some e), upto s m' (if decide (t_map t k = Some e) then reported has_cb t e else [])) /\
    has m' (if decide (t_map t k = Some e) then fupd eqb (t_map t) k None else t_map t) (t_odd t).
  Proof.
    intros (H&He&Hn). pose proof H as (H1&H2&H3&H4).
    destruct (CompareAndDelete_ok eqb P Nat.eqb ord Hord (c_map s) k e H1) as (m'&E1&Hm&Hd&Hl). exists m'.
    unfold c_CompareAndDelete. unfold bind at 1, on_map. rewrite E1. rewrite H3 in *.
    assert (Em : matches Nat.eqb (t_map t k) e = bool_decide (t_map t k = Some e)).
    { unfold matches. destruct (t_map t k) as [w|]; [|by rewrite bool_decide_eq_false_2].
      destruct (Nat.eqb w e) eqn:E; symmetry; [apply bool_decide_eq_true_2|apply bool_decide_eq_false_2]; [f_equal; lia|intros [= ->]; lia]. }
    rewrite Em in *. destruct (decide (t_map t k = Some e)) as [E|E].
    - rewrite bool_decide_eq_true_2 in * by done. split.
      + unfold bind. rewrite (deleted_ok _ t e); [|done]. by rewrite upto_nil, upto_upto.
      + eapply has_drop; [done..|]. rewrite H3, E. cbn. lia.
    - rewrite bool_decide_eq_false_2 in * by done. split; [by rewrite upto_nil|]. eapply has_perm; [done..|by rewrite Hd|]. lia.
  Qed.

  (** * Loops *)
  Lemma CAD_read m k a e : ok m -> a_amended m = false -> (k, a) ∈ a_read m -> a_slot m a = APtr e ->
    CompareAndDelete eqb Nat.eqb k e m = if eqb k k then Ok (true, set_len (a_len m + -1) (set_slot a ANil m)) else Ok (false, m).
  Proof.
    intros H Ha Hin Hs. unfold CompareAndDelete. unfold bind at 1, gets at 1, id. cbv beta iota.
    destruct (eqb k k) eqn:E.
    - assert (Hf : find (a_read m) k = Some a). { apply (find_elem eqb P); [apply (i_rm _ _ _ _ _ _ H)|]. by exists k. }
      rewrite Hf. unfold bind, ret, e_load, gets. rewrite Hs. rewrite Nat.eqb_refl. done.
    - assert (Hf : find (a_read m) k = None).
      { destruct (find (a_read m) k) eqn:Ef; [|done]. apply (found_self eqb P) in Ef. congruence. }
      rewrite Hf, Ha. done.
  Qed.
  Lemma on_load s m evs a : on_map (e_load a) (upto s m evs) = Ok (val (a_slot m a), upto s m evs).
  Proof. done. Qed.
  (** The bodies of the three loops. *)
  Definition body_ok (t : content) (doomed : nat -> bool) (use : bool) (f : K -> nat -> bool) (body : K -> nat -> M C bool) : Prop :=
    forall s k e, c_ent s = t_ent t -> body k e s =
      if doomed e then
        match c_CompareAndDelete eqb has_cb k e s with Ok (_, s1) => Ok (true, s1) | Panic => Panic | NoFuel => NoFuel end
      else Ok (f k e, upto s (c_map s) (if use then [EUse k e] else [])).

  Lemma loop_ok t doomed use f body : body_ok t doomed use f body -> forall es m g evs (s : C),
    has m g (t_odd t) -> a_amended m = false -> c_ent s = t_ent t -> NoDup es.*2 -> (forall p, p ∈ es -> p ∈ a_read m) ->
    exists m', loop body es (upto s m evs) =
      Ok (tt, upto s m' (evs ++ sweep_events eqb has_cb t doomed use (visit doomed f (live (a_slot m) es)))) /\
      has m' (fun k => match find (visit doomed f (live (a_slot m) es)) k with Some e => if doomed e then None else g k | None => g k end) (t_odd t).
  Proof.
    intros Hb. induction es as [|[k a] es IH]; intros m g evs s H Ha He Hn Hin.
    - exists m. cbn. rewrite app_nil_r. done.
    - cbn in Hn. apply NoDup_cons in Hn as [Hn1 Hn2]. cbn [loop]. unfold bind at 1. rewrite on_load, live_cons.
      assert (Hin2 : forall p, p ∈ es -> p ∈ a_read m) by (intros p Hp; apply Hin; by right).
      destruct (a_slot m a) as [| |e] eqn:Es; cbn [as_list app val].
      + by apply (IH m g evs s).
      + by apply (IH m g evs s).
      + unfold bind at 1. rewrite (Hb (upto s m evs) k e He). cbn [visit visited fst snd].
        unfold visit. cbn [visited fst snd]. fold (visit doomed f (live (a_slot m) es)).
        destruct (doomed e) eqn:Ed; cbn [orb].
        * (* taken out, if the key is [==] to itself *)
          unfold c_CompareAndDelete. unfold bind at 1, on_map. unfold upto at 1. cbn [c_map].
          assert (Hka : (k, a) ∈ a_read m) by (apply Hin; by left).
          pose proof (CAD_read m k a e (proj1 H) Ha Hka Es) as Ec. rewrite Ec.
          assert (Hself : find (all m) k = if eqb k k then Some e else None).
          { destruct (eqb k k) eqn:E.
            - rewrite (find_all eqb P m k (proj1 H)). unfold cur. rewrite Ha.
              assert (Hf : find (a_read m) k = Some a). { apply (find_elem eqb P); [apply (i_rm _ _ _ _ _ _ (proj1 H))|]. by exists k. }
              by rewrite Hf, Es.
            - destruct (find (all m) k) eqn:Ef; [|done]. apply (found_self eqb P) in Ef. congruence. }
          destruct (eqb k k) eqn:Ek.
          -- set (m1 := set_len (a_len m + -1) (set_slot a ANil m)) in *.
             assert (Hm1 : has m1 (fupd eqb g k None) (t_odd t)).
             { destruct (CompareAndDelete_ok eqb P Nat.eqb ord Hord m k e (proj1 H)) as (m'&E1&Hm&Hd&Hl). rewrite Ec in E1. injection E1 as E1 <-.
               rewrite <- E1 in *. eapply has_drop; [done..|]. rewrite Hl, Hself. cbn. lia. }
             destruct (IH m1 (fupd eqb g k None) (evs ++ reported has_cb t e) s Hm1 Ha He Hn2 Hin2) as (m'&E1&H1).
             assert (El : live (a_slot m1) es = live (a_slot m) es). { cbn. by apply live_other. }
             rewrite El in *. exists m'. split.
             ++ unfold bind. rewrite (deleted_ok _ t e); [|done]. cbn [c_map c_ent c_new c_log upto]. unfold upto at 1.
                cbn [c_map c_ent c_new c_log]. fold (upto s m1 (evs ++ reported has_cb t e)).
                transitivity (loop body es (upto s m1 (evs ++ reported has_cb t e))).
                { f_equal. unfold upto. cbn. by rewrite <- app_assoc. }
                rewrite E1. unfold sweep_events. cbn [map concat fst snd]. rewrite Ed, Ek. by rewrite <- app_assoc.
             ++ eapply has_ext; [exact H1|]. intros j. cbn [mlookup]. unfold fupd. destruct (eqb k j) eqn:Ej; [|done].
                rewrite Ed. by repeat case_match.
          -- destruct (IH m g evs s H Ha He Hn2 Hin2) as (m'&E1&H1). exists m'. split.
             ++ unfold bind, ret. change (mk_cache _ _ _ _) with (upto s m evs). rewrite E1. unfold sweep_events. cbn [map concat fst snd]. rewrite Ed, Ek. done.
             ++ eapply has_ext; [exact H1|]. intros j. cbn [mlookup]. destruct (eqb k j) eqn:Ej; [|done].
                rewrite (per_trans eqb P k j k) in Ek; [done..|by rewrite (per_sym eqb P)].
        * (* stays *)
          rewrite upto_upto. cbn [upto c_map]. unfold upto at 1. cbn [c_map]. fold (upto s m (evs ++ (if use then [EUse k e] else []))).
          set (u := if use then [EUse k e] else [] : list (c_event K V)). 
          assert (Hfst : forall j, eqb k j = true -> find (live (a_slot m) es) j = None).
          { intros j Ej. apply (find_none eqb). intros [k' e'] Hq. apply live_elem in Hq as (a'&Ha'&_). cbn.
            destruct (eqb k' j) eqn:Ej'; [|done]. exfalso.
            assert (Ekk : eqb k k' = true) by (eapply (per_trans eqb P); [exact Ej|by rewrite (per_sym eqb P)]).
            pose proof (kok_same eqb P (a_read m) (k, a) (k', a') (i_rm _ _ _ _ _ _ (proj1 H)) (Hin (k, a) (elem_of_list_here _ _)) (Hin2 _ Ha') Ekk) as Heq.
            cbn in Heq. subst a'. apply Hn1. apply elem_of_list_fmap. by exists (k', a). }
          assert (Hsub : forall (l : list (K * nat)) j, find l j = None -> find (visit doomed f l) j = None).
          { intros l j. unfold visit. induction l as [|[k1 e1] l IHl]; cbn; [done|]. destruct (eqb k1 j) eqn:E1; [done|]. intros Hl.
            destruct (doomed e1 || f k1 e1)%bool; cbn; rewrite E1; [by apply IHl|done]. }
          destruct (f k e) eqn:Ef.
          -- destruct (IH m g (evs ++ u) s H Ha He Hn2 Hin2) as (m'&E1&H1). exists m'. split.
             ++ rewrite E1. unfold sweep_events. cbn [map concat fst snd]. rewrite Ed. by rewrite <- app_assoc.
             ++ eapply has_ext; [exact H1|]. intros j. cbn [mlookup]. destruct (eqb k j) eqn:Ej; [|done].
                rewrite Ed. by rewrite (Hsub _ _ (Hfst j Ej)).
          -- exists m. split.
             ++ unfold ret. unfold sweep_events. cbn [map concat fst snd]. rewrite Ed. by rewrite app_nil_r.
             ++ eapply has_ext; [exact H|]. intros j. cbn [mlookup]. destruct (eqb k j); [|done]. by rewrite Ed.
  Qed.

  Lemma sweep_ok s t doomed use f body : rel s t -> body_ok t doomed use f body ->
    exists s' t' evs, map_Range ord body s = Ok (tt, s') /\ sweep eqb has_cb t doomed use f t' evs /\ rel s' t' /\ c_log s' = c_log s ++ evs.
  Proof.
    intros (H&He&Hn) Hb. unfold map_Range. unfold bind at 1, on_map.
    assert (exists m1, (m0 <- gets id ;; (if a_amended m0 then promote else ret tt) ;;; m1 <- gets id ;; iterate ord (a_read m1)) (c_map s) =
        Ok (ord (a_its m1) (a_read m1), mk_amap (a_read m1) (a_amended m1) (a_dirty m1) (a_len m1) (a_misses m1) (a_slot m1) (a_new m1) (S (a_its m1))) /\
        quiet eqb (c_map s) m1 /\ a_amended m1 = false) as (m1&E1&Hq&Ha).
    { unfold bind at 1, gets at 1, id. cbv beta iota. destruct (a_amended (c_map s)) eqn:Ea.
      - destruct (promote_quiet eqb (c_map s) (proj1 H) Ea) as (m1&E1&Hq&_&Ha). exists m1. unfold bind at 1. rewrite E1. done.
      - exists (c_map s). split; [done|]. split; [by apply quiet_refl; apply H|done]. }
    rewrite E1. set (m2 := mk_amap _ _ _ _ _ _ _ _). rewrite upto_nil.
    pose proof (has_quiet _ _ _ _ H Hq) as H1. assert (H2 : has m2 (t_map t) (t_odd t)) by exact H1.
    pose proof (Hord (a_its m1) (a_read m1)) as Hp. set (es := ord (a_its m1) (a_read m1)) in *.
    destruct (loop_ok t doomed use f body Hb es m2 (t_map t) [] s H2 Ha He) as (m'&E2&H3).
    { rewrite Hp. apply (i_rn _ _ _ _ _ _ (proj1 H1)). }
    { intros p Hp2. cbn. by rewrite <- Hp. }
    set (l := live (a_slot m2) es) in *.
    exists (upto s m' (sweep_events eqb has_cb t doomed use (visit doomed f l))).
    exists (with_map (sweep_map eqb t doomed (visit doomed f l)) t), (sweep_events eqb has_cb t doomed use (visit doomed f l)).
    split; [exact E2|]. split; [|split; [|done]].
    - exists l. split; [|done].
      assert (Hl : all m2 ≡ₚ l). { unfold RwMapAny.all, l. apply live_perm. unfold cur. cbn. rewrite Ha. by symmetry. }
      assert (Hk : kok l). { eapply (kok_perm eqb P); [exact Hl|]. apply (kok_all eqb). apply H2. }
      split; [by apply (kok_apart eqb P)|]. split.
      + intros k. rewrite (find_perm eqb P (all m2) l k); [apply H2|apply (kok_all eqb); apply H2|done].
      + rewrite <- (filter_perm eqb _ _ Hl). apply H2.
    - split; [|done]. cbn [c_map upto with_map t_map t_odd]. exact H3.
  Qed.

  (** * Calls *)
  Lemma milli_eq n : milli n = (n / 1000000)%Z.
  Proof. done. Qed.
  Lemma expired_eq s t now e m evs : c_ent s = t_ent t -> IsExpired now e (upto s m evs) = Ok (expired t now e, upto s m evs).
  Proof. intros He. unfold IsExpired, bind, ent, ret, expired, expires. cbn [c_ent upto]. by rewrite He. Qed.
  Lemma expired_eq0 s t now e : c_ent s = t_ent t -> IsExpired now e s = Ok (expired t now e, s).
  Proof. intros He. rewrite <- (upto_id s). by apply expired_eq. Qed.
  Lemma rel_upto s t g m evs : rel s t -> has m g (t_odd t) -> rel (upto s m evs) (with_map g t).
  Proof. intros (H&He&Hn) Hm. split; [exact Hm|]. by split. Qed.
  Lemma rel_upto0 s t m evs : rel s t -> has m (t_map t) (t_odd t) -> rel (upto s m evs) t.
  Proof. intros (H&He&Hn) Hm. split; [exact Hm|]. by split. Qed.
  Lemma log_upto s m evs : c_log (upto s m evs) = c_log s ++ evs.
  Proof. done. Qed.
  Lemma make_ok s t now v d : rel s t -> exists s', NewEntry now v d s = Ok (t_new t, s') /\ rel s' (make now v d t) /\ c_log s' = c_log s.
  Proof. intros (H&He&Hn). eexists. unfold NewEntry. rewrite Hn. split; [reflexivity|]. split; [|done]. split; [exact H|]. cbn. by rewrite He. Qed.
  Lemma CAD_found s t k e : rel s t -> t_map t k = Some e -> exists s', c_CompareAndDelete eqb has_cb k e s = Ok (true, s') /\
    rel s' (remove eqb k t) /\ c_log s' = c_log s ++ reported has_cb t e.
  Proof.
    intros R E. destruct (CAD_ok s t k e R) as (m'&E1&H1). rewrite bool_decide_eq_true_2 in E1 by done. rewrite decide_True in E1 by done. rewrite decide_True in H1 by done.
    eexists. split; [exact E1|]. split; [|done]. by apply rel_upto.
  Qed.
  Lemma map_Load s t k : rel s t -> exists s', on_map (Load eqb k) s = Ok (t_map t k, s') /\ rel s' t /\ c_log s' = c_log s.
  Proof.
    intros (H&He&Hn). destruct (Load_ok eqb P (c_map s) k (proj1 H)) as (m'&E1&Hq). unfold on_map. rewrite E1.
    eexists. pose proof H as (_&_&Hf&_). rewrite Hf. split; [reflexivity|]. split; [|done]. split; [by eapply has_quiet|done].
  Qed.
  Lemma map_LoadAndDelete s t k : rel s t -> exists s', on_map (LoadAndDelete eqb k) s = Ok (t_map t k, s') /\ rel s' (remove eqb k t) /\ c_log s' = c_log s.
  Proof.
    intros (H&He&Hn). destruct (LoadAndDelete_ok eqb P Nat.eqb (c_map s) k (proj1 H)) as (m'&E1&H1&Hp&Hl). unfold on_map. rewrite E1.
    eexists. pose proof H as (_&_&Hf&_). rewrite Hf. split; [reflexivity|]. split; [|done]. split; [|done]. by eapply has_drop.
  Qed.
  Lemma remove_none s t k : rel s t -> t_map t k = None -> forall s', rel s' (remove eqb k t) -> rel s' t.
  Proof.
    intros (H&_) En s' (H'&R'). split; [|exact R']. eapply has_ext; [exact H'|]. intros j. symmetry. cbn. apply fupd_none.
    intros i Ei. by rewrite (has_same _ _ _ _ _ H Ei).
  Qed.
  Lemma insert_rel s t m k e evs : c_ent s = t_ent t -> c_new s = t_new t ->
    has m (if eqb k k then fupd eqb (t_map t) k (Some e) else t_map t) (if eqb k k then t_odd t else (k, e) :: t_odd t) ->
    rel (upto s m evs) (insert eqb k e t).
  Proof. intros He Hn H. unfold insert. destruct (eqb k k); (split; [exact H|]; by split). Qed.

  (** Entries in the cache exist. *)
  Definition fit t : Prop := (forall k e, t_map t k = Some e -> e < t_new t) /\ (forall p, p ∈ t_odd t -> p.2 < t_new t).
  Lemma fit_with t g : fit t -> (forall k, g k = None \/ g k = t_map t k) -> fit (with_map g t).
  Proof. intros [F1 F2] Hg. split; [|exact F2]. intros k e. cbn. destruct (Hg k) as [->| ->]; [done|]. apply F1. Qed.
  Lemma fit_remove t k : fit t -> fit (remove eqb k t).
  Proof. intros F. apply fit_with; [done|]. intros j. unfold fupd. destruct (eqb k j); auto. Qed.
  Lemma fit_make t now v d : fit t -> fit (make now v d t).
  Proof. intros [F1 F2]. split; cbn; [intros k e E; specialize (F1 k e E)|intros p Hp; specialize (F2 p Hp)]; lia. Qed.
  Lemma fit_insert t k e : fit t -> e < t_new t -> fit (insert eqb k e t).
  Proof.
    intros [F1 F2] Hlt. unfold insert. destruct (eqb k k); split; cbn.
    - intros j x. unfold fupd. destruct (eqb k j); [by intros [= <-]|apply F1].
    - exact F2.
    - exact F1.
    - intros p [->|Hp]%elem_of_cons; [done|by apply F2].
  Qed.
  Lemma fit_sweep t doomed use f t' evs : fit t -> sweep eqb has_cb t doomed use f t' evs -> fit t'.
  Proof.
    intros F (l&_&->&_). apply fit_with; [done|]. intros k. unfold sweep_map. destruct (find _ k) as [e|]; [|by right]. destruct (doomed e); auto.
  Qed.
  Lemma fit_effect now c t r t' evs : fit t -> effect eqb veq has_cb now c t r t' evs -> fit t'.
  Proof.
    intros F. destruct c as [k v d|k|k v d|k|k|k e|k v| |f| |e a|e d]; cbn [effect].
    - intros (_&->&_). apply fit_insert; [by apply fit_make|cbn; lia].
    - repeat case_match; intros (_&->&_); auto using fit_remove.
    - repeat case_match; intros (_&->&_); auto using fit_make.
      + apply fit_insert; [|cbn; lia]. by apply fit_make, fit_remove, fit_make.
      + apply fit_insert; [by apply fit_make|cbn; lia].
    - repeat case_match; intros (_&->&_); auto using fit_remove.
    - repeat case_match; intros (_&->&_); auto using fit_remove.
    - repeat case_match; intros (_&->&_); auto using fit_remove.
    - repeat case_match; intros (_&->&_); auto using fit_remove.
    - intros (_&H). destruct has_cb eqn:Eh; [rewrite <- Eh in H; by eapply fit_sweep|]. destruct H as [-> _].
      split; cbn; [done|]. intros p Hp. by apply elem_of_nil in Hp.
    - intros (_&H). by eapply fit_sweep.
    - intros (_&H). by eapply fit_sweep.
    - intros (_&->&_). exact F.
    - intros (_&->&_). exact F.
  Qed.
  Lemma make_ent t now v d e : e < t_new t -> t_ent (make now v d t) e = t_ent t e.
  Proof. intros Hlt. cbn. rewrite fn_lookup_insert_ne; [done|lia]. Qed.

  Lemma map_LoadOrStore s t k e0 : rel s t -> exists s', on_map (LoadOrStore eqb upd ord k e0) s =
      Ok (match t_map t k with Some e => (e, true) | None => (e0, false) end, s') /\
      rel s' (match t_map t k with Some _ => t | None => insert eqb k e0 t end) /\ c_log s' = c_log s.
  Proof.
    intros (H&He&Hn). destruct (LoadOrStore_ok eqb P upd Nat.eqb ord Hord (c_map s) k e0 (proj1 H)) as (m'&E1&H1&Hp&Hl). unfold on_map. rewrite E1.
    pose proof H as (_&_&Hf&_). rewrite Hf in *. eexists. split; [reflexivity|]. split; [|done]. rewrite upto_nil. destruct (t_map t k) eqn:Ek.
    - split; [|done]. cbn [c_map upto]. apply (has_perm (c_map s)); [done..|]. rewrite Hl. cbn. lia.
    - apply insert_rel; [done..|]. eapply has_put; [done..|]. by rewrite Hf, Ek.
  Qed.

  Lemma effect_ok now c s t : rel s t -> fit t -> exists r s' t' evs, c_exec eqb upd veq has_cb ord now c s = Ok (r, s') /\
    effect eqb veq has_cb now c t r t' evs /\ rel s' t' /\ c_log s' = c_log s ++ evs.
  Proof.
    intros R F. pose proof R as (H&He&Hn). destruct c as [k v d|k|k v d|k|k|k e|k v| |f| |e a|e d]; cbn [c_exec effect].
    - (* Store *)
      destruct (make_ok s t now v d R) as (s1&E1&R1&L1). unfold c_Store, bind. rewrite E1.
      pose proof R1 as (H1&He1&Hn1). destruct (Swap_ok eqb P upd Nat.eqb ord Hord (c_map s1) k (t_new t) (proj1 H1)) as (m2&E2&H2&Hp&Hl).
      unfold on_map, Store, bind. rewrite E2. cbn [ret]. rewrite upto_nil.
      eexists _, _, _, _. split; [reflexivity|]. split; [done|]. split; [|by rewrite log_upto, L1].
      apply insert_rel; [done..|]. by eapply has_put.
    - (* Load *)
      destruct (map_Load s t k R) as (s1&E1&R1&L1). unfold c_Load, bind at 1. unfold bind at 1. rewrite E1.
      destruct (t_map t k) as [e|] eqn:Ek.
      + unfold bind at 1. rewrite (expired_eq0 s1 t now e); [|apply R1]. destruct (expired t now e).
        * destruct (CAD_found s1 t k e R1 Ek) as (s2&E2&R2&L2). unfold bind at 1. rewrite E2. cbn [ret].
          eexists _, _, _, _. split; [reflexivity|]. split; [done|]. split; [done|]. by rewrite L2, L1.
        * eexists _, _, _, _. split; [reflexivity|]. split; [done|]. split; [done|]. by rewrite app_nil_r.
      + eexists _, _, _, _. split; [reflexivity|]. split; [done|]. split; [done|]. by rewrite app_nil_r.
    - (* LoadOrStore *)
      cbn [c_LoadOrStore]. destruct (make_ok s t now v d R) as (s1&E1&R1&L1). unfold bind at 1 2. rewrite E1.
      destruct (map_LoadOrStore s1 _ k (t_new t) R1) as (s2&E2&R2&L2). cbn [t_map make] in E2, R2. unfold bind at 1. rewrite E2.
      destruct (t_map t k) as [e|] eqn:Ek.
      + unfold bind at 1. rewrite (expired_eq0 s2 _ now e (proj1 (proj2 R2))).
        replace (expired (make now v d t) now e) with (expired t now e).
        2:{ unfold expired, expires. rewrite make_ent; [done|]. by eapply F. }
        destruct (expired t now e).
        * destruct (CAD_found s2 _ k e R2 Ek) as (s3&E3&R3&L3). unfold bind at 1. rewrite E3.
          destruct (make_ok s3 _ now v d R3) as (s4&E4&R4&L4). unfold bind at 1. rewrite E4.
          destruct (map_LoadOrStore s4 _ k (t_new (remove eqb k (make now v d t))) R4) as (s5&E5&R5&L5). unfold bind at 1. rewrite E5.
          assert (Ekk : eqb k k = true). { destruct H as (_&_&Hf&_). rewrite <- Hf in Ek. by eapply (found_self eqb P). }
          assert (Em : t_map (make now v d (remove eqb k (make now v d t))) k = None). { cbn. unfold fupd. by rewrite Ekk. }
          rewrite Em in *. cbn [ret fst snd].
          eexists _, _, _, _. split; [reflexivity|]. split; [done|]. split; [done|]. rewrite L5, L4, L3, L2, L1. f_equal.
          unfold reported, value. rewrite make_ent; [done|]. by eapply F.
        * eexists _, _, _, _. split; [reflexivity|]. split; [done|]. split; [done|]. by rewrite L2, L1, app_nil_r.
      + eexists _, _, _, _. split; [reflexivity|]. split; [done|]. split; [done|]. by rewrite L2, L1, app_nil_r.
    - (* Delete *)
      destruct (map_LoadAndDelete s t k R) as (s1&E1&R1&L1). unfold c_Delete, bind. rewrite E1.
      destruct (t_map t k) as [e|] eqn:Ek.
      + rewrite (deleted_ok s1 t e); [|apply R1].
        eexists _, _, _, _. split; [reflexivity|]. split; [done|]. split; [|by rewrite log_upto, L1]. apply (rel_upto0 s1 (remove eqb k t)); [done|apply R1].
      + eexists _, _, _, _. split; [reflexivity|]. split; [done|]. split; [by eapply (remove_none s)|]. by rewrite app_nil_r.
    - (* LoadAndDelete *)
      destruct (map_LoadAndDelete s t k R) as (s1&E1&R1&L1). unfold c_LoadAndDelete, bind at 1. unfold bind at 1. rewrite E1.
      destruct (t_map t k) as [e|] eqn:Ek.
      + unfold bind at 1. rewrite (expired_eq0 s1 t now e); [|apply R1]. unfold bind. rewrite (deleted_ok s1 t e); [|apply R1].
        eexists _, _, _, _. split; [reflexivity|]. split; [done|]. split; [|by rewrite log_upto, L1]. apply (rel_upto0 s1 (remove eqb k t)); [done|apply R1].
      + eexists _, _, _, _. split; [reflexivity|]. split; [done|]. split; [by eapply (remove_none s)|]. by rewrite app_nil_r.
    - (* CompareAndDelete *)
      destruct (CAD_ok s t k e R) as (m'&E1&H1). unfold bind. rewrite E1. destruct (decide (t_map t k = Some e)) as [E|E].
      + rewrite bool_decide_eq_true_2 by done. eexists _, _, _, _. split; [reflexivity|]. split; [done|]. split; [by apply rel_upto|done].
      + rewrite bool_decide_eq_false_2 by done. eexists _, _, _, _. split; [reflexivity|]. split; [done|]. split; [by apply rel_upto0|done].
    - (* CompareValueAndDelete *)
      unfold c_CompareValueAndDelete, c_Load. destruct (map_Load s t k R) as (s1&E1&R1&L1). unfold bind at 1 2 3. rewrite E1.
      destruct (t_map t k) as [e|] eqn:Ek.
      + unfold bind at 1. rewrite (expired_eq0 s1 t now e); [|apply R1]. destruct (expired t now e).
        * destruct (CAD_found s1 t k e R1 Ek) as (s2&E2&R2&L2). unfold bind at 1. rewrite E2. cbn [ret].
          eexists _, _, _, _. split; [reflexivity|]. split; [done|]. split; [done|]. by rewrite L2, L1.
        * cbn [ret]. unfold bind at 1, ent. assert (Hv : (c_ent s1 e).1 = value t e). { destruct R1 as (_&He1&_). unfold value. by rewrite He1. }
          rewrite Hv. destruct (veq v (value t e)).
          -- destruct (CAD_found s1 t k e R1 Ek) as (s2&E2&R2&L2). rewrite E2.
             eexists _, _, _, _. split; [reflexivity|]. split; [done|]. split; [done|]. by rewrite L2, L1.
          -- eexists _, _, _, _. split; [reflexivity|]. split; [done|]. split; [done|]. by rewrite app_nil_r.
      + eexists _, _, _, _. split; [reflexivity|]. split; [done|]. split; [done|]. by rewrite app_nil_r.
    - (* Clear *)
      unfold c_Clear, bind at 1. destruct has_cb eqn:Eh.
      + destruct (sweep_ok s t (fun _ => true) false (fun _ _ => true) (fun k e => c_CompareAndDelete eqb true k e ;;; ret true) R) as (s'&t'&evs&E1&Hsw&R1&L1).
        { intros s0 k e He0. unfold bind. rewrite Eh. by repeat case_match. }
        rewrite Eh in Hsw. rewrite E1. eexists _, _, _, _. split; [reflexivity|]. split; [by split|]. done.
      + destruct (Clear_ok eqb (c_map s) (proj1 H) (proj1 (proj2 H))) as (m'&E1&H1&Ha&Hl). unfold on_map. rewrite E1, upto_nil.
        eexists _, _, _, _. split; [reflexivity|]. split; [done|]. split; [|done]. split; [|done]. cbn [c_map upto t_map t_odd].
        split; [done|]. rewrite Ha. done.
    - (* Range *)
      unfold c_Range, bind at 1. 
      destruct (sweep_ok s t (expired t now) true f (fun k e => x <- IsExpired now e ;; if (x : bool) then c_CompareAndDelete eqb has_cb k e ;;; ret true else log (EUse k e) ;;; ret (f k e)) R) as (s'&t'&evs&E1&Hsw&R1&L1).
      { intros s0 k e He0. unfold bind at 1. rewrite (expired_eq0 s0 t now e He0). destruct (expired t now e); [|done]. unfold bind. by repeat case_match. }
      rewrite E1. eexists _, _, _, _. split; [reflexivity|]. split; [by split|]. done.
    - (* trim *)
      unfold c_trim. 
      destruct (sweep_ok s t (fun e => (expires t e <? now 0%nat / 1000000)%Z) false (fun _ _ => true) (fun k e =>
        x <- ent e ;; (if (snd x <? milli (now 0%nat))%Z then c_CompareAndDelete eqb has_cb k e ;;; ret tt else ret tt) ;;; ret true) R) as (s'&t'&evs&E1&Hsw&R1&L1).
      { intros s0 k e He0. unfold bind at 1, ent. rewrite He0. fold (expires t e). unfold milli. destruct (expires t e <? now 0%nat / 1000000)%Z.
        - unfold bind, ret. by destruct (c_CompareAndDelete eqb has_cb k e s0) as [[b s1]| |].
        - unfold bind, ret. by rewrite upto_id. }
      unfold bind at 1. rewrite E1. eexists _, _, _, _. split; [reflexivity|]. split; [by split|]. done.
    - (* SetExpiration *)
      eexists _, _, _, _. split; [reflexivity|]. split; [done|]. split; [|by rewrite app_nil_r]. split; [exact H|]. cbn. by rewrite He.
    - eexists _, _, _, _. split; [reflexivity|]. split; [done|]. split; [|by rewrite app_nil_r]. split; [exact H|]. cbn. by rewrite He.
  Qed.

  (** * Histories *)
  Lemma rel_new v0 : rel (new_cache v0) (no_content v0).
  Proof. split; [|done]. destruct (same_zero eqb (K := K) (V := nat)) as (H&_&_&Hl). split; [exact H|]. done. Qed.
  Lemma fit_new v0 : fit (no_content v0).
  Proof. split; [done|]. intros p Hp. by apply elem_of_nil in Hp. Qed.
  Lemma history_ok cs : forall s t, rel s t -> fit t -> exists rs s' t' evs, c_run eqb upd veq has_cb ord s cs = Some (rs, s') /\
    effects eqb veq has_cb t cs rs t' evs /\ rel s' t' /\ fit t' /\ c_log s' = c_log s ++ evs.
  Proof.
    induction cs as [|[now c] cs IH]; intros s t R F.
    - exists [], s, t, []. split; [done|]. split; [done|]. split; [done|]. split; [done|]. by rewrite app_nil_r.
    - destruct (effect_ok now c s t R F) as (r&s1&t1&evs1&E1&Hf1&R1&L1). pose proof (fit_effect now c t r t1 evs1 F Hf1) as F1.
      destruct (IH s1 t1 R1 F1) as (rs&s2&t2&evs2&E2&Hf2&R2&F2&L2). exists (r :: rs), s2, t2, (evs1 ++ evs2). cbn [c_run]. rewrite E1, E2.
      split; [done|]. split; [by exists t1, evs1, evs2|]. split; [done|]. split; [done|]. by rewrite L2, L1, app_assoc.
  Qed.
  Lemma reached cs v0 rs s : c_run eqb upd veq has_cb ord (new_cache v0) cs = Some (rs, s) ->
    exists t, effects eqb veq has_cb (no_content v0) cs rs t (c_log s) /\ rel s t /\ fit t.
  Proof.
    intros E. destruct (history_ok cs _ _ (rel_new v0) (fit_new v0)) as (rs'&s'&t'&evs&E'&He&R&F&L). rewrite E in E'. injection E' as -> ->.
    exists t'. by rewrite L.
  Qed.

  (** The pairs under odd keys, with their values. *)
  Definition odd_values t : list (K * V) := map (fun p => (p.1, value t p.2)) (t_odd t).
  Lemma odd_make t now v d : fit t -> odd_values (make now v d t) = odd_values t.
  Proof.
    intros [_ F]. unfold odd_values. cbn [t_odd make]. revert F. generalize (t_odd t) as l. intros l. induction l as [|p l IH]; intros F; [done|].
    cbn [map]. rewrite IH by (intros q Hq; apply F; by right). f_equal. unfold value. rewrite make_ent; [done|]. apply F. by left.
  Qed.
  Lemma odd_insert t k e : odd_values (insert eqb k e t) = if eqb k k then odd_values t else (k, value t e) :: odd_values t.
  Proof. unfold insert, odd_values. by destruct (eqb k k). Qed.
  Lemma odd_set t e x : x.1 = value t e -> odd_values (mk_content (t_map t) (t_odd t) (<[e := x]> (t_ent t)) (t_new t)) = odd_values t.
  Proof.
    intros Hx. unfold odd_values. cbn [t_odd]. apply map_ext. intros [k a]. unfold value. cbn. f_equal.
    destruct (decide (a = e)) as [->|Hne]; [by rewrite fn_lookup_insert|by rewrite fn_lookup_insert_ne].
  Qed.
  Lemma odd_step now c t r t' evs : fit t -> (forall k e, t_map t k = Some e -> eqb k k = true) -> effect eqb veq has_cb now c t r t' evs ->
    odd_values t' = c_kept eqb has_cb (odd_values t) [(now, c)].
  Proof.
    intros F Hs. destruct c as [k v d|k|k v d|k|k|k e|k v| |f| |e a|e d]; cbn [effect c_kept].
    - intros (_&->&_). rewrite odd_insert, odd_make by done. destruct (eqb k k); [done|]. do 2 f_equal. unfold value. cbn. by rewrite fn_lookup_insert.
    - repeat case_match; by intros (_&->&_).
    - destruct (t_map t k) as [e|] eqn:Ek.
      + rewrite (Hs k e Ek). destruct (expired t now e); intros (_&->&_).
        * rewrite odd_insert, (Hs k e Ek), odd_make; [|by apply fit_remove, fit_make].
          transitivity (odd_values (make now v d t)); [done|]. by apply odd_make.
        * by apply odd_make.
      + intros (_&->&_). rewrite odd_insert, odd_make by done. destruct (eqb k k); [done|]. do 2 f_equal. unfold value. cbn. by rewrite fn_lookup_insert.
    - repeat case_match; by intros (_&->&_).
    - repeat case_match; by intros (_&->&_).
    - repeat case_match; by intros (_&->&_).
    - repeat case_match; by intros (_&->&_).
    - intros (_&H). destruct has_cb; [by destruct H as (l&_&->&_)|]. by destruct H as [-> _].
    - intros (_&l&_&->&_). done.
    - intros (_&l&_&->&_). done.
    - intros (_&->&_). by apply odd_set.
    - intros (_&->&_). by apply odd_set.
  Qed.
  Lemma rel_self s t k e : rel s t -> t_map t k = Some e -> eqb k k = true.
  Proof. intros ((_&_&Hf&_)&_) E. rewrite <- Hf in E. by eapply (found_self eqb P). Qed.
  Lemma c_kept_cons (acc : list (K * V)) p cs : c_kept eqb has_cb acc (p :: cs) = c_kept eqb has_cb (c_kept eqb has_cb acc [p]) cs.
  Proof. by destruct p as [now c]. Qed.
  Lemma odd_history cs : forall s t, rel s t -> fit t -> exists rs s' t' evs, c_run eqb upd veq has_cb ord s cs = Some (rs, s') /\
    rel s' t' /\ fit t' /\ c_log s' = c_log s ++ evs /\ odd_values t' = c_kept eqb has_cb (odd_values t) cs.
  Proof.
    induction cs as [|[now c] cs IH]; intros s t R F.
    - exists [], s, t, []. split; [done|]. split; [done|]. split; [done|]. by rewrite app_nil_r.
    - destruct (effect_ok now c s t R F) as (r&s1&t1&evs1&E1&Hf1&R1&L1). pose proof (fit_effect now c t r t1 evs1 F Hf1) as F1.
      destruct (IH s1 t1 R1 F1) as (rs&s2&t2&evs2&E2&R2&F2&L2&Ho). exists (r :: rs), s2, t2, (evs1 ++ evs2). cbn [c_run]. rewrite E1, E2.
      split; [done|]. split; [done|]. split; [done|]. split; [by rewrite L2, L1, app_assoc|].
      rewrite c_kept_cons, <- (odd_step now c t r t1 evs1); [done|done| |done]. intros k e. by apply (rel_self s).
  Qed.
End proofs.
