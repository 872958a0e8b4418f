(** The cache with callbacks that panic does what SyncCachePanicSpec.v says. *)
From Coq Require Import ZifyBool ZifyNat.
From Verif Require Import Base GoMap GoMapSpec RwMapAnyModel RwMapAnySpec RwMapAnyTable RwMapAny.
From Verif Require Import SyncCacheAnyModel SyncCacheAnySpec SyncCacheAny SyncCachePanicModel SyncCachePanicSpec.

Section proofs.
  Context {K V : Type} (eqb : K -> K -> bool) (P : per eqb) (upd : bool) (veq : V -> V -> bool).
  Context (ord : nat -> list (K * nat) -> list (K * nat)) (Hord : forall n l, ord n l ≡ₚ l).
  Context (panics : V -> bool).
  Notation C := (cache K V).
  Notation content := (@content K V).
  Notation find := (mlookup eqb).
  Notation kok := (kok eqb).
  Notation ok := (RwMapAny.ok (V := nat) eqb).
  Notation all := (RwMapAny.all (V := nat)).
  Notation odds := (List.filter (odd (V := nat) eqb)).
  Notation has := (SyncCacheAny.has eqb).
  Notation rel := (SyncCacheAny.rel eqb).
  Notation upto := SyncCacheAny.upto.
  Implicit Types (s : C) (m : amap K nat) (t : content) (k : K) (e : nat) (v : V).

  Lemma deleted_p_ok s t e : c_ent s = t_ent t ->
    deleted_p panics e s = Ok (if panics (value t e) then None else Some tt, upto s (c_map s) (says t e)).
  Proof. intros He. unfold deleted_p, bind, ent, log, SyncCacheAny.upto, says, value. by rewrite <- He. Qed.
  Lemma p_CAD_eq s t k e : c_ent s = t_ent t -> p_CompareAndDelete eqb panics k e s =
    match c_CompareAndDelete eqb true k e s with
    | Ok (b, s1) => Ok (if b && panics (value t e) then None else Some b, s1)
    | Panic => Panic
    | NoFuel => NoFuel
    end.
  Proof.
    intros He. unfold p_CompareAndDelete, c_CompareAndDelete, bind at 1 2. unfold on_map.
    destruct (CompareAndDelete eqb Nat.eqb k e (c_map s)) as [[b m]| |]; [|done|done].
    destruct b; [|done]. unfold andthen, bind, deleted, deleted_p, bind, ent, log, ret. cbn. unfold value. rewrite <- He.
    by destruct (panics _).
  Qed.

  Definition body_ok_p (t : content) (doomed : nat -> bool) (use : bool) (f : K -> nat -> option bool) (body : K -> nat -> M C (option bool)) : Prop :=
    forall s k e, c_ent s = t_ent t -> body k e s =
      if doomed e then
        match c_CompareAndDelete eqb true k e s with
        | Ok (b, s1) => Ok (if b && panics (value t e) then None else Some true, s1) | Panic => Panic | NoFuel => NoFuel end
      else Ok (f k e, upto s (c_map s) (if use then [EUse k e] else [])).
  Definition out (t : content) (doomed : nat -> bool) (f : K -> nat -> option bool) (l : list (K * nat)) : option unit :=
    if existsb (fun p => match turn eqb panics t doomed f p with None => true | _ => false end) (visit_p eqb panics t doomed f l) then None else Some tt.
  Lemma visit_p_cons t doomed f p l : visit_p eqb panics t doomed f (p :: l) =
    match turn eqb panics t doomed f p with Some true => p :: visit_p eqb panics t doomed f l | _ => [p] end.
  Proof. unfold visit_p. cbn. by destruct (turn eqb panics t doomed f p) as [[]|]. Qed.
  Lemma out_cons t doomed f p l : out t doomed f (p :: l) =
    match turn eqb panics t doomed f p with Some true => out t doomed f l | Some false => Some tt | None => None end.
  Proof. unfold out. rewrite visit_p_cons. destruct (turn eqb panics t doomed f p) as [[]|] eqn:E; cbn; by rewrite E. Qed.

  Lemma loop_p_ok t doomed use f body : body_ok_p t doomed use f body -> forall es m g evs (s : C),
    has m g (t_odd t) -> a_amended m = false -> c_ent s = t_ent t -> NoDup es.*2 -> (forall p, p ∈ es -> p ∈ a_read m) ->
    exists m', loop_p body es (upto s m evs) =
      Ok (out t doomed f (live (a_slot m) es), upto s m' (evs ++ sweep_events eqb true t doomed use (visit_p eqb panics t doomed f (live (a_slot m) es)))) /\
      has m' (fun k => match find (visit_p eqb panics t doomed f (live (a_slot m) es)) k with Some e => if doomed e then None else g k | None => g k end) (t_odd t).
  Proof.
    intros Hb. induction es as [|[k a] es IH]; intros m g evs s H Ha He Hn Hin.
    - exists m. cbn. rewrite app_nil_r. done.
    - cbn in Hn. apply NoDup_cons in Hn as [Hn1 Hn2]. cbn [loop_p]. unfold bind at 1. rewrite on_load, live_cons.
      assert (Hin2 : forall p, p ∈ es -> p ∈ a_read m) by (intros p Hp; apply Hin; by right).
      destruct (a_slot m a) as [| |e] eqn:Es; cbn [as_list app val].
      + by apply (IH m g evs s).
      + by apply (IH m g evs s).
      + unfold andthen, bind at 1. rewrite (Hb (upto s m evs) k e He). rewrite visit_p_cons, out_cons.
        unfold turn at 1 2 3. cbn [fst snd].
        destruct (doomed e) eqn:Ed.
        * (* taken out, if the key is [==] to itself *)
          unfold c_CompareAndDelete. unfold bind at 1, on_map. unfold SyncCacheAny.upto at 1. cbn [c_map].
          assert (Hka : (k, a) ∈ a_read m) by (apply Hin; by left).
          pose proof (CAD_read eqb P m k a e (proj1 H) Ha Hka Es) as Ec. rewrite Ec.
          assert (Hself : find (all m) k = if eqb k k then Some e else None).
          { destruct (eqb k k) eqn:E.
            - rewrite (find_all eqb P m k (proj1 H)). unfold cur. rewrite Ha.
              assert (Hf : find (a_read m) k = Some a). { apply (find_elem eqb P); [apply (i_rm _ _ _ _ _ _ (proj1 H))|]. by exists k. }
              by rewrite Hf, Es.
            - destruct (find (all m) k) eqn:Ef; [|done]. apply (found_self eqb P) in Ef. congruence. }
          destruct (eqb k k) eqn:Ek.
          -- set (m1 := set_len (a_len m + -1) (set_slot a ANil m)) in *.
             assert (Hm1 : has m1 (fupd eqb g k None) (t_odd t)).
             { destruct (CompareAndDelete_ok eqb P Nat.eqb ord Hord m k e (proj1 H)) as (m'&E1&Hm&Hd&Hl). rewrite Ec in E1. injection E1 as E1 <-.
               rewrite <- E1 in *. eapply has_drop; [done..|]. rewrite Hl, Hself. cbn. lia. }
             unfold bind. rewrite (deleted_ok true _ t e); [|done]. unfold ret.
             replace (upto _ _ (reported true t e)) with (upto s m1 (evs ++ reported true t e)) by (unfold SyncCacheAny.upto; cbn; by rewrite <- app_assoc).
             cbn [andb]. destruct (panics (value t e)) eqn:Ep.
             ++ exists m1. split.
                ** unfold sweep_events. cbn [map concat fst snd]. rewrite Ed, Ek, app_nil_r. done.
                ** eapply has_ext; [exact Hm1|]. intros j. cbn [mlookup]. unfold fupd. destruct (eqb k j); [by rewrite Ed|done].
             ++ destruct (IH m1 (fupd eqb g k None) (evs ++ reported true t e) s Hm1 Ha He Hn2 Hin2) as (m'&E1&H1).
                assert (El : live (a_slot m1) es = live (a_slot m) es). { cbn. by apply live_other. }
                rewrite El in *. exists m'. split.
                ** rewrite E1. unfold sweep_events. cbn [map concat fst snd]. rewrite Ed, Ek. by rewrite <- app_assoc.
                ** eapply has_ext; [exact H1|]. intros j. cbn [mlookup]. unfold fupd. destruct (eqb k j) eqn:Ej; [|done].
                   rewrite Ed. by repeat case_match.
          -- cbn [andb]. destruct (IH m g evs s H Ha He Hn2 Hin2) as (m'&E1&H1). exists m'. split.
             ++ unfold bind, ret. change (mk_cache _ _ _ _) with (upto s m evs). cbn [andb]. rewrite E1. unfold sweep_events. cbn [map concat fst snd]. rewrite Ed, Ek. done.
             ++ eapply has_ext; [exact H1|]. intros j. cbn [mlookup]. destruct (eqb k j) eqn:Ej; [|done].
                rewrite (per_trans eqb P k j k) in Ek; [done..|by rewrite (per_sym eqb P)].
        * (* stays *)
          rewrite upto_upto. cbn [SyncCacheAny.upto c_map]. unfold SyncCacheAny.upto at 1. cbn [c_map]. fold (upto s m (evs ++ (if use then [EUse k e] else []))).
          set (u := if use then [EUse k e] else [] : list (c_event K V)).
          assert (Hfst : forall j, eqb k j = true -> find (live (a_slot m) es) j = None).
          { intros j Ej. apply (find_none eqb). intros [k' e'] Hq. apply live_elem in Hq as (a'&Ha'&_). cbn.
            destruct (eqb k' j) eqn:Ej'; [|done]. exfalso.
            assert (Ekk : eqb k k' = true) by (eapply (per_trans eqb P); [exact Ej|by rewrite (per_sym eqb P)]).
            pose proof (kok_same eqb P (a_read m) (k, a) (k', a') (i_rm _ _ _ _ _ _ (proj1 H)) (Hin (k, a) (elem_of_list_here _ _)) (Hin2 _ Ha') Ekk) as Heq.
            cbn in Heq. subst a'. apply Hn1. apply elem_of_list_fmap. by exists (k', a). }
          assert (Hsub : forall (l : list (K * nat)) j, find l j = None -> find (visit_p eqb panics t doomed f l) j = None).
          { intros l j. induction l as [|[k1 e1] l IHl]; [done|]. rewrite visit_p_cons. cbn. destruct (eqb k1 j) eqn:E1; [done|]. intros Hl.
            destruct (turn eqb panics t doomed f (k1, e1)) as [[]|]; cbn; rewrite E1; [by apply IHl|done|done]. }
          destruct (f k e) as [[]|] eqn:Ef.
          -- destruct (IH m g (evs ++ u) s H Ha He Hn2 Hin2) as (m'&E1&H1). exists m'. split.
             ++ rewrite E1. unfold sweep_events. cbn [map concat fst snd]. rewrite Ed. by rewrite <- app_assoc.
             ++ eapply has_ext; [exact H1|]. intros j. cbn [mlookup]. destruct (eqb k j) eqn:Ej; [|done].
                rewrite Ed. by rewrite (Hsub _ _ (Hfst j Ej)).
          -- exists m. split.
             ++ unfold ret. unfold sweep_events. cbn [map concat fst snd]. rewrite Ed. by rewrite app_nil_r.
             ++ eapply has_ext; [exact H|]. intros j. cbn [mlookup]. destruct (eqb k j); [|done]. by rewrite Ed.
          -- exists m. split.
             ++ unfold ret. unfold sweep_events. cbn [map concat fst snd]. rewrite Ed. by rewrite app_nil_r.
             ++ eapply has_ext; [exact H|]. intros j. cbn [mlookup]. destruct (eqb k j); [|done]. by rewrite Ed.
  Qed.

  Lemma sweep_p_ok s t doomed use f body : rel s t -> body_ok_p t doomed use f body ->
    exists r s' t' evs, map_Range_p ord body s = Ok (r, s') /\ sweep_p eqb panics t doomed use f (match r with Some _ => Some RUnit | None => None end) t' evs /\ rel s' t' /\ c_log s' = c_log s ++ evs.
  Proof.
    intros (H&He&Hn) Hb. unfold map_Range_p. unfold bind at 1, on_map.
    assert (exists m1, (m0 <- gets id ;; (if a_amended m0 then promote else ret tt) ;;; m1 <- gets id ;; iterate ord (a_read m1)) (c_map s) =
        Ok (ord (a_its m1) (a_read m1), mk_amap (a_read m1) (a_amended m1) (a_dirty m1) (a_len m1) (a_misses m1) (a_slot m1) (a_new m1) (S (a_its m1))) /\
        quiet eqb (c_map s) m1 /\ a_amended m1 = false) as (m1&E1&Hq&Ha).
    { unfold bind at 1, gets at 1, id. cbv beta iota. destruct (a_amended (c_map s)) eqn:Ea.
      - destruct (promote_quiet eqb (c_map s) (proj1 H) Ea) as (m1&E1&Hq&_&Ha). exists m1. unfold bind at 1. rewrite E1. done.
      - exists (c_map s). split; [done|]. split; [by apply quiet_refl; apply H|done]. }
    rewrite E1. set (m2 := mk_amap _ _ _ _ _ _ _ _). rewrite upto_nil.
    pose proof (has_quiet eqb _ _ _ _ H Hq) as H1. assert (H2 : has m2 (t_map t) (t_odd t)) by exact H1.
    pose proof (Hord (a_its m1) (a_read m1)) as Hp. set (es := ord (a_its m1) (a_read m1)) in *.
    destruct (loop_p_ok t doomed use f body Hb es m2 (t_map t) [] s H2 Ha He) as (m'&E2&H3).
    { rewrite Hp. apply (i_rn _ _ _ _ _ _ (proj1 H1)). }
    { intros p Hp2. cbn. by rewrite <- Hp. }
    set (l := live (a_slot m2) es) in *.
    exists (out t doomed f l), (upto s m' (sweep_events eqb true t doomed use (visit_p eqb panics t doomed f l))).
    exists (with_map (sweep_map eqb t doomed (visit_p eqb panics t doomed f l)) t), (sweep_events eqb true t doomed use (visit_p eqb panics t doomed f l)).
    split; [exact E2|]. split; [|split; [|done]].
    - exists l. split; [|split; [done|]; split; [done|]; unfold out; by destruct (existsb _ _)].
      assert (Hl : all m2 ≡ₚ l). { unfold RwMapAny.all, l. apply live_perm. unfold cur. cbn. rewrite Ha. by symmetry. }
      assert (Hk : kok l). { eapply (kok_perm eqb P); [exact Hl|]. apply (kok_all eqb). apply H2. }
      split; [by apply (kok_apart eqb P)|]. split.
      + intros k. rewrite (find_perm eqb P (all m2) l k); [apply H2|apply (kok_all eqb); apply H2|done].
      + rewrite <- (filter_perm eqb _ _ Hl). apply H2.
    - split; [|done]. cbn [c_map upto with_map t_map t_odd]. exact H3.
  Qed.

  (** * The calls *)
  Lemma visit_p_found t doomed f l k e : find (visit_p eqb panics t doomed f l) k = Some e -> find l k = Some e.
  Proof.
    induction l as [|[k1 e1] l IH]; [done|]. rewrite visit_p_cons. destruct (turn eqb panics t doomed f (k1, e1)) as [[]|]; cbn; by destruct (eqb k1 k).
  Qed.
  Lemma find_in (l : list (K * nat)) k e : find l k = Some e -> exists k', (k', e) ∈ l /\ eqb k' k = true.
  Proof.
    induction l as [|[k1 e1] l IH]; [done|]. cbn. destruct (eqb k1 k) eqn:E.
    - intros [= ->]. exists k1. split; [by left|done].
    - intros H. destruct (IH H) as (k'&Hin&Hk). exists k'. split; [by right|done].
  Qed.
  Lemma p_CAD_found s t k e : rel s t -> t_map t k = Some e -> exists s', p_CompareAndDelete eqb panics k e s = Ok (if panics (value t e) then None else Some true, s') /\
    rel s' (remove eqb k t) /\ c_log s' = c_log s ++ says t e.
  Proof.
    intros R E. rewrite (p_CAD_eq s t k e (proj1 (proj2 R))).
    destruct (CAD_found eqb P true ord Hord s t k e R E) as (s'&E1&R1&L1). rewrite E1. eexists. split; [reflexivity|]. done.
  Qed.
  Lemma fit_sweep_p t doomed use f r t' evs : fit t -> sweep_p eqb panics t doomed use f r t' evs -> fit t'.
  Proof.
    intros F (l&_&->&_). apply fit_with; [done|]. intros k. unfold sweep_map. destruct (find _ k) as [e|]; [|by right]. destruct (doomed e); auto.
  Qed.
  Lemma fit_make_p t now v d : fit t -> fit (make now v d t).
  Proof. intros F. by eapply fit_make. Qed.
  Lemma fit_effect_p now c t r t' evs : fit t -> effect_p eqb veq panics now c t r t' evs -> fit t'.
  Proof.
    intros F. destruct c as [[k v d|k|k v d|k|k|k e|k v| |f| |e a|e d]|f]; cbn [effect_p].
    - intros (_&->&_). apply fit_insert; [by apply fit_make_p|cbn; lia].
    - repeat case_match; intros (_&->&_); auto using fit_remove.
    - destruct (t_map t k) as [e|]; [destruct (expired t now e)|].
      + intros (_&_&->). destruct (panics _).
        * by apply fit_remove, fit_make_p.
        * apply fit_insert; [|cbn; lia]. by apply fit_make_p, fit_remove, fit_make_p.
      + intros (_&->&_). by apply fit_make_p.
      + intros (_&->&_). apply fit_insert; [by apply fit_make_p|cbn; lia].
    - repeat case_match; intros (_&->&_); auto using fit_remove.
    - repeat case_match; intros (_&->&_); auto using fit_remove.
    - repeat case_match; intros (_&->&_); auto using fit_remove.
    - repeat case_match; intros (_&->&_); auto using fit_remove.
    - by apply fit_sweep_p.
    - by apply fit_sweep_p.
    - by apply fit_sweep_p.
    - intros (_&->&_). exact F.
    - intros (_&->&_). exact F.
    - by apply fit_sweep_p.
  Qed.
  Lemma Range_p_ok now f s t : rel s t -> exists r s' t' evs, andthen (p_Range eqb ord panics now f) (fun _ => ret (Some RUnit)) s = Ok (r, s') /\
    sweep_p eqb panics t (expired t now) true f r t' evs /\ rel s' t' /\ c_log s' = c_log s ++ evs.
  Proof.
    intros R. unfold p_Range, andthen at 1, bind at 1. match goal with |- context [map_Range_p _ ?body _] => destruct (sweep_p_ok s t (expired t now) true f body R) as (r&s'&t'&evs&E1&Hsw&R1&L1) end.
    { intros s0 k e He0. unfold bind at 1. rewrite (expired_eq0 s0 t now e He0). destruct (expired t now e); [|done].
      unfold andthen, bind. rewrite (p_CAD_eq s0 t k e He0). destruct (c_CompareAndDelete _ _ _ _ _) as [[b s1]| |]; [|done|done]. by destruct (b && _). }
    rewrite E1. exists (match r with Some _ => Some RUnit | None => None end), s', t', evs. split; [by destruct r|]. done.
  Qed.

  Lemma effect_p_ok now c s t : rel s t -> fit t -> exists r s' t' evs, p_exec eqb upd veq ord panics now c s = Ok (r, s') /\
    effect_p eqb veq panics now c t r t' evs /\ rel s' t' /\ c_log s' = c_log s ++ evs.
  Proof.
    intros R F. pose proof R as (H&He&Hn). destruct c as [[k v d|k|k v d|k|k|k e|k v| |f| |e a|e d]|f]; cbn [p_exec effect_p].
    - (* Store *)
      destruct (make_ok eqb s t now v d R) as (s1&E1&R1&L1). unfold c_Store, bind. rewrite E1.
      pose proof R1 as (H1&He1&Hn1). destruct (Swap_ok eqb P upd Nat.eqb ord Hord (c_map s1) k (t_new t) (proj1 H1)) as (m2&E2&H2&Hp&Hl).
      unfold on_map, Store, bind. rewrite E2. cbn [ret]. rewrite upto_nil.
      eexists _, _, _, _. split; [reflexivity|]. split; [done|]. split; [|by rewrite log_upto, L1].
      apply insert_rel; [done..|]. by eapply (has_put eqb P ord Hord).
    - (* Load *)
      destruct (map_Load eqb P s t k R) as (s1&E1&R1&L1). unfold andthen, p_Load, bind at 1. unfold bind at 1. rewrite E1.
      destruct (t_map t k) as [e|] eqn:Ek.
      + unfold bind at 1. rewrite (expired_eq0 s1 t now e); [|apply R1]. destruct (expired t now e).
        * destruct (p_CAD_found s1 t k e R1 Ek) as (s2&E2&R2&L2). unfold andthen, bind at 1. rewrite E2.
          eexists (unless panics t e (REnt None)), _, _, _. split; [unfold unless; by destruct (panics _)|]. split; [done|]. split; [done|]. by rewrite L2, L1.
        * eexists _, _, _, _. split; [reflexivity|]. split; [done|]. split; [done|]. by rewrite app_nil_r.
      + eexists _, _, _, _. split; [reflexivity|]. split; [done|]. split; [done|]. by rewrite app_nil_r.
    - (* LoadOrStore *)
      cbn [p_LoadOrStore]. destruct (make_ok eqb s t now v d R) as (s1&E1&R1&L1). unfold andthen at 1, bind at 1 2. rewrite E1.
      destruct (map_LoadOrStore eqb P upd ord Hord s1 _ k (t_new t) R1) as (s2&E2&R2&L2). cbn [t_map make] in E2, R2. unfold bind at 1. rewrite E2.
      destruct (t_map t k) as [e|] eqn:Ek.
      + unfold bind at 1. rewrite (expired_eq0 s2 _ now e (proj1 (proj2 R2))).
        assert (Hent : t_ent (make now v d t) e = t_ent t e). { cbn. rewrite fn_lookup_insert_ne; [done|]. apply F in Ek. lia. }
        replace (expired (make now v d t) now e) with (expired t now e).
        2:{ unfold expired, expires. by rewrite Hent. }
        assert (Hval : value (make now v d t) e = value t e). { unfold value. by rewrite Hent. }
        destruct (expired t now e).
        * destruct (p_CAD_found s2 _ k e R2 Ek) as (s3&E3&R3&L3). unfold andthen at 1, bind at 1. rewrite E3, Hval. unfold says in *. rewrite Hval in L3. unfold unless.
          destruct (panics (value t e)).
          { cbn [ret]. eexists _, _, _, _. split; [reflexivity|]. split; [done|]. split; [done|]. by rewrite L3, L2, L1. }
          destruct (make_ok eqb s3 _ now v d R3) as (s4&E4&R4&L4). unfold bind at 1. rewrite E4.
          destruct (map_LoadOrStore eqb P upd ord Hord s4 _ k (t_new (remove eqb k (make now v d t))) R4) as (s5&E5&R5&L5). unfold bind at 1. rewrite E5.
          assert (Ekk : eqb k k = true). { destruct H as (_&_&Hf&_). rewrite <- Hf in Ek. by eapply (found_self eqb P). }
          assert (Em : t_map (make now v d (remove eqb k (make now v d t))) k = None). { cbn. unfold fupd. by rewrite Ekk. }
          rewrite Em in *. cbn [ret fst snd].
          eexists _, _, _, _. split; [reflexivity|]. split; [done|]. split; [done|]. by rewrite L5, L4, L3, L2, L1.
        * eexists _, _, _, _. split; [reflexivity|]. split; [done|]. split; [done|]. by rewrite L2, L1, app_nil_r.
      + eexists _, _, _, _. split; [reflexivity|]. split; [done|]. split; [done|]. by rewrite L2, L1, app_nil_r.
    - (* Delete *)
      destruct (map_LoadAndDelete eqb P ord Hord s t k R) as (s1&E1&R1&L1). unfold andthen, p_Delete, bind. rewrite E1.
      destruct (t_map t k) as [e|] eqn:Ek.
      + rewrite (deleted_p_ok s1 t e); [|apply R1].
        eexists (unless panics t e RUnit), _, _, _. split; [unfold unless; by destruct (panics _)|]. split; [done|]. split; [|by rewrite log_upto, L1]. apply (rel_upto0 eqb s1 (remove eqb k t)); [done|apply R1].
      + eexists _, _, _, _. split; [reflexivity|]. split; [done|]. split; [by eapply (remove_none eqb P s)|]. by rewrite app_nil_r.
    - (* LoadAndDelete *)
      destruct (map_LoadAndDelete eqb P ord Hord s t k R) as (s1&E1&R1&L1). unfold andthen at 1, p_LoadAndDelete, bind at 1. unfold bind at 1. rewrite E1.
      destruct (t_map t k) as [e|] eqn:Ek.
      + unfold bind at 1. rewrite (expired_eq0 s1 t now e); [|apply R1]. unfold andthen, bind. rewrite (deleted_p_ok s1 t e); [|apply R1].
        eexists (unless panics t e (REnt (if expired t now e then None else Some e))), _, _, _. split; [unfold unless; by destruct (panics _)|]. split; [done|]. split; [|by rewrite log_upto, L1]. apply (rel_upto0 eqb s1 (remove eqb k t)); [done|apply R1].
      + eexists _, _, _, _. split; [reflexivity|]. split; [done|]. split; [by eapply (remove_none eqb P s)|]. by rewrite app_nil_r.
    - (* CompareAndDelete *)
      unfold andthen, bind. rewrite (p_CAD_eq s t k e He).
      destruct (CAD_ok eqb P true ord Hord s t k e R) as (m'&E1&H1). rewrite E1. destruct (decide (t_map t k = Some e)) as [E|E].
      + rewrite bool_decide_eq_true_2 by done. cbn [andb]. eexists (unless panics t e (RBool true)), _, _, _. split; [unfold unless; by destruct (panics _)|]. split; [done|]. split; [by apply rel_upto|done].
      + rewrite bool_decide_eq_false_2 by done. eexists _, _, _, _. split; [reflexivity|]. split; [done|]. split; [by apply rel_upto0|done].
    - (* CompareValueAndDelete *)
      unfold p_CompareValueAndDelete, p_Load. destruct (map_Load eqb P s t k R) as (s1&E1&R1&L1). unfold andthen at 1 2, bind at 1 2 3. rewrite E1.
      destruct (t_map t k) as [e|] eqn:Ek.
      + unfold bind at 1. rewrite (expired_eq0 s1 t now e); [|apply R1]. destruct (expired t now e).
        * destruct (p_CAD_found s1 t k e R1 Ek) as (s2&E2&R2&L2). unfold andthen, bind at 1. rewrite E2.
          eexists (unless panics t e (RBool false)), _, _, _. split; [unfold unless; by destruct (panics _)|]. split; [done|]. split; [done|]. by rewrite L2, L1.
        * cbn [ret]. unfold bind at 1, ent. assert (Hv : (c_ent s1 e).1 = value t e). { destruct R1 as (_&He1&_). unfold value. by rewrite He1. }
          rewrite Hv. destruct (veq v (value t e)).
          -- destruct (p_CAD_found s1 t k e R1 Ek) as (s2&E2&R2&L2). rewrite E2.
             eexists (unless panics t e (RBool true)), _, _, _. split; [unfold unless; by destruct (panics _)|]. split; [done|]. split; [done|]. by rewrite L2, L1.
          -- eexists _, _, _, _. split; [reflexivity|]. split; [done|]. split; [done|]. by rewrite app_nil_r.
      + eexists _, _, _, _. split; [reflexivity|]. split; [done|]. split; [done|]. by rewrite app_nil_r.
    - (* Clear *)
      unfold p_Clear, andthen at 1, bind at 1. match goal with |- context [map_Range_p _ ?body _] => destruct (sweep_p_ok s t (fun _ => true) false (fun _ _ => Some true) body R) as (r&s'&t'&evs&E1&Hsw&R1&L1) end.
      { intros s0 k e He0. unfold andthen, bind. rewrite (p_CAD_eq s0 t k e He0). destruct (c_CompareAndDelete _ _ _ _ _) as [[b s1]| |]; [|done|done]. by destruct (b && _). }
      rewrite E1. exists (match r with Some _ => Some RUnit | None => None end), s', t', evs. split; [by destruct r|]. done.
    - by apply Range_p_ok.
    - (* trim *)
      unfold p_trim, andthen at 1, bind at 1. match goal with |- context [map_Range_p _ ?body _] =>
        destruct (sweep_p_ok s t (fun e => (expires t e <? now 0%nat / 1000000)%Z) false (fun _ _ => Some true) body R) as (r&s'&t'&evs&E1&Hsw&R1&L1) end.
      { intros s0 k e He0. unfold bind at 1, ent. rewrite He0. fold (expires t e). unfold milli. destruct (expires t e <? now 0%nat / 1000000)%Z; [|by rewrite upto_id].
        unfold andthen, bind. rewrite (p_CAD_eq s0 t k e He0). destruct (c_CompareAndDelete _ _ _ _ _) as [[b s1]| |]; [|done|done]. by destruct (b && _). }
      rewrite E1. exists (match r with Some _ => Some RUnit | None => None end), s', t', evs. split; [by destruct r|]. done.
    - (* SetExpiration *)
      eexists _, _, _, _. split; [reflexivity|]. split; [done|]. split; [|by rewrite app_nil_r]. split; [exact H|]. cbn. by rewrite He.
    - eexists _, _, _, _. split; [reflexivity|]. split; [done|]. split; [|by rewrite app_nil_r]. split; [exact H|]. cbn. by rewrite He.
    - by apply Range_p_ok.
  Qed.

  (** * Histories *)
  Lemma history_p_ok cs : forall s t, rel s t -> fit t -> exists rs s' t' evs, p_run eqb upd veq ord panics s cs = Some (rs, s') /\
    effects_p eqb veq panics t cs rs t' evs /\ rel s' t' /\ fit t' /\ c_log s' = c_log s ++ evs.
  Proof.
    induction cs as [|[now c] cs IH]; intros s t R F.
    - exists [], s, t, []. split; [done|]. split; [done|]. split; [done|]. split; [done|]. by rewrite app_nil_r.
    - destruct (effect_p_ok now c s t R F) as (r&s1&t1&evs1&E1&Hf1&R1&L1). pose proof (fit_effect_p now c t r t1 evs1 F Hf1) as F1.
      destruct (IH s1 t1 R1 F1) as (rs&s2&t2&evs2&E2&Hf2&R2&F2&L2). exists (r :: rs), s2, t2, (evs1 ++ evs2). cbn [p_run]. rewrite E1, E2.
      split; [done|]. split; [by exists t1, evs1, evs2|]. split; [done|]. split; [done|]. by rewrite L2, L1, app_assoc.
  Qed.
  Lemma reached_p cs v0 rs s : p_run eqb upd veq ord panics (new_cache v0) cs = Some (rs, s) ->
    exists t, effects_p eqb veq panics (no_content v0) cs rs t (c_log s) /\ rel s t /\ fit t.
  Proof.
    intros E. destruct (history_p_ok cs _ _ (rel_new eqb v0) (fit_new v0)) as (rs'&s'&t'&evs&E'&He&R&F&L). rewrite E in E'. injection E' as -> ->.
    exists t'. by rewrite L.
  Qed.
End proofs.
