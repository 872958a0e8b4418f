(** The cache with callbacks that panic: C213, C214. *)
From Coq Require Import ZifyBool ZifyNat.
From Verif Require Import Base GoMap GoMapSpec RwMapAnyModel RwMapAnySpec RwMapAnyTable RwMapAny RwMapAnyProperties SyncCacheAnyModel SyncCacheAnySpec SyncCacheAny.
From Verif Require Import SyncCacheAnyProperties SyncCachePanicModel SyncCachePanicSpec SyncCachePanic.

Section C213.
  Context {K V : Type} (eqb : K -> K -> bool) (upd : bool) (veq : V -> V -> bool).
  Context (ord : nat -> list (K * nat) -> list (K * nat)).
  Context (panics : V -> bool).
  Notation run := (p_run eqb upd veq ord panics).
  Notation exec := (p_exec eqb upd veq ord panics).

  (** ** C213 *)
  Theorem C213_effects (cs : list (timed_p K V)) v0 :
    per eqb -> (forall n l, ord n l ≡ₚ l) ->
    exists rs s t, run (new_cache v0) cs = Some (rs, s) /\ effects_p eqb veq panics (no_content v0) cs rs t (c_log s).
  Proof.
    intros P Hord. destruct (history_p_ok eqb P upd veq ord Hord panics cs _ _ (rel_new eqb v0) (fit_new v0)) as (rs&s&t&evs&E&He&R&F&L).
    exists rs, s, t. split; [done|]. by rewrite L.
  Qed.

  (** With no value on which the deletedCallback panics, the calls are those of SyncCacheAnyModel.v. *)
  Section quiet.
    Context (H0 : forall v, panics v = false).
    Notation lift := (fun r => match r with Ok (b, s1) => Ok (Some b, s1) | Panic => Panic | NoFuel => NoFuel end).
    Lemma q_CAD k e s : p_CompareAndDelete eqb panics k e s = lift (c_CompareAndDelete eqb true k e s).
    Proof.
      unfold p_CompareAndDelete, c_CompareAndDelete, bind at 1 2. unfold on_map. destruct (CompareAndDelete eqb Nat.eqb k e (c_map s)) as [[b m]| |]; [|done|done].
      destruct b; [|done]. unfold andthen, bind, deleted, deleted_p, bind, ent, log, ret. cbn. by rewrite H0.
    Qed.
    Lemma q_deleted e (s : cache K V) : deleted_p panics e s = lift (deleted true e s).
    Proof. unfold deleted, deleted_p, bind, ent, log, ret. cbn. by rewrite H0. Qed.
    Lemma q_Load now k s : p_Load eqb panics now k s = lift (c_Load eqb true now k s).
    Proof.
      unfold p_Load, c_Load, andthen, bind. destruct (on_map (Load eqb k) s) as [[[e|] s1]| |]; [|done..].
      destruct (IsExpired now e s1) as [[[] s2]| |]; [|done..]. rewrite q_CAD. by destruct (c_CompareAndDelete eqb true k e s2) as [[]| |].
    Qed.
    Lemma q_LoadOrStore now n k v d : forall s, p_LoadOrStore eqb upd ord panics now n k v d s = lift (c_LoadOrStore eqb upd true ord now n k v d s).
    Proof.
      induction n as [|n IH]; intros s; [done|]. cbn [p_LoadOrStore c_LoadOrStore]. unfold andthen, bind at 1. unfold bind at 4.
      destruct (NewEntry now v d s) as [[e0 s1]| |]; [|done..]. unfold bind.
      destruct (on_map (LoadOrStore eqb upd ord k e0) s1) as [[[e []] s2]| |]; [|done..].
      destruct (IsExpired now e s2) as [[[] s3]| |]; [|done..]. rewrite q_CAD. destruct (c_CompareAndDelete eqb true k e s3) as [[[] s4]| |]; [apply IH|done..].
    Qed.
    Lemma q_loop (body : K -> nat -> M (cache K V) (option bool)) (body' : K -> nat -> M (cache K V) bool) : (forall k e s, body k e s = lift (body' k e s)) -> forall es s, loop_p body es s = lift (loop body' es s).
    Proof.
      intros Hb. induction es as [|[k a] es IH]; intros s; [done|]. cbn [loop_p loop]. unfold bind at 1 2.
      destruct (on_map (e_load a) s) as [[[e|] s1]| |]; [|apply IH|done..]. unfold andthen, bind. rewrite Hb.
      destruct (body' k e s1) as [[[] s2]| |]; [apply IH|done..].
    Qed.
    Lemma q_Range (body : K -> nat -> M (cache K V) (option bool)) (body' : K -> nat -> M (cache K V) bool) : (forall k e s, body k e s = lift (body' k e s)) -> forall s, map_Range_p ord body s = lift (map_Range ord body' s).
    Proof.
      intros Hb s. unfold map_Range_p, map_Range, bind at 1. unfold bind at 4. destruct (on_map _ s) as [[es s1]| |]; [|done..]. by apply q_loop.
    Qed.
  End quiet.
  Theorem C213_no_panic now c s : (forall v, panics v = false) ->
    exec now (PCall c) s = match c_exec eqb upd veq true ord now c s with Ok (r, s1) => Ok (Some r, s1) | Panic => Panic | NoFuel => NoFuel end.
  Proof.
    intros H0. destruct c as [k v d|k|k v d|k|k|k e|k v| |f| |e a|e d]; cbn [p_exec c_exec].
    - unfold bind. by destruct (c_Store eqb upd ord now k v d s) as [[]| |].
    - unfold andthen, bind. rewrite q_Load by done. by destruct (c_Load eqb true now k s) as [[]| |].
    - unfold andthen, bind. rewrite q_LoadOrStore by done. by destruct (c_LoadOrStore eqb upd true ord now 2 k v d s) as [[]| |].
    - unfold andthen, p_Delete, c_Delete, bind. destruct (on_map (LoadAndDelete eqb k) s) as [[[e|] s1]| |]; [|done..]. rewrite q_deleted by done. by destruct (deleted true e s1) as [[]| |].
    - unfold andthen, p_LoadAndDelete, c_LoadAndDelete, andthen, bind. destruct (on_map (LoadAndDelete eqb k) s) as [[[e|] s1]| |]; [|done..].
      destruct (IsExpired now e s1) as [[x s2]| |]; [|done..]. rewrite q_deleted by done. by destruct (deleted true e s2) as [[]| |].
    - unfold andthen, bind. rewrite q_CAD by done. by destruct (c_CompareAndDelete eqb true k e s) as [[]| |].
    - unfold p_CompareValueAndDelete, c_CompareValueAndDelete, andthen, bind. rewrite q_Load by done. destruct (c_Load eqb true now k s) as [[[e|] s1]| |]; [|done..].
      destruct (ent e s1) as [[x s2]| |]; [|done..]. destruct (veq v x.1); [|done]. rewrite q_CAD by done. by destruct (c_CompareAndDelete eqb true k e s2) as [[]| |].
    - unfold p_Clear, c_Clear, andthen at 1, bind at 1. unfold bind at 1. erewrite q_Range.
      2:{ intros k e s1. unfold andthen, bind at 1. rewrite q_CAD by done. instantiate (1 := fun k e => c_CompareAndDelete eqb true k e ;;; ret true). cbn beta. unfold bind.
          by destruct (c_CompareAndDelete eqb true k e s1) as [[]| |]. }
      match goal with |- context [map_Range _ ?b s] => set (bb := b) end. unfold bind. by destruct (map_Range ord bb s) as [[]| |].
    - unfold p_Range, c_Range, andthen at 1, bind at 1. unfold bind at 2. erewrite q_Range.
      2:{ intros k e s1. instantiate (1 := fun k e => x <- IsExpired now e ;; if (x : bool) then c_CompareAndDelete eqb true k e ;;; ret true else log (EUse k e) ;;; ret (f k e)). cbn beta.
          unfold andthen, bind. destruct (IsExpired now e s1) as [[[] s2]| |]; [|done..]. rewrite q_CAD by done.
          by destruct (c_CompareAndDelete eqb true k e s2) as [[]| |]. }
      match goal with |- context [map_Range _ ?b s] => set (bb := b) end. unfold bind. by destruct (map_Range ord bb s) as [[]| |].
    - unfold p_trim, c_trim, andthen at 1, bind at 1. unfold bind at 2. erewrite q_Range.
      2:{ intros k e s1. instantiate (1 := fun k e => x <- ent e ;; (if (snd x <? milli (now 0%nat))%Z then c_CompareAndDelete eqb true k e ;;; ret tt else ret tt) ;;; ret true). cbn beta.
          unfold andthen, bind. destruct (ent e s1) as [[x s2]| |]; [|done..]. destruct (_ <? _)%Z; [|done]. rewrite q_CAD by done.
          by destruct (c_CompareAndDelete eqb true k e s2) as [[]| |]. }
      match goal with |- context [map_Range _ ?b s] => set (bb := b) end. unfold bind. by destruct (map_Range ord bb s) as [[]| |].
    - done.
    - done.
  Qed.

  (** ** C214 *)
  (** What the deletedCallback was last called with is what it panicked on, and nothing it was called with
      before that in the same call. *)
  Theorem C214_last (cs : list (timed_p K V)) v0 rs s now c s1 :
    per eqb -> (forall n l, ord n l ≡ₚ l) -> run (new_cache v0) cs = Some (rs, s) -> exec now (PCall c) s = Ok (None, s1) ->
    exists evs v, c_log s1 = c_log s ++ evs ++ [EDel v] /\ panics v = true /\ forall v', EDel v' ∈ evs -> panics v' = false.
  Proof.
    intros P Hord E E1. destruct (reached_p eqb P upd veq ord Hord panics cs v0 rs s E) as (t&_&R&F).
    destruct (effect_p_ok eqb P upd veq ord Hord panics now (PCall c) s t R F) as (r&s1'&t1&evs&E1'&Hf&_&L). rewrite E1 in E1'. injection E1' as <- <-. rewrite L. clear L E1.
    assert (Hkey : forall e r0, None = unless panics t e r0 -> evs = says t e -> exists evs' v, c_log s ++ evs = c_log s ++ evs' ++ [EDel v] /\ panics v = true /\ forall v', EDel v' ∈ evs' -> panics v' = false).
    { intros e r0 Hu ->. unfold unless in Hu. destruct (panics (value t e)) eqn:Ep; [|done]. exists [], (value t e). split; [done|]. split; [done|]. intros v' Hv. by apply elem_of_nil in Hv. }
    assert (Hsw : forall doomed use f, (forall k e, f k e <> None) -> sweep_p eqb panics t doomed use f None t1 evs ->
      exists evs' v, c_log s ++ evs = c_log s ++ evs' ++ [EDel v] /\ panics v = true /\ forall v', EDel v' ∈ evs' -> panics v' = false).
    { intros doomed use f Hn (l&_&_&Hevs&Hr). cbn zeta in *. clear - Hn Hevs Hr. revert evs Hevs. induction l as [|p l IH]; intros evs Hevs; [done|].
      rewrite visit_p_cons in *. destruct (turn eqb panics t doomed f p) as [[]|] eqn:Et.
      - cbn in Hr. rewrite Et in Hr. cbn in Hr. destruct (IH Hr _ eq_refl) as (evs'&v&Hl&Hp&Hb). apply app_inv_head in Hl.
        cbn [sweep_events map concat] in Hevs. fold (sweep_events eqb true t doomed use (visit_p eqb panics t doomed f l)) in Hevs. rewrite Hl in Hevs.
        exists ((if doomed p.2 then if eqb p.1 p.1 then reported true t p.2 else [] else if use then [EUse p.1 p.2] else []) ++ evs'), v. subst evs.
        split; [by rewrite <- !app_assoc|]. split; [done|]. intros v' [Hv|Hv]%elem_of_app; [|by apply Hb].
        unfold turn in Et. destruct (doomed p.2).
        + destruct (eqb p.1 p.1); [|by apply elem_of_nil in Hv]. cbn [andb] in Et. destruct (panics (value t p.2)) eqn:Ep; [done|].
          unfold reported in Hv. apply elem_of_list_singleton in Hv. by injection Hv as ->.
        + destruct use; [by apply elem_of_list_singleton in Hv|by apply elem_of_nil in Hv].
      - cbn in Hr. by rewrite Et in Hr.
      - unfold turn in Et. cbn [sweep_events map concat] in Hevs. rewrite app_nil_r in Hevs. destruct (doomed p.2); [|by apply Hn in Et].
        destruct (eqb p.1 p.1); [|done]. cbn [andb] in Et. destruct (panics (value t p.2)) eqn:Ep; [|done].
        exists [], (value t p.2). subst evs. split; [done|]. split; [done|]. intros v' Hv. by apply elem_of_nil in Hv. }
    destruct c as [k v d|k|k v d|k|k|k e|k v| |f| |e a|e d]; cbn [effect_p] in Hf.
    - by destruct Hf.
    - repeat case_match; destruct Hf as (Hr&_&Hevs); try done. by eapply Hkey.
    - destruct (t_map t k) as [e|]; [destruct (expired t now e)|]; [|by destruct Hf..]. destruct Hf as (Hr&Hevs&_). by eapply Hkey.
    - repeat case_match; destruct Hf as (Hr&_&Hevs); try done. by eapply Hkey.
    - repeat case_match; destruct Hf as (Hr&_&Hevs); try done; by eapply Hkey.
    - repeat case_match; destruct Hf as (Hr&_&Hevs); try done. by eapply Hkey.
    - repeat case_match; destruct Hf as (Hr&_&Hevs); try done; by eapply Hkey.
    - eapply Hsw; [|exact Hf]. by intros.
    - eapply Hsw; [|exact Hf]. by intros.
    - eapply Hsw; [|exact Hf]. by intros.
    - by destruct Hf.
    - by destruct Hf.
  Qed.
  Definition key_of (c : c_call K V) : option K :=
    match c with
    | CLoad k | CLoadOrStore k _ _ | CDelete k | CLoadAndDelete k | CCompareAndDelete k _ | CCompareValueAndDelete k _ => Some k
    | _ => None
    end.
  (** After a call for a key that panicked, the key is not found: the entry is gone, and LoadOrStore has stored nothing. *)
  Theorem C214_gone (cs : list (timed_p K V)) v0 rs s now c s1 k now' :
    per eqb -> (forall n l, ord n l ≡ₚ l) -> run (new_cache v0) cs = Some (rs, s) ->
    exec now (PCall c) s = Ok (None, s1) -> key_of c = Some k ->
    exists s2, exec now' (PCall (CLoad k)) s1 = Ok (Some (REnt None), s2) /\ c_log s2 = c_log s1.
  Proof.
    intros P Hord E E1 Hk. destruct (reached_p eqb P upd veq ord Hord panics cs v0 rs s E) as (t&_&R&F).
    destruct (effect_p_ok eqb P upd veq ord Hord panics now (PCall c) s t R F) as (r&s1'&t1&evs&E1'&Hf&R1&L). rewrite E1 in E1'. injection E1' as <- <-.
    pose proof (fit_effect_p eqb veq ord Hord panics now (PCall c) t _ t1 evs F Hf) as F1.
    destruct (effect_p_ok eqb P upd veq ord Hord panics now' (PCall (CLoad k)) s1 t1 R1 F1) as (r&s2&t2&evs2&E2&H2&_&L2).
    assert (Ht1 : t_map t1 k = None).
    { assert (Hself : forall e, t_map t k = Some e -> forall t0 : @content K V, t_map (remove eqb k t0) k = None).
      { intros e Et t0. apply (rel_self eqb P s t k e R) in Et. cbn. unfold fupd. by rewrite Et. }
      destruct c; cbn [key_of] in Hk; try done; injection Hk as ->; cbn [effect_p] in Hf.
      - destruct (t_map t k) as [e|] eqn:Ek; [destruct (expired t now e)|]; [|by destruct Hf..]. destruct Hf as (_&->&_). by eapply Hself.
      - destruct (t_map t k) as [e|] eqn:Ek; [destruct (expired t now e)|]; [|by destruct Hf..]. destruct Hf as (Hr&_&->). unfold unless in Hr.
        destruct (panics _); [|done]. by eapply Hself.
      - destruct (t_map t k) as [e|] eqn:Ek; [|by destruct Hf]. destruct Hf as (_&->&_). by eapply Hself.
      - destruct (t_map t k) as [e|] eqn:Ek; [|by destruct Hf]. destruct Hf as (_&->&_). by eapply Hself.
      - destruct (decide _) as [Ek|]; [|by destruct Hf]. destruct Hf as (_&->&_). by eapply Hself.
      - destruct (t_map t k) as [e|] eqn:Ek; [|by destruct Hf]. repeat case_match; try (by destruct Hf); destruct Hf as (_&->&_); by eapply Hself. }
    cbn [effect_p] in H2. rewrite Ht1 in H2. destruct H2 as (->&_&->). exists s2. by rewrite L2, app_nil_r.
  Qed.
  (** Whether or not a call panics, an entry that could be found before it can be found after it, unless its
      value was reported; other than by Store and changes of the expiration. *)
  Definition leaves (c : p_call K V) : Prop :=
    match c with PCall (CStore _ _ _) | PCall (CSetExpiration _ _) | PCall (CAddExpiration _ _) => False | _ => True end.
  Theorem C214_kept (cs : list (timed_p K V)) v0 rs s now c r s1 k e now' s' :
    per eqb -> (forall n l, ord n l ≡ₚ l) -> run (new_cache v0) cs = Some (rs, s) ->
    exec now c s = Ok (r, s1) -> leaves c ->
    exec now' (PCall (CLoad k)) s = Ok (Some (REnt (Some e)), s') ->
    (exists evs, c_log s1 = c_log s ++ evs /\ EDel (fst (c_ent s e)) ∈ evs) \/
    exists s2, exec now' (PCall (CLoad k)) s1 = Ok (Some (REnt (Some e)), s2).
  Proof.
    intros P Hord E E1 Hc E0. destruct (reached_p eqb P upd veq ord Hord panics cs v0 rs s E) as (t&_&R&F).
    destruct (effect_p_ok eqb P upd veq ord Hord panics now c s t R F) as (r'&s1'&t1&evs&E1'&Hf&R1&L). rewrite E1 in E1'. injection E1' as <- <-.
    pose proof (fit_effect_p eqb veq ord Hord panics now c t _ t1 evs F Hf) as F1.
    destruct (effect_p_ok eqb P upd veq ord Hord panics now' (PCall (CLoad k)) s t R F) as (r9&s9&t9&evs9&E0'&H0&_). rewrite E0 in E0'. injection E0' as <- <-.
    destruct (effect_p_ok eqb P upd veq ord Hord panics now' (PCall (CLoad k)) s1 t1 R1 F1) as (r2&s2&t2&evs2&E2&H2&_).
    assert (Ek : t_map t k = Some e /\ expired t now' e = false).
    { cbn [effect_p] in H0. destruct (t_map t k) as [e'|]; [|by destruct H0]. destruct (expired t now' e') eqn:Ex.
      - destruct H0 as (Hr&_). unfold unless in Hr. by destruct (panics _).
      - destruct H0 as (Hr&_). by injection Hr as <-. }
    destruct Ek as [Ek Ex].
    assert (Hv : fst (c_ent s e) = value t e). { destruct R as (_&He&_). unfold value. by rewrite He. } rewrite Hv. clear E0 H0.
    assert (Hm : EDel (value t e) ∈ evs \/ (t_map t1 k = Some e /\ t_ent t1 e = t_ent t e)).
    { assert (Hsame : forall k' e', t_map t k' = Some e' -> eqb k' k = true -> e' = e).
      { intros k' e' E' Eq. destruct R as (Hh&_). rewrite <- (has_same eqb P _ _ _ _ _ Hh Eq) in E'. congruence. }
      assert (Hrem : forall k' e' (t0 : @content K V), t_map t k' = Some e' -> t_map t0 = t_map t -> t_ent t0 e = t_ent t e ->
        EDel (value t e) ∈ says t e' \/ (t_map (remove eqb k' t0) k = Some e /\ t_ent (remove eqb k' t0) e = t_ent t e)).
      { intros k' e' t0 E' Em Ee. cbn. unfold fupd. destruct (eqb k' k) eqn:Eq; [left|right; by rewrite Em].
        rewrite (Hsame k' e' E' Eq). unfold says. by left. }
      assert (Hsw : forall doomed use f r0, sweep_p eqb panics t doomed use f r0 t1 evs -> EDel (value t e) ∈ evs \/ (t_map t1 k = Some e /\ t_ent t1 e = t_ent t e)).
      { intros doomed use f r0 (l&Hl&->&->&_). cbn. unfold sweep_map. destruct (mlookup eqb (visit_p eqb panics t doomed f l) k) as [e'|] eqn:Ef; [|by right].
        destruct (doomed e') eqn:Ed; [|by right]. left. pose proof (visit_p_found eqb panics t doomed f l k e' Ef) as Hfl.
        destruct Hl as (_&Hl&_). rewrite Hl, Ek in Hfl. injection Hfl as <-. apply find_in in Ef as (k'&Hin&Eq).
        unfold sweep_events. apply elem_of_list_In, in_concat. exists [EDel (value t e)]. split; [|by left].
        apply in_map_iff. exists (k', e). split; [|by apply elem_of_list_In]. cbn. rewrite Ed.
        assert (Hs : eqb k' k' = true). { eapply (per_trans eqb P); [exact Eq|]. by rewrite (per_sym eqb P). } by rewrite Hs. }
      assert (Hmk : forall v d, t_ent (make now v d t) e = t_ent t e).
      { intros v d. cbn. rewrite fn_lookup_insert_ne; [done|]. apply F in Ek. lia. }
      destruct c as [[k' v d|k'|k' v d|k'|k'|k' e'|k' v| |f| |e' a|e' d]|f]; cbn [leaves] in Hc; try done; cbn [effect_p] in Hf.
      - destruct (t_map t k') as [e'|] eqn:E'; [destruct (expired t now e')|]; destruct Hf as (_&->&->); [by eapply Hrem|by right..].
      - destruct (t_map t k') as [e'|] eqn:E'; [destruct (expired t now e')|].
        + destruct Hf as (_&->&->). destruct (eqb k' k) eqn:Eq; [left; rewrite (Hsame k' e' E' Eq); by left|right].
          assert (Ekk : eqb k' k' = true) by (by eapply (rel_self eqb P s t)).
          destruct (panics _).
          * cbn [t_map t_ent remove with_map]. split; [|apply Hmk]. cbn. unfold fupd. by rewrite Eq.
          * unfold insert. rewrite Ekk. cbn. unfold fupd. rewrite Eq. split; [done|]. pose proof (proj1 F _ _ Ek) as Hlt. rewrite !fn_lookup_insert_ne; [done|clear - Hlt; lia..].
        + destruct Hf as (_&->&->). right. split; [done|apply Hmk].
        + destruct Hf as (_&->&->). right. pose proof (Hmk v d) as Hm. unfold insert. destruct (eqb k' k'); cbn; [|by split].
          unfold fupd. destruct (eqb k' k) eqn:Eq; [|by split]. destruct R as (Hh&_). rewrite <- (has_same eqb P _ _ _ _ _ Hh Eq) in E'. congruence.
      - destruct (t_map t k') as [e'|] eqn:E'; destruct Hf as (_&->&->); [by eapply Hrem|by right].
      - destruct (t_map t k') as [e'|] eqn:E'; destruct Hf as (_&->&->); [by eapply Hrem|by right].
      - destruct (decide _) as [E'|]; destruct Hf as (_&->&->); [by eapply Hrem|by right].
      - destruct (t_map t k') as [e'|] eqn:E'; [destruct (expired t now e'); [|destruct (veq v (value t e'))]|]; destruct Hf as (_&->&->); [by eapply Hrem|by eapply Hrem|by right..].
      - by eapply Hsw.
      - by eapply Hsw.
      - by eapply Hsw.
      - by eapply Hsw. }
    destruct Hm as [Hm|[Hm He]]; [left; by exists evs|right]. cbn [effect_p] in H2. rewrite Hm in H2. unfold expired, expires in H2. rewrite He in H2.
    unfold expired, expires in Ex. rewrite Ex in H2. destruct H2 as (->&_). by exists s2.
  Qed.
  (** A Clear that returns leaves no key that is found, whatever panicked before it. *)
  Theorem C214_clear (cs : list (timed_p K V)) v0 rs s now now' k s1 :
    per eqb -> (forall n l, ord n l ≡ₚ l) -> run (new_cache v0) cs = Some (rs, s) ->
    exec now (PCall CClear) s = Ok (Some RUnit, s1) -> exists s2, exec now' (PCall (CLoad k)) s1 = Ok (Some (REnt None), s2).
  Proof.
    intros P Hord E E1. destruct (reached_p eqb P upd veq ord Hord panics cs v0 rs s E) as (t&_&R&F).
    destruct (effect_p_ok eqb P upd veq ord Hord panics now (PCall CClear) s t R F) as (r&s1'&t1&evs&E1'&H1&R1&_). rewrite E1 in E1'. injection E1' as <- <-.
    pose proof (fit_effect_p eqb veq ord Hord panics now (PCall CClear) t _ t1 evs F H1) as F1.
    destruct (effect_p_ok eqb P upd veq ord Hord panics now' (PCall (CLoad k)) s1 t1 R1 F1) as (r&s2&t2&evs2&E2&H2&_).
    assert (Ht1 : t_map t1 k = None).
    { destruct H1 as (l&(_&Hl&_)&->&_&Hr). cbn. unfold sweep_map.
      assert (Hv : visit_p eqb panics t (fun _ => true) (fun _ _ => Some true) l = l).
      { clear - Hr. induction l as [|p l IH]; [done|]. rewrite visit_p_cons in *. destruct (turn _ _ _ _ _ p) as [[]|] eqn:Et.
        - f_equal. apply IH. cbn [existsb] in Hr. by rewrite Et in Hr.
        - unfold turn in Et. by destruct (eqb p.1 p.1 && _).
        - cbn [existsb] in Hr. by rewrite Et in Hr. }
      rewrite Hv, Hl. by destruct (t_map t k). }
    cbn [effect_p] in H2. rewrite Ht1 in H2. destruct H2 as (->&_). by exists s2.
  Qed.
End C213.

(** A history with a callback that panics on odd values; times in nanoseconds. *)
Definition ex_panics : list (timed_p float_key nat) :=
  [(at_s 0, PCall (CStore (Num 1) 10 (sec 5))); (at_s 0, PCall (CStore (Num 2) 11 (sec 5))); (at_s 0, PCall (CStore (Num 3) 12 (sec 5)));
   (at_s 0, PCall (CStore (Num 4) 13 (sec 50))); (at_s 1, PRange (fun k e => if (e =? 1)%nat then Some true else None));
   (at_s 2, PCall CClear); (at_s 2, PCall (CLoad (Num 3))); (at_s 2, PCall (CLoad (Num 1))); (at_s 6, PCall CTrim);
   (at_s 60, PCall (CLoadOrStore (Num 4) 14 (sec 5))); (at_s 60, PCall (CLoad (Num 4))); (at_s 60, PCall (CLoadOrStore (Num 4) 14 (sec 5))); (at_s 60, PCall CClear)].
Example ex_panics_run :
  match p_run float_eqb false Nat.eqb (fun _ l => l) Nat.odd (new_cache 0) ex_panics with
  | Some (rs, s) =>
      map (fun r => match r with Some _ => true | None => false end) rs = [true; true; true; true; false; false; true; true; true; false; true; true; true] /\
      c_log s = [EUse (Num 1) 1; EUse (Num 2) 2; EDel 10; EDel 11; EDel 12; EDel 13; EDel 14]
  | None => False
  end.
Proof. vm_compute. done. Qed.
Example ex_panics_effects : exists rs s t, p_run float_eqb false Nat.eqb (fun _ l => l) Nat.odd (new_cache 0) ex_panics = Some (rs, s) /\
  effects_p float_eqb Nat.eqb Nat.odd (no_content 0) ex_panics rs t (c_log s).
Proof. by apply C213_effects; [apply float_per|]. Qed.
(** A Clear that panics: the entry it panicked on is gone, the one it did not come to is found. *)
Example ex_panics_clear :
  match p_run float_eqb false Nat.eqb (fun _ l => l) Nat.odd (new_cache 0) (take 4 ex_panics) with
  | Some (_, s) =>
      match p_exec float_eqb false Nat.eqb (fun _ l => l) Nat.odd (at_s 2) (PCall CClear) s with
      | Ok (None, s1) =>
          match p_exec float_eqb false Nat.eqb (fun _ l => l) Nat.odd (at_s 2) (PCall (CLoad (Num 2))) s1,
                p_exec float_eqb false Nat.eqb (fun _ l => l) Nat.odd (at_s 2) (PCall (CLoad (Num 3))) s1 with
          | Ok (Some (REnt None), _), Ok (Some (REnt (Some 3)), _) => True
          | _, _ => False
          end
      | _ => False
      end
  | None => False
  end.
Proof. vm_compute. done. Qed.

Print Assumptions C213_effects.
Print Assumptions C213_no_panic.
Print Assumptions C214_last.
Print Assumptions C214_gone.
Print Assumptions C214_kept.
Print Assumptions C214_clear.
