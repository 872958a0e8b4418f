(** Proofs about calls made one after the other, and about the setters. *)
From Coq Require Import ZifyBool.
From Verif Require Import Base RefreshCacheModel RefreshCacheSpec RefreshCacheProofs RefreshCacheSolo
  RefreshCacheSeqSpec.

Section seq.
Context {T E F : Type} (zero : T) (maxAge errAge : Z).
Local Notation event := (event T E F).
Local Notation config := (config T E F).
Local Notation pc := (pc T E F).
Local Notation shared := (shared T E F).
Local Notation run := (run zero maxAge errAge).
Local Notation act := (act zero maxAge errAge).
Local Notation step := (step zero maxAge errAge).
Local Notation solo := (solo zero maxAge errAge).
Local Notation does := (does zero maxAge errAge).

Ltac sinv H :=
  let lab := fresh "lab" in let p' := fresh "p'" in let s1 := fresh "s1" in
  let ev := fresh "ev" in let evs := fresh "evs" in let Es := fresh "Es" in let Hs := fresh "Hs" in
  apply solo_inv in H as [(?&?&?)|(lab&p'&s1&ev&evs&Es&Hs&->)];
  [try discriminate
  |destruct lab as [|?n|?o|[?e|]]; cbn in Es; try discriminate Es].

(** The places from which no clear function is called. *)
Definition no_clear_pc (p : pc) : Prop :=
  match p with
  | K_old _ | K_last _ | K_run _ _ | X_clear => False
  | _ => True
  end.

Lemma no_clear_step t p s lab p' s1 ev :
  no_clear_pc p -> step t p s lab = Some (Some p', s1, ev) ->
  no_clear_pc p' /\ forall u f old, EKStart u f old ∉ ev.
Proof.
  intros Hp Es.
  destruct p as [f|f l| |f|f n| |f|f|f|f n| |f|f n| |f|[f|]|f old|r v|r|r n|r|r e|r|r n|r|r
              |f|[[f old]|]|f old| |l| | |n| | |v| | | | | |f|f|r]; try done;
  destruct lab as [|n'|o|[e'|]]; cbn in Es; try discriminate Es;
  repeat (match type of Es with
        | context [if ?b then _ else _] => destruct b eqn:?
        | context [match s_lock ?s with _ => _ end] => destruct (s_lock s) eqn:?
        | context [match s_ref ?s with _ => _ end] => destruct (s_ref s) as [[?|]|] eqn:?
        | context [after _ ?o] => destruct o; cbn in Es
        end; try discriminate Es);
  injection Es as <- _ <-; (split; [done|]); intros u g w Hr;
  repeat (apply elem_of_cons in Hr as [Hr|Hr]; [discriminate Hr|]); by apply elem_of_nil in Hr.
Qed.

Lemma no_clear_solo t p s s' evs r :
  solo t p s s' evs r -> no_clear_pc p -> forall u f old, EKStart u f old ∉ evs.
Proof.
  induction 1 as [r s|p s lab p' s1 ev s2 evs r Es Hs IH]; intros Hp u f old.
  - apply not_elem_of_nil.
  - destruct (no_clear_step _ _ _ _ _ _ _ Hp Es) as [Hp' Hn].
    rewrite not_elem_of_app. split; [apply Hn|by apply IH].
Qed.

(** Without clear functions the user calls are the refreshes. *)
Lemma user_calls_starts (evs : list event) :
  (forall u f old, EKStart u f old ∉ evs) ->
  user_calls evs = (fun p => UserRefresh p.1 p.2) <$> starts evs.
Proof.
  unfold user_calls, starts. induction evs as [|ev evs IH]; intros H; [done|].
  assert (forall u f old, EKStart u f old ∉ evs) as H'.
  { intros u f old Hi. apply (H u f old). by right. }
  destruct ev; cbn; rewrite ?IH by done; try done.
  exfalso. eapply H. apply elem_of_list_here.
Qed.

(** The refresh function pointer of a cache that was made by the constructor is never nil. *)
Lemma after_record_cache o n (s s' : shared) :
  after_record zero o n s s' -> cache_of s' = record zero o n (cache_of s).
Proof.
  intros (_&H1&H2&H). destruct s', s. cbn in *. subst.
  destruct o; destruct H as (->&->&->&->); done.
Qed.

Lemma refreshed_does n f t (s s' : shared) evs r :
  (forall u g old, EKStart u g old ∉ evs) -> readings_of t (fun x => x = n) evs ->
  refreshed zero f t s s' evs r -> refreshes zero n (cache_of s) f (cache_of s') (user_calls evs) r.
Proof.
  intros Hk Hr (o&m&H1&->&H3&_&H4). apply Hr in H3 as ->. exists o.
  split; [by apply after_record_cache|]. split; [done|].
  rewrite user_calls_starts by done. destruct f as [g|].
  - by rewrite H4.
  - destruct H4 as [-> ->]. done.
Qed.

Lemma cached_does (s s' : shared) (evs : list event) :
  (forall u g old, EKStart u g old ∉ evs) -> cached s s' evs ->
  cache_of s' = cache_of s /\ user_calls evs = [].
Proof. intros Hk (->&H&_). split; [done|]. rewrite user_calls_starts by done. by rewrite H. Qed.

Lemma readings_sub t n (evs : list event) :
  readings_of t (fun x => x = n) evs -> readings_of t (fun x => n <= x <= n)%Z evs.
Proof. intros H x Hx. apply H in Hx. lia. Qed.

Lemma get_does t f (s s' : shared) evs r n :
  s_lock s = None -> solo t (G_last f) s s' evs r -> readings_of t (fun x => x = n) evs ->
  gets zero maxAge errAge n (cache_of s) f (cache_of s') (user_calls evs) r.
Proof.
  intros Hl H Hr.
  assert (forall u g old, EKStart u g old ∉ evs) as Hk by (eapply no_clear_solo; [exact H|done]).
  destruct (solo_get _ _ _ _ _ _ _ _ _ _ _ Hl H (readings_sub _ _ _ Hr)) as (A&B&C).
  split; [|split].
  - intros Hf. destruct (A Hf) as [-> Hc]. apply cached_does in Hc as [-> ->]; done.
  - intros Hf He. destruct (B Hf He) as [-> Hc]. apply cached_does in Hc as [-> ->]; done.
  - intros Hf He. eapply refreshed_does; [done|exact Hr|]. by apply C.
Qed.

Lemma refresh_does t f (s s' : shared) evs r n :
  s_lock s = None -> solo t (R_lock f) s s' evs r -> readings_of t (fun x => x = n) evs ->
  refreshes zero n (cache_of s) f (cache_of s') (user_calls evs) r.
Proof.
  intros Hl H Hr. eapply refreshed_does; [|exact Hr|].
  - by eapply no_clear_solo.
  - by eapply solo_refresh.
Qed.

Lemma clear_does t f (s s' : shared) evs r :
  solo t (enter (CClear f)) s s' evs r ->
  clears (cache_of s) f (cache_of s') (user_calls evs) r /\ s_lock s' = s_lock s /\
  s_ref s' = s_ref s.
Proof.
  intros H. destruct f as [g|]; cbn in H.
  - sinv H. injection Es as <- <- <-. sinv Hs. injection Es as <- <- <-. sinv Hs0.
    + injection Es as <- <- <-. apply solo_ret_inv in Hs as (->&->&->).
      split; [|done]. split; [done|]. split; [done|]. left. eauto.
    + injection Es as <- <- <-. apply solo_ret_inv in Hs as (->&->&->).
      split; [|done]. split; [done|]. split; [done|]. by right.
  - sinv H. injection Es as <- <- <-. apply solo_ret_inv in Hs as (->&->&->). done.
Qed.

Lemma cached_keeps (s s' : shared) (evs : list event) : cached s s' evs -> s' = s.
Proof. by intros (?&_). Qed.

Lemma refreshed_keeps f t (s s' : shared) evs r :
  refreshed zero f t s s' evs r -> s_lock s' = None /\ s_ref s' = s_ref s.
Proof. intros (o&m&(H1&H2&_)&_). done. Qed.

(** One call. *)
Lemma call_does t c (s s' : shared) evs r n :
  s_lock s = None -> is_Some (s_ref s) -> solo t (enter c) s s' evs r ->
  readings_of t (fun x => x = n) evs ->
  does n (cache_of s) c (cache_of s') (user_calls evs) r /\
  s_lock s' = None /\ is_Some (s_ref s').
Proof.
  intros Hl Hf H Hr.
  assert (forall p, no_clear_pc p -> solo t p s s' evs r -> forall u g old, EKStart u g old ∉ evs)
    as Hk by (intros p Hp Hs; by eapply no_clear_solo).
  destruct c as [f|f|f| | | | | | |f|f]; cbn [enter] in H; cbn [RefreshCacheSeqSpec.does].
  - split; [by eapply get_does|].
    apply solo_get_cases in H as [H|H]; [| |done].
    + by rewrite (cached_keeps _ _ _ H).
    + destruct (refreshed_keeps _ _ _ _ _ _ H) as [-> ->]. done.
  - split; [by eapply refresh_does|].
    apply solo_refresh in H; [|done]. destruct (refreshed_keeps _ _ _ _ _ _ H) as [-> ->]. done.
  - apply clear_does in H as (?&->&->). done.
  - pose proof (Hk W_last I H) as Hk'.
    apply (solo_raw _ _ _ _ _ _ _ _ n n) in H as (Hc&A&B&C); [|by apply readings_sub].
    rewrite (cached_keeps _ _ _ Hc). apply cached_does in Hc as [_ ->]; [|done].
    split; [|done]. split; [done|]. split; [done|]. split; [exact A|]. split; [exact B|exact C].
  - sinv H. injection Es as <- <- <-. apply solo_ret_inv in Hs as (->&->&->). done.
  - sinv H. injection Es as <- <- <-. apply solo_ret_inv in Hs as (->&->&->). done.
  - destruct Hf as [f Hf].
    sinv H. rewrite Hf in Es. injection Es as <- <- <-. cbn [app] in *.
    cbn. rewrite Hf. cbn. split; [by eapply get_does|].
    apply solo_get_cases in Hs as [H|H]; [| |done].
    + rewrite (cached_keeps _ _ _ H), Hf. eauto.
    + destruct (refreshed_keeps _ _ _ _ _ _ H) as [-> ->]. rewrite Hf. eauto.
  - destruct Hf as [f Hf].
    sinv H. rewrite Hf in Es. injection Es as <- <- <-. cbn [app] in *.
    cbn. rewrite Hf. cbn. split; [by eapply refresh_does|].
    apply solo_refresh in Hs; [|done]. destruct (refreshed_keeps _ _ _ _ _ _ Hs) as [-> ->].
    rewrite Hf. eauto.
  - sinv H. destruct (s_clr s) as [[g|]|] eqn:Ec; injection Es as <- <- <-; cbn [app] in *; cbn;
      rewrite Ec; cbn.
    + apply (clear_does t (Some g)) in Hs as (?&->&->). done.
    + apply (clear_does t None) in Hs as (?&->&->). done.
    + apply (clear_does t None) in Hs as (?&->&->). done.
  - sinv H. injection Es as <- <- <-. apply solo_ret_inv in Hs as (->&->&->). cbn. split; [done|]. eauto.
  - sinv H. injection Es as <- <- <-. apply solo_ret_inv in Hs as (->&->&->). cbn. split; [done|]. eauto.
Qed.

Lemma history_does h (cf cf' : config) :
  s_lock (c_sh cf) = None -> is_Some (s_ref (c_sh cf)) ->
  one_by_one zero maxAge errAge cf h cf' ->
  history zero maxAge errAge (cache_of (c_sh cf)) h (cache_of (c_sh cf')).
Proof.
  revert cf. induction h as [|[[[n c] us] r] h IH]; intros cf Hl Hf; cbn.
  - by intros ->.
  - intros (t&cf1&evs&Ha&Hr&->&Hh). apply alone_solo in Ha.
    destruct (call_does _ _ _ _ _ _ _ Hl Hf Ha Hr) as (Hd&Hl'&Hf').
    eexists. split; [exact Hd|]. by apply IH.
Qed.

(** ** Clear: the outcome of the clear function *)
Lemma run_cons_inv (cf : config) t p lab labs cf' tr :
  c_thr cf t = Some p -> run cf (AStep t <$> (lab :: labs)) = Some (cf', tr) ->
  exists p' s1 ev tr', step t p (c_sh cf) lab = Some (p', s1, ev) /\
    run (mk_config s1 (<[t := p']> (c_thr cf))) (AStep t <$> labs) = Some (cf', tr') /\
    tr = ev ++ tr'.
Proof.
  intros Hp H. rewrite fmap_cons in H. cbn in H. rewrite Hp in H.
  destruct (step t p (c_sh cf) lab) as [[[p' s'] ev]|] eqn:Es; [|done].
  destruct (run _ (AStep t <$> labs)) as [[c2 e2]|] eqn:Er; [|done]. injection H as <- <-.
  eexists _, _, _, _. split; [done|]. split; [exact Er|done].
Qed.

(** What follows the last step but one. *)
Lemma run_ret_inv (cf : config) t r0 labs cf' tr :
  c_thr cf t = Some (X_ret r0) -> run cf (AStep t <$> labs) = Some (cf', tr) ->
  (labs = [] /\ tr = []) \/ (labs = [LTick] /\ tr = [EReturn t r0] /\ cf' = mk_config (c_sh cf) (<[t := None]> (c_thr cf))).
Proof.
  intros Hp H. destruct labs as [|l labs]; [left; cbn in H; by injection H as _ <-|].
  eapply run_cons_inv in H as (p'&s1&ev&tr'&E1&Er&->); [|exact Hp].
  destruct l as [|?|?|[?|]]; cbn in E1; try discriminate E1. injection E1 as <- <- <-.
  right. destruct labs as [|l labs].
  - cbn in Er. injection Er as <- <-. done.
  - exfalso. cbn in Er. rewrite fn_lookup_insert in Er. done.
Qed.

Lemma clear_outcome_run (cf : config) t g labs cf' tr r :
  run cf (AInv t (CClear (Some g)) :: (AStep t <$> labs)) =
    Some (cf', EInv t (CClear (Some g)) :: tr ++ [EReturn t r]) ->
  exists o, clear_ends labs = [o] /\
    r = match o with KRet e => RClear e | KPanic => RPanic end.
Proof.
  intros H. cbn in H. destruct (c_thr cf t) as [p|] eqn:Et; [done|].
  destruct (run _ (AStep t <$> labs)) as [[c2 e2]|] eqn:Er; [|done].
  injection H as -> Htr.
  assert (EReturn t r ∈ e2) as Hin.
  { rewrite Htr. apply elem_of_app. right. apply elem_of_list_here. }
  clear Htr.
  destruct labs as [|l1 labs]; [cbn in Er; injection Er as _ <-; by apply elem_of_nil in Hin|].
  eapply run_cons_inv in Er as (p1&s1&ev1&tr1&E1&Er&->); [|cbn; by rewrite fn_lookup_insert].
  destruct l1 as [|?|?|[?|]]; cbn in E1; try discriminate E1. injection E1 as <- <- <-.
  destruct labs as [|l2 labs]; [cbn in Er; injection Er as _ <-; by apply elem_of_nil in Hin|].
  eapply run_cons_inv in Er as (p2&s2&ev2&tr2&E2&Er&->); [|cbn; by rewrite fn_lookup_insert].
  destruct l2 as [|?|?|[?|]]; cbn in E2; try discriminate E2. injection E2 as <- <- <-.
  cbn in Hin. rewrite !elem_of_cons in Hin. destruct Hin as [?|[?|Hin]]; [done..|].
  destruct labs as [|l3 labs]; [cbn in Er; injection Er as _ <-; by apply elem_of_nil in Hin|].
  eapply run_cons_inv in Er as (p3&s3&ev3&tr3&E3&Er&->); [|cbn; by rewrite fn_lookup_insert].
  assert (exists o, l3 = LClr o /\ ev3 = [] /\
    p3 = Some (X_ret (match o with KRet e => RClear e | KPanic => RPanic end)))
    as (o&->&->&->).
  { destruct l3 as [|?|?|[e|]]; cbn in E3; try discriminate E3; injection E3 as <- <- <-.
    - by exists (KRet e).
    - by exists KPanic. }
  exists o. eapply run_ret_inv in Er; [|cbn; by rewrite fn_lookup_insert].
  destruct Er as [(->&->)|(->&->&_)].
  - by apply elem_of_nil in Hin.
  - split; [done|]. cbn in Hin. apply elem_of_list_singleton in Hin. by injection Hin.
Qed.

(** ** The setters under concurrency *)
(** A call of two steps. *)
Lemma alone_two (cf : config) t c cf' tr r s1 r1 :
  alone zero maxAge errAge cf t c cf' tr r ->
  (forall lab, step t (enter c) (c_sh cf) lab = Some (Some (X_ret r1), s1, []) \/
               step t (enter c) (c_sh cf) lab = None) ->
  r = r1 /\ tr = [] /\ c_sh cf' = s1 /\ c_thr cf t = None /\
  forall v, c_thr cf' v = c_thr cf v.
Proof.
  intros [labs H] Hst. cbn in H. destruct (c_thr cf t) as [p|] eqn:Et; [done|].
  destruct (run _ (AStep t <$> labs)) as [[c2 e2]|] eqn:Er; [|done]. injection H as -> ->.
  destruct labs as [|l1 labs]; [cbn in Er; injection Er as _ Hx; by destruct tr|].
  eapply run_cons_inv in Er as (p1&s1'&ev1&tr1&E1&Er&Htr); [|cbn; by rewrite fn_lookup_insert].
  cbn in E1. destruct (Hst l1) as [Hs|Hs]; rewrite Hs in E1; [|done]. injection E1 as <- <- <-.
  eapply run_ret_inv in Er; [|cbn; by rewrite fn_lookup_insert].
  destruct Er as [(->&->)|(->&->&->)].
  - by destruct tr.
  - cbn in Htr. apply (app_inj_tail tr []) in Htr as [-> [= ->]].
    split; [done|]. split; [done|]. split; [done|]. split; [done|]. intros v. cbn.
    destruct (decide (v = t)) as [->|Hv]; [by rewrite fn_lookup_insert|].
    by rewrite !fn_lookup_insert_ne.
Qed.

Lemma set_refresh_alone (cf : config) t f cf' tr r :
  alone zero maxAge errAge cf t (CSetRefresh f) cf' tr r ->
  r = RUnit /\ user_calls tr = [] /\ c_sh cf' = set_ref (Some f) (c_sh cf) /\
  forall v, c_thr cf' v = c_thr cf v.
Proof.
  intros H. eapply alone_two in H as (->&->&->&_&Ht); [done|].
  intros [|?|?|[?|]]; cbn; auto.
Qed.

Lemma set_clear_alone (cf : config) t f cf' tr r :
  alone zero maxAge errAge cf t (CSetClear f) cf' tr r ->
  r = RUnit /\ user_calls tr = [] /\ c_sh cf' = set_clr (Some f) (c_sh cf) /\
  forall v, c_thr cf' v = c_thr cf v.
Proof.
  intros H. eapply alone_two in H as (->&->&->&_&Ht); [done|].
  intros [|?|?|[?|]]; cbn; auto.
Qed.

Lemma wrefresh_alone (cf : config) t f cf' tr r :
  s_ref (c_sh cf) = Some f -> s_lock (c_sh cf) = None ->
  alone zero maxAge errAge cf t CWRefresh cf' tr r -> refreshed zero f t (c_sh cf) (c_sh cf') tr r.
Proof.
  intros Hf Hl H. apply alone_solo in H. sinv H. rewrite Hf in Es. injection Es as <- <- <-.
  by eapply solo_refresh.
Qed.

Lemma wget_alone (cf : config) t f cf' tr r :
  s_ref (c_sh cf) = Some f -> s_lock (c_sh cf) = None ->
  alone zero maxAge errAge cf t CWGet cf' tr r ->
  cached (c_sh cf) (c_sh cf') tr \/ refreshed zero f t (c_sh cf) (c_sh cf') tr r.
Proof.
  intros Hf Hl H. apply alone_solo in H. sinv H. rewrite Hf in Es. injection Es as <- <- <-.
  by eapply solo_get_cases.
Qed.

Lemma wclear_alone (cf : config) t f cf' tr r :
  s_clr (c_sh cf) = Some f -> alone zero maxAge errAge cf t CWClear cf' tr r ->
  clears (cache_of (c_sh cf)) f (cache_of (c_sh cf')) (user_calls tr) r.
Proof.
  intros Hf H. apply alone_solo in H. sinv H. rewrite Hf in Es.
  destruct f as [g|]; injection Es as <- <- <-.
  - by apply (clear_does t (Some g)) in Hs as (?&_).
  - by apply (clear_does t None) in Hs as (?&_).
Qed.

Lemma setref_only t (p : pc) (s : shared) lab p' (s1 : shared) ev :
  step t p s lab = Some (p', s1, ev) ->
  (s_ref s1 = s_ref s \/ exists f, p = X_setref f /\ s_ref s1 = Some f) /\
  (s_clr s1 = s_clr s \/ exists f, p = X_setclr f /\ s_clr s1 = Some f) /\
  (forall f, p' <> Some (X_setref f)) /\ (forall f, p' <> Some (X_setclr f)).
Proof.
  intros Es.
  destruct p as [f|f l| |f|f n| |f|f|f|f n| |f|f n| |f|[f|]|f old|r v|r|r n|r|r e|r|r n|r|r
              |f|[[f old]|]|f old| |l| | |n| | |v| | | | | |f|f|r];
  destruct lab as [|n'|o|[e'|]]; cbn in Es; try discriminate Es;
  repeat (match type of Es with
        | context [if ?b then _ else _] => destruct b eqn:?
        | context [match s_lock ?s with _ => _ end] => destruct (s_lock s) eqn:?
        | context [match s_ref ?s with _ => _ end] => destruct (s_ref s) as [[?|]|] eqn:?
        | context [match s_clr ?s with _ => _ end] => destruct (s_clr s) as [[?|]|] eqn:?
        | context [after _ ?o] => destruct o; cbn in Es
        end; try discriminate Es);
  injection Es as <- <- _; cbn; eauto 10.
Qed.

Lemma ref_frame (cf cf' : config) acts tr :
  run cf acts = Some (cf', tr) -> (forall t, ~ setting_refresh cf t) ->
  (forall t f, EInv t (CSetRefresh f) ∉ tr) -> s_ref (c_sh cf') = s_ref (c_sh cf).
Proof.
  revert cf tr. induction acts as [|a acts IH]; intros cf tr H Hn Hi.
  { cbn in H. by injection H as <- <-. }
  cbn in H. destruct (act cf a) as [[cf1 ev]|] eqn:Ea; [|done].
  destruct (run cf1 acts) as [[cf2 evs]|] eqn:Er; [|done]. injection H as <- <-.
  assert (forall t f, EInv t (CSetRefresh f) ∉ evs) as Hi2.
  { intros t f Hx. apply (Hi t f), elem_of_app. by right. }
  assert (s_ref (c_sh cf1) = s_ref (c_sh cf) /\ forall t, ~ setting_refresh cf1 t) as [<- Hn1];
    [|by eapply IH].
  destruct a as [t c|t lab]; cbn in Ea.
  - destruct (c_thr cf t) eqn:Et; [done|]. injection Ea as <- <-. cbn. split; [done|].
    intros u [f Hf]. cbn in Hf. destruct (decide (u = t)) as [->|Hu].
    + rewrite fn_lookup_insert in Hf. injection Hf as Hf.
      destruct c as [?|?|[?|]| | | | | | |?|?]; try discriminate Hf. injection Hf as ->.
      apply (Hi t f), elem_of_app. left. apply elem_of_list_here.
    + rewrite fn_lookup_insert_ne in Hf by done. apply (Hn u). by exists f.
  - destruct (c_thr cf t) as [p|] eqn:Et; [|done].
    destruct (step t p (c_sh cf) lab) as [[[p' s'] ev']|] eqn:Es; [|done].
    injection Ea as <- <-. cbn. apply setref_only in Es as ([Hs|(f&->&_)]&_&Hp&_).
    + split; [done|]. intros u [f Hf]. cbn in Hf. destruct (decide (u = t)) as [->|Hu].
      * rewrite fn_lookup_insert in Hf. by eapply Hp.
      * rewrite fn_lookup_insert_ne in Hf by done. apply (Hn u). by exists f.
    + exfalso. apply (Hn t). by exists f.
Qed.

Lemma clr_frame (cf cf' : config) acts tr :
  run cf acts = Some (cf', tr) -> (forall t, ~ setting_clear cf t) ->
  (forall t f, EInv t (CSetClear f) ∉ tr) -> s_clr (c_sh cf') = s_clr (c_sh cf).
Proof.
  revert cf tr. induction acts as [|a acts IH]; intros cf tr H Hn Hi.
  { cbn in H. by injection H as <- <-. }
  cbn in H. destruct (act cf a) as [[cf1 ev]|] eqn:Ea; [|done].
  destruct (run cf1 acts) as [[cf2 evs]|] eqn:Er; [|done]. injection H as <- <-.
  assert (forall t f, EInv t (CSetClear f) ∉ evs) as Hi2.
  { intros t f Hx. apply (Hi t f), elem_of_app. by right. }
  assert (s_clr (c_sh cf1) = s_clr (c_sh cf) /\ forall t, ~ setting_clear cf1 t) as [<- Hn1];
    [|by eapply IH].
  destruct a as [t c|t lab]; cbn in Ea.
  - destruct (c_thr cf t) eqn:Et; [done|]. injection Ea as <- <-. cbn. split; [done|].
    intros u [f Hf]. cbn in Hf. destruct (decide (u = t)) as [->|Hu].
    + rewrite fn_lookup_insert in Hf. injection Hf as Hf.
      destruct c as [?|?|[?|]| | | | | | |?|?]; try discriminate Hf. injection Hf as ->.
      apply (Hi t f), elem_of_app. left. apply elem_of_list_here.
    + rewrite fn_lookup_insert_ne in Hf by done. apply (Hn u). by exists f.
  - destruct (c_thr cf t) as [p|] eqn:Et; [|done].
    destruct (step t p (c_sh cf) lab) as [[[p' s'] ev']|] eqn:Es; [|done].
    injection Ea as <- <-. cbn. apply setref_only in Es as (_&[Hs|(f&->&_)]&_&Hp).
    + split; [done|]. intros u [f Hf]. cbn in Hf. destruct (decide (u = t)) as [->|Hu].
      * rewrite fn_lookup_insert in Hf. by eapply Hp.
      * rewrite fn_lookup_insert_ne in Hf by done. apply (Hn u). by exists f.
    + exfalso. apply (Hn t). by exists f.
Qed.

End seq.
