(** Goroutines waiting for the lock. *)
From Coq Require Import ZifyBool.
From Verif Require Import Base RefreshCacheModel RefreshCacheSpec RefreshCacheProofs.

Section wait.
Context {T E F : Type} (zero : T) (maxAge errAge : Z).
Local Notation event := (event T E F).
Local Notation config := (config T E F).
Local Notation pc := (pc T E F).
Local Notation shared := (shared T E F).
Local Notation run := (run zero maxAge errAge).
Local Notation act := (act zero maxAge errAge).
Local Notation step := (step zero maxAge errAge).

(** ** A Get that gets the lock while the cache is fresh *)
Definition waitok (t : nat) (l : Z) (v : T) (cf : config) : Prop :=
  match c_thr cf t with
  | Some (L_last _ | L_data) => s_last (c_sh cf) = l /\ s_data (c_sh cf) = v
  | Some (L_now _) =>
      s_last (c_sh cf) = l /\ s_data (c_sh cf) = v /\ ~ (maxAge < 0 /\ 0 < l)%Z
  | Some (L_fresh _ n) =>
      s_last (c_sh cf) = l /\ s_data (c_sh cf) = v /\ (n - l < maxAge)%Z
  | Some (U_unlock r | X_ret r) => r = RGet v None
  | _ => False
  end.

Lemma wait_own t l v s thr p lab q s' ev :
  thr t = Some p -> step t p s lab = Some (q, s', ev) ->
  waitok t l v (mk_config s thr) -> (forall n, ENow t n ∈ ev -> fresh_at maxAge l n) ->
  (forall f old, EStart t f old ∉ ev) /\
  ((waitok t l v (mk_config s' (<[t := q]> thr)) /\ forall r, EReturn t r ∉ ev) \/
   ev = [EReturn t (RGet v None)]).
Proof.
  unfold waitok. cbn. intros Ht H W Hr. rewrite Ht in W. rewrite fn_lookup_insert.
  destruct p as [f|f l0| |f|f n| |f|f|f|f n| |f|f n| |f|[f|]|f old|r v0|r|r n|r|r e|r|r n|r|r
                  |f|[[f old]|]|f old| |l0| | |n| | |v0| | | | | |f|f|r]; try done;
    destruct lab as [|n'|o|[e'|]]; cbn in H; try discriminate H.
  - destruct W as [<- <-]. destruct ((maxAge <? 0)%Z && (0 <? s_last s)%Z) eqn:E1;
      injection H as <- <- <-; (split; [intros ? ? Hx; by apply elem_of_nil in Hx|]);
      left; (split; [|intros ? Hx; by apply elem_of_nil in Hx]).
    + done.
    + split; [done|]. split; [done|]. lia.
  - destruct W as (<-&<-&Hn). injection H as <- <- <-.
    split; [intros ? ? Hx; by apply elem_of_list_singleton in Hx|]. left.
    split; [|intros ? Hx; by apply elem_of_list_singleton in Hx].
    split; [done|]. split; [done|].
    destruct (Hr n' (elem_of_list_here _ _)) as [?|?]; [tauto|done].
  - destruct W as (<-&<-&Hn). destruct (n - s_last s <? maxAge)%Z eqn:E1; [|lia].
    injection H as <- <- <-. split; [intros ? ? Hx; by apply elem_of_nil in Hx|]. left.
    split; [done|]. intros ? Hx; by apply elem_of_nil in Hx.
  - destruct W as [<- <-]. injection H as <- <- <-.
    split; [intros ? ? Hx; by apply elem_of_nil in Hx|]. left.
    split; [done|]. intros ? Hx; by apply elem_of_nil in Hx.
  - subst r. injection H as <- <- <-.
    split; [intros ? ? Hx; by apply elem_of_list_singleton in Hx|]. left.
    split; [done|]. intros ? Hx; by apply elem_of_list_singleton in Hx.
  - subst r. injection H as <- <- <-.
    split; [intros ? ? Hx; by apply elem_of_list_singleton in Hx|]. by right.
Qed.

(** Events carry the goroutine that takes the step. *)
Definition ev_thread (e : event) : nat :=
  match e with
  | EInv t _ | EReturn t _ | EStart t _ _ | EFinish t _ | ENow t _ | ELock t | EUnlock t
  | ESucc t _ | EFail t _ | EClear t | EKStart t _ _ => t
  end.
Lemma step_thread t p (s : shared) lab q s' ev :
  step t p s lab = Some (q, s', ev) -> forall e, e ∈ ev -> ev_thread e = t.
Proof.
  intros H e He.
  destruct p as [f|f l| |f|f n| |f|f|f|f n| |f|f n| |f|[f|]|f old|r v|r|r n|r|r e0|r|r n|r|r
                  |f|[[f old]|]|f old| |l| | |n| | |v| | | | | |f|f|r];
    destruct lab as [|n'|o|[e'|]]; cbn in H; try discriminate H;
    repeat (match type of H with
            | context [if ?b then _ else _] => destruct b eqn:?
            | context [match s_lock ?s with _ => _ end] => destruct (s_lock s) eqn:?
            | context [match s_ref ?s with _ => _ end] => destruct (s_ref s) as [[?|]|] eqn:?
            | context [match s_clr ?s with _ => _ end] => destruct (s_clr s) as [[?|]|] eqn:?
            end; try discriminate H);
    injection H as <- <- <-;
    repeat (apply elem_of_cons in He as [->|He]; [done|]); by apply elem_of_nil in He.
Qed.

Lemma wait_act t l v tr cf a cf' ev :
  inv zero tr cf -> waitok t l v cf -> act cf a = Some (cf', ev) ->
  (forall u, EClear u ∉ ev) -> (forall n, ENow t n ∈ ev -> fresh_at maxAge l n) ->
  (forall f old, EStart t f old ∉ ev) /\
  ((waitok t l v cf' /\ forall r, EReturn t r ∉ ev) \/ ev = [EReturn t (RGet v None)]).
Proof.
  intros HI W H Hc Hr. destruct a as [u c|u lab]; cbn in H.
  - destruct (c_thr cf u) as [q|] eqn:Eu; [done|]. injection H as <- <-.
    split; [intros ? ? Hx; by apply elem_of_list_singleton in Hx|]. left.
    split; [|intros ? Hx; by apply elem_of_list_singleton in Hx].
    unfold waitok in *. cbn. destruct (decide (u = t)) as [->|Hn]; [by rewrite Eu in W|].
    by rewrite fn_lookup_insert_ne.
  - destruct (c_thr cf u) as [p|] eqn:Eu; [|done].
    destruct (step u p (c_sh cf) lab) as [[[q s'] ev']|] eqn:Es; [|done].
    injection H as <- <-. destruct (decide (u = t)) as [->|Hn].
    { eapply wait_own; [exact Eu|exact Es| |exact Hr]. by destruct cf. }
    assert (forall e, e ∈ ev' -> ev_thread e <> t) as Hev.
    { intros e He. by rewrite (step_thread _ _ _ _ _ _ _ Es e He). }
    split; [intros f old Hx; by apply Hev in Hx|]. left.
    split; [|intros r Hx; by apply Hev in Hx].
    unfold waitok in *. cbn. rewrite fn_lookup_insert_ne by done.
    destruct (c_thr cf t) as [pt|] eqn:Ept; [|done].
    destruct (holds pt) eqn:Eh.
    + destruct HI as [HL HI]. pose proof (HL _ _ Ept Eh) as Hk.
      assert (s_last s' = s_last (c_sh cf) /\ s_data s' = s_data (c_sh cf)) as [-> ->]; [|done].
      pose proof (step_cases _ _ _ _ _ _ _ _ _ _ Es) as SC.
      destruct SC as [[Hp [(?&?&Hd&?&?&[[Hl ?]|[_ [->|(f&old&->)]]])|(Hk'&_)]]|[Hp _]].
      * done.
      * exfalso. apply (Hc u). apply elem_of_list_here.
      * exfalso. apply (Hc u). apply elem_of_list_here.
      * congruence.
      * pose proof (HL _ _ Eu Hp). congruence.
    + destruct pt; try done.
Qed.

Lemma wait_run t l v acts tr cf cf' evs r evs' :
  inv zero tr cf -> waitok t l v cf -> run cf acts = Some (cf', evs ++ EReturn t r :: evs') ->
  (forall r', EReturn t r' ∉ evs) ->
  (forall u, EClear u ∉ evs) -> readings_of t (fresh_at maxAge l) evs ->
  r = RGet v None /\ forall f old, EStart t f old ∉ evs.
Proof.
  revert tr cf evs. induction acts as [|a acts IH]; intros tr cf evs HI W H Hret Hc Hr; cbn in H.
  { injection H as _ H. by destruct evs. }
  destruct (act cf a) as [[c1 e1]|] eqn:Ea; [|done].
  destruct (run c1 acts) as [[c2 e2]|] eqn:Er; [|done]. injection H as -> H.
  destruct (decide (length e1 <= length evs)) as [Hl|Hl].
  - assert (exists k, evs = e1 ++ k) as [k ->].
    { exists (drop (length e1) evs). rewrite <- (take_drop (length e1) evs) at 1. f_equal.
      assert (take (length e1) (e1 ++ e2) = take (length e1) (evs ++ EReturn t r :: evs')) as Ht
        by (by rewrite H).
      rewrite take_app, take_app_le in Ht by done. done. }
    rewrite <- (assoc_L (++)) in H. apply app_inv_head in H. subst e2.
    destruct (wait_act t l v _ _ _ _ _ HI W Ea) as [Hs [[W1 Hr1]|Hr1]].
    + intros u Hu. apply (Hc u). apply elem_of_app. by left.
    + intros n Hn. apply Hr. apply elem_of_app. by left.
    + destruct (IH (tr ++ e1) _ _ (inv_act _ _ _ _ _ _ _ _ HI Ea) W1 Er) as [-> Hs2].
      * intros r' Hr'. apply (Hret r'). apply elem_of_app. by right.
      * intros u Hu. apply (Hc u). apply elem_of_app. by right.
      * intros n Hn. apply Hr. apply elem_of_app. by right.
      * split; [done|]. intros f old Hx. apply elem_of_app in Hx as [Hx|Hx]; [by eapply Hs|by eapply Hs2].
    + exfalso. subst e1. apply (Hret (RGet v None)). apply elem_of_list_here.
  - (* the return is in this very action *)
    assert (exists post, e1 = evs ++ EReturn t r :: post) as (post&->).
    { exists (drop (S (length evs)) e1).
      assert (take (length e1) (e1 ++ e2) = take (length e1) (evs ++ EReturn t r :: evs')) as Ht
        by (by rewrite H).
      rewrite take_app, take_app_ge in Ht by lia.
      destruct (length e1 - length evs) as [|k] eqn:Ek; [lia|]. cbn in Ht.
      rewrite Ht at 2. rewrite drop_app_ge by lia.
      replace (S (length evs) - length evs) with 1 by lia. done. }
    destruct a as [u c|u lab]; cbn in Ea.
    { destruct (c_thr cf u); [done|]. injection Ea as _ Ea. destruct evs as [|? [|]]; done. }
    destruct (c_thr cf u) as [p|] eqn:Eu; [|done].
    destruct (step u p (c_sh cf) lab) as [[[q s'] ev']|] eqn:Es; [|done].
    injection Ea as _ ->.
    assert (u = t) as ->.
    { symmetry. apply (step_thread _ _ _ _ _ _ _ Es (EReturn t r)). apply elem_of_app. right.
      apply elem_of_list_here. }
    assert (p = X_ret r /\ evs = []) as [-> ->].
    { remember (evs ++ EReturn t r :: post) as ev eqn:Hev. clear -Es Hev. rename r into r1.
      destruct p as [f|f l| |f|f n| |f|f|f|f n| |f|f n| |f|[f|]|f old|r v|r|r n|r|r e0|r|r n|r|r
                  |f|[[f old]|]|f old| |l| | |n| | |v| | | | | |f|f|r];
      destruct lab as [|n'|o|[e'|]]; cbn in Es; try discriminate Es;
      repeat (match type of Es with
            | context [if ?b then _ else _] => destruct b eqn:?
            | context [match s_lock ?s with _ => _ end] => destruct (s_lock s) eqn:?
            | context [match s_ref ?s with _ => _ end] => destruct (s_ref s) as [[?|]|] eqn:?
            | context [match s_clr ?s with _ => _ end] => destruct (s_clr s) as [[?|]|] eqn:?
            end; try discriminate Es);
      injection Es as <- <- <-; destruct evs as [|x [|y [|z evs]]]; try discriminate Hev.
      injection Hev as ->. done. }
    unfold waitok in W. rewrite Eu in W. split; [done|].
    intros f old Hx. by apply elem_of_nil in Hx.
Qed.

(** ** Progress *)
Lemma can_step t p (s : shared) :
  (exists lab q s' ev, step t p s lab = Some (q, s', ev)) \/
  ((exists f, p = G_lock f \/ p = R_lock f) /\ s_lock s <> None).
Proof.
  destruct p as [f|f l| |f|f n| |f|f|f|f n| |f|f n| |f|[f|]|f old|r v|r|r n|r|r e0|r|r n|r|r
                  |f|[[f old]|]|f old| |l| | |n| | |v| | | | | |f|f|r];
    try (left; exists LTick; cbn; repeat case_match; eauto 10; fail);
    try (left; exists (LNow 0%Z); cbn; repeat case_match; eauto 10; fail);
    try (left; exists (LRef OPanic); cbn; eauto 10; fail);
    try (left; exists (LClr KPanic); cbn; eauto 10; fail).
  - destruct ((maxAge <? 0)%Z && (0 <? l)%Z) eqn:E1.
    + left. exists LTick. cbn. rewrite E1. eauto 10.
    + left. exists (LNow 0%Z). cbn. rewrite E1. case_match; eauto 10.
  - destruct (0 <? errAge)%Z eqn:E1.
    + left. exists (LNow 0%Z). cbn. rewrite E1. eauto 10.
    + left. exists LTick. cbn. rewrite E1. eauto 10.
  - destruct (s_lock s) eqn:Ek; [|left; exists LTick; cbn; rewrite Ek; eauto 10].
    right. split; [|done]. eauto.
  - destruct (0 <? errAge)%Z eqn:E1.
    + left. exists (LNow 0%Z). cbn. rewrite E1. eauto 10.
    + left. exists LTick. cbn. rewrite E1. eauto 10.
  - destruct (s_lock s) eqn:Ek; [|left; exists LTick; cbn; rewrite Ek; eauto 10].
    right. split; [|done]. eauto.
  - destruct ((maxAge <? 0)%Z && (0 <? l)%Z) eqn:E1.
    + left. exists LTick. cbn. rewrite E1. eauto 10.
    + left. exists (LNow 0%Z). cbn. rewrite E1. case_match; eauto 10.
  - destruct (0 <? errAge)%Z eqn:E1.
    + left. exists (LNow 0%Z). cbn. rewrite E1. eauto 10.
    + left. exists LTick. cbn. rewrite E1. eauto 10.
Qed.

End wait.
