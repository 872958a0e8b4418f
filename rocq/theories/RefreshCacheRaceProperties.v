(** refreshcache: data races (C89). *)
From Verif Require Import Base RefreshCacheModel RefreshCacheSpec RefreshCacheProofs RefreshCacheRaceSpec.

Section theorems.
Context {T E F : Type} (zero : T) (maxAge errAge : Z).
Local Notation config := (config T E F).
Local Notation run := (run zero maxAge errAge).
Local Notation step := (step zero maxAge errAge).
Local Notation pc := (pc T E F).

(** C89 is false of the code (see below).  What is true: in every reachable state the only data
    races are between Get reading [last] under the mutex without atomic (line 108) and Clear
    storing it without the mutex (lines 148 and 151). *)
Theorem C89_only_race_is_last (f0 : option F) acts (cf : config) tr t u a b :
  run (new_config zero f0) acts = Some (cf, tr) -> race cf t u a b ->
  a_fld a = FLast /\
  exists v w, ((v = t /\ w = u) \/ (v = u /\ w = t)) /\ s_lock (c_sh cf) = Some v /\
    (exists f, c_thr cf v = Some (L_last f) \/ exists n, c_thr cf v = Some (L_fresh f n)) /\
    (exists k, c_thr cf w = Some (K_last k)).
Proof.
  intros Hr (Htu & (Hf & Hw & Hp) & p & p' & Ht & Hu & Ha & Hb).
  destruct (inv_run _ _ _ _ _ _ _ Hr) as [HL _].
  assert (Hboth : ~ (holds p = true /\ holds p' = true)).
  { intros [L1 L2]. apply (HL _ _ Ht) in L1. apply (HL _ _ Hu) in L2. congruence. }
  assert (Hpl : forall (p : pc) a, a ∈ accesses p -> a_plain a = true ->
    holds p = true /\ a_write a = false /\ (a_fld a = FLastErr \/
      (a_fld a = FLast /\ exists f, p = L_last f \/ exists n, p = L_fresh f n))).
  { intros q x Hx Hpx. destruct q; cbn in Hx; try (by apply elem_of_nil in Hx); apply elem_of_list_singleton in Hx as ->; cbn in Hpx |- *; try discriminate; eauto 10. }
  assert (Hle : forall (p : pc) a, a ∈ accesses p -> a_write a = true ->
    (a_fld a = FLastErr -> holds p = true) /\ (a_fld a = FLast -> holds p = true \/ exists k, p = K_last k)).
  { intros q x Hx Hpx. destruct q; cbn in Hx; try (by apply elem_of_nil in Hx); apply elem_of_list_singleton in Hx as ->; cbn in Hpx |- *; try discriminate; split; intros; try discriminate; eauto. }
  destruct Hp as [Hp|Hp].
  - destruct (Hpl _ _ Ha Hp) as (L & Hnw & Hl). destruct Hw as [Hw|Hw]; [congruence|]. destruct (Hle _ _ Hb Hw) as [H1 H2].
    destruct Hl as [Hl|(Hl & f & Hq)]; [exfalso; apply Hboth; split; [done|apply H1; congruence]|]. split; [done|].
    destruct H2 as [H2|[k ->]]; [congruence|exfalso; by apply Hboth|].
    exists t, u. split; [by left|]. split; [by apply (HL _ _ Ht)|]. split; [|by exists k].
    exists f. destruct Hq as [->|[n ->]]; eauto.
  - destruct (Hpl _ _ Hb Hp) as (L & Hnw & Hl). destruct Hw as [Hw|Hw]; [|congruence]. destruct (Hle _ _ Ha Hw) as [H1 H2].
    destruct Hl as [Hl|(Hl & f & Hq)]; [exfalso; apply Hboth; split; [apply H1; congruence|done]|]. split; [congruence|].
    destruct H2 as [H2|[k ->]]; [congruence|exfalso; by apply Hboth|].
    exists u, t. split; [by right|]. split; [by apply (HL _ _ Hu)|]. split; [|by exists k].
    exists f. destruct Hq as [->|[n ->]]; eauto.
Qed.

(** The list of accesses is the right one for the steps of the model: a step changes nothing but
    what the list says it writes, and apart from the mutex what it does depends on nothing but what
    the list says it touches. *)
Theorem C89_accesses t (p : pc) s lab p' s' ev :
  step t p s lab = Some (p', s', ev) ->
  (forall f, (forall a, a ∈ accesses p -> a_fld a = f -> a_write a = false) -> same_fld f s s') /\
  (forall s2, s_lock s = s_lock s2 -> (forall a, a ∈ accesses p -> same_fld (a_fld a) s s2) ->
     exists s2', step t p s2 lab = Some (p', s2', ev) /\ s_lock s' = s_lock s2' /\
       forall a, a ∈ accesses p -> same_fld (a_fld a) s' s2').
Proof.
  intros Hs. split.
  - intros f Hf. destruct p, lab; cbn in Hs; try done; repeat case_match; simplify_eq; destruct f; cbn; try done;
      specialize (Hf _ (elem_of_list_here _ _) eq_refl); done.
  - intros [er2 da2 la2 le2 lk2 rf2 cl2] El Ha. destruct s as [er da la le lk rf cl]. cbn in El. subst lk2.
    destruct p, lab; cbn in Hs; try done; cbn in Ha;
      try (specialize (Ha _ (elem_of_list_here _ _)) as Hx; cbn in Hx; subst); clear Ha;
      cbn in *; repeat case_match; simplify_eq;
      (eexists; split; [reflexivity|]; split; [done|]; intros ac Hin; cbn in Hin;
       first [by apply elem_of_nil in Hin|apply elem_of_list_singleton in Hin as ->; done]).
Qed.
End theorems.
Print Assumptions C89_only_race_is_last.
Print Assumptions C89_accesses.

(** Goroutine 1 is in Get, holds the mutex and is about to read [last]; goroutine 2 is in Clear and
    about to store it. *)
Definition ex89 : list (action nat nat nat) :=
  [AInv 1 (CGet (Some 7)); AStep 1 LTick; AStep 1 (LNow 100); AStep 1 LTick; AStep 1 LTick; AStep 1 LTick; AStep 1 (LNow 101);
   AInv 2 (CClear None)].
Theorem C89_race_refuted :
  exists (cf : config nat nat nat) tr, run 0 10 0 (new_config 0 None) ex89 = Some (cf, tr) /\
    s_lock (c_sh cf) = Some 1 /\ c_thr cf 1 = Some (L_fresh (Some 7) 101) /\ c_thr cf 2 = Some (K_last None) /\
    race cf 1 2 (prd FLast) (wr FLast).
Proof.
  eexists _, _. split; [cbn; reflexivity|]. cbn. split; [done|]. split; [done|]. split; [done|].
  split; [done|]. split; [split_and!; cbn; auto|]. eexists _, _. cbn.
  split; [reflexivity|]. split; [reflexivity|]. cbn. split; apply elem_of_list_here.
Qed.
Print Assumptions C89_race_refuted.
(** The hypotheses of C89_only_race_is_last hold there with t = 1 and u = 2. *)
