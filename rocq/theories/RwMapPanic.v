(** rwmap: panicking callbacks; calls that do not need the mutex. *)
From Coq Require Import ZifyBool ZifyNat.
From Verif Require Import Base RwMapModel RwMapSpec RwMapInv RwMapStep3 RwMapLin RwMapProgress RwMapPanicSpec.

Section panic.
Context {K : Type} `{Countable K} {V : Type}.
Context (deref : nat -> V) (zero : V) (veq : V -> V -> option bool).
Notation prun := (prun deref zero veq). Notation run := (run deref zero veq). Notation act := (act deref zero veq).

Lemma as_false_app (a b : list (pevent K V)) : as_false (a ++ b) = as_false a ++ as_false b.
Proof. apply bind_app. Qed.
Lemma as_false_ev (ev : list (event K V)) : as_false (PEv <$> ev) = ev.
Proof. induction ev as [|e ev IH]; [done|]. cbn. f_equal. exact IH. Qed.

Lemma prun_run pacts (cf : config K V) cf' ptr : prun cf pacts = Some (cf', ptr) ->
  exists acts, run cf acts = Some (cf', as_false ptr).
Proof.
  revert cf ptr. induction pacts as [|a pacts IH]; intros cf ptr Hr; cbn [RwMapPanicSpec.prun] in Hr.
  { simplify_eq. by exists []. }
  destruct (pact _ _ _ cf a) as [[cf1 ev]|] eqn:Ha; [|done].
  destruct (prun cf1 pacts) as [[cf2 evs]|] eqn:Hr2; [|done]. simplify_eq.
  destruct (IH _ _ Hr2) as [acts Hacts]. rewrite as_false_app.
  destruct a as [a|t]; cbn [pact] in Ha.
  - destruct (act cf a) as [[cf1' ev']|] eqn:Ha'; [|done]. simplify_eq. exists (a :: acts).
    cbn [RwMapModel.run]. rewrite Ha', Hacts. by rewrite as_false_ev.
  - destruct (c_thr cf !! t) as [[c p]|] eqn:Ht; [|done]. destruct c, p; try done. simplify_eq.
    exists (AStep t (LCb false) :: AStep t LTick :: acts). cbn [RwMapModel.run RwMapModel.act]. rewrite Ht. cbn [step].
    cbn [c_thr c_sh]. rewrite lookup_insert. cbn [step ret_of]. rewrite delete_insert_delete, Hacts. done.
Qed.
Lemma run_prun acts (cf : config K V) cf' tr : run cf acts = Some (cf', tr) -> prun cf (PAct <$> acts) = Some (cf', PEv <$> tr).
Proof.
  revert cf tr. induction acts as [|a acts IH]; intros cf tr Hr; cbn [RwMapModel.run] in Hr; [by simplify_eq|].
  destruct (act cf a) as [[cf1 ev]|] eqn:Ha; [|done]. destruct (run cf1 acts) as [[cf2 evs]|] eqn:Hr2; [|done]. simplify_eq.
  cbn. rewrite Ha. rewrite (IH _ _ Hr2). by rewrite fmap_app.
Qed.

(** * Calls on the read map *)
(** What such a call may be doing. *)
Definition free_pc (c : call K V) (p : pc K V) : Prop :=
  match p with
  | E_load _ Fast | E_cas _ _ Fast | P_len _ _ => reads_or_removes c
  | R_next _ _ | R_load _ _ _ _ | R_call _ _ _ _ => c = CRange \/ c = CSlowLen
  | X_ret _ => reads_or_removes c \/ c = CRange \/ c = CSlowLen
  | _ => False
  end.
Lemma free_unlocked c p : free_pc c p -> locked p = false /\ p <> P_lock.
Proof. destruct p; try done; cbn; case_match; done. Qed.
Lemma finish_free (c : call K V) r : reads_or_removes c -> free_pc c (finish c r).
Proof. intros Hc. unfold finish. case_decide; cbn; tauto. Qed.

Lemma step_free t c p (s : shared K) lab op s' ev : free_pc c p -> step deref zero veq t c p s lab = Some (op, s', ev) ->
  match op with Some p' => free_pc c p' | None => exists r, ERet t r ∈ ev end.
Proof.
  intros Hf Hs. destruct p as [| | | | | | | | | | | | | | | | | |e m|e x m|r d|todo n|k e todo n|k v todo n| |r]; cbn in Hf; try done; destruct lab; cbn [step] in Hs; try done.
  - destruct m; try done. unfold step_load, goto in Hs.
    destruct c; try done; repeat case_match; simplify_eq; cbn [after after_panic]; try (by apply finish_free); cbn; tauto.
  - destruct m; try done. unfold goto in Hs. case_decide; simplify_eq; cbn [after]; [by apply finish_free|done].
  - unfold goto in Hs. simplify_eq. cbn. tauto.
  - unfold goto in Hs. case_decide; simplify_eq. cbn. tauto.
  - unfold goto in Hs. case_match; simplify_eq. done.
  - unfold goto in Hs. case_match; simplify_eq; done.
  - destruct Hf as [-> | ->]; case_match; simplify_eq; cbn; tauto.
  - simplify_eq. eexists. left.
Qed.

(** Along a run, while [t] has not returned. *)
Lemma run_free t c acts (cf : config K V) cf' tr p : run cf acts = Some (cf', tr) -> (forall r, ERet t r ∉ tr) ->
  c_thr cf !! t = Some (c, p) -> free_pc c p -> exists p', c_thr cf' !! t = Some (c, p') /\ free_pc c p'.
Proof.
  revert cf tr p. induction acts as [|a acts IH]; intros cf tr p Hr Hn Ht Hf; cbn [RwMapModel.run] in Hr; [simplify_eq; eauto|].
  destruct (act cf a) as [[cf1 ev]|] eqn:Ha; [|done]. destruct (run cf1 acts) as [[cf2 evs]|] eqn:Hr2; [|done]. simplify_eq.
  assert (Hn1 : forall r, ERet t r ∉ ev) by (intros r Hin; apply (Hn r), elem_of_app; by left).
  assert (Hn2 : forall r, ERet t r ∉ evs) by (intros r Hin; apply (Hn r), elem_of_app; by right).
  assert (Hx : exists p1, c_thr cf1 !! t = Some (c, p1) /\ free_pc c p1); [|destruct Hx as (p1 & H1 & H2); by eapply IH].
  destruct a as [u cu|u lab]; cbn [RwMapModel.act] in Ha.
  - destruct (c_thr cf !! u) eqn:Hu; [done|]. simplify_eq. cbn [c_thr]. exists p. rewrite lookup_insert_ne by congruence. done.
  - destruct (c_thr cf !! u) as [[cu pu]|] eqn:Hu; [|done]. destruct (step _ _ _ u cu pu (c_sh cf) lab) as [[[op s'] ev']|] eqn:Hs; [|done].
    destruct (decide (u = t)) as [->|Hne].
    + rewrite Ht in Hu. simplify_eq. pose proof (step_free _ _ _ _ _ _ _ _ Hf Hs) as Hop. destruct op as [p'|]; simplify_eq; cbn [c_thr].
      * exists p'. by rewrite lookup_insert.
      * destruct Hop as [r Hr]. by destruct (Hn1 r).
    + exists p. split; [|done]. destruct op as [p'|]; simplify_eq; cbn [c_thr]; [by rewrite lookup_insert_ne by done|by rewrite lookup_delete_ne by done].
Qed.

(** Steps left of a Load. *)
Definition load_left (p : pc K V) : nat := match p with E_load _ Fast => 2 | X_ret _ => 1 | _ => 0 end.
Lemma step_load_left t k p (s : shared K) lab op s' ev : 0 < load_left p -> step deref zero veq t (CLoad k) p s lab = Some (op, s', ev) ->
  match op with Some p' => 0 < load_left p' /\ S (load_left p') = load_left p | None => exists r, ERet t r ∈ ev end.
Proof.
  intros Hl Hs. destruct p as [| | | | | | | | | | | | | | | | | |e m|e x m|r d|todo n|k' e todo n|k' v todo n| |r]; cbn in Hl; try lia; destruct lab; cbn [step] in Hs; try done.
  - destruct m; try lia. cbn [step_load after] in Hs. unfold finish, goto in Hs. cbn [delta] in Hs.
    rewrite decide_True in Hs by done. simplify_eq. cbn. lia.
  - simplify_eq. eexists. left.
Qed.
Lemma run_load_left t k acts (cf : config K V) cf' tr p : run cf acts = Some (cf', tr) -> (forall r, ERet t r ∉ tr) ->
  c_thr cf !! t = Some (CLoad k, p) -> 0 < load_left p -> steps_of t acts < load_left p.
Proof.
  revert cf tr p. induction acts as [|a acts IH]; intros cf tr p Hr Hn Ht Hf; cbn [RwMapModel.run] in Hr; [by simplify_eq|].
  destruct (act cf a) as [[cf1 ev]|] eqn:Ha; [|done]. destruct (run cf1 acts) as [[cf2 evs]|] eqn:Hr2; [|done]. simplify_eq.
  assert (Hn1 : forall r, ERet t r ∉ ev) by (intros r Hin; apply (Hn r), elem_of_app; by left).
  assert (Hn2 : forall r, ERet t r ∉ evs) by (intros r Hin; apply (Hn r), elem_of_app; by right).
  destruct a as [u cu|u lab]; cbn [RwMapModel.act] in Ha.
  - destruct (c_thr cf !! u) eqn:Hu; [done|]. simplify_eq. cbn [steps_of]. eapply IH; [exact Hr2|done| |done].
    cbn [c_thr]. rewrite lookup_insert_ne by congruence. done.
  - destruct (c_thr cf !! u) as [[cu pu]|] eqn:Hu; [|done]. destruct (step _ _ _ u cu pu (c_sh cf) lab) as [[[op s'] ev']|] eqn:Hs; [|done].
    cbn [steps_of]. destruct (decide (u = t)) as [->|Hne].
    + rewrite Nat.eqb_refl. rewrite Ht in Hu. simplify_eq. pose proof (step_load_left _ _ _ _ _ _ _ _ Hf Hs) as Hop. destruct op as [p'|]; simplify_eq; cbn [c_thr].
      * destruct Hop as [H1 H2]. enough (steps_of t acts < load_left p') by lia. eapply IH; [exact Hr2|done|cbn; by rewrite lookup_insert|done].
      * destruct Hop as [r Hr]. by destruct (Hn1 r).
    + rewrite (proj2 (Nat.eqb_neq u t)) by done. eapply IH; [exact Hr2|done| |done].
      destruct op as [p'|]; simplify_eq; cbn [c_thr]; [by rewrite lookup_insert_ne by done|by rewrite lookup_delete_ne by done].
Qed.

Lemma free_goes_on acts0 acts (cf cf' : config K V) tr0 tr t c p : Inhabited K -> run new_config acts0 = Some (cf, tr0) ->
  c_thr cf !! t = Some (c, p) -> free_pc c p -> run cf acts = Some (cf', tr) -> (forall r, ERet t r ∉ tr) ->
  (exists lab, is_Some (act cf' (AStep t lab))) /\ ~ holds_lock cf' t.
Proof.
  intros HK Hr0 Ht Hf Hr Hn. eapply run_good in Hr0; [|by apply new_good]. pose proof Hr as Hg. eapply run_good in Hg; [|exact Hr0].
  destruct (run_free _ _ _ _ _ _ _ Hr Hn Ht Hf) as (p' & Ht' & Hf'). destruct (free_unlocked _ _ Hf') as [Hl Hp].
  destruct Hg as (h & kof & m & Hc & _). split.
  - destruct (can_step deref zero veq _ _ _ _ _ _ _ _ Hc Ht') as [lab Hlab]; [done|]. exists lab. by eapply act_step.
  - unfold holds_lock. intros Hh. apply (i_lock _ _ _ _ _ _ _ Hc _ _ _ Ht') in Hh. congruence.
Qed.
End panic.
