(** rwmap: data races (C88). *)
From Verif Require Import Base RwMapModel RwMapSpec RwMapInv RwMapMoves RwMapProgress RwMapRaceSpec RwMapRace RwMapProperties.

(** C88 is false of the code: Clear sets [len] with a plain store (line 527) while other goroutines
    add to it, or read it, atomically and without the mutex.  Here goroutine 1 has stored a value
    and is about to count it, and goroutine 2 is in Clear. *)
Definition ex88 : list (action nat nat) :=
  AInv 1 (CStore 5 50) :: ticks 1 8 ++ AInv 2 CClear :: ticks 2 4 ++ AInv 3 CLen :: nil.
Theorem C88_race_refuted :
  exists acts (cf : config nat nat) tr, ex_run acts = Some (cf, tr) /\
    race cf 1 2 (wr FLen) (pwr FLen) /\ race cf 3 2 (rd FLen) (pwr FLen).
Proof.
  assert (Hx : (fun x => map_to_list (c_thr x.1)) <$> ex_run (play new_config ex88) =
    Some [(1, (CStore 5 50, P_len (RVal None) 1)); (3, (CLen, P_getlen)); (2, (CClear, P_clr2))]) by (vm_compute; reflexivity).
  exists (play new_config ex88). destruct (ex_run (play new_config ex88)) as [[cf tr]|]; [|done].
  cbn [fmap option_fmap option_map fst] in Hx. injection Hx as Hx. exists cf, tr. split; [done|].
  assert (H1 : c_thr cf !! 1 = Some (CStore 5 50, P_len (RVal None) 1)) by (apply elem_of_map_to_list; rewrite Hx; set_solver).
  assert (H2 : c_thr cf !! 2 = Some (CClear, P_clr2)) by (apply elem_of_map_to_list; rewrite Hx; set_solver).
  assert (H3 : c_thr cf !! 3 = Some (CLen, P_getlen)) by (apply elem_of_map_to_list; rewrite Hx; set_solver).
  split; (split; [done|]; split; [split_and!; cbn; auto|]); eexists _, _, _, _; split_and!; try done; cbn; set_solver.
Qed.
Print Assumptions C88_race_refuted.

(** That is the only data race: [dirty] and [misses] are touched by the holder of the mutex only,
    everything else is atomic. *)
Theorem C88_only_race_is_len {K} `{Countable K} {V} (deref : nat -> V) (zero : V) veq acts (cf : config K V) tr t u a b :
  Inhabited K -> run deref zero veq new_config acts = Some (cf, tr) -> race cf t u a b ->
  a_fld a = FLen /\ exists w, (w = t \/ w = u) /\ s_lock (c_sh cf) = Some w /\
    exists c, c_thr cf !! w = Some (c, P_clr2).
Proof.
  intros HK Hr (Htu & (Hf & Hw & Hp) & c & p & c' & p' & Ht & Hu & Ha & Hb).
  destruct (run_reach deref zero veq _ _ _ HK Hr) as (h & kof & m & Hc & _).
  pose proof (i_lock _ _ _ _ _ _ _ Hc _ _ _ Ht) as Lt. pose proof (i_lock _ _ _ _ _ _ _ Hc _ _ _ Hu) as Lu.
  assert (Hpl : forall (c : call K V) (p : pc K V) a, a ∈ accesses c p (c_sh cf) -> a_plain a = true ->
    locked p = true /\ (a_fld a = FDirty \/ a_fld a = FMisses \/ (a_fld a = FLen /\ p = P_clr2))).
  { intros d q x Hx Hpx. destruct q; cbn in Hx; try (destruct d); cbn in Hx;
      repeat (apply elem_of_cons in Hx as [->|Hx]; [cbn in Hpx |- *; first [discriminate|split; [done|auto]]|]);
      by apply elem_of_nil in Hx. }
  assert (Hdm : forall (c : call K V) (p : pc K V) a, a ∈ accesses c p (c_sh cf) -> a_fld a = FDirty \/ a_fld a = FMisses -> locked p = true).
  { intros d q x Hx Hpx. destruct q; cbn in Hx; try (destruct d); cbn in Hx;
      repeat (apply elem_of_cons in Hx as [->|Hx]; [cbn in Hpx |- *; try done; by destruct Hpx|]);
      by apply elem_of_nil in Hx. }
  assert (Hboth : ~ (locked p = true /\ locked p' = true)).
  { intros [L1 L2]. apply Lt in L1. apply Lu in L2. congruence. }
  destruct Hp as [Hp|Hp].
  - destruct (Hpl _ _ _ Ha Hp) as (L & Hl). destruct Hl as [Hl|[Hl|[Hl ->]]].
    + exfalso. apply Hboth. split; [done|]. eapply Hdm; [done|]. left. congruence.
    + exfalso. apply Hboth. split; [done|]. eapply Hdm; [done|]. right. congruence.
    + split; [done|]. exists t. split; [by left|]. split; [by apply Lt|]. eauto.
  - destruct (Hpl _ _ _ Hb Hp) as (L & Hl). destruct Hl as [Hl|[Hl|[Hl ->]]].
    + exfalso. apply Hboth. split; [|done]. eapply Hdm; [done|]. left. congruence.
    + exfalso. apply Hboth. split; [|done]. eapply Hdm; [done|]. right. congruence.
    + split; [congruence|]. exists u. split; [by right|]. split; [by apply Lu|]. eauto.
Qed.
Print Assumptions C88_only_race_is_len.

(** [read] is stored with the mutex held only (lines 41-42), and [dirty] and [misses] are touched
    with it held only. *)
Theorem C88_mutex_held {K} `{Countable K} {V} (deref : nat -> V) (zero : V) veq acts (cf : config K V) tr t c p a :
  Inhabited K -> run deref zero veq new_config acts = Some (cf, tr) ->
  c_thr cf !! t = Some (c, p) -> a ∈ accesses c p (c_sh cf) ->
  (a_fld a = FRead /\ a_write a = true) \/ a_fld a = FDirty \/ a_fld a = FMisses -> s_lock (c_sh cf) = Some t.
Proof.
  intros HK Hr Ht Ha Hf. destruct (run_reach deref zero veq _ _ _ HK Hr) as (h & kof & m & Hc & _).
  apply (i_lock _ _ _ _ _ _ _ Hc _ _ _ Ht). destruct p; cbn in Ha; try (destruct c); cbn in Ha; try done;
    repeat (apply elem_of_cons in Ha as [->|Ha]; [cbn in Hf |- *; try done; naive_solver|]);
    by apply elem_of_nil in Ha.
Qed.
Print Assumptions C88_mutex_held.

(** The list of accesses is the right one for the steps of the model: a step changes nothing but
    what the list says it may write, and apart from the mutex and the supply of new entries, what
    it does depends on nothing but what the list says it touches. *)
Theorem C88_accesses {K} `{Countable K} {V} (deref : nat -> V) (zero : V) veq t (c : call K V) p s lab p' s' ev :
  step deref zero veq t c p s lab = Some (p', s', ev) ->
  (forall f, (forall a, a ∈ accesses c p s -> a_fld a = f -> a_write a = false) -> same_fld f s s') /\
  (forall s2, s_lock s = s_lock s2 -> s_next s = s_next s2 ->
     (forall a, a ∈ accesses c p s -> same_fld (a_fld a) s s2) ->
     exists s2', step deref zero veq t c p s2 lab = Some (p', s2', ev) /\
       s_lock s' = s_lock s2' /\ s_next s' = s_next s2' /\
       forall a, a ∈ accesses c p s -> same_fld (a_fld a) s' s2').
Proof. intros Hs. split; intros; [by eapply writes_only|by eapply looks_only]. Qed.
Print Assumptions C88_accesses.
(** A Store about to write the new entry into [dirty], with the mutex held, while another goroutine
    loads [read]. *)
Example C88_ex : exists acts (cf : config nat nat) tr, ex_run acts = Some (cf, tr) /\
  s_lock (c_sh cf) = Some 1 /\ c_thr cf !! 1 = Some (CStore 5 50, P_new) /\ c_thr cf !! 2 = Some (CLoad 5, P_read) /\
  accesses (CStore 5 50) (P_new (V := nat)) (c_sh cf) = [pwr FDirty; wr (FEnt 0)].
Proof.
  set (acts := play new_config (AInv 1 (CStore 5 50) :: ticks 1 6 ++ [AInv 2 (CLoad 5)])).
  assert (Hx : (fun x => (s_lock (c_sh x.1), c_thr x.1 !! 1, c_thr x.1 !! 2, accesses (V := nat) (CStore 5 50) P_new (c_sh x.1))) <$>
      ex_run acts =
    Some (Some 1, Some (CStore 5 50, P_new), Some (CLoad 5, P_read), [pwr FDirty; wr (FEnt 0)])) by (vm_compute; reflexivity).
  exists acts. destruct (ex_run acts) as [[cf tr]|]; [|done]. cbn [fmap option_fmap option_map fst] in Hx.
  injection Hx as H1 H2 H3 H4. exists cf, tr. split_and!; [done..|]. cbn [accesses]. by rewrite H4.
Qed.
