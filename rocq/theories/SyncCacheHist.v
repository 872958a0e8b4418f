(** synccache: every run has a history; basic facts about histories. *)
From Verif Require Import Base RwMapModel RwMapSpec RwMapRange RwMapLen RwMapSeq RwMapProperties SyncCacheModel SyncCacheSpec.

Section hist.
Context {K : Type} `{Countable K} {V : Type}.
Context (deref : nat -> nat) (veq : V -> V -> option bool) (has_cb : bool).
Local Notation scall := (scall K V).
Local Notation spc := (spc K).
Local Notation sev := (sev K V).
Local Notation sact := (sact K V).
Local Notation cstate := (cstate K V).
Local Notation astate := (astate K nat).
Local Notation item := (item K nat).
Local Notation world := (world K V).
Local Notation mev := (mev K V).
Local Notation mstate := (mstate K V).
Local Notation mstep := (mstep deref veq has_cb).
Local Notation mrun := (mrun deref veq has_cb).
Local Notation astep := (astep deref peq).
Local Notation arun := (arun deref peq).
Local Notation wstep := (wstep deref veq has_cb).
Local Notation wrun := (wrun deref veq has_cb).
Local Notation explains := (explains deref veq has_cb).

Implicit Types (h : list mev) (m : mstate) (w : world).

(** ** Runs *)
Lemma mrun_app m h1 h2 m' : mrun m (h1 ++ h2) m' <-> exists m1, mrun m h1 m1 /\ mrun m1 h2 m'.
Proof.
  revert m. induction h1 as [|x h1 IH]; intros m; cbn.
  - split; [by eauto|]. by intros (m1 & -> & ?).
  - split.
    + intros (m1 & Hs & (m2 & ? & ?)%IH). eauto.
    + intros (m2 & (m1 & Hs & ?) & ?). exists m1. split; [done|]. apply IH. eauto.
Qed.
Lemma mrun_snoc m h x m' : mrun m (h ++ [x]) m' <-> exists m1, mrun m h m1 /\ mstep m1 x m'.
Proof.
  rewrite mrun_app. split.
  - intros (m1 & ? & (m2 & ? & ->)). eauto.
  - intros (m1 & ? & ?). exists m1. split; [done|]. by exists m'.
Qed.

Lemma astep_det' (a a1 a2 : astate) (i : item) : astep a i a1 -> astep a i a2 -> a1 = a2.
Proof.
  destruct i; cbn.
  - intros [_ ->] [_ ->]. done.
  - intros [-> _] [-> _]. done.
  - intros (c1 & ks1 & v1 & n1 & E1 & _ & _ & ->) (c2 & ks2 & v2 & n2 & E2 & _ & _ & ->).
    rewrite E1 in E2. by injection E2 as -> -> -> ->.
  - intros (c1 & E1 & _ & ->) (c2 & E2 & _ & ->). rewrite E1 in E2. by injection E2 as ->.
  - intros (c1 & E1 & _ & _ & ->) (c2 & E2 & _ & _ & ->). rewrite E1 in E2. by injection E2 as ->.
  - intros (c1 & ks1 & v1 & n1 & E1 & _ & ->) (c2 & ks2 & v2 & n2 & E2 & _ & ->).
    rewrite E1 in E2. by injection E2 as -> -> -> ->.
  - intros (c1 & n1 & E1 & ->) (c2 & n2 & E2 & ->). rewrite E1 in E2. by injection E2 as -> ->.
Qed.
Lemma mstep_det m x m1 m2 : mstep m x m1 -> mstep m x m2 -> m1 = m2.
Proof.
  destruct m1 as [c1 a1], m2 as [c2 a2], x as [[i|a] ev]; cbn.
  - intros (_ & H1 & E1) (_ & H2 & E2). f_equal; [|by eapply astep_det'].
    destruct (visible i); congruence.
  - intros [H1 ->] [H2 ->]. congruence.
Qed.
Lemma mrun_det m h m1 m2 : mrun m h m1 -> mrun m h m2 -> m1 = m2.
Proof.
  revert m. induction h as [|x h IH]; intros m; cbn; [congruence|].
  intros (n1 & H1 & R1) (n2 & H2 & R2). rewrite (mstep_det _ _ _ _ H1 H2) in R1. eauto.
Qed.

Lemma mstep_last m h x m1 m2 : mrun m h m1 -> mrun m (h ++ [x]) m2 -> mstep m1 x m2.
Proof. intros H1 (m3 & H2 & Hx)%mrun_snoc. by rewrite (mrun_det _ _ _ _ H1 H2). Qed.

Lemma trace_app h1 h2 : trace (h1 ++ h2) = trace h1 ++ trace h2.
Proof. unfold trace. apply bind_app. Qed.
Lemma trace_snoc h x : trace (h ++ [x]) = trace h ++ x.2.
Proof. rewrite trace_app. cbn. by rewrite app_nil_r. Qed.
Lemma trace_cons x h : trace (x :: h) = x.2 ++ trace h.
Proof. done. Qed.

(** Invariants. *)
Lemma mrun_ind' (P : list mev -> mstate -> Prop) :
  P [] m_init ->
  (forall h m x m', mrun m_init h m -> P h m -> mstep m x m' -> P (h ++ [x]) m') ->
  forall h m, mrun m_init h m -> P h m.
Proof.
  intros H0 Hs h. induction h as [|x h IH] using rev_ind; intros m Hr.
  - cbn in Hr. by subst.
  - apply mrun_snoc in Hr as (m1 & Hr & Hx). eauto.
Qed.

(** ** Every run has a history *)
Fixpoint map_acts (xs : list (wact K V)) : list (action K nat) :=
  match xs with
  | [] => []
  | XMap a :: xs => a :: map_acts xs
  | _ :: xs => map_acts xs
  end.

Lemma hidden_mrun m (l : list item) (a : astate) :
  arun (m_map m) l a -> observed l = [] -> exists h, mrun m h (mk_m (m_cl m) a) /\ trace h = [].
Proof.
  revert m. induction l as [|i l IH]; intros m; cbn.
  - intros -> _. exists []. cbn. split; [by destruct m|done].
  - intros (a1 & Hs & Hr) Ho. apply app_eq_nil in Ho as [Ev Ho].
    destruct (IH (mk_m (m_cl m) a1) Hr Ho) as (h & Hh & Ht). exists ((MItem i, []) :: h). split; [|done].
    eexists. split; [|exact Hh]. cbn. by rewrite Ev.
Qed.
Lemma observed_cut (l : list item) (e : event K nat) tr :
  observed l = e :: tr ->
  exists l1 i l2, l = l1 ++ i :: l2 /\ observed l1 = [] /\ visible i = [e] /\ observed l2 = tr.
Proof.
  induction l as [|i l IH]; cbn; [done|]. destruct (visible i) as [|e' []] eqn:Ev; [| |by destruct i].
  - intros Ho. destruct (IH Ho) as (l1 & j & l2 & -> & H1 & H2 & H3). exists (i :: l1), j, l2.
    split_and!; try done. cbn. by rewrite Ev.
  - cbn. intros [= -> <-]. by exists [], i, l.
Qed.

Lemma wrun_hist xs w w' tr mtr l a' m :
  wrun w xs = Some (w', tr) -> run deref 0 peq (w_map w) (map_acts xs) = Some (w_map w', mtr) ->
  m_cl m = w_cl w -> arun (m_map m) l a' -> observed l = mtr ->
  exists h, mrun m h (mk_m (w_cl w') a') /\ trace h = tr.
Proof.
  revert w tr mtr l m. induction xs as [|x xs IH]; intros w tr mtr l m Hw Hr Hm Ha Ho; cbn in Hw.
  - injection Hw as <- <-. cbn in Hr. injection Hr as <-. rewrite <- Hm. by eapply hidden_mrun.
  - destruct (wstep w x) as [[w1 ev]|] eqn:Hx; [|done].
    destruct (wrun w1 xs) as [[w2 tr2]|] eqn:Hw1; [|done]. injection Hw as -> <-.
    assert (Hloc : forall s a, cl_loc veq has_cb (w_cl w) a = Some (s, ev) -> w1 = mk_world s (w_map w) ->
      run deref 0 peq (w_map w) (map_acts xs) = Some (w_map w', mtr) ->
      exists h, mrun m h (mk_m (w_cl w') a') /\ trace h = ev ++ tr2).
    { intros s a Hl -> Hr'. destruct (IH (mk_world s (w_map w)) tr2 mtr l (mk_m s (m_map m))) as (h & Hh & Ht); try done.
      exists ((MLoc a, ev) :: h). split; [|by rewrite trace_cons, Ht].
      eexists. split; [|exact Hh]. cbn. by rewrite Hm. }
    destruct x as [a|t|a].
    + cbn in Hr. destruct a; try done; cbn [SyncCacheModel.wstep] in Hx;
        (match type of Hx with match ?e with _ => _ end = _ => destruct e as [[s ev']|] eqn:Hl; [|done] end);
        injection Hx as <- <-; by eapply Hloc.
    + cbn in Hr. cbn [SyncCacheModel.wstep] in Hx. destruct (c_thr (w_map w) !! _) as [[c []]|] eqn:Ht; try done.
      match type of Hx with match ?e with _ => _ end = _ => destruct e as [[s ev']|] eqn:Hl; [|done] end.
      injection Hx as <- <-. by eapply Hloc.
    + cbn in Hr, Hx. destruct (act deref 0 peq (w_map w) a) as [[cf evs]|] eqn:Hact; [|done].
      destruct (run deref 0 peq cf (map_acts xs)) as [[cf2 mtr2]|] eqn:Hr2; [|done].
      injection Hr as -> <-. destruct evs as [|e evs].
      * injection Hx as <- <-. by eapply (IH (mk_world (w_cl w) cf)).
      * destruct (cl_map deref has_cb (w_cl w) e) as [s|] eqn:Hc; [|done]. injection Hx as <- <-.
        assert (evs = []) as ->. { by destruct (act_events _ _ _ _ _ _ _ Hact) as [?|[? [= _ ->]]]. }
        cbn in Ho. destruct (observed_cut _ _ _ Ho) as (l1 & i & l2 & -> & H1 & Hi & H2).
        apply arun_app in Ha as (a1 & Ha1 & (a2 & Ha2 & Ha3)).
        destruct (hidden_mrun m l1 a1 Ha1 H1) as (h1 & Hh1 & Ht1).
        destruct (IH (mk_world s cf) tr2 mtr2 l2 (mk_m s a2)) as (h2 & Hh2 & Ht2); try done.
        exists (h1 ++ (MItem i, []) :: h2). split; [|by rewrite trace_app, trace_cons, Ht1, Ht2].
        apply mrun_app. eexists. split; [exact Hh1|]. eexists. split; [|exact Hh2]. cbn. rewrite Hi, Hm. done.
Qed.

Lemma wrun_map_run xs w w' tr :
  wrun w xs = Some (w', tr) -> exists mtr, run deref 0 peq (w_map w) (map_acts xs) = Some (w_map w', mtr).
Proof.
  revert w tr. induction xs as [|x xs IH]; intros w tr Hw; cbn in Hw.
  - injection Hw as <- _. by eexists.
  - destruct (wstep w x) as [[w1 ev]|] eqn:Hx; [|done].
    destruct (wrun w1 xs) as [[w2 tr2]|] eqn:Hw1; [|done]. injection Hw as -> _.
    destruct (IH _ _ Hw1) as [mtr Hr]. destruct x as [a|t|a]; cbn [SyncCacheModel.wstep] in Hx; cbn [map_acts].
    + assert (w_map w1 = w_map w) as Hm; [|rewrite <- Hm; eauto].
      destruct a; try done;
        (match type of Hx with match ?e with _ => _ end = _ => destruct e as [[s ev']|] eqn:Hl; [|done] end); by injection Hx as <- _.
    + assert (w_map w1 = w_map w) as Hm; [|rewrite <- Hm; eauto].
      destruct (c_thr (w_map w) !! _) as [[c []]|] eqn:Ht; try done.
      match type of Hx with match ?e with _ => _ end = _ => destruct e as [[s ev']|] eqn:Hl; [|done] end. by injection Hx as <- _.
    + destruct (act deref 0 peq (w_map w) a) as [[cf evs]|] eqn:Hact; [|done].
      cbn [run]. rewrite Hact. assert (w_map w1 = cf) as <-.
      { destruct evs; [by injection Hx as <- _|]. destruct (cl_map _ _ _ _); [|done]. by injection Hx as <- _. }
      rewrite Hr. eauto.
Qed.

Theorem run_explained xs w tr :
  Inhabited K -> wrun w_init xs = Some (w, tr) -> exists h, explains h w tr.
Proof.
  intros Hinh Hw. destruct (wrun_map_run _ _ _ _ Hw) as [mtr Hr].
  destruct (C67_final_map deref 0 peq (map_acts xs) (w_map w) mtr Hinh Hr) as (l & a & Ha & Ho & Hm & _).
  destruct (wrun_hist _ _ _ _ _ l a m_init Hw Hr eq_refl Ha Ho) as (h & Hh & Ht).
  exists h, (mk_m (w_cl w) a). by split_and!.
Qed.

End hist.
