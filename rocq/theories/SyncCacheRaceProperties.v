(** synccache: data races (C177, C178). *)
From Verif Require Import Base RwMapModel RwMapRaceSpec RwMapProperties RwMapRaceProperties RwMapHbSpec
  SyncCacheModel SyncCacheHist SyncCacheWorld SyncCacheProperties SyncCacheRaceSpec SyncCacheRace.

(** C177 is false of the code: without a deletedCallback, Clear (line 148) calls Clear of the rwmap,
    which sets [len] with a plain store (rwmap.go:527) while other goroutines add to it atomically and
    without the mutex.  Here goroutine 1 is in Store and goroutine 2 in Clear. *)
Definition ex177 : list xcmd := [Call 1 (SStore 5 50 1000000); Go 1 0 10; Call 2 SClear; Go 2 0 5].
Theorem C177_race_refuted :
  exists xs (w : world nat nat) tr, wrun (fun p => p) xveq false w_init xs = Some (w, tr) /\
    cache_race w 1 2 (wr FLen) (pwr FLen).
Proof.
  assert (Hx : (fun x => map_to_list (c_thr (w_map x.1))) <$> xrun false w_init (xplay false w_init ex177) =
    Some [(2, (CStore 5 1, P_len (RVal None) 1%Z)); (4, (CClear, P_clr2))]) by (vm_compute; reflexivity).
  exists (xplay false w_init ex177). unfold xrun in Hx. destruct (wrun _ _ _ _ _) as [[w tr]|]; [|done].
  cbn [fmap option_fmap option_map fst] in Hx. injection Hx as Hx. exists w, tr. split; [done|].
  assert (H1 : c_thr (w_map w) !! 2 = Some (CStore 5 1, P_len (RVal None) 1%Z)) by (apply elem_of_map_to_list; rewrite Hx; set_solver).
  assert (H2 : c_thr (w_map w) !! 4 = Some (CClear, P_clr2)) by (apply elem_of_map_to_list; rewrite Hx; set_solver).
  split; [done|]. exists false, false.
  split; [done|]. split; [split_and!; cbn; auto|]. eexists _, _, _, _; split_and!; try done; cbn; set_solver.
Qed.
Print Assumptions C177_race_refuted.

(** That is the only race on the fields of the rwmap; with a deletedCallback there is none. *)
Theorem C178_only_race_is_len {K} `{Countable K} {V} (deref : nat -> nat) (veq : V -> V -> option bool) has_cb
    xs (w : world K V) tr t t' a b :
  Inhabited K -> wrun deref veq has_cb w_init xs = Some (w, tr) -> cache_race w t t' a b ->
  has_cb = false /\ a_fld a = FLen /\
  exists t0 now, (t0 = t \/ t0 = t') /\ c_fr (w_cl w) !! t0 = Some (mk_frame SClear now Q_wait).
Proof.
  intros HK Hr (_ & i & j & Hrace). destruct (wrun_map_run _ _ _ _ _ _ _ Hr) as [mtr Hrun].
  destruct (C88_only_race_is_len deref 0 peq _ _ _ _ _ _ _ HK Hrun Hrace) as (Hf & u & Hu & _ & c & Hc).
  destruct Hu as [-> | ->]; destruct (clear_frame deref veq has_cb _ _ _ _ _ _ HK Hr Hc) as (Hcb & now & Hfr);
    (split; [done|]; split; [done|]); eauto 10.
Qed.
Print Assumptions C178_only_race_is_len.

(** Every execution of the machine is the execution of a history, and the other way round. *)
Theorem C178_histories {K} `{Countable K} {V} (deref : nat -> nat) (veq : V -> V -> option bool) has_cb
    xs (w : world K V) tr :
  wrun deref veq has_cb w_init xs = Some (w, tr) <->
  exists h, whrun deref veq has_cb new_whist xs = Some (h, tr) /\ wh_w h = w.
Proof.
  split.
  - intros Hr. by apply (wrun_whrun deref veq has_cb xs new_whist).
  - intros (h & Hh & <-). exact (whrun_wrun _ _ _ _ _ _ _ Hh).
Qed.
Print Assumptions C178_histories.

(** NewEntry of an entry happens before every access of the cache's code to its fields, and before the
    entry is handed to the f of Range or returned, in the order of the Go memory model. *)
Theorem C178_entries {K} `{Countable K} {V} (deref : nat -> nat) (veq : V -> V -> option bool) has_cb
    xs (h : whist K V) tr t c now p e :
  Inhabited K -> whrun deref veq has_cb new_whist xs = Some (h, tr) ->
  c_fr (w_cl (wh_w h)) !! t = Some (mk_frame c now p) -> accesses_entry p e -> e ∈ wh_thr h t.
Proof.
  intros HK Hr Hc Ha. destruct (whrun_hinv _ _ _ _ _ _ HK Hr) as [Hf _]. eapply Hf; [exact Hc|].
  destruct p; try done; cbn in Ha |- *; try (by subst). destruct r; try done. by subst.
Qed.
Print Assumptions C178_entries.

(** The value of an entry never changes, and its expiration only by SetExpiration and AddExpiration,
    which use sync/atomic. *)
Theorem C178_fields {K} `{Countable K} {V} (deref : nat -> nat) (veq : V -> V -> option bool) has_cb
    xs (w w' : world K V) tr x ev e v y :
  wrun deref veq has_cb w_init xs = Some (w, tr) -> wstep deref veq has_cb w x = Some (w', ev) ->
  c_ent (w_cl w) !! e = Some (v, y) ->
  exists y', c_ent (w_cl w') !! e = Some (v, y') /\
    (y' = y \/ (exists at_, x = XLoc (KSet e at_)) \/ exists d, x = XLoc (KAdd e d)).
Proof.
  intros Hr Hs He. destruct (fields_step _ _ _ _ _ _ _ (wrun_below _ _ _ _ _ _ Hr) Hs) as [_ Hk].
  destruct (Hk _ _ _ He) as (y' & Hy & [?|(a & -> & [[at_ ->]|[d ->]])]); exists y'; eauto 10.
Qed.
Print Assumptions C178_fields.

(** Goroutine 1 stores; goroutine 2 loads the same key and is about to compare the expiration: it knows
    of NewEntry by goroutine 1 (entry 1), not of the entry 2 stored under another key. *)
Definition ex178 : list xcmd :=
  [Do 1 0 (SStore 5 50 1000000); Call 2 (SLoad 5); Go 2 0 6; Do 1 0 (SStore 6 60 1000000)].
Fixpoint sees (n : nat) (w : world nat nat) (t : nat) : list (wact nat nat) :=
  match n with
  | 0 => []
  | S n =>
      match f_pc <$> c_fr (w_cl w) !! t with
      | Some (Q_chk2 _ _) => []
      | _ => match xfirst true w (xsteps true w t 0 true) with Some (x, w') => x :: sees n w' t | None => [] end
      end
  end.
Example C178_ex : exists xs (h : whist nat nat) tr, whrun (fun p => p) xveq true new_whist xs = Some (h, tr) /\
  c_fr (w_cl (wh_w h)) !! 2 = Some (mk_frame (SLoad 5) 0%Z (Q_chk2 5 1)) /\
  1 ∈ wh_thr h 2 /\ 2 ∉ wh_thr h 2 /\ 2 ∈ wh_thr h 1 /\ is_Some (c_ent (w_cl (wh_w h)) !! 2).
Proof.
  set (w1 := match xrun true w_init (xplay true w_init ex178) with Some (w, _) => w | None => w_init end).
  set (xs := xplay true w_init ex178 ++ sees 50 w1 2).
  assert (Hx : (fun x => (c_fr (w_cl (wh_w x.1)) !! 2, elements (wh_thr x.1 2), elements (wh_thr x.1 1), c_ent (w_cl (wh_w x.1)) !! 2)) <$>
      whrun (K := nat) (fun p => p) xveq true new_whist xs =
    Some (Some (mk_frame (SLoad 5) 0%Z (Q_chk2 5 1)), [1], [1; 2], Some (60, 1%Z))) by (vm_compute; reflexivity).
  exists xs. destruct (whrun _ _ _ _ xs) as [[h tr]|]; [|discriminate Hx].
  cbn [fmap option_fmap option_map fst] in Hx. injection Hx as H1 H2 H3 H4. exists h, tr.
  split; [reflexivity|]. split; [exact H1|].
  rewrite <- !elem_of_elements, H2, H3, H4. rewrite !elem_of_cons, !elem_of_nil. split; [auto|]. split; [|split; [auto|eauto]].
  intros [?|?]; [lia|done].
Qed.
