(** synccache: how often LoadOrStore goes around its loop (C182, C183). *)
From Coq Require Import ZifyBool ZifyNat.
From Verif Require Import Base RwMapModel SyncCacheModel SyncCacheSpec SyncCacheProperties SyncCacheRetrySpec SyncCacheRetry.

(** Each time LoadOrStore goes around once more it has found another entry expired, one it did not make
    itself in this call. *)
Theorem C183_once_per_expired_entry :
  forall (K : Type) (EqK : EqDecision K) (CountK : Countable K) (V : Type) (deref : nat -> nat)
    (veq : V -> V -> option bool) (has_cb : bool) (w : world K V) xs t k v d tr1 tr2,
  Inhabited K -> wrun deref veq has_cb w_init xs = Some (w, tr1 ++ SInv t (SLoadOrStore k v d) :: tr2) ->
  still_in t tr2 ->
  exists R, NoDup R /\ length (entries_of t tr2) <= length R + 1 /\
    forall e, e ∈ R -> saw_expired t e tr2 /\ (e ∈ entries_in tr1 \/ e ∈ entries_not_of t tr2).
Proof. intros. by eapply retries. Qed.
Print Assumptions C183_once_per_expired_entry.

(** So it goes around at most once more than others stored entries, before or during the call. *)
Theorem C183_at_most_once_per_entry :
  forall (K : Type) (EqK : EqDecision K) (CountK : Countable K) (V : Type) (deref : nat -> nat)
    (veq : V -> V -> option bool) (has_cb : bool) (w : world K V) xs t k v d tr1 tr2,
  Inhabited K -> wrun deref veq has_cb w_init xs = Some (w, tr1 ++ SInv t (SLoadOrStore k v d) :: tr2) ->
  still_in t tr2 ->
  length (entries_of t tr2) <= length (entries_in tr1) + length (entries_not_of t tr2) + 1.
Proof. intros. by eapply retries_bound. Qed.
Print Assumptions C183_at_most_once_per_entry.

(** ** It can go around any number of times *)
Local Open Scope Z_scope.
Section forever.
Local Notation run_ := (wrun (K := nat) (V := nat) (fun p => p) xveq false).
Local Notation step_ := (wstep (K := nat) (V := nat) (fun p => p) xveq false).

Lemma run_cons w x xs w1 ev w2 evs : step_ w x = Some (w1, ev) -> run_ w1 xs = Some (w2, evs) ->
  run_ w (x :: xs) = Some (w2, ev ++ evs).
Proof. intros H1 H2. cbn. by rewrite H1, H2. Qed.
Lemma run_app w xs ys w1 ev w2 evs : run_ w xs = Some (w1, ev) -> run_ w1 ys = Some (w2, evs) ->
  run_ w (xs ++ ys) = Some (w2, ev ++ evs).
Proof.
  revert w ev. induction xs as [|x xs IH]; intros w ev H1 H2.
  - by injection H1 as <- <-.
  - cbn in H1 |- *. destruct (step_ w x) as [[w' e]|]; [|done].
    destruct (run_ w' xs) as [[w'' e']|] eqn:Er; [|done]. injection H1 as <- <-.
    rewrite (IH w' e' Er H2). by rewrite app_assoc.
Qed.

(** Goroutine 1 is about to make an entry; key 5 has been deleted and is in the read map. *)
Definition again (w : world nat nat) : Prop :=
  exists now x, c_fr (w_cl w) !! 1%nat = Some (mk_frame (SLoadOrStore 5%nat 7%nat 1000000) now Q_new) /\
    c_fr (w_cl w) !! 2%nat = None /\ s_rd (c_sh (w_map w)) !! 5%nat = Some x /\ s_ent (c_sh (w_map w)) x = SNil /\
    c_thr (w_map w) !! 2%nat = None /\ c_thr (w_map w) !! 4%nat = None.

(** What happens in round [i], when the next entry is number [N]: goroutine 2 stores an entry for one
    millisecond, goroutine 1 finds it five milliseconds later, when it has expired, and takes it out. *)
Definition tick (u : nat) : wact nat nat := XMap (AStep u LTick).
Definition round (i : Z) (N : nat) : list (wact nat nat) :=
  [XLoc (KInv 2 (SStore 5%nat 6%nat 1000000)); XLoc (KLoc 2 (LClock (i * 10000000))); XMap (AInv 4 (CStore 5%nat N));
   tick 4; tick 4; tick 4; tick 4; tick 4; XLoc (KLoc 2 LNone);
   XLoc (KLoc 1 (LClock (i * 10000000))); XMap (AInv 2 (CLoadOrStore 5%nat (S N))); tick 2; tick 2; tick 2;
   XLoc (KLoc 1 (LClock (i * 10000000 + 5000000))); XLoc (KLoc 1 LNone);
   XMap (AInv 2 (CCad 5%nat N)); tick 2; tick 2; tick 2; tick 2; tick 2].
Definition round_trace (i : Z) (N : nat) : list (sev nat nat) :=
  [SInv 2 (SStore 5%nat 6%nat 1000000); SClock 2 (i * 10000000); SNew 2 N 6%nat (i * 10 + 1); SRet 2 SUnit;
   SClock 1 (i * 10000000); SNew 1 (S N) 7%nat (i * 10 + 1);
   SClock 1 (i * 10000000 + 5000000); SChk 1 N (i * 10 + 5) (i * 10 + 1)].

Lemma ms1 i : ms (i * 10000000 + 1000000) = i * 10 + 1.
Proof. unfold ms. lia. Qed.
Lemma ms5 i : ms (i * 10000000 + 5000000) = i * 10 + 5.
Proof. unfold ms. lia. Qed.

Lemma late i : (i * 10 + 1 <? i * 10 + 5) = true.
Proof. lia. Qed.

Local Ltac look := repeat first
  [ rewrite lookup_insert | rewrite lookup_insert_ne by done | rewrite lookup_delete
  | rewrite lookup_delete_ne by done | rewrite fn_lookup_insert | rewrite bool_decide_true by done
  | rewrite decide_True by done | rewrite decide_False by done | rewrite insert_insert | rewrite ms1 | rewrite ms5 | rewrite late
  | match goal with H : _ !! _ = _ |- _ => rewrite H | H : s_ent _ _ = _ |- _ => rewrite H end ].
Local Ltac smpl := unfold finish, delta, set_frame; cbn -[insert lookup delete Z.mul Z.add ms decide bool_decide Z.ltb]; look.
Local Ltac stp := eapply run_cons; [do 4 smpl; reflexivity|].

Lemma round_run w i : again w -> exists w', run_ w (round i (c_new (w_cl w))) = Some (w', round_trace i (c_new (w_cl w))) /\ again w'.
Proof.
  destruct w as [[E N F] [S T]]. intros (now & x & H1 & H2 & H3 & H4 & H5 & H6). cbn [w_cl w_map c_fr c_sh c_thr c_new] in *.
  eexists. split.
  - unfold round. change (round_trace i N) with
      ([SInv 2 (SStore 5%nat 6%nat 1000000)] ++ [SClock 2 (i * 10000000); SNew 2 N 6%nat (i * 10 + 1)] ++ [] ++ [] ++ [] ++ [] ++ [] ++ [] ++
       [SRet 2 SUnit] ++ [SClock 1 (i * 10000000); SNew 1 (Datatypes.S N) 7%nat (i * 10 + 1)] ++ [] ++ [] ++ [] ++ [] ++
       [SClock 1 (i * 10000000 + 5000000)] ++ [SChk 1 N (i * 10 + 5) (i * 10 + 1)] ++ [] ++ [] ++ [] ++ [] ++ [] ++ [] ++ []).
    unfold tick. do 22 stp. reflexivity.
  - exists (i * 10 + 5), x. do 4 smpl. done.
Qed.

Lemma rounds_run n : forall w i, again w -> exists xs w' tr, run_ w xs = Some (w', tr) /\ again w' /\
  length (entries_of 1 tr) = n /\ still_in 1 tr /\ StronglySorted Z.le (clock_readings tr) /\
  Forall (Z.le (i * 10000000)) (clock_readings tr).
Proof.
  induction n as [|n IH]; intros w i Hw.
  - exists [], w, []. split; [done|]. split; [done|]. split; [done|]. split; [intros r Hr; by apply elem_of_nil in Hr|]. split; constructor.
  - destruct (round_run w i Hw) as (w1 & Hr1 & Hw1). destruct (IH w1 (i + 1) Hw1) as (xs & w2 & tr & Hr2 & Hw2 & Hlen & Hin & Hs & Hb).
    exists (round i (c_new (w_cl w)) ++ xs), w2, (round_trace i (c_new (w_cl w)) ++ tr).
    assert (Hc : clock_readings (round_trace i (c_new (w_cl w)) ++ tr) =
      [i * 10000000; i * 10000000; i * 10000000 + 5000000] ++ clock_readings tr) by done.
    split; [by eapply run_app|]. split; [done|]. split_and!.
    + unfold entries_of. rewrite bind_app, app_length. fold (entries_of 1 tr). rewrite Hlen. done.
    + intros r [Hr|Hr]%elem_of_app; [|by apply (Hin r)].
      unfold round_trace in Hr. repeat (apply elem_of_cons in Hr as [Hr|Hr]); try (by apply elem_of_nil in Hr); discriminate Hr.
    + rewrite Hc. cbn [app].
      assert (Hz : forall z, z <= (i + 1) * 10000000 -> Forall (Z.le z) (clock_readings tr)).
      { intros z Hz. eapply Forall_impl; [exact Hb|]. cbn. lia. }
      repeat first [done | apply SSorted_cons | apply Forall_cons; split; [lia|] | apply Hz; lia].
    + rewrite Hc. cbn [app]. repeat (apply Forall_cons; split; [lia|]). eapply Forall_impl; [exact Hb|]. cbn. lia.
Qed.

(** Key 5 has been stored, looked up and deleted, and goroutine 1 is in LoadOrStore. *)
Definition before : list xcmd :=
  [Do 1 0 (SStore 5%nat 1%nat 1000000); Do 1 0 (SLoad 5%nat); Do 1 0 (SDelete 5%nat); Call 1 (SLoadOrStore 5%nat 7%nat 1000000)].
Lemma before_run : exists w tr, run_ w_init (xplay false w_init before) = Some (w, tr ++ [SInv 1 (SLoadOrStore 5%nat 7%nat 1000000)]) /\
  again w /\ clock_readings tr = [0; 0].
Proof.
  assert (Hx : (fun x => (c_fr (w_cl x.1) !! 1%nat,
      c_fr (w_cl x.1) !! 2%nat, s_rd (c_sh (w_map x.1)) !! 5%nat, s_ent (c_sh (w_map x.1)) 0%nat,
      c_thr (w_map x.1) !! 2%nat, c_thr (w_map x.1) !! 4%nat, x.2)) <$> run_ w_init (xplay false w_init before) =
    Some (Some (mk_frame (SLoadOrStore 5%nat 7%nat 1000000) 0 Q_new), None, Some 0%nat, SNil, None, None, 
      [SInv 1 (SStore 5%nat 1%nat 1000000); SClock 1 0; SNew 1 1 1%nat 1; SRet 1 SUnit;
       SInv 1 (SLoad 5%nat); SClock 1 0; SChk 1 1 0 1; SRet 1 (SEnt 1 true); SInv 1 (SDelete 5%nat); SRet 1 SUnit] ++
      [SInv 1 (SLoadOrStore 5%nat 7%nat 1000000)])).
  { vm_compute. reflexivity. }
  destruct (run_ _ _) as [[w tr]|]; [|discriminate Hx]. cbn [fmap option_fmap option_map fst snd] in Hx. injection Hx as H1 H2 H3 H4 H5 H6 H7.
  exists w, [SInv 1 (SStore 5%nat 1%nat 1000000); SClock 1 0; SNew 1 1 1%nat 1; SRet 1 SUnit;
    SInv 1 (SLoad 5%nat); SClock 1 0; SChk 1 1 0 1; SRet 1 (SEnt 1 true); SInv 1 (SDelete 5%nat); SRet 1 SUnit].
  split; [by rewrite H7|]. split; [|reflexivity]. exists 0, 0%nat. done.
Qed.

(** For every [n] there is an execution, with a clock that never goes back and entries stored for a
    millisecond, in which one LoadOrStore goes around [n] times and has not returned. *)
Theorem C182_any_number_of_times : forall n, exists xs w tr1 tr2,
  wrun (K := nat) (V := nat) (fun p => p) xveq false w_init xs = Some (w, tr1 ++ SInv 1 (SLoadOrStore 5%nat 7%nat 1000000) :: tr2) /\
  still_in 1 tr2 /\ length (entries_of 1 tr2) = n /\
  StronglySorted Z.le (clock_readings (tr1 ++ SInv 1 (SLoadOrStore 5%nat 7%nat 1000000) :: tr2)).
Proof.
  intros n. destruct before_run as (w & tr1 & Hr & Hw & Hc). destruct (rounds_run n w 1 Hw) as (xs & w' & tr2 & Hr2 & _ & Hlen & Hin & Hs & Hb).
  exists (xplay false w_init before ++ xs), w', tr1, tr2. split.
  - replace (tr1 ++ SInv 1 (SLoadOrStore 5%nat 7%nat 1000000) :: tr2) with ((tr1 ++ [SInv 1 (SLoadOrStore 5%nat 7%nat 1000000)]) ++ tr2)
      by (by rewrite <- app_assoc).
    by eapply run_app.
  - split; [exact Hin|]. split; [exact Hlen|].
    assert (Hcl : clock_readings (tr1 ++ SInv 1 (SLoadOrStore 5%nat 7%nat 1000000) :: tr2) = 0 :: 0 :: clock_readings tr2).
    { unfold clock_readings. rewrite bind_app. fold (clock_readings tr1). rewrite Hc. reflexivity. }
    rewrite Hcl. assert (Hz : Forall (Z.le 0) (clock_readings tr2)) by (eapply Forall_impl; [exact Hb|]; cbn; lia).
    apply SSorted_cons; [apply SSorted_cons; [exact Hs|exact Hz]|]. apply Forall_cons. split; [lia|exact Hz].
Qed.
Print Assumptions C182_any_number_of_times.
End forever.
Local Close Scope Z_scope.

(** So no number bounds how often a LoadOrStore goes around. *)
Theorem C182_bounded_refuted : ~ exists B, forall xs (w : world nat nat) t k v d tr1 tr2,
  wrun (fun p => p) xveq false w_init xs = Some (w, tr1 ++ SInv t (SLoadOrStore k v d) :: tr2) ->
  still_in t tr2 -> (length (entries_of t tr2) <= B)%nat.
Proof.
  intros [B HB]. destruct (C182_any_number_of_times (S B)) as (xs & w & tr1 & tr2 & Hr & Hs & Hl & _).
  apply (HB _ _ _ _ _ _ _ _ Hr) in Hs. lia.
Qed.
Print Assumptions C182_bounded_refuted.

(** A LoadOrStore that has gone around four times: it found three entries expired that others made. *)
Example C183_ex : exists xs (w : world nat nat) tr1 tr2,
  wrun (fun p => p) xveq false w_init xs = Some (w, tr1 ++ SInv 1 (SLoadOrStore 5 7 1000000%Z) :: tr2) /\
  still_in 1 tr2 /\ length (entries_of 1 tr2) = 4 /\
  exists R, NoDup R /\ (3 <= length R) /\ forall e, e ∈ R -> saw_expired 1 e tr2.
Proof.
  destruct (C182_any_number_of_times 4) as (xs & w & tr1 & tr2 & Hr & Hs & Hl & _). exists xs, w, tr1, tr2.
  split; [done|]. split; [done|]. split; [done|].
  destruct (C183_once_per_expired_entry nat _ _ nat (fun p => p) xveq false w xs 1 5 7 1000000%Z tr1 tr2) as (R & Hnd & Hlen & HR);
    [apply _|done|done|]. exists R. split; [done|]. split; [lia|]. intros e He. by apply HR.
Qed.
