(** C101: the refresh cache used by one call at a time, and the functions that are set. *)
From Coq Require Import ZifyBool.
From Verif Require Import Base RefreshCacheModel RefreshCacheSpec RefreshCacheProofs RefreshCacheSolo
  RefreshCacheSeqSpec RefreshCacheSeq.

Section properties.
Context {T E F : Type} (zero : T) (maxAge errAge : Z).
Local Notation event := (event T E F).
Local Notation config := (config T E F).

(** C101.  A new cache used by one call at a time, by whichever goroutines: every call does to the
    cache, calls of the user's functions and returns what the description [does] says. *)
Theorem C101_sequential (f0 : option F) h (cf' : config) :
  one_by_one zero maxAge errAge (new_config zero f0) h cf' ->
  history zero maxAge errAge (new_cache zero f0) h (cache_of (c_sh cf')).
Proof.
  intros H. apply (history_does zero maxAge errAge h (new_config zero f0)); [done|by eexists|done].
Qed.

(** The function set last by SetRefreshFunc is the one that Refresh (and, if it refreshes, Get)
    calls, whatever the goroutines do in between other than setting another one. *)
Theorem C101_refresh_func (cf cf1 cf2 cf3 : config) t f evs r acts tr u evs' r' :
  (forall v, ~ setting_refresh cf v) ->
  alone zero maxAge errAge cf t (CSetRefresh f) cf1 evs r ->
  run zero maxAge errAge cf1 acts = Some (cf2, tr) ->
  (forall v g, EInv v (CSetRefresh g) ∉ tr) -> s_lock (c_sh cf2) = None ->
  r = RUnit /\ user_calls evs = [] /\
  (alone zero maxAge errAge cf2 u CWRefresh cf3 evs' r' ->
     refreshed zero f u (c_sh cf2) (c_sh cf3) evs' r') /\
  (alone zero maxAge errAge cf2 u CWGet cf3 evs' r' ->
     cached (c_sh cf2) (c_sh cf3) evs' \/ refreshed zero f u (c_sh cf2) (c_sh cf3) evs' r').
Proof.
  intros Hn Ha Hr Hi Hl.
  apply (set_refresh_alone zero maxAge errAge) in Ha as (->&->&Hs&Ht).
  assert (s_ref (c_sh cf2) = Some f) as Hf.
  { rewrite (ref_frame zero maxAge errAge _ _ _ _ Hr); [by rewrite Hs| |done].
    intros v [g Hg]. rewrite Ht in Hg. apply (Hn v). by exists g. }
  split; [done|]. split; [done|]. split; intros Ha'.
  - by eapply wrefresh_alone.
  - by eapply wget_alone.
Qed.

(** The same for SetClearFunc and Clear. *)
Theorem C101_clear_func (cf cf1 cf2 cf3 : config) t f evs r acts tr u evs' r' :
  (forall v, ~ setting_clear cf v) ->
  alone zero maxAge errAge cf t (CSetClear f) cf1 evs r ->
  run zero maxAge errAge cf1 acts = Some (cf2, tr) ->
  (forall v g, EInv v (CSetClear g) ∉ tr) ->
  r = RUnit /\ user_calls evs = [] /\
  (alone zero maxAge errAge cf2 u CWClear cf3 evs' r' ->
     clears (cache_of (c_sh cf2)) f (cache_of (c_sh cf3)) (user_calls evs') r').
Proof.
  intros Hn Ha Hr Hi.
  apply (set_clear_alone zero maxAge errAge) in Ha as (->&->&Hs&Ht).
  assert (s_clr (c_sh cf2) = Some f) as Hf.
  { rewrite (clr_frame zero maxAge errAge _ _ _ _ Hr); [by rewrite Hs| |done].
    intros v [g Hg]. rewrite Ht in Hg. apply (Hn v). by exists g. }
  split; [done|]. split; [done|]. intros Ha'. by eapply wclear_alone.
Qed.

(** Clear returns what the clear function returned, and a panic of it leaves Clear. *)
Theorem C101_clear_result (cf cf' : config) t g labs tr r :
  run zero maxAge errAge cf (AInv t (CClear (Some g)) :: (AStep t <$> labs)) =
    Some (cf', EInv t (CClear (Some g)) :: tr ++ [EReturn t r]) ->
  exists o, clear_ends labs = [o] /\
    r = match o with KRet e => RClear e | KPanic => RPanic end.
Proof. apply clear_outcome_run. Qed.

End properties.

Print Assumptions C101_sequential.
Print Assumptions C101_refresh_func.
Print Assumptions C101_clear_func.
Print Assumptions C101_clear_result.

(** ** Examples *)
Local Definition t0 : Z := (10^18)%Z.

(** Function 1 is set in place of 0 and fetches 7; Clear without a clear function; function 5 is
    set as the clear function and gets 7, returning the error 3; Get fetches again, getting 7 as
    OldVal, and fails; within the second of [errAge] the failure is served; the time of the
    failure is reported. *)
Local Definition ex_history : list (Z * call nat * list (user_call Z nat) * result Z nat) :=
  [ (t0, CSetRefresh (Some 1), [], RUnit);
    (t0, CWGet, [UserRefresh 1 0%Z], RGet 7%Z None);
    ((t0 + 5)%Z, CWGet, [], RGet 7%Z None);
    ((t0 + 6)%Z, CLast, [], RTime t0);
    ((t0 + 7)%Z, CSetClear (Some 5), [], RUnit);
    ((t0 + 8)%Z, CWClear, [UserClear 5 7%Z], RClear (Some 3));
    ((t0 + 9)%Z, CWGet, [UserRefresh 1 7%Z], RGet 2%Z (Some 4));
    ((t0 + 10)%Z, CWGet, [], RGet 0%Z (Some 4));
    ((t0 + 11)%Z, CLastErr, [], RTime (t0 + 9)%Z);
    ((t0 + 12)%Z, CRaw, [], RRaw 0%Z (Some 4)) ].

Local Definition ex_labs : list (list (label Z nat)) :=
  let get_labs n o := [LTick; LTick; LNow n; LNow n; LTick; LTick; LTick; LNow n; LTick; LNow n;
                       LTick; LTick; LRef o; LTick; LNow n; LTick; LTick; LTick; LTick] in
  [ [LTick; LTick];
    get_labs t0 (OOk 7%Z);
    [LTick; LTick; LNow (t0 + 5)%Z; LTick; LTick];
    [LTick; LTick];
    [LTick; LTick];
    [LTick; LTick; LTick; LClr (KRet (Some 3)); LTick];
    get_labs (t0 + 9)%Z (OErr 2%Z 4);
    [LTick; LTick; LNow (t0 + 10)%Z; LNow (t0 + 10)%Z; LTick; LTick; LTick];
    [LTick; LTick];
    [LTick; LNow (t0 + 12)%Z; LNow (t0 + 12)%Z; LTick; LTick; LTick] ].

(** Running them. *)
Local Instance user_call_eq : EqDecision (user_call Z nat).
Proof. solve_decision. Defined.
Local Instance result_eq : EqDecision (result Z nat).
Proof. solve_decision. Defined.

Local Definition only (n : Z) (e : event Z nat nat) : bool :=
  match e with ENow _ m => Z.eqb m n | _ => true end.

Local Fixpoint replay (cf : config Z nat nat)
    (h : list (Z * call nat * list (user_call Z nat) * result Z nat)) (ls : list (list (label Z nat)))
    : option (config Z nat nat) :=
  match h, ls with
  | [], [] => Some cf
  | (n, c, us, r) :: h', l :: ls' =>
      match run 0%Z (10^9)%Z (10^9)%Z cf (AInv 0 c :: (AStep 0 <$> l)) with
      | Some (cf1, _ :: tr) =>
          match last tr with
          | Some (EReturn 0 r') =>
              if decide (r = r') then
                if decide (us = user_calls tr) then
                  if forallb (only n) tr then replay cf1 h' ls' else None
                else None
              else None
          | _ => None
          end
      | _ => None
      end
  | _, _ => None
  end.

Local Lemma replay_ok cf h ls cf' :
  replay cf h ls = Some cf' -> one_by_one 0%Z (10^9)%Z (10^9)%Z cf h cf'.
Proof.
  revert cf ls. induction h as [|[[[n c] us] r] h IH]; intros cf ls H.
  { destruct ls; [|done]. cbn in H. injection H as ->. done. }
  destruct ls as [|l ls]; [done|]. cbn -[run] in H.
  destruct (run _ _ _ cf _) as [[cf1 [|ev tr]]|] eqn:Er; try done.
  destruct (last tr) as [[]|] eqn:El; try done. destruct t as [|t]; [|done].
  destruct (decide (r = r0)) as [<-|]; [|done].
  destruct (decide (us = user_calls tr)) as [->|]; [|done].
  destruct (forallb (only n) tr) eqn:Ef; [|done].
  apply last_Some in El as [tr' ->].
  assert (ev = EInv 0 c) as ->.
  { cbn in Er. destruct (c_thr cf 0); [done|].
    destruct (RefreshCacheModel.run _ _ _ _ (AStep 0 <$> l)) as [[??]|]; [|done]. by injection Er as _ <- _. }
  exists 0, cf1, tr'. split; [by exists l|]. split; [|split; [|by eapply IH]].
  - intros m Hm. rewrite forallb_forall in Ef. specialize (Ef (ENow 0 m)). cbn in Ef.
    apply Z.eqb_eq, Ef, elem_of_list_In, elem_of_app. by left.
  - unfold user_calls. rewrite omap_app. cbn. by rewrite app_nil_r.
Qed.

Example C101_example : exists cf',
  one_by_one 0%Z (10^9)%Z (10^9)%Z (new_config 0%Z (Some 0)) ex_history cf' /\
  history 0%Z (10^9)%Z (10^9)%Z (new_cache 0%Z (Some 0)) ex_history (cache_of (c_sh cf')).
Proof.
  assert (is_Some (replay (new_config 0%Z (Some 0)) ex_history ex_labs)) as [cf' H].
  { vm_compute. eauto. }
  apply replay_ok in H. exists cf'. split; [exact H|]. by apply C101_sequential.
Qed.

(** Goroutine 0 sets function 1, goroutine 1 asks for the time of the last success, goroutine 2
    refreshes: function 1 is called. *)
Example C101_refresh_func_example : exists cf1 cf2 cf3 : config Z nat nat,
  alone 0%Z (10^9)%Z 0%Z (new_config 0%Z (Some 0)) 0 (CSetRefresh (Some 1)) cf1 [] RUnit /\
  run 0%Z (10^9)%Z 0%Z cf1 (AInv 1 CLast :: (AStep 1 <$> [LTick; LTick])) =
    Some (cf2, [EInv 1 CLast; EReturn 1 (RTime 0)]) /\
  alone 0%Z (10^9)%Z 0%Z cf2 2 CWRefresh cf3
    [ELock 2; EStart 2 1 0%Z; EFinish 2 (OOk 7%Z); ENow 2 t0; ESucc 2 t0; EUnlock 2] (RGet 7%Z None) /\
  refreshed 0%Z (Some 1) 2 (c_sh cf2) (c_sh cf3)
    [ELock 2; EStart 2 1 0%Z; EFinish 2 (OOk 7%Z); ENow 2 t0; ESucc 2 t0; EUnlock 2] (RGet 7%Z None).
Proof.
  assert (exists cf1 cf2 cf3 : config Z nat nat,
    alone 0%Z (10^9)%Z 0%Z (new_config 0%Z (Some 0)) 0 (CSetRefresh (Some 1)) cf1 [] RUnit /\
    run 0%Z (10^9)%Z 0%Z cf1 (AInv 1 CLast :: (AStep 1 <$> [LTick; LTick])) =
      Some (cf2, [EInv 1 CLast; EReturn 1 (RTime 0)]) /\ s_lock (c_sh cf2) = None /\
    alone 0%Z (10^9)%Z 0%Z cf2 2 CWRefresh cf3
      [ELock 2; EStart 2 1 0%Z; EFinish 2 (OOk 7%Z); ENow 2 t0; ESucc 2 t0; EUnlock 2] (RGet 7%Z None))
    as (cf1&cf2&cf3&H1&H2&Hl&H3).
  { eexists _, _, _. split; [exists [LTick; LTick]; vm_compute; reflexivity|].
    split; [vm_compute; reflexivity|]. split; [vm_compute; reflexivity|].
    exists [LTick; LTick; LTick; LRef (OOk 7%Z); LTick; LNow t0; LTick; LTick; LTick; LTick].
    vm_compute. reflexivity. }
  exists cf1, cf2, cf3. split; [exact H1|]. split; [exact H2|]. split; [exact H3|].
  eapply (C101_refresh_func 0%Z (10^9)%Z 0%Z _ _ _ _ 0 (Some 1)); [|exact H1|exact H2| |exact Hl|exact H3].
  - intros v [g Hg]. discriminate Hg.
  - intros v g Hv. repeat (apply elem_of_cons in Hv as [Hv|Hv]; [discriminate Hv|]).
    exact (not_elem_of_nil _ Hv).
Qed.

(** The same with function 5 as clear function, which returns the error 3. *)
Example C101_clear_func_example : exists cf1 cf2 cf3 : config Z nat nat,
  alone 0%Z (10^9)%Z 0%Z (new_config 0%Z (Some 0)) 0 (CSetClear (Some 5)) cf1 [] RUnit /\
  run 0%Z (10^9)%Z 0%Z cf1 (AInv 1 CLast :: (AStep 1 <$> [LTick; LTick])) =
    Some (cf2, [EInv 1 CLast; EReturn 1 (RTime 0)]) /\
  alone 0%Z (10^9)%Z 0%Z cf2 2 CWClear cf3 [EClear 2; EKStart 2 5 0%Z] (RClear (Some 3)) /\
  clears (cache_of (c_sh cf2)) (Some 5) (cache_of (c_sh cf3)) [UserClear 5 0%Z] (RClear (Some 3)).
Proof.
  assert (exists cf1 cf2 cf3 : config Z nat nat,
    alone 0%Z (10^9)%Z 0%Z (new_config 0%Z (Some 0)) 0 (CSetClear (Some 5)) cf1 [] RUnit /\
    run 0%Z (10^9)%Z 0%Z cf1 (AInv 1 CLast :: (AStep 1 <$> [LTick; LTick])) =
      Some (cf2, [EInv 1 CLast; EReturn 1 (RTime 0)]) /\
    alone 0%Z (10^9)%Z 0%Z cf2 2 CWClear cf3 [EClear 2; EKStart 2 5 0%Z] (RClear (Some 3)))
    as (cf1&cf2&cf3&H1&H2&H3).
  { eexists _, _, _. split; [exists [LTick; LTick]; vm_compute; reflexivity|].
    split; [vm_compute; reflexivity|].
    exists [LTick; LTick; LTick; LClr (KRet (Some 3)); LTick]. vm_compute. reflexivity. }
  exists cf1, cf2, cf3. split; [exact H1|]. split; [exact H2|]. split; [exact H3|].
  eapply (C101_clear_func 0%Z (10^9)%Z 0%Z _ _ _ _ 0 (Some 5)) in H3;
    [exact H3| |exact H1|exact H2|].
  - intros v [g Hg]. discriminate Hg.
  - intros v g Hv. repeat (apply elem_of_cons in Hv as [Hv|Hv]; [discriminate Hv|]).
    exact (not_elem_of_nil _ Hv).
Qed.

(** A clear function that panics. *)
Example C101_clear_result_example : exists cf' (tr : list (event Z nat nat)) r,
  run 0%Z (10^9)%Z 0%Z (new_config 0%Z (Some 0)) (AInv 0 (CClear (Some 5)) ::
      (AStep 0 <$> [LTick; LTick; LClr KPanic; LTick])) =
    Some (cf', EInv 0 (CClear (Some 5)) :: tr ++ [EReturn 0 r]) /\ r = RPanic.
Proof.
  assert (exists cf', run 0%Z (10^9)%Z 0%Z (new_config 0%Z (Some 0)) (AInv 0 (CClear (Some 5)) ::
      (AStep 0 <$> [LTick; LTick; LClr KPanic; LTick])) =
    Some (cf', EInv 0 (CClear (Some 5)) :: [EClear 0; EKStart 0 5 0%Z] ++
      [EReturn (E := nat) 0 RPanic])) as [cf' H].
  { eexists. vm_compute. reflexivity. }
  eexists cf', _, _. split; [exact H|].
  apply C101_clear_result in H as (o&Ho&Hr). cbn in Ho. by injection Ho as <-.
Qed.
