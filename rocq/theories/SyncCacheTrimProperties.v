(** Property theorems for synccache: the goroutine that trims (C118-C122). *)
From Coq Require Import ZifyBool ZifyNat.
From Verif Require Import Base SyncCacheTrimModel SyncCacheTrimSpec SyncCacheTrim.

(** C118: there is one trimming goroutine, from the first return of Start or NewSyncCache on. *)
Theorem C118_one : forall now l s tr, trun (tnew now) l = Some (s, tr) ->
  length (t_gos s) <= 1 /\ (some_started tr -> length (t_gos s) = 1).
Proof.
  intros now l s tr H%reach_inv. split; [by eapply inv_one|]. intros Hs. by apply (ti_done _ _ H), (ti_some _ _ H).
Qed.
Print Assumptions C118_one.
(** A pass (Range over the registry) trims every cache that was started last, and not closed meanwhile. *)
Theorem C118_trimmed : forall now l s tr1 i tr2 tr3 c,
  trun (tnew now) l = Some (s, tr1 ++ EPass i :: tr2 ++ EEnd i :: tr3) -> EEnd i ∉ tr2 ->
  last_was (starts c) (closes c) tr1 -> none_called (closes c) tr2 -> ETrim i c ∈ tr2.
Proof. exact visited. Qed.
Print Assumptions C118_trimmed.
(** None that was closed last, as long as it is not started again. *)
Theorem C118_not_trimmed : forall now l s tr1 tr2 i c,
  trun (tnew now) l = Some (s, tr1 ++ tr2) ->
  last_was (closes c) (starts c) tr1 -> none_called (starts c) tr2 -> ETrim i c ∉ tr2.
Proof. exact not_visited. Qed.
Print Assumptions C118_not_trimmed.
(** No cache twice in one pass, and passes do not overlap. *)
Theorem C118_once : forall now l s tr1 i c tr2 tr3,
  trun (tnew now) l = Some (s, tr1 ++ ETrim i c :: tr2 ++ ETrim i c :: tr3) -> EPass i ∈ tr2.
Proof. exact visited_once. Qed.
Print Assumptions C118_once.
Theorem C118_apart : forall now l s tr1 i tr2 j tr3,
  trun (tnew now) l = Some (s, tr1 ++ EPass i :: tr2 ++ EPass j :: tr3) -> i = 0 /\ j = 0 /\ EEnd 0 ∈ tr2.
Proof. exact passes_apart. Qed.
Print Assumptions C118_apart.
(** From a moment before the goroutine was started on, no more than one pass per 5 seconds; so the first
    pass is at least 5 seconds after the first Start. *)
Theorem C118_period : forall now l1 s1 tr1 l2 s2 tr2,
  trun (tnew now) l1 = Some (s1, tr1) -> t_gos s1 = [] -> trun s1 l2 = Some (s2, tr2) ->
  (Z.of_nat (passes tr2) * period <= t_now s2 - t_now s1)%Z.
Proof. exact passes_bound. Qed.
Print Assumptions C118_period.
(** A goroutine that waits begins a pass within 5 seconds. *)
Theorem C118_soon : forall now l s tr g, trun (tnew now) l = Some (s, tr) -> t_gos s = [g] -> g_pc g = GWait ->
  exists d s', (0 <= d <= period)%Z /\ trun s [ATime d; ATick 0; ATrim 0] = Some (s', [EPass 0]).
Proof. exact pass_soon. Qed.
Print Assumptions C118_soon.

(** C119: trimTime, the first argument of NewSyncCache, has no effect. *)
Theorem C119_trimTime : forall f l s s' tr,
  trun s l = Some (s', tr) -> trun s (map (retime f) l) = Some (s', map (retime_event f) tr).
Proof. intros f l s s' tr. by apply retime_run. Qed.
Print Assumptions C119_trimTime.

(** C120: while the goroutine is in the trim of one cache (so in its deletedCallback), whatever the others
    do, no cache is trimmed; and the goroutine never ends. *)
Theorem C120_stuck : forall now l1 s1 tr1 l2 s2 tr2 g c ks,
  trun (tnew now) l1 = Some (s1, tr1) -> t_gos s1 = [g] -> g_pc g = GTrim c ks ->
  trun s1 l2 = Some (s2, tr2) -> Forall (fun a => ~ own_step a) l2 ->
  (exists g', t_gos s2 = [g'] /\ g_pc g' = GTrim c ks) /\ forall i d, ETrim i d ∉ tr2 /\ EPass i ∉ tr2.
Proof.
  intros now l1 s1 tr1 l2 s2 tr2 g c ks H1 Hg Hp H2 Hl.
  destruct (stuck_run _ _ _ _ _ _ (reach_inv _ _ _ _ H1) H2 Hg ltac:(by rewrite Hp) Hl) as [(g'&?&?) Hn].
  split; [exists g'; split; congruence|]. intros i d. split; intros Hin; by apply (Hn _ i Hin).
Qed.
Print Assumptions C120_stuck.
Theorem C120_forever : forall now l1 s1 tr1 l2 s2 tr2,
  trun (tnew now) l1 = Some (s1, tr1) -> some_started tr1 -> trun s1 l2 = Some (s2, tr2) -> length (t_gos s2) = 1.
Proof.
  intros now l1 s1 tr1 l2 s2 tr2 H1 Hs H2. pose proof (C118_one _ _ _ _ H1) as [_ Hx]. specialize (Hx Hs).
  pose proof (gos_grow _ _ _ _ H2). pose proof (C118_one _ _ _ _ (trun_join _ _ _ _ _ _ _ H1 H2)) as [? _]. lia.
Qed.
Print Assumptions C120_forever.

(** Two goroutines make caches 1 and 2 at the same time; after 5 seconds cache 1 is trimmed; its callback
    does not return while 2 is started again and closed, and two more ticks come. *)
Definition ex_make : list taction :=
  [ACall 1 (CNew 1 7%Z); ACall 2 (CNew 2 9%Z)] ++ [AGo 1; AGo 2; AGo 1; AGo 2; AGo 1; AGo 1; AGo 1; AGo 1; AGo 1; AGo 1] ++
  [AGo 2; AGo 2; AGo 2; AGo 2; ATrim 0].
Definition ex_pass : list taction := [ATime period; ATick 0; ATrim 0; AGather 0 {[1; 2; 3]}; ALook 0 3; ALook 0 1].
Definition ex_more : list taction := [ACall 1 (CStart 2); AGo 1; AGo 1; AGo 1; ATime (2 * period)%Z; ATick 0; ACall 3 (CClose 1); AGo 3; AGo 3].
Definition ex_rest : list taction := [ATrim 0; ALook 0 2; ATrim 0; ATrim 0; ATrim 0; AGather 0 {[2]}; ALook 0 2; ATrim 0; ATrim 0].
Definition ex_trace : list tevent :=
  [ECall 1 (CNew 1 7%Z); ECall 2 (CNew 2 9%Z); EReturn 1; EReturn 2] ++ EPass 0 :: [ETrim 0 1] ++
  [ECall 1 (CStart 2); EReturn 1; ECall 3 (CClose 1); EReturn 3] ++
  [ETrimmed 0 1; ETrim 0 2; ETrimmed 0 2; EEnd 0; EPass 0; ETrim 0 2; ETrimmed 0 2; EEnd 0].
Example ex_trim_run : snd <$> trun (tnew 0) (ex_make ++ ex_pass ++ ex_more ++ ex_rest) = Some ex_trace.
Proof. vm_compute. reflexivity. Qed.
Example ex_trim_stuck : exists s tr g ks, trun (tnew 0) (ex_make ++ ex_pass) = Some (s, tr) /\ t_gos s = [g] /\ g_pc g = GTrim 1 ks /\
  Forall (fun a => ~ own_step a) ex_more /\ is_Some (trun s ex_more).
Proof.
  destruct (trun (tnew 0) (ex_make ++ ex_pass)) as [[s tr]|] eqn:E.
  - assert (Hx : match trun (tnew 0) (ex_make ++ ex_pass) with
                 | Some (s, _) => exists g ks, t_gos s = [g] /\ g_pc g = GTrim 1 ks /\ is_Some (trun s ex_more)
                 | None => False end).
    { vm_compute. eexists _, _. split; [reflexivity|]. split; [reflexivity|]. eexists. reflexivity. }
    rewrite E in Hx. destruct Hx as (g & ks & H1 & H2 & H3). exists s, tr, g, ks. split; [done|]. split; [done|]. split; [done|].
    split; [|done]. repeat constructor; by intros [].
  - exfalso. assert (Hx : is_Some (trun (tnew 0) (ex_make ++ ex_pass))) by (vm_compute; eexists; reflexivity). rewrite E in Hx. by destruct Hx.
Qed.
(** The hypotheses of C118_trimmed for cache 2 in the first pass. *)
Example ex_trim_last : last_was (starts 2) (closes 2) (take 4 ex_trace) /\ none_called (closes 2) (drop 5 ex_trace).
Proof.
  split.
  - exists [ECall 1 (CNew 1 7%Z)], 2, (CNew 2 9%Z), [EReturn 1], []. split; [done|]. split; [left; by eexists|]. split; [set_solver|]. split.
    + intros tr1 t x tr2 E. destruct tr1 as [|? [|]]; cbn in E; simplify_eq; done.
    + intros t x Hin. apply elem_of_list_In in Hin. cbn in Hin. naive_solver.
  - intros t x Hin. apply elem_of_list_In in Hin. cbn in Hin. intros ->. naive_solver.
Qed.

(** C121: a cache is trimmed every trimTime.  Refuted: a cache made with a trimTime of a millisecond is not
    trimmed for almost 5 seconds, with the goroutine waiting for its ticker and nothing else to do. *)
Definition ex_wait : list taction := [ACall 1 (CNew 1 (10 ^ 6)%Z)] ++ replicate 8 (AGo 1) ++ [ATrim 0; ATime (period - 1)%Z].
Theorem C121_trimTime_refuted : exists l s tr, trun (tnew 0) l = Some (s, tr) /\
  tr = [ECall 1 (CNew 1 (10 ^ 6)%Z); EReturn 1] /\ (4000 * 10 ^ 6 <= t_now s)%Z /\ t_thr s = ∅ /\
  forall a, match a with ACall _ _ | ATime _ => True | _ => tstep s a = None end.
Proof.
  exists ex_wait.
  assert (Hx : (fun x => (map_to_list (t_thr x.1), t_gos x.1, t_now x.1, x.2)) <$> trun (tnew 0) ex_wait =
    Some ([], [Trimmer period false GWait], (period - 1)%Z, [ECall 1 (CNew 1 (10 ^ 6)%Z); EReturn 1]))
    by (vm_compute; reflexivity).
  destruct (trun (tnew 0) ex_wait) as [[s tr]|]; [|done]. cbn in Hx. exists s, tr. split; [done|].
  injection Hx as H4 H5 H6 H7. apply map_to_list_empty_iff in H4.
  split; [done|]. split; [by rewrite H6|]. split; [done|].
  intros [| t | | | | |]; try done; cbn; rewrite ?H4, ?H5, ?lookup_empty; try done; try (destruct i; done).
  destruct i; [|done]. cbn. by rewrite H6.
Qed.
Print Assumptions C121_trimTime_refuted.

(** C122: when Close has returned the goroutine is done with the cache.  Refuted: it may be trimming it
    when Close returns, and go on. *)
Theorem C122_close_refuted : exists l s tr1 tr2, trun (tnew 0) l = Some (s, tr1 ++ EReturn 3 :: tr2) /\
  last_was (closes 1) (starts 1) (tr1 ++ [EReturn 3]) /\ ETrim 0 1 ∈ tr1 /\ ETrimmed 0 1 ∉ tr1 /\ ETrimmed 0 1 ∈ tr2.
Proof.
  exists (ex_make ++ ex_pass ++ ex_more ++ ex_rest).
  pose proof ex_trim_run as Hx. destruct (trun (tnew 0) (ex_make ++ ex_pass ++ ex_more ++ ex_rest)) as [[s tr]|]; [|done].
  cbn in Hx. injection Hx as ->. exists s, (take 9 ex_trace), (drop 10 ex_trace). split; [done|]. split_and!.
  - exists (take 8 ex_trace), 3, (CClose 1), [], []. split; [done|]. split; [done|]. split; [set_solver|]. split.
    + intros tr1 t x tr2 E Hs. cbn in E.
      repeat (destruct tr1 as [|? tr1]; cbn in E; [try discriminate E; injection E as <- <- <-; set_solver|injection E as <- E]). by destruct tr1.
    + intros t x Hin. apply elem_of_list_In in Hin. cbn in Hin. naive_solver.
  - cbn. set_solver.
  - cbn. intros Hin. apply elem_of_list_In in Hin. cbn in Hin. naive_solver.
  - cbn. set_solver.
Qed.
Print Assumptions C122_close_refuted.
