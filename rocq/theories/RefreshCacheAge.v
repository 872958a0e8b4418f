(** Proofs about the age of the values returned by Get. *)
From Coq Require Import ZifyBool ZifyNat.
From Verif Require Import Base RefreshCacheModel RefreshCacheSpec RefreshCacheProofs RefreshCacheFresh RefreshCacheAgeSpec.

Section age.
Context {T E F : Type} (zero : T) (maxAge errAge : Z).
Local Notation event := (event T E F).
Local Notation config := (config T E F).
Local Notation pc := (pc T E F).
Local Notation shared := (shared T E F).
Local Notation run := (run zero maxAge errAge).
Local Notation act := (act zero maxAge errAge).
Local Notation step := (step zero maxAge errAge).
Local Notation recorded := (@recorded T E F zero).
Implicit Types (w x y tr : list event) (t u k j : nat).

Ltac step_inv H :=
  match type of H with
  | RefreshCacheModel.step _ _ _ _ ?p ?s ?lab = _ =>
    destruct p as [f|f l| |f|f n| |f|f|f|f n| |f|f n| |f|[f|]|f old|r v|r|r n|r|r e|r|r n|r|r
                  |f|[[f old]|]|f old| |l| | |n| | |v| | | | | |f|f|r];
    destruct lab as [|n'|o|[e'|]]; cbn in H; try discriminate H;
    repeat (match type of H with
            | context [if ?b then _ else _] => destruct b eqn:?
            | context [match s_lock s with _ => _ end] => destruct (s_lock s) eqn:?
            | context [match s_ref s with _ => _ end] => destruct (s_ref s) as [[?|]|] eqn:?
            | context [match s_clr s with _ => _ end] => destruct (s_clr s) as [[?|]|] eqn:?
            end; try discriminate H);
    injection H as <- <- <-
  end.

(** The value in the cache is the one recorded in the first [k] events, no success recorded since. *)
Definition dpos w (s : shared) k : Prop :=
  k <= length w /\ s_data s = recorded (take k w) /\ forall u n, ESucc u n ∉ drop k w.
(** A time stamp in the cache is that of a recorded success. *)
Definition lok w (s : shared) : Prop := s_last s <> 0%Z -> exists u, ESucc u (s_last s) ∈ w.

Lemma take_le {A} (l l' : list A) k : k <= length l -> take k (l ++ l') = take k l.
Proof. apply take_app_le. Qed.
Lemma recorded_all w : recorded w = recorded (take (length w) w).
Proof. by rewrite take_ge. Qed.

Lemma step_data t p (s : shared) lab q s' (ev : list event) : step t p s lab = Some (q, s', ev) ->
  (s_data s' = s_data s /\ (forall u n, ESucc u n ∉ ev) /\ (forall r v, p <> D_data r v)) \/
  (exists r v, p = D_data r v /\ s_data s' = v /\ ev = []) \/
  (exists r n, p = D_last r n /\ s_data s' = s_data s /\ ev = [ESucc t n]).
Proof.
  intros H. step_inv H; cbn; try (left; split; [done|]; split; [|done]; intros u0 n0 Hx; rewrite ?elem_of_cons, ?elem_of_nil in Hx; naive_solver).
  - right. left. by exists r, v.
  - right. right. by exists r, n.
Qed.
Lemma step_last t p (s : shared) lab q s' (ev : list event) : step t p s lab = Some (q, s', ev) ->
  s_last s' = s_last s \/ s_last s' = 0%Z \/ exists u, ESucc u (s_last s') ∈ ev.
Proof. intros H. step_inv H; cbn; auto. right. right. exists t. left. Qed.

Lemma dpos_ext w (s s' : shared) k ev : s_data s' = s_data s -> (forall u n, ESucc u n ∉ ev) -> dpos w s k -> dpos (w ++ ev) s' k.
Proof.
  intros Hd He (H1&H2&H3). split; [rewrite app_length; lia|]. rewrite take_le by done. split; [congruence|].
  intros u n Hx. rewrite drop_app_le in Hx by done. apply elem_of_app in Hx as [Hx|Hx]; [by eapply H3|by eapply He].
Qed.
Lemma ledger_at w cf t p : inv zero w cf -> c_thr cf t = Some p -> holds p = true -> ledger zero w (c_sh cf) t p.
Proof.
  intros [HL HI] Et Hp. rewrite (HL _ _ Et Hp) in HI. destruct HI as (p'&E'&_&L). by assert (p' = p) as -> by congruence.
Qed.
Lemma dpos_act w cf a cf' ev k : inv zero w cf -> dpos w (c_sh cf) k -> act cf a = Some (cf', ev) ->
  exists k', k <= k' /\ dpos (w ++ ev) (c_sh cf') k' /\
    forall t lab r v, a = AStep t lab -> c_thr cf t = Some (D_data r v) -> k' = length w.
Proof.
  intros HI HD H. destruct a as [t c|t lab]; cbn in H.
  - destruct (c_thr cf t); [done|]. injection H as <- <-. exists k. split; [done|]. split; [|done].
    apply (dpos_ext w (c_sh cf)); [done| |done]. intros u n Hx%elem_of_list_singleton. done.
  - destruct (c_thr cf t) as [p|] eqn:Et; [|done]. destruct (step t p (c_sh cf) lab) as [[[q s'] ev']|] eqn:Es; [|done].
    injection H as <- <-. cbn [c_sh]. destruct (step_data _ _ _ _ _ _ _ Es) as [(Hd&He&Hp)|[(r&v&->&Hd&->)|(r&n&->&Hd&->)]].
    + exists k. split; [done|]. split; [by apply (dpos_ext w (c_sh cf))|]. intros t0 lab0 r v [= <- <-]. rewrite Et. intros [= ->]. by destruct (Hp r v).
    + exists (length w). split; [apply HD|]. split; [|done]. rewrite app_nil_r. split; [done|]. rewrite take_ge, drop_ge by done.
      split; [|by intros u n ?%elem_of_nil]. destruct (ledger_at _ _ _ _ HI Et eq_refl) as (_&_&R&_). congruence.
    + exists (length (w ++ [ESucc t n])). split; [rewrite app_length; destruct HD; lia|]. split.
      * split; [done|]. rewrite take_ge, drop_ge by done. split; [|by intros u0 n0 ?%elem_of_nil].
        destruct (ledger_at _ _ _ _ HI Et eq_refl) as (_&_&R&_). cbn in R. rewrite Hd, <- R.
        unfold recorded, RefreshCacheSpec.recorded. by rewrite foldl_app.
      * intros t0 lab0 r0 v0 [= <- <-]. rewrite Et. done.
Qed.
Lemma lok_act w cf a cf' ev : lok w (c_sh cf) -> act cf a = Some (cf', ev) -> lok (w ++ ev) (c_sh cf').
Proof.
  intros HL H. destruct a as [t c|t lab]; cbn in H.
  - destruct (c_thr cf t); [done|]. injection H as <- <-. intros Hz. destruct (HL Hz) as [u Hu]. exists u. apply elem_of_app. by left.
  - destruct (c_thr cf t) as [p|] eqn:Et; [|done]. destruct (step t p (c_sh cf) lab) as [[[q s'] ev']|] eqn:Es; [|done].
    injection H as <- <-. cbn [c_sh]. intros Hz. destruct (step_last _ _ _ _ _ _ _ Es) as [El|[El|[u Hu]]]; [|done|].
    + rewrite El in *. destruct (HL Hz) as [u Hu]. exists u. apply elem_of_app. by left.
    + exists u. apply elem_of_app. by right.
Qed.

(** ** The call of one goroutine: [t], whose call began after [i] events, when the value was that of [k0]. *)
Section track.
Context (t i k0 : nat).
(** [v] is the value of the first [j] events; [j] is good for this call. *)
Definition source w j (v : T) : Prop :=
  k0 <= j /\ j <= length w /\ v = recorded (take j w) /\
  (own_refresh t v i (take j w) \/ fresh_by maxAge t (drop i w) (take j w)).
Definition own_source w j (v : T) : Prop := j <= length w /\ own_refresh t v i (take j w).
Definition rok w (r : result T E) (P : nat -> T -> Prop) : Prop := forall v, r = RGet v None -> exists j, P j v.

Definition at_pc w (s : shared) k (p : pc) : Prop :=
  match p with
  | G_fresh _ l => l <> 0%Z -> exists u, ESucc u l ∈ w
  | G_data | L_data => fresh_by maxAge t (drop i w) w
  | G_err1 _ n | L_err1 _ n => (errAge <= n)%Z
  | G_err | L_err => s_err s <> None
  | L_fresh _ n => (maxAge <= n)%Z /\ ENow t n ∈ drop i w
  | D_data r v' => rok w r (own_source w)
  | D_now r | D_last r _ | D_lasterr0 r => rok w r (fun j v => own_source w j v /\ j <= k)
  | D_err r _ | D_enow r | D_lasterr r _ | D_last0 r => forall v, r <> RGet v None
  | U_unlock r | X_ret r => rok w r (fun j v => source w j v /\ j <= k)
  | _ => True
  end.

Lemma own_app w ev j v : own_source w j v -> own_source (w ++ ev) j v.
Proof. intros [H1 H2]. split; [rewrite app_length; lia|]. by rewrite take_le. Qed.
Lemma fresh_app c c' x y : fresh_by maxAge t c x -> fresh_by maxAge t (c ++ c') (x ++ y).
Proof.
  intros [[H (u&l&?&?)]|(n&u&l&?&?&?)].
  - left. split; [done|]. exists u, l. split; [done|]. apply elem_of_app. by left.
  - right. exists n, u, l. split; [apply elem_of_app; by left|]. split; [done|]. apply elem_of_app. by left.
Qed.
Lemma fresh_app_l c c' x : fresh_by maxAge t c x -> fresh_by maxAge t (c ++ c') x.
Proof. intros H. rewrite <- (app_nil_r x). by apply fresh_app. Qed.
Lemma drop_more {A} (w ev : list A) : i <= length w -> drop i (w ++ ev) = drop i w ++ ev.
Proof. intros. by apply drop_app_le. Qed.
Lemma source_app w ev j v : i <= length w -> source w j v -> source (w ++ ev) j v.
Proof.
  intros Hi (H1&H2&H3&H4). split; [done|]. split; [rewrite app_length; lia|]. rewrite take_le by done. split; [done|].
  destruct H4 as [?|H4]; [by left|right]. rewrite drop_more by done. by apply fresh_app_l.
Qed.
Lemma at_pc_app w ev (s s' : shared) k k' p : i <= length w -> k <= k' -> (s_err s <> None -> s_err s' <> None) ->
  at_pc w s k p -> at_pc (w ++ ev) s' k' p.
Proof.
  intros Hi Hk He. destruct p; cbn; try done; try apply He; try rewrite (drop_more w ev Hi).
  - intros H Hz. destruct (H Hz) as [u Hu]. exists u. apply elem_of_app. by left.
  - apply fresh_app.
  - intros [? ?]. split; [done|]. apply elem_of_app. by left.
  - apply fresh_app.
  - intros H v' Hv. destruct (H _ Hv) as (j&?). exists j. by apply own_app.
  - intros H v' Hv. destruct (H _ Hv) as (j&?&?). exists j. split; [by apply own_app|lia].
  - intros H v' Hv. destruct (H _ Hv) as (j&?&?). exists j. split; [by apply own_app|lia].
  - intros H v' Hv. destruct (H _ Hv) as (j&?&?). exists j. split; [by apply own_app|lia].
  - intros H v' Hv. destruct (H _ Hv) as (j&?&?). exists j. split; [by apply source_app|lia].
  - intros H v' Hv. destruct (H _ Hv) as (j&?&?). exists j. split; [by apply source_app|lia].
Qed.

Lemma own_refresh_recorded v x : own_refresh t v i x -> recorded x = v.
Proof. intros (a&->&_). unfold recorded, RefreshCacheSpec.recorded. by rewrite foldl_app. Qed.
Lemma own_to_source w j v : k0 <= i -> own_source w j v -> source w j v.
Proof.
  intros Hk [H1 H2]. pose proof (own_refresh_recorded _ _ H2) as Hr. destruct H2 as (a&Ha&Hi).
  assert (length (take j w) = S (length a)) as Hl by (rewrite Ha, app_length; cbn; lia). rewrite take_length in Hl.
  split; [lia|]. split; [done|]. split; [done|]. left. by exists a.
Qed.
Lemma elem_take w (s : shared) k u n : dpos w s k -> ESucc u n ∈ w -> ESucc u n ∈ take k w.
Proof.
  intros (_&_&H) Hx. rewrite <- (take_drop k w) in Hx. apply elem_of_app in Hx as [?|Hx]; [done|]. by apply H in Hx.
Qed.
Lemma fresh_take w (s : shared) k : dpos w s k -> fresh_by maxAge t (drop i w) w -> fresh_by maxAge t (drop i w) (take k w).
Proof.
  intros HD [[H (u&l&?&?)]|(n&u&l&?&?&?)].
  - left. split; [done|]. exists u, l. split; [done|]. by eapply elem_take.
  - right. exists n, u, l. split; [done|]. split; [done|]. by eapply elem_take.
Qed.
Lemma source_data w (s : shared) k : k0 <= k -> dpos w s k -> fresh_by maxAge t (drop i w) w -> source w k (s_data s).
Proof.
  intros Hk HD Hf. pose proof (fresh_take _ _ _ HD Hf). destruct HD as (H1&H2&H3). split; [done|]. split; [done|]. split; [done|]. by right.
Qed.

Lemma at_pc_step w cf p lab q s' (ev : list event) k k' :
  errs cf -> lok w (c_sh cf) -> dpos w (c_sh cf) k -> at_pc w (c_sh cf) k p ->
  i <= length w -> k0 <= i -> k0 <= k -> k <= k' ->
  readings_of t (fun n => maxAge <= n /\ errAge <= n)%Z ev ->
  (forall r v, p = D_data r v -> k' = length w) ->
  step t p (c_sh cf) lab = Some (Some q, s', ev) -> at_pc (w ++ ev) s' k' q.
Proof.
  intros [HE _] HL HD HP Hi Hki Hk Hkk Hr Hdd Es. set (s := c_sh cf) in *. clearbody s.
  step_inv Es; cbn in HP |- *; rewrite ?(drop_more w _ Hi), ?app_nil_r; try done.
  - destruct HP as [u Hu]; [lia|]. left. split; [lia|]. exists u, l. split; [lia|done].
  - destruct (Hr n') as [? ?]; [left|]. destruct HP as [u Hu]; [lia|]. right. exists n', u, l.
    split; [apply elem_of_app; right; left|]. split; [lia|]. apply elem_of_app. by left.
  - intros v [= <-]. exists k. split; [by apply source_data|lia].
  - destruct (Hr n') as [? ?]; [left|]. done.
  - apply HE. lia.
  - intros v [= _ Hx]. done.
  - destruct HL as [u Hu]; [lia|]. left. split; [lia|]. exists u, (s_last s). split; [lia|done].
  - destruct (Hr n') as [? ?]; [left|]. split; [done|]. apply elem_of_app. right. left.
  - destruct HP as [? ?]. destruct HL as [u Hu]; [lia|]. right. exists n, u, (s_last s). split; [done|]. split; [lia|done].
  - intros v [= <-]. exists k. split; [by apply source_data|lia].
  - destruct (Hr n') as [? ?]; [left|]. done.
  - apply HE. lia.
  - intros v [= _ Hx]. done.
  - destruct o as [v|v e|]; cbn; [|intros ? [=]|intros ? [=]]. intros v' [= ->]. exists (length (w ++ [EFinish t (OOk v')])).
    split; [done|]. rewrite take_ge by done. by exists w.
  - intros v' Hv. destruct (HP _ Hv) as (j&?). exists j. split; [done|]. rewrite (Hdd _ _ eq_refl). by destruct H.
  - intros v' Hv. destruct (HP _ Hv) as (j&?&?). exists j. split; [by apply own_app|lia].
  - intros v' Hv. destruct (HP _ Hv) as (j&?&?). exists j. split; [by apply own_app|lia].
  - intros v' Hv. destruct (HP _ Hv) as (j&?&?). exists j. split; [by apply own_to_source|lia].
  - intros v' Hv. by destruct (HP v').
  - intros v' Hv. destruct (HP _ Hv) as (j&?&?). exists j. split; [by apply source_app|lia].
Qed.
End track.

(** ** Whole executions *)
Definition good w (cf : config) k : Prop := inv zero w cf /\ errs cf /\ lok w (c_sh cf) /\ dpos w (c_sh cf) k.
Lemma good_new (f : option F) : good [] (new_config zero f) 0.
Proof.
  split; [apply inv_new|]. split; [apply errs_new|]. split; [by intros Hx|]. split; [cbn; lia|]. split; [done|].
  intros u n ?%elem_of_nil. done.
Qed.
Lemma good_act w cf k a cf' ev : good w cf k -> act cf a = Some (cf', ev) -> exists k', k <= k' /\ good (w ++ ev) cf' k'.
Proof.
  intros (H1&H2&H3&H4) H. destruct (dpos_act _ _ _ _ _ _ H1 H4 H) as (k'&Hk&Hd&_). exists k'. split; [done|].
  split; [by eapply inv_act|]. split; [by eapply errs_act|]. split; [by eapply lok_act|done].
Qed.
Lemma good_run acts w cf k cf' ev : good w cf k -> run cf acts = Some (cf', ev) -> exists k', k <= k' /\ good (w ++ ev) cf' k'.
Proof.
  intros HG H. refine (run_inv zero maxAge errAge (fun w cf => exists k', k <= k' /\ good w cf k') _ acts w cf cf' ev _ H).
  - clear. intros w cf a cf' ev (k1&Hk&HG) H. destruct (good_act _ _ _ _ _ _ HG H) as (k2&?&?). exists k2. split; [lia|done].
  - by exists k.
Qed.

(** The goroutine [t] is inside the call. *)
Definition inside t i k0 w (cf : config) k : Prop :=
  good w cf k /\ i <= length w /\ k0 <= i /\ k0 <= k /\ exists p, c_thr cf t = Some p /\ at_pc t i k0 w (c_sh cf) k p.

Lemma step_err t p (s : shared) lab q s' (ev : list event) : step t p s lab = Some (q, s', ev) -> s_err s <> None -> s_err s' <> None.
Proof. intros H. step_inv H; done. Qed.
Lemma step_end t p (s : shared) lab s' (ev : list event) : step t p s lab = Some (None, s', ev) -> exists r, p = X_ret r /\ ev = [EReturn t r].
Proof. remember None as q eqn:Hq. intros H. step_inv H; try discriminate Hq. by exists r. Qed.
Lemma step_return u p (s : shared) lab q s' (pre post : list event) t r : step u p s lab = Some (q, s', pre ++ EReturn t r :: post) ->
  u = t /\ p = X_ret r /\ pre = [] /\ post = [].
Proof.
  remember (pre ++ EReturn t r :: post) as ev eqn:Hev. intros H. rename r into r1.
  step_inv H; destruct pre as [|x [|y [|z pre]]]; try discriminate Hev. by injection Hev as <- <- <-.
Qed.
Lemma act_return (cf : config) a cf' (pre post : list event) t r : act cf a = Some (cf', pre ++ EReturn t r :: post) ->
  c_thr cf t = Some (X_ret r) /\ pre = [] /\ post = [].
Proof.
  destruct a as [u c|u lab]; cbn; intros H.
  - destruct (c_thr cf u); [done|]. injection H as _ H. destruct pre as [|? [|]]; done.
  - destruct (c_thr cf u) as [p|] eqn:Et; [|done]. destruct (step u p (c_sh cf) lab) as [[[q s'] ev']|] eqn:Es; [|done].
    injection H as _ ->. destruct (step_return _ _ _ _ _ _ _ _ _ _ Es) as (->&->&->&->). done.
Qed.
Lemma act_inv (cf : config) a cf' (pre post : list event) t c : act cf a = Some (cf', pre ++ EInv t c :: post) ->
  a = AInv t c /\ pre = [] /\ post = [].
Proof.
  destruct a as [u c'|u lab]; cbn; intros H.
  - destruct (c_thr cf u); [done|]. injection H as _ H. destruct pre as [|? [|]]; try done. by injection H as -> -> <-.
  - destruct (c_thr cf u) as [p|] eqn:Et; [|done]. destruct (step u p (c_sh cf) lab) as [[[q s'] ev']|] eqn:Es; [|done].
    injection H as _ ->. exfalso. remember (pre ++ EInv t c :: post) as ev eqn:Hev. clear Et.
    step_inv Es; destruct pre as [|x [|y [|z pre]]]; discriminate Hev.
Qed.

Lemma inside_act t i k0 w cf k a cf' ev : inside t i k0 w cf k -> act cf a = Some (cf', ev) ->
  (forall r, EReturn t r ∉ ev) -> readings_of t (fun n => maxAge <= n /\ errAge <= n)%Z ev ->
  exists k', k <= k' /\ inside t i k0 (w ++ ev) cf' k'.
Proof.
  intros ((H1&H2&H3&H4)&Hi&Hki&Hk&p&Hp&HP) H Hn Hr.
  destruct (dpos_act _ _ _ _ _ _ H1 H4 H) as (k'&Hkk&Hd&Hdd). exists k'. split; [done|].
  split. { split; [by eapply inv_act|]. split; [by eapply errs_act|]. split; [by eapply lok_act|done]. }
  split; [rewrite app_length; lia|]. split; [done|]. split; [lia|]. destruct a as [u c|u lab]; cbn in H.
  - destruct (c_thr cf u) as [q|] eqn:Eu; [done|]. injection H as <- <-. cbn. exists p.
    rewrite fn_lookup_insert_ne by congruence. split; [done|]. by apply (at_pc_app t i k0 w _ (c_sh cf) _ k).
  - destruct (c_thr cf u) as [p'|] eqn:Eu; [|done]. destruct (step u p' (c_sh cf) lab) as [[[q s'] ev']|] eqn:Es; [|done].
    injection H as <- <-. cbn. destruct (decide (u = t)) as [->|Hu].
    + assert (p' = p) as -> by congruence. rewrite fn_lookup_insert. destruct q as [q|].
      * exists q. split; [done|]. eapply (at_pc_step t i k0 w cf p lab q s' ev' k k'); try done.
        intros r v ->. by eapply Hdd.
      * destruct (step_end _ _ _ _ _ _ Es) as (r&_&->). by destruct (Hn r); left.
    + exists p. rewrite fn_lookup_insert_ne by done. split; [done|]. apply (at_pc_app t i k0 w _ (c_sh cf) _ k); try done. by eapply step_err.
Qed.
Lemma inside_run t i k0 acts : forall w cf k cf' ev, inside t i k0 w cf k -> run cf acts = Some (cf', ev) ->
  (forall r, EReturn t r ∉ ev) -> readings_of t (fun n => maxAge <= n /\ errAge <= n)%Z ev ->
  exists k', k <= k' /\ inside t i k0 (w ++ ev) cf' k'.
Proof.
  induction acts as [|a acts IH]; intros w cf k cf' ev HG H Hn Hr; cbn in H.
  { injection H as <- <-. exists k. by rewrite app_nil_r. }
  destruct (act cf a) as [[c1 e1]|] eqn:Ea; [|done]. destruct (run c1 acts) as [[c2 e2]|] eqn:Er; [|done]. injection H as <- <-.
  destruct (inside_act _ _ _ _ _ _ _ _ _ HG Ea) as (k1&Hk1&HG1).
  { intros r Hx. apply (Hn r), elem_of_app. by left. } { intros n Hx. apply Hr, elem_of_app. by left. }
  destruct (IH _ _ _ _ _ HG1 Er) as (k2&Hk2&HG2).
  { intros r Hx. apply (Hn r), elem_of_app. by right. } { intros n Hx. apply Hr, elem_of_app. by right. }
  exists k2. split; [lia|]. by rewrite (assoc_L (++)).
Qed.

(** One call, from a good state. *)
Lemma call_ok acts w cf k cf' t c (tr2 tr3 : list event) v :
  good w cf k -> run cf acts = Some (cf', EInv t c :: tr2 ++ EReturn t (RGet v None) :: tr3) ->
  (forall r, EReturn t r ∉ tr2) -> readings_of t (fun n => maxAge <= n /\ errAge <= n)%Z tr2 ->
  exists acts' cf1 k1 j, run cf1 acts' = Some (cf', tr3) /\
    good (w ++ EInv t c :: tr2 ++ [EReturn t (RGet v None)]) cf1 k1 /\ j <= k1 /\
    source t (S (length w)) k (w ++ EInv t c :: tr2) j v.
Proof.
  intros HG H Hn Hr. destruct (run_split zero maxAge errAge acts cf cf' [] _ _ H)
    as (acts1&a&acts2&c1&c2&evs0&pre&post&evs3&->&H1&H2&H3&Hp0&Hev).
  destruct (act_inv _ _ _ _ _ _ _ H2) as (->&->&->). rewrite app_nil_r in Hp0. subst evs0. cbn in Hev. subst evs3.
  (* acts1 emitted nothing *)
  destruct (good_run _ _ _ _ _ _ HG H1) as (k1&Hk1&HG1). rewrite app_nil_r in HG1.
  destruct (good_act _ _ _ _ _ _ HG1 H2) as (k2&Hk2&HG2).
  assert (inside t (S (length w)) k (w ++ [EInv t c]) c2 k2) as HI.
  { split; [done|]. split; [rewrite app_length; cbn; lia|]. split; [destruct HG as (_&_&_&?&_); lia|]. split; [lia|].
    cbn in H2. destruct (c_thr c1 t); [done|]. injection H2 as <-. cbn. rewrite fn_lookup_insert. eexists. split; [done|].
    by destruct c as [f|f|[f|]| | | | | | |f|f]. }
  destruct (run_split zero maxAge errAge acts2 c2 cf' _ _ _ H3)
    as (acts3&b&acts4&c3&c4&evs4&pre4&post4&evs5&->&H4&H5&H6&->&->).
  destruct (act_return _ _ _ _ _ _ _ H5) as (Hx&->&->). rewrite app_nil_r in *. cbn [app] in *.
  destruct (inside_run _ _ _ _ _ _ _ _ _ HI H4 Hn Hr) as (k3&Hk3&HG3&_&_&_&p&Hp&HP).
  assert (p = X_ret (RGet v None)) as -> by congruence. destruct (HP v eq_refl) as (j&Hs&Hj).
  destruct (good_act _ _ _ _ _ _ HG3 H5) as (k4&Hk4&HG4). exists acts4, c4, k4, j. split; [done|].
  rewrite <- !(assoc_L (++)) in HG4. split; [exact HG4|]. split; [lia|]. rewrite <- (assoc_L (++)) in Hs. exact Hs.
Qed.

Lemma split_inv acts cf cf' tr1 t c tr2 : run cf acts = Some (cf', tr1 ++ EInv t c :: tr2) ->
  exists acts1 acts2 cf1, run cf acts1 = Some (cf1, tr1) /\ run cf1 acts2 = Some (cf', EInv t c :: tr2).
Proof.
  intros H. destruct (run_split zero maxAge errAge acts cf cf' _ _ _ H)
    as (acts1&a&acts2&c1&c2&evs0&pre&post&evs3&->&H1&H2&H3&->&->).
  destruct (act_inv _ _ _ _ _ _ _ H2) as (->&->&->). rewrite app_nil_r. exists acts1, (AInv t c :: acts2), c1. split; [done|].
  cbn [RefreshCacheModel.run]. cbn [app] in H2. by rewrite H2, H3.
Qed.
Lemma dpos_covers w (s : shared) k j w' : dpos w s k -> k <= j -> j <= length (w ++ w') -> covers (take j (w ++ w')) w.
Proof.
  intros (H1&_&H3) Hk Hj a u n b ->. rewrite take_length. destruct (decide (length a < k)) as [?|Hx]; [lia|].
  destruct (H3 u n). rewrite drop_app_le by lia.
  apply elem_of_app. right. left.
Qed.
Lemma age (f : option F) acts cf tr1 t c tr2 v tr3 :
  run (new_config zero f) acts = Some (cf, tr1 ++ EInv t c :: tr2 ++ EReturn t (RGet v None) :: tr3) ->
  (forall r, EReturn t r ∉ tr2) -> readings_of t (fun n => maxAge <= n /\ errAge <= n)%Z tr2 ->
  exists x y, tr1 ++ EInv t c :: tr2 = x ++ y /\ v = recorded x /\ covers x tr1 /\
    (own_refresh t v (S (length tr1)) x \/ fresh_by maxAge t tr2 x).
Proof.
  intros H Hn Hr. destruct (split_inv _ _ _ _ _ _ _ H) as (acts1&acts2&c1&H1&H2).
  destruct (good_run _ _ _ _ _ _ (good_new f) H1) as (k&_&HG). cbn [app] in HG.
  destruct (call_ok _ _ _ _ _ _ _ _ _ _ HG H2 Hn Hr) as (_&_&_&j&_&_&_&Hs).
  destruct Hs as (Hj&Hl&Hv&Hs). exists (take j (tr1 ++ EInv t c :: tr2)), (drop j (tr1 ++ EInv t c :: tr2)).
  split; [by rewrite take_drop|]. split; [done|]. split; [destruct HG as (_&_&_&HD); by eapply dpos_covers|].
  destruct Hs as [Hs|Hs]; [by left|right]. rewrite drop_app_ge in Hs by lia.
  replace (S (length tr1) - length tr1) with 1 in Hs by lia. exact Hs.
Qed.

Lemma order (f : option F) acts cf tr1 t c tr2 v tr3 u d tr4 v' tr5 :
  run (new_config zero f) acts = Some (cf, tr1 ++ EInv t c :: tr2 ++ EReturn t (RGet v None) ::
                                           tr3 ++ EInv u d :: tr4 ++ EReturn u (RGet v' None) :: tr5) ->
  (forall r, EReturn t r ∉ tr2) -> readings_of t (fun n => maxAge <= n /\ errAge <= n)%Z tr2 ->
  (forall r, EReturn u r ∉ tr4) -> readings_of u (fun n => maxAge <= n /\ errAge <= n)%Z tr4 ->
  exists x y z, tr1 ++ EInv t c :: tr2 ++ EReturn t (RGet v None) :: tr3 ++ EInv u d :: tr4 = x ++ y ++ z /\
    v = recorded x /\ v' = recorded (x ++ y).
Proof.
  intros H Hn Hr Hn' Hr'. destruct (split_inv _ _ _ _ _ _ _ H) as (acts1&acts2&c1&H1&H2).
  destruct (good_run _ _ _ _ _ _ (good_new f) H1) as (k&_&HG). cbn [app] in HG.
  destruct (call_ok _ _ _ _ _ _ _ _ _ _ HG H2 Hn Hr) as (acts3&c3&k3&j&H3&HG3&Hj3&Hs).
  destruct (split_inv _ _ _ _ _ _ _ H3) as (acts4&acts5&c4&H4&H5).
  destruct (good_run _ _ _ _ _ _ HG3 H4) as (k4&Hk4&HG4).
  destruct (call_ok _ _ _ _ _ _ _ _ _ _ HG4 H5 Hn' Hr') as (_&_&_&j'&_&_&_&Hs').
  destruct Hs as (_&Hl&Hv&_), Hs' as (Hk'&Hl'&Hv'&_).
  set (W := tr1 ++ EInv t c :: tr2 ++ EReturn t (RGet v None) :: tr3 ++ EInv u d :: tr4).
  assert ((tr1 ++ EInv t c :: tr2 ++ [EReturn t (RGet v None)]) ++ tr3 = tr1 ++ EInv t c :: tr2 ++ EReturn t (RGet v None) :: tr3) as E1.
  { rewrite <- (assoc_L (++)). cbn. by rewrite <- (assoc_L (++)). }
  rewrite E1 in Hv', Hl'.
  assert ((tr1 ++ EInv t c :: tr2 ++ EReturn t (RGet v None) :: tr3) ++ EInv u d :: tr4 = W) as E2.
  { unfold W. rewrite <- (assoc_L (++)). cbn. by rewrite <- (assoc_L (++)). }
  rewrite E2 in Hv', Hl'.
  assert (W = (tr1 ++ EInv t c :: tr2) ++ EReturn t (RGet v None) :: tr3 ++ EInv u d :: tr4) as E3.
  { unfold W. by rewrite <- (assoc_L (++)). }
  assert (take j (tr1 ++ EInv t c :: tr2) = take j W) as Ej by (rewrite E3; symmetry; by apply take_le).
  rewrite Ej in Hv. exists (take j W), (drop j (take j' W)), (drop j' W).
  assert (take j W ++ drop j (take j' W) = take j' W) as E4.
  { rewrite <- (take_drop j (take j' W)) at 2. by rewrite take_take, Nat.min_l by lia. }
  rewrite (assoc_L (++)), E4, take_drop. done.
Qed.
End age.
