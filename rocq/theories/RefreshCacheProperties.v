(** C59-C66 and C83: the refresh cache. *)
From Coq Require Import ZifyBool.
From Verif Require Import Base RefreshCacheModel RefreshCacheSpec RefreshCacheProofs
  RefreshCacheFresh RefreshCacheSolo RefreshCacheWait.

Section theorems.
Context {T E F : Type} (zero : T) (maxAge errAge : Z).
Local Notation event := (event T E F).
Local Notation config := (config T E F).
Local Notation run := (run zero maxAge errAge).
Local Notation alone := (alone zero maxAge errAge).

(** At any moment when nobody holds the lock the fields are what the trace says. *)
Lemma ledger_settled (f0 : option F) acts (cf : config) tr :
  run (new_config zero f0) acts = Some (cf, tr) -> s_lock (c_sh cf) = None ->
  settled zero tr (c_sh cf).
Proof. intros H Hk. eapply inv_settled; [by eapply inv_run|done]. Qed.

(** C59.  After any execution, a Get that runs undisturbed with clock readings between [a] and
    [b]: if the last success is still fresh at [b], the value is served; if it is stale at [a]
    and the last failure still counts at [b], the error is served; if both are stale at [a], the
    function is called exactly once, its result returned and recorded. *)
Theorem C59_get_behaviour (f0 : option F) acts (cf : config) tr t f cf' evs r a b :
  run (new_config zero f0) acts = Some (cf, tr) -> s_lock (c_sh cf) = None ->
  alone cf t (CGet f) cf' evs r -> readings_of t (fun n => a <= n <= b)%Z evs ->
  (fresh_at maxAge (success_time tr) b ->
     r = RGet (recorded zero tr) None /\ cached (c_sh cf) (c_sh cf') evs) /\
  (~ fresh_at maxAge (success_time tr) a -> err_fresh_at errAge (failure_time tr) b ->
     r = RGet zero (last_error tr) /\ cached (c_sh cf) (c_sh cf') evs) /\
  (~ fresh_at maxAge (success_time tr) a -> ~ err_fresh_at errAge (failure_time tr) a ->
     refreshed zero f t (c_sh cf) (c_sh cf') evs r).
Proof.
  intros H Hk Ha Hr. destruct (ledger_settled _ _ _ _ H Hk) as (_&_&->&->&->&->).
  apply alone_solo in Ha. by eapply solo_get in Ha.
Qed.

(** The Get of RefreshCache is the Get of RefreshData with the function stored last. *)
Theorem C59_get_wrapper (f0 : option F) acts (cf : config) tr t f cf' evs r a b :
  run (new_config zero f0) acts = Some (cf, tr) -> s_lock (c_sh cf) = None ->
  s_ref (c_sh cf) = Some f ->
  alone cf t CWGet cf' evs r -> readings_of t (fun n => a <= n <= b)%Z evs ->
  (fresh_at maxAge (success_time tr) b ->
     r = RGet (recorded zero tr) None /\ cached (c_sh cf) (c_sh cf') evs) /\
  (~ fresh_at maxAge (success_time tr) a -> err_fresh_at errAge (failure_time tr) b ->
     r = RGet zero (last_error tr) /\ cached (c_sh cf) (c_sh cf') evs) /\
  (~ fresh_at maxAge (success_time tr) a -> ~ err_fresh_at errAge (failure_time tr) a ->
     refreshed zero f t (c_sh cf) (c_sh cf') evs r).
Proof.
  intros H Hk Hf Ha Hr. destruct (ledger_settled _ _ _ _ H Hk) as (_&_&->&->&->&->).
  apply alone_solo in Ha. apply solo_inv in Ha as [(?&?&?)|(lab&p'&s1&ev&evs'&Es&Hs&->)]; [done|].
  destruct lab as [|?n|?o|[?e|]]; cbn in Es; try discriminate Es. rewrite Hf in Es.
  injection Es as <- <- <-. by eapply solo_get in Hs.
Qed.

(** Refresh calls the function exactly once, whatever the cache holds. *)
Theorem C59_refresh_behaviour (cf : config) t f cf' evs r :
  s_lock (c_sh cf) = None -> alone cf t (CRefresh f) cf' evs r ->
  refreshed zero f t (c_sh cf) (c_sh cf') evs r.
Proof. intros Hk Ha. apply alone_solo in Ha. by apply solo_refresh in Ha. Qed.

(** C60.  When a refresh function starts, none is running, and it sees the last recorded value. *)
Theorem C60_single_refresh (f0 : option F) acts (cf : config) (tr1 : list event) t f old tr2 :
  run (new_config zero f0) acts = Some (cf, tr1 ++ EStart t f old :: tr2) ->
  running tr1 = None /\ old = recorded zero tr1.
Proof.
  intros H. apply run_split in H as (acts1&a&acts2&cf1&cf2&evs0&pre&post&evs3&->&H1&H2&H3&->&->).
  destruct (act_start _ _ _ _ _ _ _ _ _ _ _ _ (inv_run _ _ _ _ _ _ _ H1) H2) as (->&A&B).
  rewrite app_nil_r. done.
Qed.

(** At every moment at most one goroutine is inside a refresh function. *)
Theorem C60_exclusive (f0 : option F) acts (cf : config) tr t f old u g old' :
  run (new_config zero f0) acts = Some (cf, tr) ->
  c_thr cf t = Some (C_run f old) -> c_thr cf u = Some (C_run g old') -> t = u.
Proof.
  intros H Ht Hu. destruct (inv_run _ _ _ _ _ _ _ H) as [HL _].
  pose proof (HL _ _ Ht eq_refl). pose proof (HL _ _ Hu eq_refl). congruence.
Qed.

(** C61.  As long as no refresh function panics and neither age exceeds the clock (the time
    since 1970), every value returned with a nil error was returned by a successful refresh. *)
Theorem C61_values_partial (f0 : option F) acts (cf : config) (tr1 : list event) t v tr2 :
  run (new_config zero f0) acts = Some (cf, tr1 ++ EReturn t (RGet v None) :: tr2) ->
  no_panic tr1 -> readings (fun n => maxAge <= n /\ errAge <= n)%Z tr1 ->
  produced tr1 v.
Proof. apply values_produced. Qed.

(** C62.  What a panicking refresh does: the lock is released and the panic goes on, but the
    zero value is recorded as a success. *)
Theorem C62_panic_behaviour (cf : config) t f c cf' evs r :
  c = CRefresh f \/ c = CGet f ->
  s_lock (c_sh cf) = None -> alone cf t c cf' evs r -> OPanic ∈ finishes evs ->
  r = RPanic /\ s_lock (c_sh cf') = None /\
  s_data (c_sh cf') = zero /\ s_lasterr (c_sh cf') = 0%Z /\
  exists n, ENow t n ∈ evs /\ s_last (c_sh cf') = n.
Proof.
  intros Hc Hk Ha Ho.
  assert (refreshed zero f t (c_sh cf) (c_sh cf') evs r) as (o&n&A&B&C&D&_).
  { destruct Hc as [->| ->]; apply alone_solo in Ha; [by apply solo_refresh in Ha|].
    by eapply solo_panic_refreshed in Ha. }
  rewrite D in Ho. apply elem_of_list_singleton in Ho as <-. cbn in B.
  destruct A as (?&?&?&?&?&?&?). eauto 10.
Qed.

(** C63.  Between two refreshes with only failures in between, the second sees the same value. *)
Theorem C63_failures_keep_value (f0 : option F) acts (cf : config) (tr1 : list event) t f old tr2 u g old' tr3 :
  run (new_config zero f0) acts = Some (cf, tr1 ++ EStart t f old :: tr2 ++ EStart u g old' :: tr3) ->
  (forall w o, EFinish w o ∈ tr2 -> exists v e, o = OErr v e) ->
  old' = old.
Proof.
  intros H Hf. destruct (C60_single_refresh _ _ _ _ _ _ _ _ H) as [_ E1].
  assert (tr1 ++ EStart t f old :: tr2 ++ EStart u g old' :: tr3 =
          (tr1 ++ EStart t f old :: tr2) ++ EStart u g old' :: tr3) as Eq
    by (rewrite <- (assoc_L (++)); done).
  rewrite Eq in H. destruct (C60_single_refresh _ _ _ _ _ _ _ _ H) as [_ ->]. clear H Eq.
  rewrite E1 at 2. clear E1.
  unfold recorded. rewrite foldl_app. cbn. generalize (foldl (fun v e => match e with
    | EFinish _ (OOk w) => w | EFinish _ OPanic => zero | _ => v end) zero tr1). intros x.
  induction tr2 as [|e tr2 IH]; [done|]. cbn.
  assert (match e with EFinish _ (OOk w) => w | EFinish _ OPanic => zero | _ => x end = x) as ->.
  { destruct e as [| | |w o| | | | | | |]; try done.
    destruct (Hf w o (elem_of_list_here _ _)) as (v&e&->). done. }
  apply IH. intros w o Hw. apply (Hf w o). by right.
Qed.

(** A failing refresh leaves the stored value and records the failure. *)
Theorem C63_failure_behaviour (cf : config) t f c cf' evs r v e :
  c = CRefresh f \/ c = CGet f ->
  s_lock (c_sh cf) = None -> alone cf t c cf' evs r -> OErr v e ∈ finishes evs ->
  r = RGet v (Some e) /\ s_data (c_sh cf') = s_data (c_sh cf) /\ s_err (c_sh cf') = Some e /\
  s_last (c_sh cf') = 0%Z /\ exists n, ENow t n ∈ evs /\ s_lasterr (c_sh cf') = n.
Proof.
  intros Hc Hk Ha Ho.
  assert (refreshed zero f t (c_sh cf) (c_sh cf') evs r) as (o&n&A&B&C&D&_).
  { destruct Hc as [->| ->]; apply alone_solo in Ha; [by apply solo_refresh in Ha|].
    by eapply solo_panic_refreshed in Ha. }
  rewrite D in Ho. apply elem_of_list_singleton in Ho as <-. cbn in B.
  destruct A as (?&?&?&?&?&?&?). eauto 10.
Qed.

(** Raw shows the stored value, except while an error is being served. *)
Theorem C63_raw_value_partial (f0 : option F) acts (cf : config) tr t cf' evs r a b :
  run (new_config zero f0) acts = Some (cf, tr) -> s_lock (c_sh cf) = None ->
  alone cf t CRaw cf' evs r -> readings_of t (fun n => a <= n <= b)%Z evs ->
  fresh_at maxAge (success_time tr) b \/
    (~ fresh_at maxAge (success_time tr) a /\ ~ err_fresh_at errAge (failure_time tr) a) ->
  exists e, r = RRaw (recorded zero tr) e.
Proof.
  intros H Hk Ha Hr Hc. destruct (ledger_settled _ _ _ _ H Hk) as (_&_&E3&E4&E5&E6).
  rewrite E3, E4, E5 in *. apply alone_solo in Ha.
  eapply solo_raw in Ha as (_&A&_&C); [|exact Hr].
  destruct Hc as [Hc|[Hc Hd]]; eauto.
Qed.

(** C64.  What Raw reports. *)
Theorem C64_raw_behaviour (f0 : option F) acts (cf : config) tr t cf' evs r a b :
  run (new_config zero f0) acts = Some (cf, tr) -> s_lock (c_sh cf) = None ->
  alone cf t CRaw cf' evs r -> readings_of t (fun n => a <= n <= b)%Z evs ->
  cached (c_sh cf) (c_sh cf') evs /\
  (fresh_at maxAge (success_time tr) b -> r = RRaw (recorded zero tr) None) /\
  (~ fresh_at maxAge (success_time tr) a -> err_fresh_at errAge (failure_time tr) b ->
     r = RRaw zero (last_error tr)) /\
  (~ fresh_at maxAge (success_time tr) a -> ~ err_fresh_at errAge (failure_time tr) a ->
     r = RRaw (recorded zero tr) (last_error tr)).
Proof.
  intros H Hk Ha Hr. destruct (ledger_settled _ _ _ _ H Hk) as (_&_&->&->&->&->).
  apply alone_solo in Ha. by eapply solo_raw in Ha.
Qed.

(** C65.  If no refresh is in flight at the moment of the Clear, a Get called later returns only
    values whose refresh started after the Clear. *)
Theorem C65_clear_forces_partial (f0 : option F) acts (cf : config) (tr1 : list event) u tr2 t c
    (tr3 : list event) v tr4 :
  run (new_config zero f0) acts =
    Some (cf, tr1 ++ EClear u :: tr2 ++ EInv t c :: tr3 ++ EReturn t (RGet v None) :: tr4) ->
  in_flight tr1 = None ->
  no_panic (tr2 ++ EInv t c :: tr3) ->
  readings (fun n => maxAge <= n /\ errAge <= n)%Z (tr2 ++ EInv t c :: tr3) ->
  produced (tr2 ++ EInv t c :: tr3) v.
Proof. apply clear_forces. Qed.

(** Clear itself: only the time stamp changes; the clear function sees the stored value. *)
Theorem C65_clear_behaviour (cf : config) t f cf' evs r :
  alone cf t (CClear f) cf' evs r ->
  c_sh cf' = set_last 0%Z (c_sh cf) /\ starts evs = [] /\ finishes evs = [] /\
  match f with
  | None => r = RClear None
  | Some g => EKStart t g (s_data (c_sh cf)) ∈ evs
  end.
Proof. intros Ha. apply alone_solo in Ha. by apply solo_clear in Ha. Qed.

(** C66.  A Get waiting for the lock gets it; if its clock readings find the last success fresh
    and nobody clears the cache, it returns the recorded value and does not refresh. *)
Theorem C66_no_stampede (f0 : option F) acts (cf : config) tr t f acts' cf' evs r evs' :
  run (new_config zero f0) acts = Some (cf, tr) ->
  c_thr cf t = Some (G_lock f) ->
  run cf (AStep t LTick :: acts') = Some (cf', evs ++ EReturn t r :: evs') ->
  (forall r', EReturn t r' ∉ evs) -> (forall u, EClear u ∉ evs) ->
  readings_of t (fresh_at maxAge (success_time tr)) evs ->
  r = RGet (recorded zero tr) None /\ forall g old, EStart t g old ∉ evs.
Proof.
  intros H Ht H2 Hr Hc Hn. pose proof (inv_run _ _ _ _ _ _ _ H) as HI.
  cbn in H2. rewrite Ht in H2. cbn in H2. destruct (s_lock (c_sh cf)) as [u|] eqn:Ek; [done|].
  destruct (inv_settled _ _ _ HI Ek) as (_&_&E3&E4&_).
  destruct (RefreshCacheModel.run _ _ _ _ acts') as [[c2 e2]|] eqn:Er; [|done].
  injection H2 as -> H2. destruct evs as [|x evs]; [done|]. injection H2 as <- ->.
  eapply (wait_run zero maxAge errAge t (success_time tr) (recorded zero tr)) in Er as [-> Hs].
  - split; [done|]. intros g old Hx. apply elem_of_cons in Hx as [Hx|Hx]; [done|]. by eapply Hs.
  - eapply (inv_act zero maxAge errAge tr cf (AStep t LTick)); [done|]. cbn. rewrite Ht. cbn. rewrite Ek. done.
  - unfold waitok. cbn. rewrite fn_lookup_insert. done.
  - intros r' Hr'. apply (Hr r'). by right.
  - intros u Hu. apply (Hc u). by right.
  - intros n Hx. apply Hn. by right.
Qed.

(** C83.  Nobody is ever stuck: a goroutine inside a call can take a step, unless it waits for
    the lock, and then the goroutine holding the lock can.  (The user functions are assumed to
    return; only Get and Refresh ever wait.) *)
Theorem C83_no_deadlock (f0 : option F) acts (cf : config) tr t p :
  run (new_config zero f0) acts = Some (cf, tr) -> c_thr cf t = Some p ->
  can_move zero maxAge errAge cf t \/
  (waiting cf t /\ exists u, s_lock (c_sh cf) = Some u /\ can_move zero maxAge errAge cf u).
Proof.
  intros H Ht. destruct (inv_run _ _ _ _ _ _ _ H) as [HL HI].
  assert (forall u q, c_thr cf u = Some q ->
            (exists lab q' s' ev, step zero maxAge errAge u q (c_sh cf) lab = Some (q', s', ev)) ->
            can_move zero maxAge errAge cf u) as Hm.
  { intros u q Hu (lab&q'&s'&ev&Es). eexists lab, _, _. cbn. rewrite Hu, Es. done. }
  destruct (can_step zero maxAge errAge t p (c_sh cf)) as [Hc|[(f&Hw) Hk]].
  { left. by eapply Hm. }
  right. split; [exists f; rewrite Ht; naive_solver|].
  destruct (s_lock (c_sh cf)) as [u|] eqn:Ek; [|done]. exists u. split; [done|].
  destruct HI as (q&Hu&Hq&_). eapply Hm; [exact Hu|].
  destruct (can_step zero maxAge errAge u q (c_sh cf)) as [Hc|[(g&Hw') _]]; [done|].
  destruct Hw' as [-> | ->]; done.
Qed.

End theorems.

(** ** Concrete executions: values are integers with zero value 0, errors and functions are
    numbers. Clock readings are nanoseconds; [now] is in November 2026. *)
Definition now : Z := 1794700000000000000.

Notation crun := (run (T := Z) (E := nat) (F := nat) 0%Z).
Notation cnew := (new_config (T := Z) (E := nat) (F := nat) 0%Z (Some 0)).

(** A Get that refreshes undisturbed: readings [n1] and [n2] for the two freshness tests and [n3]
    for the record (no errAge). *)
Definition get_refresh (t : nat) (n1 n2 n3 : Z) (o : outcome Z nat) : list (action Z nat nat) :=
  AInv t (CGet (Some 1)) ::
  (AStep t <$> [LTick; LNow n1; LTick; LTick; LTick; LNow n2; LTick; LTick; LTick; LRef o;
                LTick; LNow n3; LTick; LTick; LTick; LTick]).
Definition get_cached (t : nat) (n : Z) : list (action Z nat nat) :=
  AInv t (CGet (Some 1)) :: (AStep t <$> [LTick; LNow n; LTick; LTick]).
Definition refresh (t : nat) (n : Z) (o : outcome Z nat) : list (action Z nat nat) :=
  AInv t (CRefresh (Some 1)) ::
  (AStep t <$> [LTick; LTick; LRef o; LTick; LNow n; LTick; LTick; LTick; LTick]).
Definition raw_stale (t : nat) (n : Z) : list (action Z nat nat) :=
  AInv t CRaw :: (AStep t <$> [LTick; LNow n; LTick; LTick; LTick; LTick]).
Definition raw_fresh (t : nat) (n : Z) : list (action Z nat nat) :=
  AInv t CRaw :: (AStep t <$> [LTick; LNow n; LTick; LTick]).
Definition raw_err (t : nat) (n1 n2 : Z) : list (action Z nat nat) :=
  AInv t CRaw :: (AStep t <$> [LTick; LNow n1; LNow n2; LTick; LTick; LTick]).
Definition clear (t : nat) : list (action Z nat nat) :=
  AInv t (CClear None) :: (AStep t <$> [LTick; LTick]).

(** Produced values can be searched for. *)
Fixpoint produced_in (started : list nat) (tr : list (event Z nat nat)) (v : Z) : bool :=
  match tr with
  | [] => false
  | EStart u _ _ :: tr => produced_in (u :: started) tr v
  | EFinish u (OOk w) :: tr =>
      (bool_decide (u ∈ started) && bool_decide (w = v)) || produced_in started tr v
  | _ :: tr => produced_in started tr v
  end.
Lemma produced_in_ok started tr v :
  (exists u b c, u ∈ started /\ tr = b ++ EFinish u (OOk v) :: c) \/ produced tr v ->
  produced_in started tr v = true.
Proof.
  revert started. induction tr as [|e tr IH]; intros started H.
  { destruct H as [(u&b&c&_&H)|(u&f&old&a&b&c&H)]; [by destruct b|by destruct a]. }
  assert (forall st, (forall x, x ∈ started -> x ∈ st) ->
            (forall u f old, e = EStart u f old -> u ∈ st) ->
            (forall u, e = EFinish u (OOk v) -> u ∈ started -> False) ->
            produced_in st tr v = true) as G.
  { intros st H1 H2 H3. apply IH. destruct H as [(u&b&c&Hu&H)|(u&f&old&a&b&c&H)].
    - destruct b as [|x b]; cbn in H; injection H as -> ->.
      + exfalso. by eapply H3.
      + left. eauto 10.
    - destruct a as [|x a]; cbn in H; injection H as -> ->.
      + left. exists u, b, c. split; [by eapply H2|done].
      + right. by exists u, f, old, a, b, c. }
  destruct e as [| |u f old|u [w|w e|]| | | | | | |]; cbn;
    try (apply G; [done|by intros ??? [=]|by intros ? [=]]).
  - apply G; [by right|intros ??? [= -> -> ->]; by left|done].
  - apply orb_true_iff. destruct (decide (u ∈ started /\ w = v)) as [[H1 ->]|Hn].
    + left. rewrite !bool_decide_eq_true_2; done.
    + right. apply G; [done|by intros ??? [=]|]. intros u' [= -> ->] Hu. by apply Hn.
Qed.
Lemma not_produced tr v : produced_in [] tr v = false -> ~ produced tr v.
Proof. intros H Hp. rewrite produced_in_ok in H; [done|]. by right. Qed.

(** The trace of a concrete execution, by computation. *)
Definition trace (maxAge errAge : Z) (acts : list (action Z nat nat)) : list (event Z nat nat) :=
  default [] (snd <$> crun maxAge errAge cnew acts).
Lemma run_cut maxAge errAge acts k e :
  bool_decide (is_Some (crun maxAge errAge cnew acts)) = true ->
  trace maxAge errAge acts !! k = Some e ->
  exists cf, crun maxAge errAge cnew acts =
    Some (cf, take k (trace maxAge errAge acts) ++ e :: drop (S k) (trace maxAge errAge acts)).
Proof.
  intros Hs H. apply bool_decide_eq_true in Hs as [[cf tr] Hr]. exists cf.
  rewrite take_drop_middle by done. unfold trace. rewrite Hr. done.
Qed.

Definition readings_in (l : list Z) (tr : list (event Z nat nat)) : bool :=
  forallb (fun e => match e with ENow _ n => bool_decide (n ∈ l) | _ => true end) tr.
Lemma readings_in_ok l tr : readings_in l tr = true -> readings (fun n => n ∈ l) tr.
Proof.
  intros H t n Hn. unfold readings_in in H. rewrite forallb_forall in H.
  apply elem_of_list_In in Hn. specialize (H _ Hn). cbn in H. by apply bool_decide_eq_true in H.
Qed.
Definition panics (tr : list (event Z nat nat)) : bool :=
  existsb (fun e => match e with EFinish _ OPanic => true | _ => false end) tr.
Lemma no_panics_ok tr : panics tr = false -> no_panic tr.
Proof.
  intros H t Ht. apply elem_of_list_In in Ht.
  assert (panics tr = true) as Hp; [|congruence].
  apply existsb_exists. by eexists.
Qed.

(** C61 is false in general: after a refresh function panicked, the next Get returns the zero
    value with a nil error although no refresh ever succeeded. *)
Theorem C61_panic_refuted :
  exists maxAge errAge acts cf (tr1 : list (event Z nat nat)) t v tr2,
    crun maxAge errAge cnew acts = Some (cf, tr1 ++ EReturn t (RGet v None) :: tr2) /\
    readings (fun n => n ∈ [now; now + 1]%Z) tr1 /\ maxAge = (10^9)%Z /\ errAge = 0%Z /\
    ~ produced tr1 v.
Proof.
  destruct (run_cut (10^9)%Z 0%Z (get_refresh 0 now now now OPanic ++ get_cached 0 (now + 1)) 12
              (EReturn 0 (RGet 0%Z None))) as [cf H]; [vm_compute; reflexivity..|].
  eexists _, _, _, cf, _, 0, 0%Z, _. split; [exact H|].
  split; [apply readings_in_ok; vm_compute; reflexivity|].
  split; [done|]. split; [done|]. apply not_produced. vm_compute. reflexivity.
Qed.

(** Nor does it hold when maxAge is longer than the time since 1970: a new cache serves the zero
    value as if it were fresh, without ever calling the function ([math.MaxInt64] nanoseconds is
    a usual way to say "for ever"). *)
Theorem C61_huge_age_refuted :
  exists maxAge errAge acts cf (tr1 : list (event Z nat nat)) t v tr2,
    crun maxAge errAge cnew acts = Some (cf, tr1 ++ EReturn t (RGet v None) :: tr2) /\
    readings (fun n => n ∈ [now]) tr1 /\ maxAge = (2^63 - 1)%Z /\ no_panic tr1 /\
    starts tr1 = [] /\ ~ produced tr1 v.
Proof.
  destruct (run_cut (2^63 - 1)%Z 0%Z (get_cached 0 now) 2
              (EReturn 0 (RGet 0%Z None))) as [cf H]; [vm_compute; reflexivity..|].
  eexists _, _, _, cf, _, 0, 0%Z, _. split; [exact H|].
  split; [apply readings_in_ok; vm_compute; reflexivity|].
  split; [done|]. split; [apply no_panics_ok; vm_compute; reflexivity|].
  split; [vm_compute; reflexivity|]. apply not_produced. vm_compute. reflexivity.
Qed.

(** C62 is false: the cache holds the fresh value 7, a Refresh panics, and from then on Get
    serves the zero value as fresh. *)
Theorem C62_panic_refuted :
  exists maxAge errAge acts cf (tr1 : list (event Z nat nat)) t tr2,
    crun maxAge errAge cnew acts = Some (cf, tr1 ++ EReturn t (RGet 0%Z None) :: tr2) /\
    finishes tr1 = [OOk 7%Z; OPanic] /\
    (* without the panic *)
    exists cf' tr1', crun maxAge errAge cnew
      (get_refresh 0 now now now (OOk 7%Z) ++ get_cached 0 (now + 2)) =
      Some (cf', tr1' ++ [EReturn t (RGet 7%Z None)]).
Proof.
  destruct (run_cut (10^9)%Z 0%Z (get_refresh 0 now now now (OOk 7%Z) ++ refresh 0 (now + 1) OPanic ++
              get_cached 0 (now + 2)) 20
              (EReturn 0 (RGet 0%Z None))) as [cf H]; [vm_compute; reflexivity..|].
  eexists _, _, _, cf, _, 0, _. split; [exact H|]. split; [vm_compute; reflexivity|].
  destruct (run_cut (10^9)%Z 0%Z (get_refresh 0 now now now (OOk 7%Z) ++ get_cached 0 (now + 2)) 12
              (EReturn 0 (RGet 7%Z None))) as [cf' H']; [vm_compute; reflexivity..|].
  eexists _, _. exact H'.
Qed.

(** C63, the part about Raw, is false with an errAge: while the error is being served, Raw
    reports the zero value instead of the stored one. *)
Theorem C63_raw_refuted :
  exists maxAge errAge acts cf (tr1 : list (event Z nat nat)) t e tr2,
    crun maxAge errAge cnew acts = Some (cf, tr1 ++ EReturn t (RRaw 0%Z (Some e)) :: tr2) /\
    finishes tr1 = [OOk 7%Z; OErr 0%Z e] /\ recorded 0%Z tr1 = 7%Z.
Proof.
  destruct (run_cut (10^9)%Z (10^9)%Z (refresh 0 now (OOk 7%Z) ++ refresh 0 (now + 1) (OErr 0%Z 5) ++
              raw_err 0 (now + 2) (now + 3)) 19
              (EReturn 0 (RRaw 0%Z (Some 5)))) as [cf H]; [vm_compute; reflexivity..|].
  eexists _, _, _, cf, _, 0, 5, _. split; [exact H|]. split; vm_compute; reflexivity.
Qed.

(** C64 is false: a refresh fails, a later one succeeds, and when the value has aged Raw reports
    the old error again although no other refresh failed. *)
Theorem C64_stale_error_refuted :
  exists maxAge errAge acts cf (tr1 : list (event Z nat nat)) t e tr2,
    crun maxAge errAge cnew acts = Some (cf, tr1 ++ EReturn t (RRaw 7%Z (Some e)) :: tr2) /\
    finishes tr1 = [OErr 0%Z e; OOk 7%Z].
Proof.
  destruct (run_cut (10^9)%Z 0%Z (refresh 0 now (OErr 0%Z 5) ++ refresh 0 (now + 1) (OOk 7%Z) ++
              raw_stale 0 (now + 2 * 10^9)) 18
              (EReturn 0 (RRaw 7%Z (Some 5)))) as [cf H]; [vm_compute; reflexivity..|].
  eexists _, _, _, cf, _, 0, 5, _. split; [exact H|]. vm_compute; reflexivity.
Qed.

(** C65 is false in general: a Clear during a refresh is lost.  Goroutine 0 starts a refresh,
    goroutine 1 clears, the refresh ends, and a Get called after all that returns its value. *)
Definition lost_clear : list (action Z nat nat) :=
  take 10 (get_refresh 0 now now (now + 1) (OOk 7%Z)) ++ clear 1 ++
  drop 10 (get_refresh 0 now now (now + 1) (OOk 7%Z)) ++ get_cached 1 (now + 2).
Theorem C65_lost_clear_refuted :
  exists maxAge errAge acts cf (tr1 : list (event Z nat nat)) u tr2 t c tr3 v tr4,
    crun maxAge errAge cnew acts =
      Some (cf, tr1 ++ EClear u :: tr2 ++ EInv t c :: tr3 ++ EReturn t (RGet v None) :: tr4) /\
    EReturn u (RClear None) ∈ tr2 /\
    no_panic (tr2 ++ EInv t c :: tr3) /\
    readings (fun n => maxAge <= n /\ errAge <= n)%Z (tr2 ++ EInv t c :: tr3) /\
    starts (tr2 ++ EInv t c :: tr3) = [] /\
    ~ produced (tr2 ++ EInv t c :: tr3) v.
Proof.
  destruct (run_cut (10^9)%Z 0%Z lost_clear 6 (EClear 1)) as [cf H]; [vm_compute; reflexivity..|].
  exists (10^9)%Z, 0%Z, lost_clear, cf, (take 6 (trace (10^9) 0 lost_clear)), 1,
    (take 6 (drop 7 (trace (10^9) 0 lost_clear))), 1, (CGet (Some 1)),
    (take 1 (drop 14 (trace (10^9) 0 lost_clear))), 7%Z, [].
  split; [rewrite H; f_equal; f_equal; vm_compute; reflexivity|].
  split; [vm_compute; apply elem_of_list_In; cbn; tauto|].
  split; [apply no_panics_ok; vm_compute; reflexivity|].
  split.
  { intros t n Hn. eapply (readings_in_ok [now; now + 1; now + 2]%Z) in Hn; [|vm_compute; reflexivity].
    rewrite !elem_of_cons, elem_of_nil in Hn. unfold now in Hn. lia. }
  split; [vm_compute; reflexivity|]. apply not_produced. vm_compute. reflexivity.
Qed.

(** ** Examples meeting the hypotheses *)
Definition lock_of (o : option (config Z nat nat * list (event Z nat nat))) : option nat :=
  match o with Some (cf, _) => s_lock (c_sh cf) | None => Some 0 end.

(** A concrete execution followed by an undisturbed call. *)
Lemma alone_at maxAge errAge acts t c labs evs r :
  bool_decide (is_Some (crun maxAge errAge cnew (acts ++ AInv t c :: (AStep t <$> labs)))) = true ->
  trace maxAge errAge (acts ++ AInv t c :: (AStep t <$> labs)) =
    trace maxAge errAge acts ++ EInv t c :: evs ++ [EReturn t r] ->
  lock_of (crun maxAge errAge cnew acts) = None ->
  exists cf cf', crun maxAge errAge cnew acts = Some (cf, trace maxAge errAge acts) /\
    s_lock (c_sh cf) = None /\ alone 0%Z maxAge errAge cf t c cf' evs r.
Proof.
  intros Hs H Hk. apply bool_decide_eq_true in Hs as [[cf' tr] Hr]. unfold trace in *.
  rewrite Hr in H. cbn in H. rewrite (run_app 0%Z) in Hr.
  destruct (crun maxAge errAge cnew acts) as [[cf tr0]|] eqn:E0; [|done]. cbn in *.
  exists cf, cf'. split; [done|]. split; [done|]. exists labs.
  cbn. destruct (c_thr cf t) as [p|] eqn:Ep; [done|].
  destruct (RefreshCacheModel.run _ _ _ _ (AStep t <$> labs)) as [[c2 e2]|]; [|done].
  injection Hr as -> <-. apply app_inv_head in H. injection H as ->. done.
Qed.

(** C59: 7 was fetched at [now]; half a second later it is served, two seconds later the function
    is called again and sees 7 as OldVal. *)
Example C59_example_fresh :
  exists cf cf' evs r, crun (10^9)%Z 0%Z cnew (get_refresh 0 now now now (OOk 7%Z)) =
      Some (cf, trace (10^9)%Z 0%Z (get_refresh 0 now now now (OOk 7%Z))) /\
    alone 0%Z (10^9)%Z 0%Z cf 1 (CGet (Some 1)) cf' evs r /\ r = RGet 7%Z None.
Proof.
  destruct (alone_at (10^9)%Z 0%Z (get_refresh 0 now now now (OOk 7%Z)) 1 (CGet (Some 1))
    [LTick; LNow (now + 5 * 10^8)%Z; LTick; LTick] [ENow 1 (now + 5 * 10^8)%Z] (RGet 7%Z None))
    as (cf&cf'&H&Hk&Ha); [vm_compute; reflexivity..|].
  exists cf, cf', [ENow 1 (now + 5 * 10^8)%Z], (RGet 7%Z None). split; [done|]. split; [exact Ha|].
  eapply (C59_get_behaviour 0%Z (10^9)%Z 0%Z (Some 0) _ _ _ _ _ _ _ _ now (now + 5 * 10^8)%Z H Hk Ha).
  - intros n Hn. apply elem_of_list_singleton in Hn. injection Hn as ->. unfold now. lia.
  - vm_compute. by right.
Qed.
Example C59_example_stale :
  exists cf cf' evs r, crun (10^9)%Z 0%Z cnew (get_refresh 0 now now now (OOk 7%Z)) =
      Some (cf, trace (10^9)%Z 0%Z (get_refresh 0 now now now (OOk 7%Z))) /\
    alone 0%Z (10^9)%Z 0%Z cf 1 (CGet (Some 1)) cf' evs r /\
    refreshed 0%Z (Some 1) 1 (c_sh cf) (c_sh cf') evs r /\ starts evs = [(1, 7%Z)].
Proof.
  set (n := (now + 2 * 10^9)%Z).
  destruct (alone_at (10^9)%Z 0%Z (get_refresh 0 now now now (OOk 7%Z)) 1 (CGet (Some 1))
    [LTick; LNow n; LTick; LTick; LTick; LNow n; LTick; LTick; LTick; LRef (OErr 3%Z 4);
                LTick; LNow n; LTick; LTick; LTick; LTick]
    [ENow 1 n; ELock 1; ENow 1 n; EStart 1 1 7%Z; EFinish 1 (OErr 3%Z 4); ENow 1 n; EFail 1 n; EUnlock 1]
    (RGet 3%Z (Some 4)))
    as (cf&cf'&H&Hk&Ha); [vm_compute; reflexivity..|].
  eexists cf, cf', _, _. split; [done|]. split; [exact Ha|]. split; [|reflexivity].
  eapply (C59_get_behaviour 0%Z (10^9)%Z 0%Z (Some 0) _ _ _ _ _ _ _ _ n n H Hk Ha).
  - intros m Hn.
    repeat (apply elem_of_cons in Hn as [Hn|Hn]; [try discriminate Hn; injection Hn as ->; lia|]).
    exfalso. exact (not_elem_of_nil _ Hn).
  - intros [[Hx _]|Hx]; revert Hx; vm_compute; discriminate.
  - intros [Hx _]. revert Hx. vm_compute. discriminate.
Qed.

(** C60, C63: two failures after a success; the last refresh still sees 7. *)
Example C63_example :
  exists acts cf tr1 tr2 tr3, crun (10^9)%Z 0%Z cnew acts =
    Some (cf, tr1 ++ EStart 0 1 7%Z :: tr2 ++ EStart 0 1 7%Z :: tr3) /\
    finishes tr2 = [OErr 1%Z 5] /\ running tr1 = None /\ recorded 0%Z tr1 = 7%Z.
Proof.
  set (acts := refresh 0 now (OOk 7%Z) ++ refresh 0 now (OErr 1%Z 5) ++ refresh 0 now (OErr 2%Z 6)).
  destruct (run_cut (10^9)%Z 0%Z acts 10 (EStart 0 1 7%Z)) as [cf H]; [vm_compute; reflexivity..|].
  exists acts, cf, (take 10 (trace (10^9)%Z 0%Z acts)), (take 7 (drop 11 (trace (10^9)%Z 0%Z acts))),
    (drop 19 (trace (10^9)%Z 0%Z acts)).
  split; [rewrite H; f_equal; f_equal; vm_compute; reflexivity|].
  split; [vm_compute; reflexivity|].
  destruct (C60_single_refresh 0%Z (10^9)%Z 0%Z (Some 0) _ _ _ _ _ _ _ H) as [A B].
  split; [exact A|symmetry; exact B].
Qed.

(** C61: the ordinary case. *)
Example C61_example :
  exists acts cf (tr1 : list (event Z nat nat)), crun (10^9)%Z (10^8)%Z cnew acts =
      Some (cf, tr1 ++ [EReturn 0 (RGet 7%Z None)]) /\
    no_panic tr1 /\ readings (fun n => 10^9 <= n /\ 10^8 <= n)%Z tr1 /\ produced tr1 7%Z.
Proof.
  set (acts := refresh 0 now (OOk 7%Z) ++ get_cached 0 (now + 1)).
  destruct (run_cut (10^9)%Z (10^8)%Z acts 10 (EReturn 0 (RGet 7%Z None))) as [cf H];
    [vm_compute; reflexivity..|].
  assert (no_panic (take 10 (trace (10^9)%Z (10^8)%Z acts))) as Hp
    by (apply no_panics_ok; vm_compute; reflexivity).
  assert (readings (fun n => 10^9 <= n /\ 10^8 <= n)%Z (take 10 (trace (10^9)%Z (10^8)%Z acts))) as Hr.
  { intros t n Hn. eapply (readings_in_ok [now; now + 1]%Z) in Hn; [|vm_compute; reflexivity].
    rewrite !elem_of_cons, elem_of_nil in Hn. unfold now in Hn. lia. }
  exists acts, cf, (take 10 (trace (10^9)%Z (10^8)%Z acts)).
  split; [exact H|]. split; [exact Hp|]. split; [exact Hr|].
  eapply (C61_values_partial 0%Z (10^9)%Z (10^8)%Z (Some 0)); [exact H|exact Hp|exact Hr].
Qed.

(** C62, C63: a panicking and a failing refresh. *)
Example C62_example :
  exists cf cf' (evs : list (event Z nat nat)) (r : result Z nat), alone 0%Z (10^9)%Z 0%Z cf 1 (CRefresh (Some 1)) cf' evs r /\
    s_lock (c_sh cf) = None /\ OPanic ∈ finishes evs /\ r = RPanic.
Proof.
  destruct (alone_at (10^9)%Z 0%Z (refresh 0 now (OOk 7%Z)) 1 (CRefresh (Some 1))
    [LTick; LTick; LRef OPanic; LTick; LNow now; LTick; LTick; LTick; LTick]
    [ELock 1; EStart 1 1 7%Z; EFinish 1 OPanic; ENow 1 now; ESucc 1 now; EUnlock 1] RPanic)
    as (cf&cf'&H&Hk&Ha); [vm_compute; reflexivity..|].
  eexists cf, cf', _, _. split; [exact Ha|]. split; [exact Hk|].
  assert (OPanic ∈ finishes (T := Z) (E := nat) (F := nat) [ELock 1; EStart 1 1 7%Z; EFinish 1 OPanic; ENow 1 now; ESucc 1 now; EUnlock 1])
    as Hp by (cbn; apply elem_of_list_here).
  split; [exact Hp|].
  eapply (C62_panic_behaviour 0%Z (10^9)%Z 0%Z cf 1 (Some 1)) in Ha as [Hr _];
    [exact Hr|left; reflexivity|exact Hk|exact Hp].
Qed.
Example C63_example_raw :
  exists cf cf' (evs : list (event Z nat nat)) (r : result Z nat), alone 0%Z (10^9)%Z 0%Z cf 1 CRaw cf' evs r /\
    r = RRaw 7%Z (Some 5).
Proof.
  destruct (alone_at (10^9)%Z 0%Z (refresh 0 now (OOk 7%Z) ++ refresh 0 now (OErr 1%Z 5)) 1 CRaw
    [LTick; LNow (now + 1)%Z; LTick; LTick; LTick; LTick]
    [ENow 1 (now + 1)%Z] (RRaw 7%Z (Some 5)))
    as (cf&cf'&H&Hk&Ha); [vm_compute; reflexivity..|].
  eexists cf, cf', _, _. split; [exact Ha|].
  eapply (C64_raw_behaviour 0%Z (10^9)%Z 0%Z (Some 0) _ _ _ _ _ _ _ (now + 1)%Z (now + 1)%Z H Hk Ha).
  - intros n Hn. apply elem_of_list_singleton in Hn. injection Hn as ->. lia.
  - intros [[Hx _]|Hx]; revert Hx; vm_compute; discriminate.
  - intros [Hx _]. revert Hx. vm_compute. discriminate.
Qed.

(** C65: Clear with nothing in flight; the Get afterwards refreshes. *)
Example C65_example :
  exists acts cf (tr1 tr2 : list (event Z nat nat)) t c (tr3 : list (event Z nat nat)), crun (10^9)%Z 0%Z cnew acts =
      Some (cf, tr1 ++ EClear 1 :: tr2 ++ EInv t c :: tr3 ++ [EReturn t (RGet 8%Z None)]) /\
    in_flight tr1 = None /\ produced (tr2 ++ EInv t c :: tr3) 8%Z.
Proof.
  set (acts := refresh 0 now (OOk 7%Z) ++ clear 1 ++ get_refresh 0 now now now (OOk 8%Z)).
  destruct (run_cut (10^9)%Z 0%Z acts 9 (EClear 1)) as [cf H]; [vm_compute; reflexivity..|].
  assert (crun (10^9)%Z 0%Z cnew acts =
      Some (cf, take 9 (trace (10^9)%Z 0%Z acts) ++ EClear 1 :: take 1 (drop 10 (trace (10^9)%Z 0%Z acts)) ++
         EInv 0 (CGet (Some 1)) :: take 8 (drop 12 (trace (10^9)%Z 0%Z acts)) ++ [EReturn 0 (RGet 8%Z None)])) as H2.
  { rewrite H. f_equal. }
  eexists acts, cf, _, _, _, _, _. split; [exact H2|].
  assert (in_flight (take 9 (trace (10^9)%Z 0%Z acts)) = None) as Hf by (vm_compute; reflexivity).
  split; [exact Hf|].
  eapply (C65_clear_forces_partial 0%Z (10^9)%Z 0%Z (Some 0)); [exact H2|exact Hf| |].
  - apply no_panics_ok. vm_compute. reflexivity.
  - intros t n Hn. eapply (readings_in_ok [now]%Z) in Hn; [|vm_compute; reflexivity].
    apply elem_of_list_singleton in Hn as ->. vm_compute. split; discriminate.
Qed.

(** C66: goroutine 1 waits for the lock while goroutine 0 refreshes; it returns 7 without
    refreshing. *)
Definition stampede : list (action Z nat nat) :=
  take 10 (get_refresh 0 now now (now + 1) (OOk 7%Z)) ++
  (AInv 1 (CGet (Some 1)) :: (AStep 1 <$> [LTick; LNow now; LTick])) ++
  drop 10 (get_refresh 0 now now (now + 1) (OOk 7%Z)).
Example C66_example :
  exists cf cf' acts' evs r, crun (10^9)%Z 0%Z cnew stampede = Some (cf, trace (10^9)%Z 0%Z stampede) /\
    c_thr cf 1 = Some (G_lock (Some 1)) /\
    run 0%Z (10^9)%Z 0%Z cf (AStep 1 LTick :: acts') = Some (cf', evs ++ [EReturn 1 r]) /\
    r = RGet 7%Z None.
Proof.
  assert (exists cf, crun (10^9)%Z 0%Z cnew stampede = Some (cf, trace (10^9)%Z 0%Z stampede) /\
            c_thr cf 1 = Some (G_lock (Some 1)) /\ exists cf',
            run 0%Z (10^9)%Z 0%Z cf (AStep 1 LTick ::
              (AStep 1 <$> [LTick; LNow (now + 2)%Z; LTick; LTick; LTick; LTick])) =
            Some (cf', [ELock 1; ENow 1 (now + 2)%Z; EUnlock 1] ++ [EReturn 1 (RGet 7%Z None)]))
    as (cf&H&Ht&cf'&H2).
  { eexists. split; [vm_compute; reflexivity|]. split; [vm_compute; reflexivity|].
    eexists. vm_compute. reflexivity. }
  eexists cf, cf', _, _, _. split; [exact H|]. split; [exact Ht|]. split; [exact H2|].
  eapply (C66_no_stampede 0%Z (10^9)%Z 0%Z (Some 0)) in H2 as [Hr _]; [|exact H|exact Ht|..].
  - etransitivity; [exact Hr|vm_compute; reflexivity].
  - intros r' Hr'. repeat (apply elem_of_cons in Hr' as [Hr'|Hr']; [discriminate Hr'|]).
    exact (not_elem_of_nil _ Hr').
  - intros u Hu. repeat (apply elem_of_cons in Hu as [Hu|Hu]; [discriminate Hu|]).
    exact (not_elem_of_nil _ Hu).
  - intros n Hn. assert (n = (now + 2)%Z) as ->.
    { repeat (apply elem_of_cons in Hn as [Hn|Hn];
        [first [discriminate Hn|injection Hn as ->; reflexivity]|]).
      exfalso. exact (not_elem_of_nil _ Hn). }
    right. vm_compute. reflexivity.
Qed.

(** C83: in the same execution goroutine 1 waits for the lock that goroutine 0 holds. *)
Example C83_example :
  exists cf, crun (10^9)%Z 0%Z cnew (take 15 stampede) = Some (cf, trace (10^9)%Z 0%Z (take 15 stampede)) /\
    waiting cf 1 /\ s_lock (c_sh cf) = Some 0 /\
    (can_move 0%Z (10^9)%Z 0%Z cf 1 \/
     (waiting cf 1 /\ exists u, s_lock (c_sh cf) = Some u /\ can_move 0%Z (10^9)%Z 0%Z cf u)).
Proof.
  assert (exists cf, crun (10^9)%Z 0%Z cnew (take 15 stampede) =
            Some (cf, trace (10^9)%Z 0%Z (take 15 stampede)) /\
            c_thr cf 1 = Some (G_lock (Some 1)) /\ s_lock (c_sh cf) = Some 0) as (cf&H&Ht&Hk).
  { eexists. split; [vm_compute; reflexivity|]. split; vm_compute; reflexivity. }
  exists cf. split; [exact H|]. split; [exists (Some 1); by left|]. split; [exact Hk|].
  eapply (C83_no_deadlock 0%Z (10^9)%Z 0%Z (Some 0)); [exact H|exact Ht].
Qed.

Print Assumptions C59_get_behaviour.
Print Assumptions C60_single_refresh.
Print Assumptions C61_values_partial.
Print Assumptions C62_panic_behaviour.
Print Assumptions C63_failures_keep_value.
Print Assumptions C64_raw_behaviour.
Print Assumptions C65_clear_forces_partial.
Print Assumptions C66_no_stampede.
Print Assumptions C83_no_deadlock.
