(** Calls that run undisturbed. *)
From Coq Require Import ZifyBool.
From Verif Require Import Base RefreshCacheModel RefreshCacheSpec RefreshCacheProofs.

Section solo.
Context {T E F : Type} (zero : T) (maxAge errAge : Z).
Local Notation event := (event T E F).
Local Notation config := (config T E F).
Local Notation pc := (pc T E F).
Local Notation shared := (shared T E F).
Local Notation run := (run zero maxAge errAge).
Local Notation act := (act zero maxAge errAge).
Local Notation step := (step zero maxAge errAge).

(** Goroutine [t] at [p] runs to its return. *)
Inductive solo (t : nat) : pc -> shared -> shared -> list event -> result T E -> Prop :=
| solo_ret r s : solo t (X_ret r) s s [] r
| solo_step p s lab p' s1 ev s2 evs r :
    step t p s lab = Some (Some p', s1, ev) -> solo t p' s1 s2 evs r ->
    solo t p s s2 (ev ++ evs) r.

Lemma run_solo t labs (cf cf' : config) p evs :
  c_thr cf t = Some p -> run cf (AStep t <$> labs) = Some (cf', evs) ->
  (exists evs0 r, evs = evs0 ++ [EReturn t r] /\ solo t p (c_sh cf) (c_sh cf') evs0 r) \/
  (forall r, EReturn t r ∉ evs).
Proof.
  revert cf p evs. induction labs as [|lab labs IH]; intros cf p evs Hp H.
  { cbn in H. injection H as <- <-. right. intros r Hr. by apply elem_of_nil in Hr. }
  cbn in H. rewrite Hp in H.
  destruct (step t p (c_sh cf) lab) as [[[q s'] ev]|] eqn:Es; [|done].
  destruct q as [p'|].
  - destruct (run _ (AStep t <$> labs)) as [[c2 e2]|] eqn:Er; [|done]. injection H as <- <-.
    apply IH with (p := p') in Er; [|cbn; by rewrite fn_lookup_insert]. cbn in Er.
    assert (forall r, EReturn t r ∉ ev) as Hno.
    { intros r Hr. clear -Es Hr. rename r into r1.
      destruct p as [f|f l| |f|f n| |f|f|f|f n| |f|f n| |f|[f|]|f old|r v|r|r n|r|r e|r|r n|r|r
                  |f|[[f old]|]|f old| |l| | |n| | |v| | | | | |f|f|r];
      destruct lab as [|n'|o|[e'|]]; cbn in Es; try discriminate Es;
      repeat (match type of Es with
            | context [if ?b then _ else _] => destruct b eqn:?
            | context [match s_lock ?s with _ => _ end] => destruct (s_lock s) eqn:?
            | context [match s_ref ?s with _ => _ end] => destruct (s_ref s) as [[?|]|] eqn:?
            | context [match s_clr ?s with _ => _ end] => destruct (s_clr s) as [[?|]|] eqn:?
            end; try discriminate Es);
      injection Es as _ _ <-;
      repeat (apply elem_of_cons in Hr as [Hr|Hr]; [discriminate Hr|]); by apply elem_of_nil in Hr. }
    destruct Er as [(evs0&r&->&Hs)|Hr].
    + left. exists (ev ++ evs0), r. split; [by rewrite (assoc_L (++))|]. by eapply solo_step.
    + right. intros r Hi. apply elem_of_app in Hi as [Hi|Hi]; [by eapply Hno|by eapply Hr].
  - (* returned *)
    assert (exists r, p = X_ret r /\ s' = c_sh cf /\ ev = [EReturn t r]) as (r&->&->&->).
    { clear -Es.
      destruct p as [f|f l| |f|f n| |f|f|f|f n| |f|f n| |f|[f|]|f old|r v|r|r n|r|r e|r|r n|r|r
                  |f|[[f old]|]|f old| |l| | |n| | |v| | | | | |f|f|r];
      destruct lab as [|n'|o|[e'|]]; cbn in Es; try discriminate Es;
      repeat (match type of Es with
            | context [if ?b then _ else _] => destruct b eqn:?
            | context [match s_lock ?s with _ => _ end] => destruct (s_lock s) eqn:?
            | context [match s_ref ?s with _ => _ end] => destruct (s_ref s) as [[?|]|] eqn:?
            | context [match s_clr ?s with _ => _ end] => destruct (s_clr s) as [[?|]|] eqn:?
            end; try discriminate Es).
      injection Es as <- <-. eauto. }
    destruct labs as [|lab' labs].
    + cbn in H. injection H as <- <-. left. exists [], r. split; [done|]. apply solo_ret.
    + exfalso. cbn in H. rewrite fn_lookup_insert in H. done.
Qed.

Lemma alone_solo cf t c cf' tr r :
  alone zero maxAge errAge cf t c cf' tr r -> solo t (enter c) (c_sh cf) (c_sh cf') tr r.
Proof.
  intros [labs H]. cbn in H. destruct (c_thr cf t) as [p|] eqn:Et; [done|].
  destruct (run _ (AStep t <$> labs)) as [[c2 e2]|] eqn:Er; [|done].
  injection H as -> ->. eapply run_solo with (p := enter c) in Er; [|cbn; by rewrite fn_lookup_insert].
  destruct Er as [(evs0&r'&He&Hs)|Hr].
  - apply app_inj_tail in He as [-> [= ->]]. exact Hs.
  - exfalso. eapply Hr. apply elem_of_app. right. apply elem_of_list_here.
Qed.

(** One step back. *)
Lemma solo_inv t p s s' evs r :
  solo t p s s' evs r ->
  (p = X_ret r /\ s' = s /\ evs = []) \/
  exists lab p' s1 ev evs', step t p s lab = Some (Some p', s1, ev) /\ solo t p' s1 s' evs' r /\
    evs = ev ++ evs'.
Proof. destruct 1; [left; done|right; eauto 10]. Qed.

Ltac sinv H :=
  let lab := fresh "lab" in let p' := fresh "p'" in let s1 := fresh "s1" in
  let ev := fresh "ev" in let evs := fresh "evs" in let Es := fresh "Es" in let Hs := fresh "Hs" in
  apply solo_inv in H as [(?&?&?)|(lab&p'&s1&ev&evs&Es&Hs&->)]; 
  [try discriminate
  |destruct lab as [|?n|?o|[?e|]]; cbn in Es; try discriminate Es].

Lemma solo_ret_inv t r0 s s' evs r :
  solo t (X_ret r0) s s' evs r -> s' = s /\ evs = [] /\ r = r0.
Proof. intros H. sinv H. naive_solver. Qed.

Lemma solo_unlock_inv t r0 s s' evs r :
  solo t (U_unlock r0) s s' evs r -> s' = set_lock None s /\ evs = [EUnlock t] /\ r = r0.
Proof.
  intros H. sinv H. injection Es as <- <- <-. apply solo_ret_inv in Hs as (->&->&->). done.
Qed.

(** The deferred closure. *)
Lemma solo_after t o s s' evs r :
  solo t (after zero o) s s' evs r ->
  exists n, after_record zero o n s s' /\ r = result_of o /\ ENow t n ∈ evs /\
    starts evs = [] /\ finishes evs = [].
Proof.
  destruct o as [v|v e|]; cbn; intros H.
  - sinv H. injection Es as <- <- <-. sinv Hs. injection Es as <- <- <-.
    sinv Hs0. injection Es as <- <- <-. sinv Hs. injection Es as <- <- <-.
    apply solo_unlock_inv in Hs0 as (->&->&->). exists n. split; [|split; [done|]].
    + by repeat split.
    + split; [|done]. cbn. apply elem_of_list_here.
  - sinv H. injection Es as <- <- <-. sinv Hs. injection Es as <- <- <-.
    sinv Hs0. injection Es as <- <- <-. sinv Hs. injection Es as <- <- <-.
    apply solo_unlock_inv in Hs0 as (->&->&->). exists n. split; [|split; [done|]].
    + by repeat split.
    + split; [|done]. cbn. apply elem_of_list_here.
  - sinv H. injection Es as <- <- <-. sinv Hs. injection Es as <- <- <-.
    sinv Hs0. injection Es as <- <- <-. sinv Hs. injection Es as <- <- <-.
    apply solo_unlock_inv in Hs0 as (->&->&->). exists n. split; [|split; [done|]].
    + by repeat split.
    + split; [|done]. cbn. apply elem_of_list_here.
Qed.

Lemma solo_call t f s s' evs r :
  solo t (C_old f) s s' evs r -> refreshed zero f t s s' evs r.
Proof.
  intros H. destruct f as [g|].
  - sinv H. injection Es as <- <- <-. sinv Hs. injection Es as <- <- <-.
    apply solo_after in Hs0 as (n&H1&H2&H3&H4&H5). exists o, n.
    split; [done|]. split; [done|]. split; [cbn; by do 2 right|].
    unfold starts, finishes in *. cbn. rewrite H4, H5. done.
  - sinv H. injection Es as <- <- <-. apply (solo_after _ OPanic) in Hs as (n&H1&H2&H3&H4&H5).
    exists OPanic, n.
    split; [done|]. split; [done|]. split; [cbn; by right|].
    unfold starts, finishes in *. cbn. rewrite H4, H5. done.
Qed.

Lemma refreshed_cons f t (s s' : shared) (ev evs : list event) r :
  (starts ev = [] /\ finishes ev = []) -> refreshed zero f t s s' evs r -> refreshed zero f t s s' (ev ++ evs) r.
Proof.
  intros [H1 H2] (o&n&A&B&C&D&G). exists o, n. unfold starts, finishes in *.
  rewrite !omap_app, H1, H2. split; [done|]. split; [done|]. split; [|done].
  apply elem_of_app. by right.
Qed.
Lemma refreshed_lock f t t' (s s' : shared) (evs : list event) r :
  refreshed zero f t (set_lock t' s) s' evs r -> refreshed zero f t s s' evs r.
Proof.
  intros (o&n&A&B&C&D&G). exists o, n. split; [|done]. by destruct o.
Qed.

(** ** Get *)
(** Get from the lock on: [n1], [n2] the two clock readings. *)
Lemma shared_relock (s : shared) t : s_lock s = None -> set_lock None (set_lock t s) = s.
Proof. destruct s. cbn. by intros ->. Qed.

Lemma bool_fresh l n :
  fresh_at maxAge l n <-> (maxAge <? 0)%Z && (0 <? l)%Z = true \/ (n - l <? maxAge)%Z = true.
Proof. unfold fresh_at. lia. Qed.

(** The general form: what Get does when all its clock readings lie between [a] and [b]. *)
Definition get_spec (a b : Z) (f : option F) (t : nat) (s s' : shared) (evs : list event)
    (r : result T E) : Prop :=
  (fresh_at maxAge (s_last s) b -> r = RGet (s_data s) None /\ cached s s' evs) /\
  (~ fresh_at maxAge (s_last s) a -> err_fresh_at errAge (s_lasterr s) b ->
     r = RGet zero (s_err s) /\ cached s s' evs) /\
  (~ fresh_at maxAge (s_last s) a -> ~ err_fresh_at errAge (s_lasterr s) a ->
     refreshed zero f t s s' evs r).

Lemma solo_locked t f s0 s' evs r a b :
  s_lock s0 = None ->
  solo t (L_last f) (set_lock (Some t) s0) s' evs r -> readings_of t (fun n => a <= n <= b)%Z evs ->
  get_spec a b f t s0 s' evs r.
Proof.
  intros Hk H Hr. sinv H. cbn in Es.
  destruct ((maxAge <? 0)%Z && (0 <? s_last s0)%Z) eqn:E1.
  { injection Es as <- <- <-. sinv Hs. injection Es as <- <- <-.
    apply solo_unlock_inv in Hs0 as (->&->&->).
    assert (forall n, fresh_at maxAge (s_last s0) n) as Hf by (intros n; apply bool_fresh; auto).
    split; [|split].
    - intros _. split; [done|]. split; [by apply shared_relock|done].
    - intros Hn. exfalso. apply Hn, Hf.
    - intros Hn. exfalso. apply Hn, Hf. }
  injection Es as <- <- <-. sinv Hs. injection Es as <- <- <-. sinv Hs0. cbn in Es.
  assert (a <= n <= b)%Z as Hn1 by (apply Hr; cbn; apply elem_of_list_here).
  destruct (n - s_last s0 <? maxAge)%Z eqn:E2.
  { injection Es as <- <- <-. sinv Hs. injection Es as <- <- <-.
    apply solo_unlock_inv in Hs0 as (->&->&->).
    assert (fresh_at maxAge (s_last s0) a) as Hf by (apply bool_fresh; lia).
    split; [|split].
    - intros _. split; [done|]. split; [by apply shared_relock|done].
    - done.
    - done. }
  injection Es as <- <- <-.
  assert (~ fresh_at maxAge (s_last s0) b) as Hnf by (rewrite bool_fresh; lia).
  split; [done|]. sinv Hs.
  - (* errAge <= 0 *)
    destruct (0 <? errAge)%Z eqn:E3; [done|]. injection Es as <- <- <-.
    split; [intros _ [? _]; lia|]. intros _ _. apply solo_call, refreshed_lock in Hs0.
    by apply (refreshed_cons _ _ _ _ [ENow t n]).
  - destruct (0 <? errAge)%Z eqn:E3; [|done]. injection Es as <- <- <-. sinv Hs0. cbn in Es.
    assert (a <= n0 <= b)%Z as Hn2 by (apply Hr; cbn; do 1 right; apply elem_of_list_here).
    destruct (n0 - s_lasterr s0 <? errAge)%Z eqn:E4.
    + injection Es as <- <- <-. sinv Hs. injection Es as <- <- <-.
      apply solo_unlock_inv in Hs0 as (->&->&->). split.
      * intros _ _. split; [done|]. split; [by apply shared_relock|done].
      * intros _ Hx. exfalso. apply Hx. unfold err_fresh_at. lia.
    + injection Es as <- <- <-. split; [intros _ [? ?]; lia|]. intros _ _.
      apply solo_call, refreshed_lock in Hs. by apply (refreshed_cons _ _ _ _ [ENow t n; ENow t n0]).
Qed.

Lemma solo_get t f s s' evs r a b :
  s_lock s = None -> solo t (G_last f) s s' evs r ->
  readings_of t (fun n => a <= n <= b)%Z evs -> get_spec a b f t s s' evs r.
Proof.
  intros Hk H Hr. sinv H. injection Es as <- <- <-. sinv Hs.
  - destruct ((maxAge <? 0)%Z && (0 <? s_last s)%Z) eqn:E1; [|done]. injection Es as <- <- <-.
    sinv Hs0. injection Es as <- <- <-. apply solo_ret_inv in Hs as (->&->&->).
    assert (forall n, fresh_at maxAge (s_last s) n) as Hf by (intros n; apply bool_fresh; auto).
    split; [done|]. split; intros Hn; exfalso; apply Hn, Hf.
  - destruct ((maxAge <? 0)%Z && (0 <? s_last s)%Z) eqn:E1; [done|].
    assert (a <= n <= b)%Z as Hn1.
    { destruct (n - s_last s <? maxAge)%Z; injection Es as <- <- <-; apply Hr; cbn; apply elem_of_list_here. }
    destruct (n - s_last s <? maxAge)%Z eqn:E2; injection Es as <- <- <-.
    { sinv Hs0. injection Es as <- <- <-. apply solo_ret_inv in Hs as (->&->&->).
      assert (fresh_at maxAge (s_last s) a) as Hf by (apply bool_fresh; lia).
      split; [done|]. split; intros Hn; done. }
    assert (~ fresh_at maxAge (s_last s) b) as Hnf by (rewrite bool_fresh; lia).
    sinv Hs0.
    + destruct (0 <? errAge)%Z eqn:E3; [done|]. injection Es as <- <- <-.
      sinv Hs. rewrite Hk in Es. injection Es as <- <- <-.
      eapply solo_locked in Hs0; [|done|].
      2:{ intros m Hm. apply Hr. cbn. do 2 right. exact Hm. }
      destruct Hs0 as (A&B&C). split; [done|]. split.
      * intros Ha Hb. destruct (B Ha Hb) as (?&?&?&?). split; [done|]. done.
      * intros Ha Hb. by apply (refreshed_cons _ _ _ _ [ENow t n; ELock t]), C.
    + destruct (0 <? errAge)%Z eqn:E3; [|done]. injection Es as <- <- <-.
      assert (a <= n0 <= b)%Z as Hn2 by (apply Hr; cbn; right; apply elem_of_list_here).
      sinv Hs. cbn in Es.
      destruct (n0 - s_lasterr s <? errAge)%Z eqn:E4; injection Es as <- <- <-.
      * sinv Hs0. injection Es as <- <- <-. apply solo_ret_inv in Hs as (->&->&->).
        split; [done|]. split; [done|]. intros _ Hx. exfalso. apply Hx. unfold err_fresh_at. lia.
      * sinv Hs0. rewrite Hk in Es. injection Es as <- <- <-.
        eapply solo_locked in Hs; [|done|].
        2:{ intros m Hm. apply Hr. cbn. do 3 right. exact Hm. }
        destruct Hs as (A&B&C). split; [done|]. split.
        -- intros Ha Hb. destruct (B Ha Hb) as (?&?&?&?). split; [done|]. done.
        -- intros Ha Hb. by apply (refreshed_cons _ _ _ _ [ENow t n; ENow t n0; ELock t]), C.
Qed.

Lemma solo_refresh t f s s' evs r :
  s_lock s = None -> solo t (R_lock f) s s' evs r -> refreshed zero f t s s' evs r.
Proof.
  intros Hk H. sinv H. rewrite Hk in Es. injection Es as <- <- <-.
  apply solo_call, refreshed_lock in Hs. by apply (refreshed_cons _ _ _ _ [ELock t]).
Qed.

(** Get refreshes once or changes nothing. *)
Lemma solo_locked_cases t f (s0 s' : shared) evs r :
  s_lock s0 = None -> solo t (L_last f) (set_lock (Some t) s0) s' evs r ->
  cached s0 s' evs \/ refreshed zero f t s0 s' evs r.
Proof.
  intros Hk H. sinv H. cbn in Es.
  destruct ((maxAge <? 0)%Z && (0 <? s_last s0)%Z) eqn:E1; injection Es as <- <- <-.
  { sinv Hs. injection Es as <- <- <-. apply solo_unlock_inv in Hs0 as (->&->&->).
    left. split; [by apply shared_relock|done]. }
  sinv Hs. injection Es as <- <- <-. sinv Hs0. cbn in Es.
  destruct (n - s_last s0 <? maxAge)%Z eqn:E2; injection Es as <- <- <-.
  { sinv Hs. injection Es as <- <- <-. apply solo_unlock_inv in Hs0 as (->&->&->).
    left. split; [by apply shared_relock|done]. }
  sinv Hs.
  - destruct (0 <? errAge)%Z eqn:E3; [done|]. injection Es as <- <- <-. right.
    apply solo_call, refreshed_lock in Hs0. by apply (refreshed_cons _ _ _ _ [ENow t n]).
  - destruct (0 <? errAge)%Z eqn:E3; [|done]. injection Es as <- <- <-. sinv Hs0. cbn in Es.
    destruct (n0 - s_lasterr s0 <? errAge)%Z eqn:E4; injection Es as <- <- <-.
    + sinv Hs. injection Es as <- <- <-. apply solo_unlock_inv in Hs0 as (->&->&->).
      left. split; [by apply shared_relock|done].
    + right. apply solo_call, refreshed_lock in Hs.
      by apply (refreshed_cons _ _ _ _ [ENow t n; ENow t n0]).
Qed.

Lemma cached_cons (s s' : shared) (ev evs : list event) :
  (starts ev = [] /\ finishes ev = []) -> cached s s' evs -> cached s s' (ev ++ evs).
Proof.
  intros [H1 H2] (->&H3&H4). unfold cached, starts, finishes in *.
  rewrite !omap_app, H1, H2, H3, H4. done.
Qed.

Lemma solo_get_cases t f (s s' : shared) evs r :
  s_lock s = None -> solo t (G_last f) s s' evs r ->
  cached s s' evs \/ refreshed zero f t s s' evs r.
Proof.
  intros Hk H. sinv H. injection Es as <- <- <-. sinv Hs.
  - destruct ((maxAge <? 0)%Z && (0 <? s_last s)%Z) eqn:E1; [|done]. injection Es as <- <- <-.
    sinv Hs0. injection Es as <- <- <-. apply solo_ret_inv in Hs as (->&->&->). by left.
  - destruct ((maxAge <? 0)%Z && (0 <? s_last s)%Z) eqn:E1; [done|].
    destruct (n - s_last s <? maxAge)%Z eqn:E2; injection Es as <- <- <-.
    { sinv Hs0. injection Es as <- <- <-. apply solo_ret_inv in Hs as (->&->&->). by left. }
    sinv Hs0.
    + destruct (0 <? errAge)%Z eqn:E3; [done|]. injection Es as <- <- <-.
      sinv Hs. rewrite Hk in Es. injection Es as <- <- <-.
      apply solo_locked_cases in Hs0 as [Hs0|Hs0]; [left|right|done].
      * by apply (cached_cons _ _ [ENow t n; ELock t]).
      * by apply (refreshed_cons _ _ _ _ [ENow t n; ELock t]).
    + destruct (0 <? errAge)%Z eqn:E3; [|done]. injection Es as <- <- <-.
      sinv Hs. cbn in Es.
      destruct (n0 - s_lasterr s <? errAge)%Z eqn:E4; injection Es as <- <- <-.
      * sinv Hs0. injection Es as <- <- <-. apply solo_ret_inv in Hs as (->&->&->). by left.
      * sinv Hs0. rewrite Hk in Es. injection Es as <- <- <-.
        apply solo_locked_cases in Hs as [Hs|Hs]; [left|right|done].
        -- by apply (cached_cons _ _ [ENow t n; ENow t n0; ELock t]).
        -- by apply (refreshed_cons _ _ _ _ [ENow t n; ENow t n0; ELock t]).
Qed.

Lemma solo_panic_refreshed t f (s s' : shared) evs r o :
  s_lock s = None -> solo t (G_last f) s s' evs r -> o ∈ finishes evs ->
  refreshed zero f t s s' evs r.
Proof.
  intros Hk H Ho. apply solo_get_cases in H as [(_&_&H)|H]; [|done..].
  rewrite H in Ho. by apply elem_of_nil in Ho.
Qed.

(** ** Raw *)
Lemma solo_raw t s s' evs r a b :
  solo t W_last s s' evs r -> readings_of t (fun n => a <= n <= b)%Z evs ->
  cached s s' evs /\
  (fresh_at maxAge (s_last s) b -> r = RRaw (s_data s) None) /\
  (~ fresh_at maxAge (s_last s) a -> err_fresh_at errAge (s_lasterr s) b -> r = RRaw zero (s_err s)) /\
  (~ fresh_at maxAge (s_last s) a -> ~ err_fresh_at errAge (s_lasterr s) a ->
     r = RRaw (s_data s) (s_err s)).
Proof.
  intros H Hr. sinv H. injection Es as <- <- <-. sinv Hs.
  - destruct ((maxAge <? 0)%Z && (0 <? s_last s)%Z) eqn:E1; [|done]. injection Es as <- <- <-.
    sinv Hs0. injection Es as <- <- <-. apply solo_ret_inv in Hs as (->&->&->).
    assert (forall n, fresh_at maxAge (s_last s) n) as Hf by (intros n; apply bool_fresh; auto).
    split; [done|]. split; [done|]. split; intros Hn; exfalso; apply Hn, Hf.
  - destruct ((maxAge <? 0)%Z && (0 <? s_last s)%Z) eqn:E1; [done|].
    assert (a <= n <= b)%Z as Hn1.
    { destruct (n - s_last s <? maxAge)%Z; injection Es as <- <- <-; apply Hr; cbn; apply elem_of_list_here. }
    destruct (n - s_last s <? maxAge)%Z eqn:E2; injection Es as <- <- <-.
    { sinv Hs0. injection Es as <- <- <-. apply solo_ret_inv in Hs as (->&->&->).
      assert (fresh_at maxAge (s_last s) a) as Hf by (apply bool_fresh; lia).
      split; [done|]. split; [done|]. split; intros Hn; done. }
    assert (~ fresh_at maxAge (s_last s) b) as Hnf by (rewrite bool_fresh; lia).
    sinv Hs0.
    + destruct (0 <? errAge)%Z eqn:E3; [done|]. injection Es as <- <- <-.
      sinv Hs. injection Es as <- <- <-. sinv Hs0. injection Es as <- <- <-.
      apply solo_ret_inv in Hs as (->&->&->).
      split; [done|]. split; [done|]. split; [|done]. intros _ [? _]. lia.
    + destruct (0 <? errAge)%Z eqn:E3; [|done]. injection Es as <- <- <-.
      assert (a <= n0 <= b)%Z as Hn2 by (apply Hr; cbn; right; apply elem_of_list_here).
      sinv Hs. cbn in Es.
      destruct (n0 - s_lasterr s <? errAge)%Z eqn:E4; injection Es as <- <- <-.
      * sinv Hs0. injection Es as <- <- <-. apply solo_ret_inv in Hs as (->&->&->).
        split; [done|]. split; [done|]. split; [done|]. intros _ Hx. exfalso. apply Hx. unfold err_fresh_at. lia.
      * sinv Hs0. injection Es as <- <- <-. sinv Hs. injection Es as <- <- <-.
        apply solo_ret_inv in Hs0 as (->&->&->).
        split; [done|]. split; [done|]. split; [|done]. intros _ [_ ?]. lia.
Qed.

(** ** Clear *)
Lemma solo_clear t f s s' evs r :
  solo t (enter (CClear f)) s s' evs r -> s' = set_last 0%Z s /\ starts evs = [] /\ finishes evs = [] /\
  match f with
  | None => r = RClear None
  | Some g => EKStart t g (s_data s) ∈ evs
  end.
Proof.
  intros H. destruct f as [g|]; cbn in H.
  - sinv H. injection Es as <- <- <-. sinv Hs. injection Es as <- <- <-. sinv Hs0.
    + injection Es as <- <- <-. apply solo_ret_inv in Hs as (->&->&->).
      split; [done|]. split; [done|]. split; [done|]. cbn. right. apply elem_of_list_here.
    + injection Es as <- <- <-. apply solo_ret_inv in Hs as (->&->&->).
      split; [done|]. split; [done|]. split; [done|]. cbn. right. apply elem_of_list_here.
  - sinv H. injection Es as <- <- <-. apply solo_ret_inv in Hs as (->&->&->). done.
Qed.

End solo.
