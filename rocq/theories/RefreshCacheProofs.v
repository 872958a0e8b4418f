(** Invariants of every execution of the refresh cache. *)
From Coq Require Import ZifyBool.
From Verif Require Import Base RefreshCacheModel RefreshCacheSpec.

Section proofs.
Context {T E F : Type} (zero : T) (maxAge errAge : Z).
Local Notation event := (event T E F).
Local Notation config := (config T E F).
Local Notation pc := (pc T E F).
Local Notation shared := (shared T E F).
Local Notation run := (run zero maxAge errAge).
Local Notation act := (act zero maxAge errAge).
Local Notation step := (step zero maxAge errAge).

(** ** Executions *)
Lemma run_app (cf : config) (a1 a2 : list (action T E F)) :
  run cf (a1 ++ a2) =
  match run cf a1 with
  | None => None
  | Some (cf1, e1) => match run cf1 a2 with
                      | None => None
                      | Some (cf2, e2) => Some (cf2, e1 ++ e2)
                      end
  end.
Proof.
  revert cf. induction a1 as [|a a1 IH]; intros cf.
  { cbn. destruct (run cf a2) as [[c e]|]; done. }
  cbn. destruct (act cf a) as [[c1 e1]|]; [|done].
  rewrite IH. destruct (run c1 a1) as [[c2 e2]|]; [|done].
  destruct (run c2 a2) as [[c3 e3]|]; [|done]. by rewrite (assoc_L (++)).
Qed.

(** An invariant that may also talk about the trace so far. *)
Lemma run_inv (I : list event -> config -> Prop) :
  (forall tr cf a cf' ev, I tr cf -> act cf a = Some (cf', ev) -> I (tr ++ ev) cf') ->
  forall acts tr cf cf' ev, I tr cf -> run cf acts = Some (cf', ev) -> I (tr ++ ev) cf'.
Proof.
  intros Hs acts. induction acts as [|a acts IH]; intros tr cf cf' ev HI H; cbn in H.
  { injection H as <- <-. by rewrite app_nil_r. }
  destruct (act cf a) as [[c1 e1]|] eqn:Ea; [|done].
  destruct (run c1 acts) as [[c2 e2]|] eqn:Er; [|done].
  injection H as <- <-. rewrite (assoc_L (++)). eapply IH; [|exact Er]. by eapply Hs.
Qed.

(** The moment of a given event: the trace splits the execution (each action emits at most
    two events, so the split is at an action). *)
Lemma run_split (acts : list (action T E F)) (cf cf' : config) tr1 e tr2 :
  run cf acts = Some (cf', tr1 ++ e :: tr2) ->
  exists acts1 a acts2 cf1 cf2 evs0 pre post evs3,
    acts = acts1 ++ a :: acts2 /\ run cf acts1 = Some (cf1, evs0) /\
    act cf1 a = Some (cf2, pre ++ e :: post) /\ run cf2 acts2 = Some (cf', evs3) /\
    tr1 = evs0 ++ pre /\ tr2 = post ++ evs3.
Proof.
  revert cf tr1. induction acts as [|a acts IH]; intros cf tr1 H; cbn in H.
  { injection H as _ H. by destruct tr1. }
  destruct (act cf a) as [[c1 e1]|] eqn:Ea; [|done].
  destruct (run c1 acts) as [[c2 e2]|] eqn:Er; [|done].
  injection H as -> H.
  destruct (decide (length e1 <= length tr1)) as [Hl|Hl].
  - assert (exists l, tr1 = e1 ++ l) as [l ->].
    { exists (drop (length e1) tr1). rewrite <- (take_drop (length e1) tr1) at 1. f_equal.
      assert (take (length e1) (e1 ++ e2) = take (length e1) (tr1 ++ e :: tr2)) as Ht by (by rewrite H).
      rewrite take_app, take_app_le in Ht by done. done. }
    rewrite <- (assoc_L (++)) in H. apply app_inv_head in H. subst e2.
    destruct (IH _ _ Er) as (acts1&a'&acts2&cf1&cf2&evs0&pre&post&evs3&->&H1&H2&H3&->&->).
    exists (a :: acts1), a', acts2, cf1, cf2, (e1 ++ evs0), pre, post, evs3.
    split; [done|]. split; [cbn; rewrite Ea, H1; done|].
    split; [done|]. split; [done|]. split; [|done]. by rewrite (assoc_L (++)).
  - assert (exists post, e1 = tr1 ++ e :: post /\ tr2 = post ++ e2) as (post&->&->).
    { exists (drop (S (length tr1)) e1).
      assert (take (length e1) (e1 ++ e2) = take (length e1) (tr1 ++ e :: tr2)) as Ht by (by rewrite H).
      assert (drop (length e1) (e1 ++ e2) = drop (length e1) (tr1 ++ e :: tr2)) as Hd by (by rewrite H).
      rewrite take_app, take_app_ge in Ht by lia.
      rewrite drop_app, drop_app_ge in Hd by lia.
      destruct (length e1 - length tr1) as [|k] eqn:Ek; [lia|]. cbn in Ht, Hd.
      assert (drop (S (length tr1)) e1 = take k tr2) as Hx.
      { rewrite Ht. rewrite drop_app_ge by lia.
        replace (S (length tr1) - length tr1) with 1 by lia. done. }
      rewrite Hx. split; [done|]. rewrite Hd. by rewrite take_drop. }
    exists [], a, acts, cf, c1, [], tr1, post, e2. done.
Qed.

(** ** The lock *)
Definition holds (p : pc) : bool :=
  match p with
  | L_last _ | L_now _ | L_fresh _ _ | L_data | L_err0 _ | L_err1 _ _ | L_err
  | C_old _ | C_run _ _ | D_data _ _ | D_now _ | D_last _ _ | D_lasterr0 _
  | D_err _ _ | D_enow _ | D_lasterr _ _ | D_last0 _ | U_unlock _ => true
  | _ => false
  end.

(** What is known about the fields when the goroutine holding the lock is at [p]. *)
Definition ledger (tr : list event) (s : shared) (u : nat) (p : pc) : Prop :=
  running tr = (match p with C_run _ _ => Some u | _ => None end) /\
  (match p with
   | C_run _ _ | D_data _ _ | D_now _ | D_last _ _ | D_lasterr0 _
   | D_err _ _ | D_enow _ | D_lasterr _ _ | D_last0 _ => in_flight tr = Some u
   | U_unlock _ => True
   | _ => in_flight tr = None
   end) /\
  recorded zero tr = (match p with D_data _ v => v | _ => s_data s end) /\
  success_time tr = (match p with D_last0 _ => 0%Z | _ => s_last s end) /\
  failure_time tr = (match p with D_lasterr0 _ => 0%Z | _ => s_lasterr s end) /\
  last_error tr = (match p with D_err _ e => Some e | _ => s_err s end).

Definition settled (tr : list event) (s : shared) : Prop :=
  running tr = None /\ in_flight tr = None /\ recorded zero tr = s_data s /\
  success_time tr = s_last s /\ failure_time tr = s_lasterr s /\ last_error tr = s_err s.

Definition inv (tr : list event) (cf : config) : Prop :=
  (forall t p, c_thr cf t = Some p -> holds p = true -> s_lock (c_sh cf) = Some t) /\
  match s_lock (c_sh cf) with
  | None => settled tr (c_sh cf)
  | Some u => exists p, c_thr cf u = Some p /\ holds p = true /\ ledger tr (c_sh cf) u p
  end.

Lemma inv_new (f : option F) : inv [] (new_config zero f).
Proof. split; [done|]. cbn. unfold settled. done. Qed.

(** The folds over one more chunk of events. *)
Lemma folds_app (tr ev : list event) :
  running (tr ++ ev) = foldl (fun r (e : event) => match e with
                    | EStart t _ _ => Some t | EFinish _ _ => None | _ => r end) (running tr) ev /\
  in_flight (tr ++ ev) = foldl (fun r (e : event) => match e with
                    | EStart t _ _ => Some t | EFinish t _ => Some t | EUnlock _ => None | _ => r
                    end) (in_flight tr) ev /\
  recorded zero (tr ++ ev) = foldl (fun v (e : event) => match e with
                    | EFinish _ (OOk w) => w | EFinish _ OPanic => zero | _ => v
                    end) (recorded zero tr) ev /\
  success_time (tr ++ ev) = foldl (fun x (e : event) => match e with
                    | ESucc _ n => n | EFail _ _ => 0%Z | EClear _ => 0%Z | _ => x
                    end) (success_time tr) ev /\
  failure_time (tr ++ ev) = foldl (fun x (e : event) => match e with
                    | ESucc _ _ => 0%Z | EFail _ n => n | _ => x end) (failure_time tr) ev /\
  last_error (tr ++ ev) = foldl (fun x (e : event) => match e with
                    | EFinish _ (OErr _ e) => Some e | _ => x end) (last_error tr) ev.
Proof. unfold running, in_flight, recorded, success_time, failure_time, last_error.
  rewrite !foldl_app. done. Qed.

(** The possible steps of one goroutine, by their effect on the lock. *)
Lemma step_cases t p (s : shared) lab q s' ev :
  step t p s lab = Some (q, s', ev) ->
  (holds p = false /\
   ((s_lock s' = s_lock s /\ (forall p', q = Some p' -> holds p' = false) /\
     s_data s' = s_data s /\ s_lasterr s' = s_lasterr s /\ s_err s' = s_err s /\
     ((s_last s' = s_last s /\ (ev = [] \/ (exists n, ev = [ENow t n]) \/ (exists r, ev = [EReturn t r]))) \/
      (s_last s' = 0%Z /\ (ev = [EClear t] \/ exists f old, ev = [EClear t; EKStart t f old])))) \/
    (s_lock s = None /\ s' = set_lock (Some t) s /\ ev = [ELock t] /\
     exists f, q = Some (L_last f) \/ q = Some (C_old f)))) \/
  (holds p = true /\
   ((s_lock s' = s_lock s /\ exists p', q = Some p' /\ holds p' = true) \/
    (s' = set_lock None s /\ exists r, p = U_unlock r /\ q = Some (X_ret r) /\ ev = [EUnlock t]))).
Proof.
  intros H.
  destruct p as [f|f l| |f|f n| |f|f|f|f n| |f|f n| |f|[f|]|f old|r v|r|r n|r|r e|r|r n|r|r
                |f|[[f old]|]|f old| |l| | |n| | |v| | | | | |f|f|r];
    destruct lab as [|n'|o|[e'|]]; cbn in H; try discriminate H;
    repeat (match type of H with
            | context [if ?b then _ else _] => destruct b eqn:?
            | context [match s_lock s with _ => _ end] => destruct (s_lock s) eqn:?
            | context [match s_ref s with _ => _ end] => destruct (s_ref s) as [[?|]|] eqn:?
            | context [match s_clr s with _ => _ end] => destruct (s_clr s) as [[?|]|] eqn:?
            end; try discriminate H);
    injection H as <- <- <-;
    (* not holding, staying so *)
    try (left; split; [reflexivity|]; left; cbn;
         split; [reflexivity|]; split; [intros p' [= <-]; reflexivity || intros p' [=]|];
         split; [reflexivity|]; split; [reflexivity|]; split; [reflexivity|];
         first [ left; split; [reflexivity|]; left; reflexivity
               | left; split; [reflexivity|]; right; left; eexists; reflexivity
               | left; split; [reflexivity|]; right; right; eexists; reflexivity
               | right; split; [reflexivity|]; left; reflexivity
               | right; split; [reflexivity|]; right; eexists _, _; reflexivity ]; fail);
    (* locking *)
    try (left; split; [reflexivity|]; right; split; [done|]; split; [reflexivity|];
         split; [reflexivity|]; eexists; first [left; reflexivity|right; reflexivity]);
    (* holding, staying so *)
    try (right; split; [reflexivity|]; left; split; [reflexivity|]; eexists; split; reflexivity);
    try (right; split; [reflexivity|]; right; split; [reflexivity|]; eexists; split; [reflexivity|];
         split; reflexivity).
  all: try (right; split; [reflexivity|]; left; split; [reflexivity|]; eexists; split; [reflexivity|];
            destruct o; reflexivity).
Qed.
(** Case analysis of a step: one goal per possible step. *)
Ltac step_inv H :=
  match type of H with
  | RefreshCacheModel.step _ _ _ _ ?p ?s ?lab = _ =>
    destruct p as [f|f l| |f|f n| |f|f|f|f n| |f|f n| |f|[f|]|f old|r v|r|r n|r|r e|r|r n|r|r
                  |f|[[f old]|]|f old| |l| | |n| | |v| | | | | |f|f|r];
    destruct lab as [|n'|o|[e'|]]; cbn in H; try discriminate H;
    repeat (match type of H with
            | context [if ?b then _ else _] => destruct b eqn:?
            | context [match s_lock s with _ => _ end] => destruct (s_lock s) eqn:?
            | context [match s_ref s with _ => _ end] => destruct (s_ref s) as [[?|]|] eqn:?
            | context [match s_clr s with _ => _ end] => destruct (s_clr s) as [[?|]|] eqn:?
            end; try discriminate H);
    injection H as <- <- <-
  end.

(** The holder's own steps. *)
Lemma ledger_step t p p' (s s' : shared) lab ev tr :
  step t p s lab = Some (Some p', s', ev) -> holds p = true -> holds p' = true ->
  ledger tr s t p -> ledger (tr ++ ev) s' t p'.
Proof.
  intros H Hp Hp' L.
  destruct (folds_app tr ev) as (F1&F2&F3&F4&F5&F6).
  step_inv H; try discriminate Hp; try discriminate Hp';
    try (destruct o as [w|w e'|]); cbn in Hp';
    destruct L as (L1&L2&L3&L4&L5&L6); unfold ledger;
    rewrite F1, ?F2, F3, F4, F5, F6, ?L1, ?L2, ?L3, ?L4, ?L5, ?L6;
    cbn; rewrite ?L1, ?L2, ?L3, ?L4, ?L5, ?L6;
    repeat (split; [done|]); done.
Qed.

(** A step of another goroutine does not disturb what the holder knows. *)
Lemma ledger_other u p (s s' : shared) t ev tr :
  s_data s' = s_data s -> s_lasterr s' = s_lasterr s -> s_err s' = s_err s ->
  ((s_last s' = s_last s /\ (ev = [] \/ (exists n, ev = [ENow t n]) \/ (exists r, ev = [EReturn t r]))) \/
   (s_last s' = 0%Z /\ (ev = [EClear t] \/ exists f old, ev = [EClear t; EKStart t f old]))) ->
  ledger tr s u p -> ledger (tr ++ ev) s' u p.
Proof.
  intros Hd Hl He Hev (L1&L2&L3&L4&L5&L6).
  destruct (folds_app tr ev) as (F1&F2&F3&F4&F5&F6). unfold ledger.
  rewrite F1, F2, F3, F4, F5, F6, Hd, Hl, He.
  destruct Hev as [[-> [->|[[n ->]|[r ->]]]]|[-> [->|(f&old&->)]]]; cbn;
    rewrite ?L1, ?L3, ?L4, ?L5, ?L6; repeat (split; [done|]);
    try (split; [by destruct p|]); done.
Qed.

Lemma settled_other (s s' : shared) t ev tr :
  s_data s' = s_data s -> s_lasterr s' = s_lasterr s -> s_err s' = s_err s ->
  ((s_last s' = s_last s /\ (ev = [] \/ (exists n, ev = [ENow t n]) \/ (exists r, ev = [EReturn t r]))) \/
   (s_last s' = 0%Z /\ (ev = [EClear t] \/ exists f old, ev = [EClear t; EKStart t f old]))) ->
  settled tr s -> settled (tr ++ ev) s'.
Proof.
  intros Hd Hl He Hev (L1&L2&L3&L4&L5&L6).
  destruct (folds_app tr ev) as (F1&F2&F3&F4&F5&F6). unfold settled.
  rewrite F1, F2, F3, F4, F5, F6, Hd, Hl, He.
  destruct Hev as [[-> [->|[[n ->]|[r ->]]]]|[-> [->|(f&old&->)]]]; cbn;
    rewrite ?L1, ?L2, ?L3, ?L4, ?L5, ?L6; done.
Qed.

Lemma inv_act tr cf a cf' ev : inv tr cf -> act cf a = Some (cf', ev) -> inv (tr ++ ev) cf'.
Proof.
  intros [HL HI] H. destruct a as [t c|t lab]; cbn in H.
  - destruct (c_thr cf t) as [q|] eqn:Et; [done|]. injection H as <- <-. cbn.
    assert (holds (enter c : pc) = false) as Hc by (by destruct c as [f|f|[f|]| | | | | | |f|f]).
    split; cbn.
    + intros t' p. destruct (decide (t = t')) as [->|Hn].
      { rewrite fn_lookup_insert. intros [= <-]. by rewrite Hc. }
      rewrite fn_lookup_insert_ne by done. apply HL.
    + destruct (folds_app tr [EInv t c]) as (F1&F2&F3&F4&F5&F6).
      destruct (s_lock (c_sh cf)) as [u|].
      * destruct HI as (p&Hu&Hp&L). exists p.
        rewrite fn_lookup_insert_ne by congruence. split; [done|]. split; [done|].
        unfold ledger. rewrite F1, F2, F3, F4, F5, F6. exact L.
      * unfold settled. rewrite F1, F2, F3, F4, F5, F6. exact HI.
  - destruct (c_thr cf t) as [p|] eqn:Et; [|done].
    destruct (step t p (c_sh cf) lab) as [[[q s'] ev']|] eqn:Es; [|done].
    injection H as <- <-. pose proof (step_cases _ _ _ _ _ _ _ Es) as SC.
    destruct SC as [[Hp [(Hk&Hq&Hd&Hle&He&Hev)|(Hk&->&->&f&Hq)]]|[Hp [(Hk&p'&->&Hp')|(->&r&->&->&->)]]].
    + split; cbn.
      * intros t' p0. rewrite Hk. destruct (decide (t = t')) as [->|Hn].
        { rewrite fn_lookup_insert. intros -> Hp0. by rewrite (Hq _ eq_refl) in Hp0. }
        rewrite fn_lookup_insert_ne by done. apply HL.
      * rewrite Hk. destruct (s_lock (c_sh cf)) as [u|] eqn:Eu.
        -- destruct HI as (p0&Hu&Hp0&L). exists p0.
           rewrite fn_lookup_insert_ne by congruence. split; [done|]. split; [done|].
           by eapply ledger_other.
        -- by eapply settled_other.
    + rewrite Hk in HI. split; cbn.
      * intros t' p0. destruct (decide (t = t')) as [->|Hn]; [done|].
        rewrite fn_lookup_insert_ne by done. intros H0 H1. specialize (HL _ _ H0 H1). congruence.
      * destruct HI as (L1&L2&L3&L4&L5&L6).
        destruct (folds_app tr [ELock t]) as (F1&F2&F3&F4&F5&F6).
        destruct Hq as [-> | ->]; eexists; rewrite fn_lookup_insert;
          (split; [done|]; split; [done|]; unfold ledger; rewrite F1, F2, F3, F4, F5, F6; cbn; done).
    + specialize (HL _ _ Et Hp) as Hlk. rewrite Hlk in HI. split; cbn.
      * intros t' p0. rewrite Hk. destruct (decide (t = t')) as [->|Hn]; [done|].
        rewrite fn_lookup_insert_ne by done. apply HL.
      * rewrite Hk, Hlk. destruct HI as (p0&Hu&Hp0&L). assert (p0 = p) as -> by congruence.
        exists p'. rewrite fn_lookup_insert. split; [done|]. split; [done|]. by eapply ledger_step.
    + specialize (HL _ _ Et Hp) as Hlk. rewrite Hlk in HI. split; cbn.
      * intros t' p0. destruct (decide (t = t')) as [->|Hn].
        { rewrite fn_lookup_insert. by intros [= <-]. }
        rewrite fn_lookup_insert_ne by done. intros H0 H1. specialize (HL _ _ H0 H1). congruence.
      * destruct HI as (p0&Hu&Hp0&L). assert (p0 = U_unlock r) as -> by congruence.
        destruct L as (L1&L2&L3&L4&L5&L6).
        destruct (folds_app tr [EUnlock t]) as (F1&F2&F3&F4&F5&F6).
        unfold settled. rewrite F1, F2, F3, F4, F5, F6. cbn. done.
Qed.

Lemma inv_run (f : option F) acts cf tr :
  run (new_config zero f) acts = Some (cf, tr) -> inv tr cf.
Proof. intros H. apply (run_inv inv inv_act acts [] _ _ _ (inv_new f) H). Qed.

(** Between calls of the lock holder the fields are what the trace says. *)
Lemma inv_settled tr cf : inv tr cf -> s_lock (c_sh cf) = None -> settled tr (c_sh cf).
Proof. intros [_ H] E0. by rewrite E0 in H. Qed.

(** ** One refresh at a time, and the value it sees *)
Lemma act_start tr cf a cf' pre t f old post :
  inv tr cf -> act cf a = Some (cf', pre ++ EStart t f old :: post) ->
  pre = [] /\ running tr = None /\ old = recorded zero tr.
Proof.
  intros HI H. destruct a as [t' c|t' lab]; cbn in H.
  { destruct (c_thr cf t'); [done|]. injection H as _ H. destruct pre as [|? [|]]; done. }
  destruct (c_thr cf t') as [p|] eqn:Et; [|done].
  destruct (step t' p (c_sh cf) lab) as [[[q s'] ev']|] eqn:Es; [|done].
  injection H as _ ->.
  assert (exists f0, p = C_old (Some f0) /\ pre = [] /\ old = s_data (c_sh cf)) as (f0&->&->&->).
  { remember (pre ++ EStart t f old :: post) as ev eqn:Hev.
    destruct p as [f1|f1 l| |f1|f1 n| |f1|f1|f1|f1 n| |f1|f1 n| |f1|[f1|]|f1 old1|r v|r|r n|r|r e|r|r n|r|r
                  |f1|[[f1 old1]|]|f1 old1| |l| | |n| | |v| | | | | |f1|f1|r];
    destruct lab as [|n'|o|[e'|]]; cbn in Es; try discriminate Es;
    repeat (match type of Es with
            | context [if ?b then _ else _] => destruct b eqn:?
            | context [match ?x with _ => _ end] => destruct x eqn:?
            end; try discriminate Es);
    injection Es as _ _ <-;
    destruct pre as [|x [|y [|z pre]]]; try discriminate Hev.
    injection Hev as -> -> -> ->. eauto. }
  split; [done|]. destruct HI as [HL HI]. rewrite (HL _ _ Et eq_refl) in HI.
  destruct HI as (p&Hu&_&L). assert (p = C_old (Some f0)) as -> by congruence.
  destruct L as (L1&L2&L3&_). done.
Qed.

End proofs.
