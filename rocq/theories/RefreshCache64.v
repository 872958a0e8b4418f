From Coq Require Import ZifyBool.
From Verif Require Import Base Int64 RefreshCacheModel RefreshCacheSpec RefreshCacheProofs RefreshCache64Spec.

Section proofs.
Context {T E F : Type} (zero : T) (maxAge errAge lo hi : Z).
Context (H0 : (lo <= 0 <= hi)%Z) (Hd : (hi - lo < 2^63)%Z).
Local Notation config := (config T E F).
Local Notation pc := (pc T E F).
Local Notation shared := (shared T E F).
Local Notation run := (run zero maxAge errAge).
Local Notation act := (act zero maxAge errAge).
Local Notation step := (step zero maxAge errAge).
Local Notation within n := (lo <= n <= hi)%Z.

(** Case analysis of a step: one goal per possible step. *)
Ltac step_inv H :=
  match type of H with
  | RefreshCacheModel.step _ _ _ _ ?p ?s ?lab = _ =>
    destruct p as [f|f l| |f|f n| |f|f|f|f n| |f|f n| |f|[f|]|f old|r v|r|r n|r|r e|r|r n|r|r
                  |f|[[f old]|]|f old| |l| | |n| | |v| | | | | |f|f|r];
    destruct lab as [|n'|o|[e'|]]; cbn in H; try discriminate H;
    repeat (match type of H with
            | context [if ?b then _ else _] => destruct b eqn:?
            | context [match s_lock s with _ => _ end] => destruct (s_lock s) eqn:?
            | context [match s_ref s with _ => _ end] => destruct (s_ref s) as [[?|]|] eqn:?
            | context [match s_clr s with _ => _ end] => destruct (s_clr s) as [[?|]|] eqn:?
            end; try discriminate H);
    injection H as <- <- <-
  end.

(** Every time that is stored, or held by a goroutine, is 0 or was read from the clock. *)
Definition held (p : pc) : Prop :=
  match p with
  | G_fresh _ n | G_err1 _ n | L_fresh _ n | L_err1 _ n | D_last _ n | D_lasterr _ n | W_fresh n | W_err1 n => within n
  | _ => True
  end.
Definition times (cf : config) : Prop :=
  within (s_last (c_sh cf)) /\ within (s_lasterr (c_sh cf)) /\ forall t p, c_thr cf t = Some p -> held p.
Lemma times_new f : times (new_config zero f).
Proof. split; [cbn; lia|]. split; [cbn; lia|done]. Qed.
Lemma step_times t p (s : shared) lab q s' ev : step t p s lab = Some (q, s', ev) ->
  (forall n, lab = LNow n -> within n) -> within (s_last s) -> within (s_lasterr s) -> held p ->
  within (s_last s') /\ within (s_lasterr s') /\ forall p', q = Some p' -> held p'.
Proof.
  intros H Hl H1 H2 Hp. step_inv H; cbn in *; try specialize (Hl _ eq_refl);
    (split; [first [done|lia]|]); (split; [first [done|lia]|]); intros p' [= <-]; cbn; try done.
  destruct o; done.
Qed.
Lemma act_times cf a cf' ev : times cf -> act cf a = Some (cf', ev) -> (forall t n, a = AStep t (LNow n) -> within n) -> times cf'.
Proof.
  intros (H1&H2&H3) Ha Hn. destruct a as [t c|t lab]; cbn in Ha.
  - destruct (c_thr cf t); [done|]. injection Ha as <- <-. split; [done|]. split; [done|]. cbn. intros u p Hu.
    destruct (decide (u = t)) as [->|]; [rewrite fn_lookup_insert in Hu; injection Hu as <-; by destruct c as [?|?|[?|]| | | | | | |?|?]|].
    rewrite fn_lookup_insert_ne in Hu by done. by eapply H3.
  - destruct (c_thr cf t) as [p|] eqn:Et; [|done]. destruct (step t p (c_sh cf) lab) as [[[q s'] ev']|] eqn:Es; [|done].
    injection Ha as <- <-. destruct (step_times _ _ _ _ _ _ _ Es) as (A&B&C); [intros n ->; by eapply Hn|done|done|by eapply H3|].
    split; [done|]. split; [done|]. cbn. intros u p' Hu.
    destruct (decide (u = t)) as [->|]; [rewrite fn_lookup_insert in Hu; by apply C|].
    rewrite fn_lookup_insert_ne in Hu by done. by eapply H3.
Qed.
Lemma sub_ok a b : within a -> within b -> wrap64 (a - b) = (a - b)%Z.
Proof. intros Ha Hb. apply wrap64_id. unfold is_int64. lia. Qed.
Lemma act_64 cf a : times cf -> (forall t n, a = AStep t (LNow n) -> within n) -> act64 zero maxAge errAge cf a = act cf a.
Proof.
  intros (H1&H2&H3) Hn. destruct a as [t c|t lab]; [done|]. cbn. destruct (c_thr cf t) as [p|] eqn:Et; [|done].
  specialize (H3 _ _ Et). assert (step64 zero maxAge errAge t p (c_sh cf) lab = step t p (c_sh cf) lab) as ->; [|done].
  assert (Hl : forall n, lab = LNow n -> within n) by (intros n ->; by eapply Hn).
  destruct p; try done; destruct lab as [|n1| |]; try done; cbn in *; try (specialize (Hl _ eq_refl)); rewrite sub_ok; done.
Qed.
Lemma run_64 acts : forall cf, times cf -> clock_within lo hi acts -> run64 zero maxAge errAge cf acts = run cf acts.
Proof.
  induction acts as [|a acts IH]; intros cf Ht Hc; [done|]. cbn.
  assert (Ha : forall t n, a = AStep t (LNow n) -> within n) by (intros t n ->; by apply (Hc t n), elem_of_list_here).
  rewrite act_64 by done. destruct (act cf a) as [[cf1 ev]|] eqn:E1; [|done].
  rewrite IH; [done|by eapply act_times|]. intros t n Hn. apply (Hc t n). by right.
Qed.
End proofs.

(** For the examples. *)
Lemma clock_within_bool {T E F} lo hi (acts : list (action T E F)) :
  forallb (fun a => match a with AStep _ (LNow n) => Z.leb lo n && Z.leb n hi | _ => true end) acts = true -> clock_within lo hi acts.
Proof. rewrite forallb_forall. intros H t n Hn. apply elem_of_list_In in Hn. specialize (H _ Hn). cbn in H. lia. Qed.
