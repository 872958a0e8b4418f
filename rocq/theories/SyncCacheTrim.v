(** Proofs about the background trimming of synccache. *)
From Coq Require Import ZifyBool ZifyNat.
From Verif Require Import Base SyncCacheTrimModel SyncCacheTrimSpec.

Global Instance tcall_eq_dec : EqDecision tcall.
Proof. solve_decision. Defined.
Global Instance tevent_eq_dec : EqDecision tevent.
Proof. solve_decision. Defined.

(** ** Runs *)
Lemma trun_app s l1 l2 s' tr : trun s (l1 ++ l2) = Some (s', tr) ->
  exists s1 tr1 tr2, trun s l1 = Some (s1, tr1) /\ trun s1 l2 = Some (s', tr2) /\ tr = tr1 ++ tr2.
Proof.
  revert s tr. induction l1 as [|a l1 IH]; intros s tr; cbn.
  - intros H. by exists s, [], tr.
  - destruct (tstep s a) as [[s1 e]|]; [|done]. destruct (trun s1 (l1 ++ l2)) as [[s2 tr2]|] eqn:E; [|done].
    intros [= <- <-]. destruct (IH _ _ E) as (s3&tr3&tr4&->&H2&->). exists s3, (option_list e ++ tr3), tr4.
    by rewrite <- app_assoc.
Qed.
Lemma trun_join s l1 l2 s1 s' tr1 tr2 : trun s l1 = Some (s1, tr1) -> trun s1 l2 = Some (s', tr2) ->
  trun s (l1 ++ l2) = Some (s', tr1 ++ tr2).
Proof.
  revert s tr1. induction l1 as [|a l1 IH]; intros s tr1; cbn.
  - by intros [= -> <-].
  - destruct (tstep s a) as [[s2 e]|]; [|done]. destruct (trun s2 l1) as [[s3 tr3]|] eqn:E; [|done].
    intros [= -> <-] H. erewrite IH by done. by rewrite app_assoc.
Qed.
Lemma trun_snoc s l a s' tr : trun s (l ++ [a]) = Some (s', tr) ->
  exists s1 tr1 e, trun s l = Some (s1, tr1) /\ tstep s1 a = Some (s', e) /\ tr = tr1 ++ option_list e.
Proof.
  intros (s1&tr1&tr2&H1&H2&->)%trun_app. cbn in H2. destruct (tstep s1 a) as [[s2 e]|] eqn:E; [|done].
  injection H2 as <- <-. exists s1, tr1, e. by rewrite app_nil_r.
Qed.
Lemma trun_split s l s' tr1 e tr2 : trun s l = Some (s', tr1 ++ e :: tr2) ->
  exists l1 a l2 s1 s2, l = l1 ++ a :: l2 /\ trun s l1 = Some (s1, tr1) /\ tstep s1 a = Some (s2, Some e) /\
    trun s2 l2 = Some (s', tr2).
Proof.
  revert s tr1. induction l as [|a l IH]; intros s tr1; cbn.
  - intros [= _ H]. by destruct tr1.
  - destruct (tstep s a) as [[s1 x]|] eqn:Es; [|done]. destruct (trun s1 l) as [[s2 tr]|] eqn:E; [|done].
    intros [= -> H]. destruct x as [x|]; cbn in H.
    + destruct tr1 as [|y tr1]; cbn in H; injection H as -> ->.
      * by exists [], a, l, s, s1.
      * destruct (IH _ _ E) as (l1&b&l2&s3&s4&->&H1&H2&H3). exists (a :: l1), b, l2, s3, s4. split; [done|].
        cbn. by rewrite Es, H1.
    + subst tr. destruct (IH _ _ E) as (l1&b&l2&s3&s4&->&H1&H2&H3). exists (a :: l1), b, l2, s3, s4. split; [done|].
      cbn. by rewrite Es, H1.
Qed.

(** ** One step *)
Lemma go_inv i g s j h : t_gos (set_go i g s) !! j = Some h -> j = i /\ h = g \/ j <> i /\ t_gos s !! j = Some h.
Proof.
  cbn. intros H. apply list_lookup_insert_Some in H as [(->&->&_)|[? ?]]; [by left|right; done].
Qed.

(** What a step does to the registry and to the goroutines in calls. *)
Inductive thr_step (s s' : tstate) (e : option tevent) : Prop :=
| ts_same : t_reg s' = t_reg s -> t_thr s' = t_thr s -> t_done s' = t_done s -> t_lock s' = t_lock s ->
    (forall t x, e <> Some (ECall t x)) -> (forall t, e <> Some (EReturn t)) ->
    length (t_gos s') = length (t_gos s) -> thr_step s s' e
| ts_call t x : t_thr s !! t = None -> s' = set_thr t (entry x) s -> e = Some (ECall t x) -> thr_step s s' e
| ts_go t p : t_thr s !! t = Some p -> go_step t p s = Some (s', e) -> thr_step s s' e.
Lemma tstep_thr s a s' e : tstep s a = Some (s', e) -> thr_step s s' e.
Proof.
  destruct a as [t x|t|i ks|i c|i|i|d]; cbn.
  - destruct (t_thr s !! t) eqn:E; [done|]. intros [= <- <-]. by eapply ts_call.
  - destruct (t_thr s !! t) eqn:E; [|done]. intros H. by eapply ts_go.
  - intros H. repeat case_match; simplify_eq; apply ts_same; try done; apply insert_length.
  - intros H. repeat case_match; simplify_eq; apply ts_same; try done; apply insert_length.
  - intros H. repeat case_match; simplify_eq; apply ts_same; try done; apply insert_length.
  - intros H. repeat case_match; simplify_eq; apply ts_same; try done; apply insert_length.
  - intros H. repeat case_match; simplify_eq; by apply ts_same.
Qed.

(** ** The invariant *)
Definition holds_lock (p : tpc) : Prop := match p with PCheck | PGo | PDone | PUnlock => True | _ => False end.
Definition within_call (x : tcall) (p : tpc) (done : bool) : Prop :=
  match x with
  | CClose c => p = PDelete c \/ p = PRet
  | CNew c _ | CStart c => (forall c', p <> PDelete c') /\ (forall c', p = PStore c' -> c' = c) /\ (p = PRet \/ p = PUnlock -> done = true)
  end.
Record tinv (s : tstate) (tr : list tevent) : Prop := {
  ti_thr : forall t p, t_thr s !! t = Some p -> exists tr1 x tr2, tr = tr1 ++ ECall t x :: tr2 /\ EReturn t ∉ tr2 /\
    within_call x p (t_done s);
  ti_ret : forall tr1 t x tr2, tr = tr1 ++ ECall t x :: tr2 -> EReturn t ∉ tr2 -> exists p, t_thr s !! t = Some p /\ within_call x p (t_done s);
  ti_lock : forall t p, t_thr s !! t = Some p -> holds_lock p -> t_lock s = Some t;
  ti_done : t_done s = true -> length (t_gos s) = 1 /\ forall t, t_thr s !! t <> Some PGo /\ t_thr s !! t <> Some PDone;
  ti_open : t_done s = false -> length (t_gos s) = 0 /\ (forall t, t_thr s !! t <> Some PDone) \/
    length (t_gos s) = 1 /\ exists t, t_thr s !! t = Some PDone;
  ti_some : some_started tr -> t_done s = true
}.

Lemma within_call_done x p b : within_call x p b -> within_call x p true.
Proof. destruct x; cbn; naive_solver. Qed.
Lemma snoc_split {A} (l : list A) e tr1 y tr2 : l ++ [e] = tr1 ++ y :: tr2 ->
  tr2 = [] /\ y = e /\ l = tr1 \/ exists tr3, tr2 = tr3 ++ [e] /\ l = tr1 ++ y :: tr3.
Proof.
  destruct tr2 as [|z tr2 _] using rev_ind.
  - intros H. apply app_inj_tail in H as [-> ->]. by left.
  - intros H. rewrite app_comm_cons, app_assoc in H. apply app_inj_tail in H as [-> ->]. right. by exists tr2.
Qed.

Lemma started_snoc tr e : some_started (tr ++ [e]) ->
  some_started tr \/ exists t tr1 x c tr2, e = EReturn t /\ tr = tr1 ++ ECall t x :: tr2 /\ starts c x.
Proof.
  intros (tr1&t&x&c&tr2&E&Hs&Hin). apply snoc_split in E as [(->&_)|(tr3&->&->)]; [by apply elem_of_nil in Hin|].
  apply elem_of_app in Hin as [Hin|Hin%elem_of_list_singleton]; [left|right].
  - by exists tr1, t, x, c, tr3.
  - by exists t, tr1, x, c, tr3.
Qed.

Lemma entry_call x b : within_call x (entry x) b.
Proof. destruct x; cbn; [split_and!; naive_solver..|by left]. Qed.

Lemma tinv_go s s' tr t p p' : tinv s tr -> t_thr s !! t = Some p -> t_thr s' = <[t := p']> (t_thr s) ->
  (t_done s = true -> t_done s' = true) ->
  (forall x, within_call x p (t_done s) -> within_call x p' (t_done s')) ->
  (forall u q, t_thr s' !! u = Some q -> holds_lock q -> t_lock s' = Some u) ->
  (t_done s' = true -> length (t_gos s') = 1 /\ forall t, t_thr s' !! t <> Some PGo /\ t_thr s' !! t <> Some PDone) ->
  (t_done s' = false -> length (t_gos s') = 0 /\ (forall t, t_thr s' !! t <> Some PDone) \/
    length (t_gos s') = 1 /\ exists t, t_thr s' !! t = Some PDone) ->
  tinv s' tr.
Proof.
  intros Iv Hp Ht Hd Hw Hl H1 H2. 
  assert (Hmono : forall x q, within_call x q (t_done s) -> within_call x q (t_done s')).
  { intros x q. destruct (t_done s); [rewrite Hd by done; done|]. destruct (t_done s'); [|done]. apply within_call_done. }
  split; try done.
  - intros u q. rewrite Ht. intros [[-> <-]|[Hne Hq]]%lookup_insert_Some.
    + destruct (ti_thr _ _ Iv _ _ Hp) as (tr1&x&tr2&?&?&?). exists tr1, x, tr2. auto.
    + destruct (ti_thr _ _ Iv _ _ Hq) as (tr1&x&tr2&?&?&?). exists tr1, x, tr2. auto.
  - intros tr1 u x tr2 E Hn. destruct (ti_ret _ _ Iv _ _ _ _ E Hn) as (q&Hq&Hwq). rewrite Ht.
    destruct (decide (u = t)) as [->|Hne].
    + rewrite lookup_insert. exists p'. split; [done|]. apply Hw. by rewrite Hp in Hq; simplify_eq.
    + rewrite lookup_insert_ne by done. eauto.
  - intros Hs. apply Hd. by apply (ti_some _ _ Iv).
Qed.

Lemma tinv_new now : tinv (tnew now) [].
Proof.
  split; cbn; try done.
  - intros tr1 t x tr2 H. by destruct tr1.
  - intros _. left. split; [done|]. done.
  - intros (tr1&t&x&c&tr2&H&_). by destruct tr1.
Qed.

Lemma tinv_step s a s' e tr : tinv s tr -> tstep s a = Some (s', e) -> tinv s' (tr ++ option_list e).
Proof.
  intros Iv Hs. apply tstep_thr in Hs as [Hr Ht Hd Hl Hc He Hg|t x Hn -> ->|t p Hp Hg].
  - (* no goroutine in a call *)
    destruct Iv as [I1 I2 I3 I4 I5 I6]. destruct e as [e|]; cbn [option_list]; [|rewrite app_nil_r; split; rewrite ?Hr, ?Ht, ?Hd, ?Hl, ?Hg; done].
    split; rewrite ?Hr, ?Ht, ?Hd, ?Hl, ?Hg; try done.
    + intros t p Hp. destruct (I1 _ _ Hp) as (tr1&x&tr2&->&Hn&Hw). exists tr1, x, (tr2 ++ [e]). rewrite <- app_assoc.
      split; [done|]. split; [|done]. intros [?|Hx%elem_of_list_singleton]%elem_of_app; [done|]. by apply (He t); f_equal.
    + intros tr1 t x tr2 [(->&<-&->)|(tr3&->&->)]%snoc_split Hn; [by destruct (Hc t x)|].
      eapply I2; [done|]. intros ?. apply Hn. apply elem_of_app. by left.
    + intros [?|(t&tr1&x&c&tr2&->&_)]%started_snoc; [auto|]. by destruct (He t).
  - (* a call *)
    cbn [option_list]. destruct Iv as [I1 I2 I3 I4 I5 I6]. split; cbn.
    + intros u p [[-> <-]|[Hne Hp]]%lookup_insert_Some.
      * exists tr, x, []. split; [done|]. split; [apply not_elem_of_nil|apply entry_call].
      * destruct (I1 _ _ Hp) as (tr1&y&tr2&->&Hnr&Hw). exists tr1, y, (tr2 ++ [ECall t x]). rewrite <- app_assoc.
        split; [done|]. split; [|done]. by intros [?|?%elem_of_list_singleton]%elem_of_app.
    + intros tr1 u y tr2 [(->&Hy&->)|(tr3&->&->)]%snoc_split Hnr.
      * injection Hy as -> ->. exists (entry x). split; [by rewrite lookup_insert|apply entry_call].
      * destruct (I2 tr1 u y tr3 eq_refl) as (p&Hp&Hw); [intros ?; apply Hnr, elem_of_app; by left|].
        exists p. rewrite lookup_insert_ne; [done|]. by intros ->; rewrite Hn in Hp.
    + intros u p [[-> <-]|[Hne Hp]]%lookup_insert_Some Hh; [by destruct x|by eapply I3].
    + intros Hd. destruct (I4 Hd) as [H1 H2]. split; [done|]. intros u. specialize (H2 u).
      destruct (decide (u = t)) as [->|]; [rewrite lookup_insert; by destruct x|by rewrite lookup_insert_ne].
    + intros Hd. destruct (I5 Hd) as [[H1 H2]|[H1 [v H2]]]; [left|right]; (split; [done|]).
      * intros u. destruct (decide (u = t)) as [->|]; [rewrite lookup_insert; by destruct x|by rewrite lookup_insert_ne].
      * exists v. rewrite lookup_insert_ne; [done|]. by intros ->; rewrite Hn in H2.
    + intros [?|(v&tr1&y&c&tr2&He&_)]%started_snoc; [auto|done].
  - pose proof (ti_lock _ _ Iv) as I3. pose proof (ti_done _ _ Iv) as I4. pose proof (ti_open _ _ Iv) as I5.
    assert (Hlk : forall q l, (holds_lock q -> l = Some t) ->
      (forall u p, u <> t -> t_thr s !! u = Some p -> holds_lock p -> l = Some u) ->
      forall u p, <[t := q]> (t_thr s) !! u = Some p -> holds_lock p -> l = Some u).
    { intros q l H1 H2 u p' [[-> <-]|[Hne Hq]]%lookup_insert_Some Hh; eauto. }
    assert (Hdn : forall q, q <> PGo -> q <> PDone -> t_done s = true ->
      length (t_gos s) = 1 /\ forall u, <[t := q]> (t_thr s) !! u <> Some PGo /\ <[t := q]> (t_thr s) !! u <> Some PDone).
    { intros q H1 H2 Hd. destruct (I4 Hd) as [? H3]. split; [done|]. intros u. specialize (H3 u).
      destruct (decide (u = t)) as [->|]; [rewrite lookup_insert; naive_solver|by rewrite lookup_insert_ne]. }
    assert (Hop : forall q, q <> PDone -> p <> PDone -> t_done s = false ->
      length (t_gos s) = 0 /\ (forall u, <[t := q]> (t_thr s) !! u <> Some PDone) \/
      length (t_gos s) = 1 /\ exists u, <[t := q]> (t_thr s) !! u = Some PDone).
    { intros q H1 H2 Hd. destruct (I5 Hd) as [[? H3]|[? [v H3]]]; [left|right]; (split; [done|]).
      - intros u. destruct (decide (u = t)) as [->|]; [rewrite lookup_insert; naive_solver|by rewrite lookup_insert_ne].
      - exists v. rewrite lookup_insert_ne; [done|]. intros ->. congruence. }
    destruct p; cbn in Hg.
    + injection Hg as <- <-. cbn [option_list]. rewrite app_nil_r. eapply tinv_go; [done|done|done|..]; cbn; try done.
      * intros [] Hw; cbn in *; naive_solver.
      * apply Hlk; [done|]. intros u p' _. by apply I3.
      * by apply Hdn.
      * by apply Hop.
    + injection Hg as <- <-. cbn [option_list]. rewrite app_nil_r. eapply tinv_go; [done|done|done|..]; cbn; try done.
      * intros [] Hw; cbn in *; naive_solver.
      * apply Hlk; [done|]. intros u p' _. by apply I3.
      * by apply Hdn.
      * by apply Hop.
    + injection Hg as <- <-. cbn [option_list]. rewrite app_nil_r. eapply tinv_go; [done|done|done|..]; cbn; try done.
      * destruct (t_done s); intros [] Hw; cbn in *; naive_solver.
      * apply Hlk; [by destruct (t_done s)|]. intros u p' _. by apply I3.
      * intros Hd. apply Hdn; [| |done]; by destruct (t_done s).
      * intros Hd. apply Hop; [| |done]; by destruct (t_done s).
    + destruct (t_lock s) eqn:El; [done|]. injection Hg as <- <-. cbn [option_list]. rewrite app_nil_r.
      eapply tinv_go; [done|done|done|..]; cbn; try done.
      * intros [] Hw; cbn in *; naive_solver.
      * apply Hlk; [done|]. intros u p' _ Hu Hh. by specialize (I3 u p' Hu Hh).
      * by apply Hdn.
      * by apply Hop.
    + pose proof (I3 _ _ Hp I) as Hl. injection Hg as <- <-. cbn [option_list]. rewrite app_nil_r. eapply tinv_go; [done|done|done|..]; cbn; try done.
      * destruct (t_done s); intros [] Hw; cbn in *; naive_solver.
      * apply Hlk; [done|]. intros u p' _. by apply I3.
      * intros Hd. apply Hdn; [| |done]; by rewrite Hd.
      * intros Hd. apply Hop; [by rewrite Hd|done|done].
    + pose proof (I3 _ _ Hp I) as Hl. injection Hg as <- <-. cbn [option_list]. rewrite app_nil_r. eapply tinv_go; [done|done|done|..]; cbn; try done.
      * intros [] Hw; cbn in *; naive_solver.
      * apply Hlk; [done|]. intros u p' _. by apply I3.
      * intros Hd. by destruct (proj2 (I4 Hd) t).
      * intros Hd. right. rewrite app_length. cbn [length]. destruct (I5 Hd) as [[-> _]|[_ [u Hu]]].
        { split; [done|]. exists t. by rewrite lookup_insert. }
        pose proof (I3 _ _ Hu I). by simplify_eq.
    + pose proof (I3 _ _ Hp I) as Hl. injection Hg as <- <-. cbn [option_list]. rewrite app_nil_r. eapply tinv_go; [done|done|done|..]; cbn; try done.
      * intros [] Hw; cbn in *; naive_solver.
      * apply Hlk; [done|]. intros u p' _. by apply I3.
      * intros _. destruct (t_done s) eqn:Hd; [by destruct (proj2 (I4 eq_refl) t)|].
        destruct (I5 eq_refl) as [[_ H2]|[? _]]; [by destruct (H2 t)|]. split; [done|]. intros u.
        destruct (decide (u = t)) as [->|Hne]; [by rewrite lookup_insert|]. rewrite lookup_insert_ne by done.
        split; intros Hu; pose proof (I3 _ _ Hu I); simplify_eq.
    + pose proof (I3 _ _ Hp I) as Hl. injection Hg as <- <-. cbn [option_list]. rewrite app_nil_r. eapply tinv_go; [done|done|done|..]; cbn; try done.
      * intros [] Hw; cbn in *; naive_solver.
      * apply Hlk; [done|]. intros u p' Hne Hu Hh. pose proof (I3 _ _ Hu Hh). by simplify_eq.
      * by apply Hdn.
      * by apply Hop.
    + injection Hg as <- <-. cbn [option_list]. destruct Iv as [I1 I2 _ _ _ I6]. split; cbn.
      * intros u q [Hne Hq]%lookup_delete_Some. destruct (I1 _ _ Hq) as (tr1&y&tr2&->&Hnr&Hw). exists tr1, y, (tr2 ++ [EReturn t]).
        rewrite <- app_assoc. split; [done|]. split; [|done]. by intros [?|[= ->]%elem_of_list_singleton]%elem_of_app.
      * intros tr1 u y tr2 [(->&[=]&_)|(tr3&->&->)]%snoc_split Hnr.
        destruct (I2 tr1 u y tr3 eq_refl) as (q&Hq&Hw); [intros ?; apply Hnr, elem_of_app; by left|].
        exists q. rewrite lookup_delete_ne; [done|]. intros ->. apply Hnr, elem_of_app. right. by left.
      * intros u q [Hne Hq]%lookup_delete_Some. by apply I3.
      * intros Hd. destruct (I4 Hd) as [H1 H2]. split; [done|]. intros u. specialize (H2 u).
        split; intros [_ Hx]%lookup_delete_Some; naive_solver.
      * intros Hd. destruct (I5 Hd) as [[H1 H2]|[H1 [v H2]]]; [left|right]; (split; [done|]).
        { intros u [_ Hx]%lookup_delete_Some. by eapply H2. }
        exists v. rewrite lookup_delete_ne; [done|]. intros ->. congruence.
      * intros [?|(v&tr1&y&c&tr2&[= <-]&->&Hst)]%started_snoc; [auto|].
        destruct (decide (EReturn t ∈ tr2)) as [Hin|Hni].
        { apply I6. by exists tr1, t, y, c, tr2. }
        destruct (I2 _ _ _ _ eq_refl Hni) as (q&Hq&Hw). rewrite Hp in Hq. injection Hq as <-.
        destruct Hst as [[d ->]| ->]; cbn in Hw; naive_solver.
Qed.

Lemma tinv_run s l s' tr tr' : tinv s tr -> trun s l = Some (s', tr') -> tinv s' (tr ++ tr').
Proof.
  revert s tr tr'. induction l as [|a l IH]; intros s tr tr' Iv; cbn.
  - intros [= <- <-]. by rewrite app_nil_r.
  - destruct (tstep s a) as [[s1 e]|] eqn:E; [|done]. destruct (trun s1 l) as [[s2 tr2]|] eqn:E2; [|done].
    intros [= <- <-]. rewrite app_assoc. eapply IH; [|done]. by eapply tinv_step.
Qed.
Lemma reach_inv now l s tr : trun (tnew now) l = Some (s, tr) -> tinv s tr.
Proof. intros H. by apply (tinv_run _ _ _ [] _ (tinv_new now)) in H. Qed.
Lemma inv_one s tr : tinv s tr -> length (t_gos s) <= 1.
Proof.
  intros Iv. destruct (t_done s) eqn:E; [by rewrite (proj1 (ti_done _ _ Iv E))|].
  destruct (ti_open _ _ Iv E) as [[-> _]|[-> _]]; lia.
Qed.
Lemma inv_index s tr i g : tinv s tr -> t_gos s !! i = Some g -> i = 0 /\ t_gos s = [g].
Proof.
  intros Iv%inv_one Hi. pose proof (lookup_lt_Some _ _ _ Hi).
  destruct (t_gos s) as [|h [|]]; cbn in *; [lia| |lia]. assert (i = 0) as -> by lia. cbn in Hi. by simplify_eq.
Qed.

(** ** The registry *)
Section registry.
Context (c : nat).
Definition want (b : bool) (reg : gset nat) : Prop := if b then c ∈ reg else c ∉ reg.
Definition goodpc (b : bool) : tpc := if b then PStore c else PDelete c.
Definition kind (b : bool) (x : tcall) : Prop := if b then starts c x else closes c x.
Lemma kind_entry b x : kind b x <-> entry x = goodpc b.
Proof. unfold kind, starts, closes, goodpc. destruct b, x; cbn; naive_solver. Qed.

Definition calm (b : bool) (s : tstate) : Prop := forall t, t_thr s !! t <> Some (goodpc (negb b)).
Lemma keep_step b s a s' e : tstep s a = Some (s', e) -> calm b s ->
  (forall t x, e = Some (ECall t x) -> ~ kind (negb b) x) ->
  calm b s' /\ (want b (t_reg s) -> want b (t_reg s')) /\
  (forall t, t_thr s !! t = Some (goodpc b) -> t_thr s' !! t = Some (goodpc b) \/ want b (t_reg s')).
Proof.
  intros Hs Hb He. unfold calm in *. apply tstep_thr in Hs as [Hr Ht Hd Hl Hc _ Hg|t x Hn -> ->|t p Hp Hg].
  - rewrite Hr, Ht. naive_solver.
  - cbn. specialize (He _ _ eq_refl). rewrite kind_entry in He. split_and!; [|done|].
    + intros u [[-> Hx]|[Hne Hu]]%lookup_insert_Some; [done|]. by apply (Hb u).
    + intros u Hu. left. rewrite lookup_insert_ne; [done|]. by intros ->; rewrite Hn in Hu.
  - assert (Hgo : forall q, (forall c', q <> PStore c' /\ q <> PDelete c') -> t_thr s' = <[t := q]> (t_thr s) -> t_reg s' = t_reg s ->
      (p <> goodpc b) -> (forall t, t_thr s' !! t <> Some (goodpc (negb b))) /\ (want b (t_reg s) -> want b (t_reg s')) /\
      (forall t, t_thr s !! t = Some (goodpc b) -> t_thr s' !! t = Some (goodpc b) \/ want b (t_reg s'))).
    { intros q Hq -> -> Hpg. specialize (Hq c). split_and!; [|done|].
      - intros u [[-> Hx]|[Hne Hu]]%lookup_insert_Some; [|by apply (Hb u)]. destruct b; cbn in Hx; naive_solver.
      - intros u Hu. left. rewrite lookup_insert_ne; [done|]. intros ->. congruence. }
    assert (Hne : p <> goodpc (negb b)) by (intros ->; by apply (Hb t)).
    destruct p; cbn in Hg; repeat case_match; simplify_eq; try (eapply Hgo; [|cbn; done..|]; [done|by destruct b]).
    + cbn. split_and!.
      * intros u [[-> Hx]|[Hnu Hu]]%lookup_insert_Some; [by destruct b|by apply (Hb u)].
      * destruct b; cbn in *; [set_solver|]. assert (c <> c0) by congruence. set_solver.
      * intros u Hu. destruct (decide (u = t)) as [->|]; [|left; by rewrite lookup_insert_ne].
        right. rewrite Hp in Hu. destruct b; cbn in *; [|done]. simplify_eq. set_solver.
    + cbn. split_and!.
      * intros u [[-> Hx]|[Hnu Hu]]%lookup_insert_Some; [by destruct b|by apply (Hb u)].
      * destruct b; cbn in *; [|set_solver]. assert (c <> c0) by congruence. set_solver.
      * intros u Hu. destruct (decide (u = t)) as [->|]; [|left; by rewrite lookup_insert_ne].
        right. rewrite Hp in Hu. destruct b; cbn in *; [done|]. simplify_eq. set_solver.
    + cbn. split_and!; [|done|].
      * intros u [_ Hu]%lookup_delete_Some. by apply (Hb u).
      * intros u Hu. left. rewrite lookup_delete_ne; [done|]. intros ->. rewrite Hp in Hu. by destruct b.
Qed.
Lemma keep_run b s l s' tr : trun s l = Some (s', tr) -> calm b s -> none_called (kind (negb b)) tr ->
  calm b s' /\ (want b (t_reg s) -> want b (t_reg s')) /\
  (forall t, t_thr s !! t = Some (goodpc b) -> t_thr s' !! t = Some (goodpc b) \/ want b (t_reg s')).
Proof.
  revert s tr. induction l as [|a l IH]; intros s tr; cbn.
  - intros [= -> <-]. auto.
  - destruct (tstep s a) as [[s1 e]|] eqn:E; [|done]. destruct (trun s1 l) as [[s2 tr2]|] eqn:E2; [|done].
    intros [= -> <-] Hc Hn. destruct (keep_step b _ _ _ _ E Hc) as (Hc1&Hw1&Ht1).
    { intros t x ->. apply (Hn t). apply elem_of_app. left. by left. }
    destruct (IH _ _ E2 Hc1) as (Hc2&Hw2&Ht2).
    { intros t x Hin. apply (Hn t). apply elem_of_app. by right. }
    split; [done|]. split; [auto|]. intros t Ht. destruct (Ht1 _ Ht); [by apply Ht2|right; auto].
Qed.
Lemma running_calm b s tr : tinv s tr -> none_running (kind (negb b)) tr -> calm b s.
Proof.
  intros Iv Hn t Ht. destruct (ti_thr _ _ Iv _ _ Ht) as (tr1&x&tr2&E&Hr&Hw). apply Hr. eapply Hn; [done|].
  rewrite kind_entry. destruct b, x; cbn in *; naive_solver.
Qed.
Lemma last_was_want b now l s tr : trun (tnew now) l = Some (s, tr) -> last_was (kind b) (kind (negb b)) tr ->
  calm b s /\ want b (t_reg s).
Proof.
  intros Hrun (tr1&t&x&tr2&tr3&->&Hk&Hr&Hn1&Hn2).
  apply trun_split in Hrun as (l1&a&l2&s1&s2&->&Hr1&Hs&Hr2).
  pose proof (reach_inv _ _ _ _ Hr1) as Iv1. pose proof (running_calm b _ _ Iv1 Hn1) as Hc1.
  apply trun_split in Hr2 as (l3&a'&l4&s3&s4&->&Hr3&Hs'&Hr4).
  assert (calm b s2 /\ t_thr s2 !! t = Some (goodpc b)) as [Hc2 Ht2].
  { apply tstep_thr in Hs as [_ _ _ _ Hx _ _|u y Hn -> Hy|u p Hp Hg].
    - by destruct (Hx t x).
    - injection Hy as -> ->. apply kind_entry in Hk. rewrite Hk. split; [|cbn; by rewrite lookup_insert].
      intros v. cbn. intros [[-> Hx]|[Hne Hu]]%lookup_insert_Some; [by destruct b|by apply (Hc1 v)].
    - by destruct p; cbn in Hg; repeat case_match; simplify_eq. }
  destruct (keep_run b _ _ _ _ Hr3 Hc2) as (Hc3&_&Ht3).
  { intros u y Hin. apply (Hn2 u). apply elem_of_app. by left. }
  assert (t_thr s3 !! t = Some PRet) as Hret.
  { apply tstep_thr in Hs' as [_ _ _ _ _ Hx _|u y Hn -> Hy|u p Hp Hg].
    - by destruct (Hx t).
    - done.
    - by destruct p; cbn in Hg; repeat case_match; simplify_eq. }
  destruct (Ht3 _ Ht2) as [Hx|Hw3]; [rewrite Hret in Hx; by destruct b|].
  destruct (keep_run b s3 (a' :: l4) s (EReturn t :: tr3)) as (Hc&Hw&_).
  - cbn. by rewrite Hs', Hr4.
  - done.
  - intros u y Hin. apply (Hn2 u). apply elem_of_app. by right.
  - auto.
Qed.
End registry.

(** ** Passes *)
(** What a step does to one trimming goroutine. *)
Inductive go_does (i : nat) (s s' : tstate) (e : option tevent) (g : trimmer) : trimmer -> Prop :=
| gd_idle b n : e <> Some (EPass i) -> (forall c, e <> Some (ETrim i c)) -> (forall c, e <> Some (ETrimmed i c)) ->
    e <> Some (EEnd i) -> go_does i s s' e g (Trimmer n b (g_pc g))
| gd_new n : g_pc g = GNew -> e = None -> go_does i s s' e g (Trimmer n false GWait)
| gd_pass : g_pc g = GWait -> g_buf g = true -> e = Some (EPass i) -> go_does i s s' e g (Trimmer (g_next g) false GRange)
| gd_gather ks : g_pc g = GRange -> e = None -> t_reg s ⊆ ks -> go_does i s s' e g (Trimmer (g_next g) (g_buf g) (GIter ks))
| gd_skip ks c : g_pc g = GIter ks -> e = None -> c ∈ ks -> c ∉ t_reg s -> go_does i s s' e g (Trimmer (g_next g) (g_buf g) (GIter (ks ∖ {[c]})))
| gd_trim ks c : g_pc g = GIter ks -> e = Some (ETrim i c) -> c ∈ ks -> c ∈ t_reg s ->
    go_does i s s' e g (Trimmer (g_next g) (g_buf g) (GTrim c (ks ∖ {[c]})))
| gd_trimmed ks c : g_pc g = GTrim c ks -> e = Some (ETrimmed i c) -> go_does i s s' e g (Trimmer (g_next g) (g_buf g) (GIter ks))
| gd_end : g_pc g = GIter ∅ -> e = Some (EEnd i) -> go_does i s s' e g (Trimmer (g_next g) (g_buf g) GWait).

Lemma tstep_go s a s' e i g : tstep s a = Some (s', e) -> t_gos s !! i = Some g ->
  exists g', t_gos s' !! i = Some g' /\ go_does i s s' e g g'.
Proof.
  intros Hs Hi. pose proof (lookup_lt_Some _ _ _ Hi) as Hlt.
  assert (Hsame : e <> Some (EPass i) -> (forall c, e <> Some (ETrim i c)) -> (forall c, e <> Some (ETrimmed i c)) ->
    e <> Some (EEnd i) -> t_gos s' !! i = Some g -> exists g', t_gos s' !! i = Some g' /\ go_does i s s' e g g').
  { intros. exists g. split; [done|]. destruct g. by apply gd_idle. }
  destruct a as [t x|t|j ks|j c|j|j|d]; cbn in Hs.
  - destruct (t_thr s !! t); simplify_eq. by apply Hsame.
  - destruct (t_thr s !! t) as [p|]; [|done]. destruct p; cbn in Hs; repeat case_match; simplify_eq; apply Hsame; try done.
    cbn. by apply lookup_app_l_Some.
  - destruct (t_gos s !! j) as [[n b []]|] eqn:Ej; try done. case_decide; simplify_eq. destruct (decide (j = i)) as [->|Hne].
    + rewrite Hi in Ej. injection Ej as ->. eexists. cbn. split; [by rewrite list_lookup_insert|].
      by apply (gd_gather _ _ _ _ (Trimmer n b GRange)).
    + apply Hsame; try done. cbn. by rewrite list_lookup_insert_ne.
  - destruct (t_gos s !! j) as [[n b []]|] eqn:Ej; try done. case_decide; [|done]. destruct (decide (j = i)) as [->|Hne].
    + rewrite Hi in Ej. injection Ej as ->. case_decide; simplify_eq; eexists; cbn; (split; [by rewrite list_lookup_insert|]).
      * by apply (gd_trim _ _ _ _ (Trimmer n b (GIter ks)) ks).
      * by apply (gd_skip _ _ _ _ (Trimmer n b (GIter ks)) ks).
    + case_decide; simplify_eq; apply Hsame; try congruence; cbn; by rewrite list_lookup_insert_ne.
  - destruct (decide (j = i)) as [->|Hne].
    + rewrite Hi in Hs. destruct g as [n b p]. destruct p.
      * assert (Hs' : Some (set_go i (Trimmer (t_now s + period)%Z false GWait) s, @None tevent) = Some (s', e)) by (by destruct b).
        simplify_eq. eexists. cbn. split; [by rewrite list_lookup_insert|]. by apply gd_new.
      * destruct b; simplify_eq. eexists. cbn. split; [by rewrite list_lookup_insert|]. by apply (gd_pass _ _ _ _ (Trimmer n true GWait)).
      * by destruct b.
      * assert (ks = ∅ /\ Some (set_go i (Trimmer n b GWait) s, Some (EEnd i)) = Some (s', e)) as [-> Hs'].
        { destruct b; case_decide; simplify_eq; done. }
        simplify_eq. eexists. cbn. split; [by rewrite list_lookup_insert|]. by apply (gd_end _ _ _ _ (Trimmer n b (GIter ∅))).
      * assert (Hs' : Some (set_go i (Trimmer n b (GIter ks)) s, Some (ETrimmed i c)) = Some (s', e)) by (by destruct b).
        simplify_eq. eexists. cbn. split; [by rewrite list_lookup_insert|]. by apply (gd_trimmed _ _ _ _ (Trimmer n b (GTrim c ks)) ks c).
    + repeat case_match; simplify_eq; apply Hsame; try congruence; cbn; by rewrite list_lookup_insert_ne.
  - destruct (decide (j = i)) as [->|Hne].
    + rewrite Hi in Hs. destruct g as [n b p].
      assert (exists n', Some (set_go i (Trimmer n' true p) s, @None tevent) = Some (s', e)) as [n' Hs'].
      { destruct p; try done; case_match; simplify_eq; eauto. }
      simplify_eq. eexists. cbn. split; [by rewrite list_lookup_insert|]. by apply (gd_idle _ _ _ _ (Trimmer n b p)).
    + repeat case_match; simplify_eq; apply Hsame; try congruence; cbn; by rewrite list_lookup_insert_ne.
  - repeat case_match; simplify_eq; by apply Hsame.
Qed.

Definition of_go (i : nat) (e : tevent) : Prop :=
  match e with EPass j | ETrim j _ | ETrimmed j _ | EEnd j => j = i | _ => False end.
Lemma event_go s a s' e i : tstep s a = Some (s', Some e) -> of_go i e -> exists g, t_gos s !! i = Some g.
Proof.
  intros Hs He. destruct a as [t x|t|j ks|j c|j|j|d]; cbn in Hs.
  - destruct (t_thr s !! t); by simplify_eq.
  - destruct (t_thr s !! t) as [p|]; [|done]. destruct p; cbn in Hs; repeat case_match; by simplify_eq.
  - repeat case_match; by simplify_eq.
  - destruct (t_gos s !! j) as [g|] eqn:E; [|done]. repeat case_match; simplify_eq; cbn in He; subst j; eauto.
  - destruct (t_gos s !! j) as [g|] eqn:E; [|done]. repeat case_match; simplify_eq; cbn in He; subst j; eauto.
  - repeat case_match; by simplify_eq.
  - repeat case_match; by simplify_eq.
Qed.
Lemma pass_begins s a s' i : tstep s a = Some (s', Some (EPass i)) ->
  exists g g', t_gos s !! i = Some g /\ g_pc g = GWait /\ t_gos s' !! i = Some g' /\ g_pc g' = GRange.
Proof.
  intros Hs. destruct (event_go _ _ _ _ i Hs eq_refl) as [g Hg]. destruct (tstep_go _ _ _ _ _ _ Hs Hg) as (g'&Hg'&Hd).
  exists g, g'. split; [done|]. inversion Hd; simplify_eq; done.
Qed.
Lemma trim_begins s a s' i c : tstep s a = Some (s', Some (ETrim i c)) ->
  exists g g' ks, t_gos s !! i = Some g /\ g_pc g = GIter ks /\ c ∈ ks /\ c ∈ t_reg s /\ t_gos s' !! i = Some g' /\ g_pc g' = GTrim c (ks ∖ {[c]}).
Proof.
  intros Hs. destruct (event_go _ _ _ _ i Hs eq_refl) as [g Hg]. destruct (tstep_go _ _ _ _ _ _ Hs Hg) as (g'&Hg'&Hd).
  inversion Hd; simplify_eq; naive_solver.
Qed.
Lemma pass_ends s a s' i : tstep s a = Some (s', Some (EEnd i)) -> exists g, t_gos s !! i = Some g /\ g_pc g = GIter ∅.
Proof.
  intros Hs. destruct (event_go _ _ _ _ i Hs eq_refl) as [g Hg]. destruct (tstep_go _ _ _ _ _ _ Hs Hg) as (g'&Hg'&Hd).
  exists g. split; [done|]. inversion Hd; simplify_eq; done.
Qed.

Definition ahead (c : nat) (p : gpc) : Prop :=
  match p with GRange => True | GIter ks | GTrim _ ks => c ∈ ks | _ => False end.
Lemma pass_run c i l : forall s s' tr g, trun s l = Some (s', tr) -> EEnd i ∉ tr ->
  calm c true s -> want c true (t_reg s) -> none_called (closes c) tr -> t_gos s !! i = Some g -> ahead c (g_pc g) ->
  ETrim i c ∈ tr \/ exists g', t_gos s' !! i = Some g' /\ ahead c (g_pc g').
Proof.
  induction l as [|a l IH]; intros s s' tr g; cbn [trun].
  - intros [= -> <-] _ _ _ _ Hg Ha. right. eauto.
  - destruct (tstep s a) as [[s1 e]|] eqn:E; [|done]. destruct (trun s1 l) as [[s2 tr2]|] eqn:E2; [|done].
    intros [= -> <-] Hn Hc Hw Hnc Hg Ha.
    destruct (keep_step c true _ _ _ _ E Hc) as (Hc1&Hw1&_).
    { intros t x ->. apply (Hnc t). apply elem_of_app. left. by left. }
    destruct (tstep_go _ _ _ _ _ _ E Hg) as (g1&Hg1&Hd).
    assert (e = Some (ETrim i c) \/ ahead c (g_pc g1)) as [->|Ha1].
    { destruct Hd as [b n H1 H2 H3 H4|n H1 ->|H1 H2 ->|ks H1 -> H2|ks d H1 -> H2 H3|ks d H1 -> H2 H3|ks d H1 ->|H1 ->]; cbn [g_pc] in *.
      - by right.
      - rewrite H1 in Ha. done.
      - by right.
      - right. cbn. cbn in Hw. set_solver.
      - right. rewrite H1 in Ha. cbn in *. assert (c <> d) by (by intros ->). set_solver.
      - destruct (decide (c = d)) as [->|]; [by left|]. right. rewrite H1 in Ha. cbn in *. set_solver.
      - right. by rewrite H1 in Ha.
      - destruct Hn. apply elem_of_app. left. by left. }
    + left. by left.
    + assert (Hn2 : EEnd i ∉ tr2) by (intros ?; apply Hn, elem_of_app; by right).
      assert (Hnc2 : none_called (closes c) tr2) by (intros t x Hin; apply (Hnc t), elem_of_app; by right).
      destruct (IH _ _ _ g1 E2 Hn2 Hc1 (Hw1 Hw) Hnc2 Hg1 Ha1) as [Hin|Hx]; [left|by right].
      apply elem_of_app. by right.
Qed.
Lemma visited now l s tr1 i tr2 tr3 c : trun (tnew now) l = Some (s, tr1 ++ EPass i :: tr2 ++ EEnd i :: tr3) -> EEnd i ∉ tr2 ->
  last_was (starts c) (closes c) tr1 -> none_called (closes c) tr2 -> ETrim i c ∈ tr2.
Proof.
  intros Hrun Hn Hl Hc. apply trun_split in Hrun as (l1&a&l2&s1&s2&->&Hr1&Hs&Hr2).
  destruct (last_was_want c true _ _ _ _ Hr1 Hl) as [Hc1 Hw1].
  destruct (keep_step c true _ _ _ _ Hs Hc1) as (Hc2&Hw2&_); [done|].
  apply trun_split in Hr2 as (l3&a'&l4&s3&s4&->&Hr3&Hs'&Hr4).
  destruct (pass_begins _ _ _ _ Hs) as (_&g&_&_&Hg&Hp).
  destruct (pass_run c i _ _ _ _ g Hr3 Hn Hc2 (Hw2 Hw1) Hc Hg) as [?|(g'&Hg'&Ha)]; [by rewrite Hp|done|].
  destruct (pass_ends _ _ _ _ Hs') as (h&Hh&Hx). rewrite Hg' in Hh. injection Hh as <-. rewrite Hx in Ha. cbn in Ha. set_solver.
Qed.
Lemma not_visited now l s tr1 tr2 i c : trun (tnew now) l = Some (s, tr1 ++ tr2) ->
  last_was (closes c) (starts c) tr1 -> none_called (starts c) tr2 -> ETrim i c ∉ tr2.
Proof.
  intros Hrun Hl Hc Hin. apply elem_of_list_split in Hin as (tr3&tr4&->). rewrite app_assoc in Hrun.
  apply trun_split in Hrun as (l1&a&l2&s1&s2&->&Hr1&Hs&Hr2).
  destruct (trim_begins _ _ _ _ _ Hs) as (_&_&_&_&_&_&Hreg&_).
  assert (Hl2 : last_was (kind c false) (kind c true) (tr1 ++ tr3)).
  { destruct Hl as (ta&t&x&tb&tc&->&Hk&H1&H2&H3). exists ta, t, x, tb, (tc ++ tr3). split_and!; [|done|done|done|].
    - cbn. rewrite <- app_assoc. cbn. rewrite <- app_assoc. done.
    - intros u y Hin. rewrite app_comm_cons, app_assoc in Hin. apply elem_of_app in Hin as [Hin|Hin]; [by eapply H3|].
      eapply Hc. apply elem_of_app. by left. }
  by destruct (last_was_want c false _ _ _ _ Hr1 Hl2) as [_ Hw].
Qed.

Definition behind (c : nat) (p : gpc) : Prop :=
  match p with GIter ks | GTrim _ ks => c ∉ ks | GWait => True | _ => False end.
Lemma behind_run c i l : forall s s' tr g, trun s l = Some (s', tr) -> EPass i ∉ tr ->
  t_gos s !! i = Some g -> behind c (g_pc g) -> exists g', t_gos s' !! i = Some g' /\ behind c (g_pc g').
Proof.
  induction l as [|a l IH]; intros s s' tr g; cbn [trun].
  - intros [= -> <-] _ Hg Ha. eauto.
  - destruct (tstep s a) as [[s1 e]|] eqn:E; [|done]. destruct (trun s1 l) as [[s2 tr2]|] eqn:E2; [|done].
    intros [= -> <-] Hn Hg Ha. destruct (tstep_go _ _ _ _ _ _ E Hg) as (g1&Hg1&Hd).
    eapply IH; [done|intros ?; apply Hn, elem_of_app; by right|exact Hg1|].
    destruct Hd as [b n H1 H2 H3 H4|n H1 ->|H1 H2 ->|ks H1 -> H2|ks d H1 -> H2 H3|ks d H1 -> H2 H3|ks d H1 ->|H1 ->]; cbn [g_pc] in *.
    + done.
    + by rewrite H1 in Ha.
    + destruct Hn. apply elem_of_app. left. by left.
    + by rewrite H1 in Ha.
    + rewrite H1 in Ha. cbn in *. set_solver.
    + rewrite H1 in Ha. cbn in *. set_solver.
    + by rewrite H1 in Ha.
    + done.
Qed.
Lemma visited_once now l s tr1 i c tr2 tr3 : trun (tnew now) l = Some (s, tr1 ++ ETrim i c :: tr2 ++ ETrim i c :: tr3) ->
  EPass i ∈ tr2.
Proof.
  intros Hrun. destruct (decide (EPass i ∈ tr2)) as [?|Hn]; [done|exfalso].
  apply trun_split in Hrun as (l1&a&l2&s1&s2&->&Hr1&Hs&Hr2).
  apply trun_split in Hr2 as (l3&a'&l4&s3&s4&->&Hr3&Hs'&Hr4).
  destruct (trim_begins _ _ _ _ _ Hs) as (_&g&ks&_&_&_&_&Hg&Hp).
  destruct (behind_run c i _ _ _ _ _ Hr3 Hn Hg) as (g'&Hg'&Hb); [rewrite Hp; cbn; set_solver|].
  destruct (trim_begins _ _ _ _ _ Hs') as (h&_&ks'&Hh&Hx&Hin&_). rewrite Hg' in Hh. injection Hh as <-. rewrite Hx in Hb. done.
Qed.

Definition busy (p : gpc) : Prop := match p with GRange | GIter _ | GTrim _ _ => True | _ => False end.
Lemma busy_run i l : forall s s' tr g, trun s l = Some (s', tr) -> EEnd i ∉ tr ->
  t_gos s !! i = Some g -> busy (g_pc g) -> exists g', t_gos s' !! i = Some g' /\ busy (g_pc g').
Proof.
  induction l as [|a l IH]; intros s s' tr g; cbn [trun].
  - intros [= -> <-] _ Hg Ha. eauto.
  - destruct (tstep s a) as [[s1 e]|] eqn:E; [|done]. destruct (trun s1 l) as [[s2 tr2]|] eqn:E2; [|done].
    intros [= -> <-] Hn Hg Ha. destruct (tstep_go _ _ _ _ _ _ E Hg) as (g1&Hg1&Hd).
    eapply IH; [done|intros ?; apply Hn, elem_of_app; by right|exact Hg1|].
    destruct Hd as [b n H1 H2 H3 H4|n H1 ->|H1 H2 ->|ks H1 -> H2|ks d H1 -> H2 H3|ks d H1 -> H2 H3|ks d H1 ->|H1 ->]; cbn [g_pc] in *; try done.
    + by rewrite H1 in Ha.
    + destruct Hn. apply elem_of_app. left. by left.
Qed.
Lemma passes_apart now l s tr1 i tr2 j tr3 : trun (tnew now) l = Some (s, tr1 ++ EPass i :: tr2 ++ EPass j :: tr3) ->
  i = 0 /\ j = 0 /\ EEnd 0 ∈ tr2.
Proof.
  intros Hrun. apply trun_split in Hrun as (l1&a&l2&s1&s2&->&Hr1&Hs&Hr2).
  pose proof (reach_inv _ _ _ _ Hr1) as Iv1. pose proof (tinv_step _ _ _ _ _ Iv1 Hs) as Iv2.
  apply trun_split in Hr2 as (l3&a'&l4&s3&s4&->&Hr3&Hs'&Hr4).
  pose proof (tinv_run _ _ _ _ _ Iv2 Hr3) as Iv3.
  destruct (pass_begins _ _ _ _ Hs) as (g0&g&Hg0&_&Hg&Hp). destruct (pass_begins _ _ _ _ Hs') as (h&_&Hh&Hw&_).
  destruct (inv_index _ _ _ _ Iv1 Hg0) as [-> _]. destruct (inv_index _ _ _ _ Iv3 Hh) as [-> _].
  split; [done|]. split; [done|]. destruct (decide (EEnd 0 ∈ tr2)) as [?|Hn]; [done|exfalso].
  destruct (busy_run 0 _ _ _ _ _ Hr3 Hn Hg) as (g'&Hg'&Hb); [by rewrite Hp|]. rewrite Hg' in Hh. injection Hh as <-. by rewrite Hw in Hb.
Qed.

(** ** Times *)
Lemma period_pos : (0 < period)%Z.
Proof. reflexivity. Qed.
Definition timely (from : Z) (s : tstate) (n : nat) : Prop :=
  (from <= t_now s)%Z /\
  match t_gos s with
  | [] => n = 0
  | [g] =>
      match g_pc g with
      | GNew => n = 0
      | _ => (from + (Z.of_nat n + Z.b2z (g_buf g) + 1) * period <= g_next g /\
              from + (Z.of_nat n + Z.b2z (g_buf g)) * period <= t_now s)%Z
      end
  | _ => False
  end.
Definition due (s : tstate) : Prop :=
  forall i g, t_gos s !! i = Some g -> g_pc g <> GNew -> (g_next g <= t_now s + period)%Z.

Lemma next_tick n now : (n <= now)%Z ->
  (n + period <= n + period * (1 + (now - n) / period) /\ n + period * (1 + (now - n) / period) <= now + period)%Z.
Proof.
  intros H. pose proof period_pos. pose proof (Z.div_pos (now - n) period ltac:(lia) ltac:(lia)).
  pose proof (Z.mul_div_le (now - n) period ltac:(lia)). nia.
Qed.
Lemma due_step s a s' e : due s -> tstep s a = Some (s', e) -> due s'.
Proof.
  intros Hd Hs. unfold due in *. pose proof period_pos as Hpp.
  assert (Hset : forall i n b p, (p <> GNew -> n <= t_now s + period)%Z -> forall j g, t_gos (set_go i (Trimmer n b p) s) !! j = Some g ->
    g_pc g <> GNew -> (g_next g <= t_now s + period)%Z).
  { intros i n b p Hn j g [[-> ->]|[Hne Hg]]%go_inv Hp; [by apply Hn|by eapply Hd]. }
  destruct a as [t x|t|j ks|j c|j|j|d]; cbn in Hs.
  - destruct (t_thr s !! t); by simplify_eq.
  - destruct (t_thr s !! t) as [p|]; [|done]. destruct p; cbn in Hs; repeat case_match; simplify_eq; try done.
    cbn. intros i g [Hg|[Hlen Hg]]%lookup_app_Some Hp; [by eapply Hd|]. apply list_lookup_singleton_Some in Hg as [_ <-]. done.
  - destruct (t_gos s !! j) as [[n b []]|] eqn:Ej; try done. pose proof (Hd _ _ Ej). case_decide; simplify_eq. apply Hset; naive_solver.
  - destruct (t_gos s !! j) as [[n b []]|] eqn:Ej; try done. pose proof (Hd _ _ Ej). repeat case_decide; simplify_eq; apply Hset; naive_solver.
  - destruct (t_gos s !! j) as [[n b p]|] eqn:Ej; [|done]. pose proof (Hd _ _ Ej) as Hj. cbn in Hj.
    destruct p, b; try case_decide; simplify_eq; (apply Hset; [intros _; try (apply Hj; done); lia]).
  - destruct (t_gos s !! j) as [[n b p]|] eqn:Ej; [|done].
    assert (Hs' : (n <= t_now s)%Z /\ s' = set_go j (Trimmer (n + period * (1 + (t_now s - n) / period))%Z true p) s)
      by (destruct p; try done; case_match; simplify_eq; split; [lia|done|lia|done|lia|done|lia|done]).
    destruct Hs' as [Hle ->]. apply Hset. intros _. by apply next_tick.
  - case_match; simplify_eq. intros i g Hg Hp. specialize (Hd _ _ Hg Hp). cbn. lia.
Qed.
Lemma due_run s l s' tr : due s -> trun s l = Some (s', tr) -> due s'.
Proof.
  revert s tr. induction l as [|a l IH]; intros s tr Hd; cbn; [by intros [= <- <-]|].
  destruct (tstep s a) as [[s1 e]|] eqn:E; [|done]. destruct (trun s1 l) as [[s2 tr2]|] eqn:E2; [|done].
  intros [= <- <-]. eapply IH; [|done]. by eapply due_step.
Qed.

Lemma timely_step from s a s' e n : timely from s n -> length (t_gos s') <= 1 -> tstep s a = Some (s', e) ->
  timely from s' (n + passes (option_list e)).
Proof.
  intros [Hf Ht] Hlen Hs. pose proof period_pos as Hpp. unfold timely.
  destruct (t_gos s) as [|g [|]] eqn:Eg; [| |done].
  { subst n. destruct a as [t x|t|j ks|j c|j|j|d]; cbn in Hs; rewrite ?Eg in Hs; try done.
    - destruct (t_thr s !! t); simplify_eq. cbn. by rewrite ?Eg.
    - destruct (t_thr s !! t) as [p|]; [|done]. destruct p; cbn in Hs; try destruct (t_lock s); simplify_eq; cbn; by rewrite ?Eg.
    - destruct (Z.leb_spec 0 d); simplify_eq. cbn. rewrite ?Eg. split; [lia|done]. }
  destruct g as [nx b p]. cbn [g_pc g_next g_buf] in Ht.
  destruct a as [t x|t|j ks|j c|j|j|d]; cbn in Hs; rewrite ?Eg in Hs.
  - destruct (t_thr s !! t); simplify_eq. cbn. rewrite ?Eg, ?Nat.add_0_r. done.
  - destruct (t_thr s !! t) as [q|]; [|done]. destruct q; cbn in Hs; try destruct (t_lock s); simplify_eq; cbn in *; rewrite ?Eg, ?Nat.add_0_r; try done.
    all: rewrite Eg in Hlen; cbn in Hlen; lia.
  - destruct j; [|done]. cbn in Hs. destruct p; try done. case_decide; simplify_eq. cbn. rewrite ?Eg, ?Nat.add_0_r. done.
  - destruct j; [|done]. cbn in Hs. destruct p; try done. repeat case_decide; simplify_eq; cbn; rewrite ?Eg, ?Nat.add_0_r; done.
  - destruct j; [|done]. cbn in Hs. destruct p.
    + assert (Hs' : (s', e) = (set_go 0 (Trimmer (t_now s + period)%Z false GWait) s, None)) by (by destruct b; simplify_eq).
      injection Hs' as -> ->. cbn. rewrite ?Eg. cbn. split; [done|]. subst n. cbn. lia.
    + destruct b; simplify_eq. cbn [set_go t_gos t_now]. rewrite Eg. cbn [list_insert insert g_pc g_next g_buf option_list passes List.filter is_pass length Z.b2z].
      cbn [Z.b2z] in Ht. split; [done|]. cbn. split; nia.
    + by destruct b.
    + assert (Hs' : (s', e) = (set_go 0 (Trimmer nx b GWait) s, Some (EEnd 0))) by (destruct b; case_decide; by simplify_eq).
      injection Hs' as -> ->. cbn. rewrite ?Eg, ?Nat.add_0_r. done.
    + assert (Hs' : (s', e) = (set_go 0 (Trimmer nx b (GIter ks)) s, Some (ETrimmed 0 c))) by (destruct b; by simplify_eq).
      injection Hs' as -> ->. cbn. rewrite ?Eg, ?Nat.add_0_r. done.
  - destruct j; [|done]. cbn in Hs.
    assert (Hs' : p <> GNew /\ (nx <= t_now s)%Z /\ (s', e) = (set_go 0 (Trimmer (nx + period * (1 + (t_now s - nx) / period))%Z true p) s, None))
      by (destruct p; try done; case_match; simplify_eq; (split; [done|]; split; [lia|done])).
    destruct Hs' as (Hp&Hle&[= -> ->]). cbn [set_go t_gos t_now option_list passes List.filter length]. rewrite ?Eg, ?Nat.add_0_r.
    cbn [list_insert insert]. pose proof (next_tick nx (t_now s) Hle) as [Hn _]. cbn [g_pc g_next g_buf Z.b2z]. split; [done|].
    assert ((from + (Z.of_nat n + Z.b2z b + 1) * period <= nx)%Z) as Hx by (destruct p; [done|apply Ht..]).
    assert (0 <= Z.b2z b)%Z by (destruct b; cbn; lia).
    assert ((from + (Z.of_nat n + 1 + 1) * period <= nx + period * (1 + (t_now s - nx) / period) /\ from + (Z.of_nat n + 1) * period <= t_now s)%Z) by nia.
    by destruct p.
  - destruct (Z.leb_spec 0 d); simplify_eq. cbn. rewrite ?Eg, ?Nat.add_0_r. split; [lia|]. cbn. destruct p; try done; lia.
Qed.
Lemma passes_app tr1 tr2 : passes (tr1 ++ tr2) = passes tr1 + passes tr2.
Proof. unfold passes. by rewrite List.filter_app, app_length. Qed.
Lemma timely_run from s l s' tr n tr0 : timely from s n -> tinv s tr0 -> trun s l = Some (s', tr) -> timely from s' (n + passes tr).
Proof.
  revert s n tr tr0. induction l as [|a l IH]; intros s n tr tr0 Ht Iv; cbn.
  - intros [= <- <-]. by rewrite Nat.add_0_r.
  - destruct (tstep s a) as [[s1 e]|] eqn:E; [|done]. destruct (trun s1 l) as [[s2 tr2]|] eqn:E2; [|done].
    intros [= <- <-]. rewrite passes_app, Nat.add_assoc. pose proof (tinv_step _ _ _ _ _ Iv E) as Iv1.
    eapply IH; [|exact Iv1|done]. eapply timely_step; [done|by eapply inv_one|done].
Qed.
Lemma passes_bound now l1 s1 tr1 l2 s2 tr2 : trun (tnew now) l1 = Some (s1, tr1) -> t_gos s1 = [] -> trun s1 l2 = Some (s2, tr2) ->
  (Z.of_nat (passes tr2) * period <= t_now s2 - t_now s1)%Z.
Proof.
  intros H1 Hg H2. pose proof period_pos. assert (timely (t_now s1) s1 0) as Ht by (unfold timely; rewrite Hg; split; [lia|done]).
  destruct (timely_run _ _ _ _ _ _ _ Ht (reach_inv _ _ _ _ H1) H2) as [Hf Hx]. rewrite Nat.add_0_l in Hx.
  destruct (t_gos s2) as [|g [|]]; [by rewrite Hx; lia| |done].
  assert (0 <= Z.b2z (g_buf g))%Z by (destruct (g_buf g); cbn; lia). destruct (g_pc g); [rewrite Hx; lia|nia..].
Qed.
Lemma pass_soon now l s tr g : trun (tnew now) l = Some (s, tr) -> t_gos s = [g] -> g_pc g = GWait ->
  exists d s', (0 <= d <= period)%Z /\ trun s [ATime d; ATick 0; ATrim 0] = Some (s', [EPass 0]).
Proof.
  intros H Hg Hp. pose proof period_pos.
  assert (due s) as Hd by (eapply due_run; [|done]; done).
  specialize (Hd 0 g). rewrite Hg, Hp in Hd. specialize (Hd eq_refl ltac:(done)).
  destruct g as [n b p]. cbn in Hp, Hd. subst p. exists (Z.max 0 (n - t_now s)). eexists. split; [lia|].
  cbn [trun tstep]. rewrite (proj2 (Z.leb_le _ _)) by lia. cbn [t_gos t_now]. rewrite Hg. cbn [lookup list_lookup].
  rewrite (proj2 (Z.leb_le _ _)) by lia. cbn [set_go t_gos]. rewrite ?Hg. cbn. done.
Qed.

(** ** A goroutine in a callback *)
Lemma stuck_run l : forall s s' tr tr0 g, tinv s tr0 -> trun s l = Some (s', tr) -> t_gos s = [g] -> g_pc g <> GNew -> Forall (fun a => ~ own_step a) l ->
  (exists g', t_gos s' = [g'] /\ g_pc g' = g_pc g) /\ forall e i, e ∈ tr -> ~ of_go i e.
Proof.
  induction l as [|a l IH]; intros s s' tr tr0 g Iv; cbn [trun].
  - intros [= -> <-] Hg _ _. split; [eauto|]. intros e i Hin. by apply elem_of_nil in Hin.
  - destruct (tstep s a) as [[s1 e]|] eqn:E; [|done]. destruct (trun s1 l) as [[s2 tr2]|] eqn:E2; [|done].
    intros [= -> <-] Hg Hp [Ha Hl]%Forall_cons.
    pose proof (tinv_step _ _ _ _ _ Iv E) as Iv1.
    assert (t_gos s !! 0 = Some g) as Hg0 by (by rewrite Hg).
    destruct (tstep_go _ _ _ _ _ _ E Hg0) as (g1&Hg1&_). destruct (inv_index _ _ _ _ Iv1 Hg1) as [_ Hgs1].
    assert (g_pc g1 = g_pc g /\ forall x i, e = Some x -> ~ of_go i x) as [Hpc He].
    { destruct a as [t x|t|j ks|j c|j|j|d]; cbn in E, Ha.
      - destruct (t_thr s !! t); simplify_eq. cbn in Hgs1. rewrite Hg in Hgs1. injection Hgs1 as <-. split; [done|]. by intros y i [= <-].
      - destruct (t_thr s !! t) as [q|]; [|done]. destruct q; cbn in E; repeat case_match; simplify_eq; cbn in Hgs1; rewrite Hg in Hgs1;
          try done; injection Hgs1 as <-; (split; [done|]; by intros y i [= <-]).
      - by destruct Ha.
      - by destruct Ha.
      - by destruct Ha.
      - rewrite Hg in E. destruct j; [|done]. cbn in E. destruct g as [n b p]. destruct p; try done; case_match; simplify_eq; cbn in Hgs1; rewrite Hg in Hgs1;
          injection Hgs1 as <-; done.
      - case_match; simplify_eq. cbn in Hgs1. rewrite Hg in Hgs1. injection Hgs1 as <-. done. }
    destruct (IH _ _ _ _ g1 Iv1 E2 Hgs1 ltac:(by rewrite Hpc) Hl) as [(g'&?&?) Hno]. split.
    + exists g'. split; [done|]. congruence.
    + intros x i [Hin|Hin]%elem_of_app; [|by apply Hno]. destruct e; cbn in Hin; [|by apply elem_of_nil in Hin].
      apply elem_of_list_singleton in Hin as ->. by apply He.
Qed.
Lemma gos_grow s l s' tr : trun s l = Some (s', tr) -> length (t_gos s) <= length (t_gos s').
Proof.
  revert s tr. induction l as [|a l IH]; intros s tr; cbn; [by intros [= -> _]|].
  destruct (tstep s a) as [[s1 e]|] eqn:E; [|done]. destruct (trun s1 l) as [[s2 tr2]|] eqn:E2; [|done].
  intros [= -> <-]. specialize (IH _ _ E2). etrans; [|exact IH].
  apply tstep_thr in E as [_ _ _ _ _ _ ->|t x _ -> _|t p Hp Hg]; [done|done|].
  destruct p; cbn in Hg; repeat case_match; simplify_eq; cbn; rewrite ?app_length; lia.
Qed.

(** ** trimTime *)
Lemma retime_step f s a s' e : tstep s a = Some (s', e) -> tstep s (retime f a) = Some (s', retime_event f <$> e).
Proof.
  intros Hs. destruct a as [t x|t|j ks|j c|j|j|d].
  - cbn in Hs. destruct (t_thr s !! t) eqn:Et; [done|]. simplify_eq. destruct x; cbn; by rewrite Et.
  - cbn [retime]. rewrite Hs. cbn in Hs. destruct (t_thr s !! t) as [q|]; [|done]. by destruct q; cbn in Hs; repeat case_match; simplify_eq.
  - cbn [retime]. rewrite Hs. cbn in Hs. by repeat case_match; simplify_eq.
  - cbn [retime]. rewrite Hs. cbn in Hs. by repeat case_match; simplify_eq.
  - cbn [retime]. rewrite Hs. cbn in Hs. by repeat case_match; simplify_eq.
  - cbn [retime]. rewrite Hs. cbn in Hs. by repeat case_match; simplify_eq.
  - cbn [retime]. rewrite Hs. cbn in Hs. by repeat case_match; simplify_eq.
Qed.
Lemma retime_run f l : forall s s' tr, trun s l = Some (s', tr) -> trun s (map (retime f) l) = Some (s', map (retime_event f) tr).
Proof.
  induction l as [|a l IH]; intros s s' tr; cbn [trun map]; [by intros [= -> <-]|].
  destruct (tstep s a) as [[s1 e]|] eqn:E; [|done]. destruct (trun s1 l) as [[s2 tr2]|] eqn:E2; [|done].
  intros [= -> <-]. rewrite (retime_step f _ _ _ _ E), (IH _ _ _ E2). rewrite map_app. by destruct e.
Qed.
