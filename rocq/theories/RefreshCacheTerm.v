(** The refresh cache: no call makes more than a fixed number of steps. *)
From Coq Require Import ZifyBool ZifyNat.
From Verif Require Import Base RefreshCacheModel RefreshCacheSpec RefreshCacheProofs RefreshCacheTermSpec RefreshCacheProperties.

Section term.
Context {T E F : Type} (zero : T) (maxAge errAge : Z).
Local Notation pc := (pc T E F).
Local Notation config := (config T E F).
Local Notation run := (run zero maxAge errAge).
Local Notation act := (act zero maxAge errAge).
Local Notation step := (step zero maxAge errAge).

Definition to_go (p : pc) : nat :=
  match p with
  | X_ret _ => 1
  | U_unlock _ | G_err | G_data | K_run _ _ | W_err2 _ | W_err | W_data | X_last | X_lasterr | X_setref _ | X_setclr _ => 2
  | D_last0 _ | D_lasterr0 _ | L_err | L_data | K_last _ | W_data2 => 3
  | D_lasterr _ _ | D_last _ _ | K_old _ | W_err1 _ => 4
  | D_enow _ | D_now _ | W_err0 | X_clear => 5
  | D_err _ _ | D_data _ _ | W_fresh _ => 6
  | C_run _ _ | W_last => 7
  | C_old _ => 8
  | R_lock _ | L_err1 _ _ => 9
  | L_err0 _ | X_refresh => 10
  | L_fresh _ _ => 11
  | L_now _ => 12
  | L_last _ => 13
  | G_lock _ => 14
  | G_err1 _ _ => 15
  | G_err0 _ => 16
  | G_fresh _ _ => 17
  | G_last _ => 18
  | X_get => 19
  end.

Lemma to_go_pos p : 0 < to_go p.
Proof. destruct p; cbn; lia. Qed.
Lemma to_go_step t (p : pc) s lab p' s' ev : step t p s lab = Some (Some p', s', ev) -> to_go p' < to_go p.
Proof.
  intros Hs. destruct p; destruct lab; cbn in Hs; repeat case_match; simplify_eq; cbn; try lia;
    try (match goal with |- context [after _ ?x] => destruct x end; cbn; lia);
    try (match goal with |- context [K_last ?x] => destruct x end; cbn; lia).
Qed.
Lemma step_ends t (p : pc) s lab s' (ev : list (event T E F)) : step t p s lab = Some (None, s', ev) -> exists r, EReturn t r ∈ ev.
Proof.
  intros Hs. destruct p; destruct lab; cbn in Hs; repeat case_match; simplify_eq.
  eexists. apply elem_of_list_here.
Qed.

Definition weigh (n : nat) (cf : config) : nat :=
  sum_list_with (fun t => match c_thr cf t with Some p => to_go p | None => 0 end) (seq 0 n).

Lemma sum_change (f g : nat -> nat) t l : t ∈ l -> g t < f t -> (forall u, u <> t -> g u = f u) ->
  sum_list_with g l < sum_list_with f l.
Proof.
  intros Ht Hlt Hu. assert (Hle : forall l, sum_list_with g l <= sum_list_with f l).
  { intros l'. induction l' as [|u l' IH]; [done|]. cbn. destruct (decide (u = t)) as [->|Hn]; [lia|]. rewrite Hu by done. lia. }
  induction l as [|u l IH]; [by apply elem_of_nil in Ht|]. cbn. apply elem_of_cons in Ht as [<-|Ht].
  - specialize (Hle l). lia.
  - specialize (IH Ht). destruct (decide (u = t)) as [->|Hn]; [lia|]. rewrite Hu by done. lia.
Qed.

Lemma act_weigh n (cf : config) t lab cf' ev : (forall u, n <= u -> c_thr cf u = None) ->
  act cf (AStep t lab) = Some (cf', ev) ->
  weigh n cf' < weigh n cf /\ forall u, n <= u -> c_thr cf' u = None.
Proof.
  intros Hn Ha. cbn in Ha. destruct (c_thr cf t) as [p|] eqn:Ht; [|done].
  destruct (step t p (c_sh cf) lab) as [[[o s'] ev']|] eqn:Es; [|done]. simplify_eq.
  assert (t < n) by (destruct (decide (t < n)); [done|]; rewrite Hn in Ht by lia; done).
  split.
  - unfold weigh. apply (sum_change _ _ t); [apply elem_of_seq; lia| |].
    + cbn. rewrite fn_lookup_insert, Ht. destruct o as [p'|]; [by eapply to_go_step|apply to_go_pos].
    + intros u Hu. cbn. by rewrite fn_lookup_insert_ne.
  - intros u Hu. cbn. rewrite fn_lookup_insert_ne by lia. by apply Hn.
Qed.

Lemma run_bounded (f0 : option F) acts (cf : config) tr : run (new_config zero f0) acts = Some (cf, tr) ->
  exists n, forall u, n <= u -> c_thr cf u = None.
Proof.
  intros Hr. change ((fun (_ : list (event T E F)) (cf : config) => exists n, forall u, n <= u -> c_thr cf u = None) ([] ++ tr) cf).
  eapply run_inv; [| |exact Hr].
  - clear. intros tr cf a cf' ev [n Hn] Ha. destruct a as [t c|t lab].
    + cbn in Ha. destruct (c_thr cf t); [done|]. simplify_eq. exists (n `max` S t). intros u Hu. cbn.
      rewrite fn_lookup_insert_ne by lia. apply Hn. lia.
    + exists n. by eapply act_weigh.
  - by exists 0.
Qed.

Lemma reach_returns (f0 : option F) n : forall acts (cf : config) tr w, run (new_config zero f0) acts = Some (cf, tr) ->
  (forall u, n <= u -> c_thr cf u = None) -> weigh n cf < w -> all_return zero maxAge errAge cf.
Proof.
  intros acts cf tr w. revert acts cf tr. induction w as [|w IH]; intros acts cf tr Hr Hn Hw; [lia|].
  destruct (decide (Exists (fun t => c_thr cf t <> None) (seq 0 n))) as [He|He].
  - right.
    + apply Exists_exists in He as (t & _ & Ht). destruct (c_thr cf t) as [p|] eqn:Et; [|done].
      destruct (C83_no_deadlock zero maxAge errAge f0 acts cf tr t p Hr Et) as [(lab & cf' & ev & Ha)|(_ & u & _ & lab & cf' & ev & Ha)];
        [exists t, lab|exists u, lab]; by eexists.
    + intros t lab cf' ev Ha. destruct (act_weigh n _ _ _ _ _ Hn Ha) as [Hlt Hn'].
      eapply (IH (acts ++ [AStep t lab]) cf'); [|done|lia].
      rewrite run_app, Hr. cbn [RefreshCacheModel.run]. rewrite Ha. done.
  - left. intros t. destruct (decide (n <= t)) as [Hl|Hl]; [by apply Hn|].
    destruct (c_thr cf t) eqn:Et; [|done]. destruct He. apply Exists_exists. exists t. split; [apply elem_of_seq; lia|]. congruence.
Qed.

Lemma other_act (cf : config) a cf' ev t p : act cf a = Some (cf', ev) -> c_thr cf t = Some p ->
  (forall lab, a <> AStep t lab) -> c_thr cf' t = Some p.
Proof.
  intros Ha Ht Hn. destruct a as [u c|u lab]; cbn in Ha.
  - destruct (c_thr cf u) eqn:Eu; [done|]. simplify_eq. cbn. rewrite fn_lookup_insert_ne; [done|congruence].
  - assert (u <> t) by (intros ->; by apply (Hn lab)). destruct (c_thr cf u) as [q|] eqn:Eu; [|done].
    destruct (step u q (c_sh cf) lab) as [[[o s'] ev']|] eqn:Es; [|done]. simplify_eq. cbn. by rewrite fn_lookup_insert_ne.
Qed.

Lemma own_bound acts : forall (cf : config) t p cf' tr, c_thr cf t = Some p ->
  run cf acts = Some (cf', tr) -> (forall r, EReturn t r ∉ tr) -> own t acts < to_go p.
Proof.
  induction acts as [|a acts IH]; intros cf t p cf' tr Ht Hr Hn; [apply to_go_pos|].
  cbn [RefreshCacheModel.run] in Hr. destruct (act cf a) as [[cf1 ev]|] eqn:Ha; [|done].
  destruct (run cf1 acts) as [[cf2 evs]|] eqn:Hr1; [|done]. injection Hr as -> <-.
  assert (Hn' : forall r, EReturn t r ∉ evs) by (intros r Hi; apply (Hn r), elem_of_app; by right).
  destruct a as [u d|u lab]; cbn [own].
  - eapply other_act in Ha; [|exact Ht|done]. by eapply IH.
  - case_decide as Hu; [subst u|].
    + cbn [RefreshCacheModel.act] in Ha. rewrite Ht in Ha.
      destruct (step t p (c_sh cf) lab) as [[[[p'|] s'] ev']|] eqn:Es; [| |done]; simplify_eq.
      * pose proof (to_go_step _ _ _ _ _ _ _ Es).
        assert (own t acts < to_go p') as Ho; [|lia]. eapply IH; [|exact Hr1|done]. cbn. by rewrite fn_lookup_insert.
      * exfalso. apply step_ends in Es as [r Hi]. by apply (Hn r), elem_of_app, or_introl.
    + eapply other_act in Ha; [|exact Ht|congruence]. by eapply IH.
Qed.

(** ** While others are in a function of the user *)
Definition runs (p : pc) : bool := match p with C_run _ _ | K_run _ _ => true | _ => false end.
Lemma runs_spec (cf : config) t p : c_thr cf t = Some p -> (runs p = true <-> in_function cf t).
Proof.
  intros Ht. split.
  - destruct p; cbn; try done; intros _; [left|right]; unfold in_refresh; eauto.
  - intros [(f & old & He)|(f & old & He)]; rewrite Ht in He; injection He as ->; done.
Qed.

Definition idle (cf : config) (t : nat) : bool :=
  match c_thr cf t with
  | None => true
  | Some p => runs p ||
      match p, s_lock (c_sh cf) with
      | (G_lock _ | R_lock _), Some u => match c_thr cf u with Some (C_run _ _) => true | _ => false end
      | _, _ => false
      end
  end.
Lemma reach_meanwhile (f0 : option F) n : forall acts (cf : config) tr w, run (new_config zero f0) acts = Some (cf, tr) ->
  (forall u, n <= u -> c_thr cf u = None) -> weigh n cf < w -> return_meanwhile zero maxAge errAge cf.
Proof.
  intros acts cf tr w. revert acts cf tr. induction w as [|w IH]; intros acts cf tr Hr Hn Hw; [lia|].
  destruct (decide (Exists (fun t => idle cf t = false) (seq 0 n))) as [He|He].
  - right.
    + apply Exists_exists in He as (t & _ & Ht). unfold idle in Ht. destruct (c_thr cf t) as [p|] eqn:Et; [|done].
      apply orb_false_iff in Ht as [Hp Hw'].
      assert (Hnf : ~ in_function cf t) by (intros Hf; apply (runs_spec _ _ _ Et) in Hf; congruence).
      destruct (C83_no_deadlock zero maxAge errAge f0 acts cf tr t p Hr Et) as [(lab & cf' & ev & Ha)|(Hwt & u & Hu & lab & cf' & ev & Ha)];
        [exists t, lab; split; [done|by eexists]|].
      exists u, lab. split; [|by eexists]. rewrite Hu in Hw'.
      intros [(f & old & He)|(f & old & He)].
      * destruct Hwt as (g & [He'|He']); rewrite Et in He'; injection He' as ->; rewrite He in Hw'; done.
      * destruct (inv_run _ _ _ _ _ _ _ Hr) as [HL HI]. rewrite Hu in HI. destruct HI as (q & Hq & Hlk & _).
        rewrite He in Hq. injection Hq as <-. done.
    + intros t lab cf' ev _ Ha. destruct (act_weigh n _ _ _ _ _ Hn Ha) as [Hlt Hn'].
      eapply (IH (acts ++ [AStep t lab]) cf'); [|done|lia].
      rewrite run_app, Hr. cbn [RefreshCacheModel.run]. rewrite Ha. done.
  - left. intros t [p Et]. destruct (decide (n <= t)) as [Hl|Hl]; [by rewrite Hn in Et|].
    assert (Hi : idle cf t = true).
    { destruct (idle cf t) eqn:Ei; [done|]. destruct He. apply Exists_exists. exists t. split; [apply elem_of_seq; lia|done]. }
    unfold idle in Hi. rewrite Et in Hi. apply orb_true_iff in Hi as [Hi|Hi]; [left; by eapply runs_spec|right].
    destruct p; try done; destruct (s_lock (c_sh cf)) as [u|] eqn:Hu; try done; destruct (c_thr cf u) as [[]|] eqn:Eu; try done;
      (split; [eexists; eauto|exists u; split; [done|]; unfold in_refresh; eauto]).
Qed.

(** A Refresh made while another goroutine stays in the refresh function does not return. *)
Lemma step_returns t (p : pc) s lab o s' (ev : list (event T E F)) u r : step t p s lab = Some (o, s', ev) -> EReturn u r ∈ ev -> u = t.
Proof.
  intros Hs Hi. destruct p; destruct lab; cbn in Hs; repeat case_match; simplify_eq;
    repeat (apply elem_of_cons in Hi as [Hi|Hi]; [first [discriminate Hi|by injection Hi]|]); by apply elem_of_nil in Hi.
Qed.
Lemma locked_stays (f0 : option F) acts : forall pre (cf : config) tr0 t u f old p0 cf' tr,
  run (new_config zero f0) pre = Some (cf, tr0) ->
  c_thr cf t = Some (C_run f old) -> c_thr cf u = Some p0 -> (exists g, p0 = G_lock g \/ p0 = R_lock g) -> run cf acts = Some (cf', tr) ->
  (forall lab, AStep t lab ∉ acts) -> c_thr cf' u = Some p0 /\ forall r, EReturn u r ∉ tr.
Proof.
  induction acts as [|a acts IH]; intros pre cf tr0 t u f old p0 cf' tr Hpre Ht Hu Hp0 Hr Hn.
  - injection Hr as <- <-. split; [done|]. intros r Hi. by apply elem_of_nil in Hi.
  - cbn [RefreshCacheModel.run] in Hr. destruct (act cf a) as [[cf1 ev]|] eqn:Ha; [|done].
    destruct (run cf1 acts) as [[cf2 evs]|] eqn:Hr1; [|done]. injection Hr as -> <-.
    assert (Hat : forall lab, a <> AStep t lab) by (intros lab ->; apply (Hn lab), elem_of_list_here).
    destruct (inv_run _ _ _ _ _ _ _ Hpre) as [HL _]. pose proof (HL _ _ Ht eq_refl) as Hl.
    assert (Hau : forall lab, a <> AStep u lab).
    { intros lab ->. cbn in Ha. rewrite Hu in Ha. destruct Hp0 as [g [->| ->]]; destruct lab; cbn in Ha; try done; by rewrite Hl in Ha. }
    destruct (IH (pre ++ [a]) cf1 (tr0 ++ ev) t u f old p0 cf' evs) as [H1 H2].
    + rewrite run_app, Hpre. cbn [RefreshCacheModel.run]. rewrite Ha. by rewrite app_nil_r.
    + by eapply other_act.
    + by eapply other_act.
    + done.
    + done.
    + intros lab Hi. apply (Hn lab). by apply elem_of_list_further.
    + split; [done|]. intros r Hi. apply elem_of_app in Hi as [Hi|Hi]; [|by apply (H2 r)].
      destruct a as [v c|v lab]; cbn in Ha.
      * destruct (c_thr cf v); [done|]. simplify_eq. apply elem_of_list_singleton in Hi. done.
      * destruct (c_thr cf v) as [p|]; [|done]. destruct (step v p (c_sh cf) lab) as [[[o s'] ev']|] eqn:Hs; [|done].
        simplify_eq. eapply step_returns in Hs; [|exact Hi]. subst v. by apply (Hau lab).
Qed.
End term.
