(** rwmap: if no new calls are made, only finitely many steps are possible, whatever the schedule.

    Three numbers, in lexicographic order, go down with every step: how far the goroutines are in
    their calls, how much of their iterations is left, and whether the compare-and-swap a goroutine
    is about to do (or is preparing) will succeed.  The last one goes up when somebody else changes
    the entry, but then one of the others goes down. *)
From Coq Require Import ZifyBool ZifyNat Wellfounded.
From Verif Require Import Base RwMapModel RwMapSpec RwMapInv RwMapFrame RwMapMoves RwMapMoves2 RwMapStep RwMapStep2 RwMapStep3 RwMapLin
  RwMapProgress RwMapTermSpec.

(** ** Sums over finite maps *)
Definition gsum {A} (f : nat -> A -> nat) (m : gmap nat A) : nat := map_fold (fun t x n => f t x + n) 0 m.
Section gsum.
Context {A : Type}.
Implicit Types (f : nat -> A -> nat) (m : gmap nat A).
Lemma gsum_fresh f m t x : m !! t = None -> gsum f (<[t := x]> m) = f t x + gsum f m.
Proof. intros Hm. unfold gsum. rewrite map_fold_insert_L; [done| |done]. intros. lia. Qed.
Lemma gsum_del f m t x : m !! t = Some x -> gsum f m = f t x + gsum f (delete t m).
Proof. intros Hm. rewrite <- (insert_delete m t x Hm) at 1. apply gsum_fresh, lookup_delete. Qed.
Lemma gsum_ins f m t x : gsum f (<[t := x]> m) = f t x + gsum f (delete t m).
Proof. rewrite <- insert_delete_insert. apply gsum_fresh, lookup_delete. Qed.
End gsum.

Definition lt3 (x y : nat * nat * nat) : Prop :=
  let '(a, b, c) := x in let '(a', b', c') := y in a < a' \/ (a = a' /\ (b < b' \/ (b = b' /\ c < c'))).
Lemma lt3_wf : well_founded lt3.
Proof.
  intros [[a b] c]. revert b c. induction a as [a IHa] using lt_wf_ind. intros b.
  induction b as [b IHb] using lt_wf_ind. intros c. induction c as [c IHc] using lt_wf_ind.
  constructor. intros [[a' b'] c'] [Ha|[-> [Hb|[-> Hc]]]]; [by apply IHa|by apply IHb|by apply IHc].
Qed.

Section term.
Context {K : Type} `{Countable K} {V : Type}.
Context (deref : nat -> V) (zero : V) (veq : V -> V -> option bool).
Local Notation call := (call K V).
Local Notation pc := (pc K V).
Local Notation shared := (shared K).
Local Notation config := (config K V).

(** The operation on an entry may have to go on under the lock. *)
Definition again (c : call) (m : mode) : bool :=
  match c, m with (CStore _ _ | CSwap _ _), _ | CLoadOrStore _ _, Fast => true | _, _ => false end.
Definition stage (c : call) (p : pc) : nat :=
  match p with
  | X_ret _ => 1
  | P_len _ _ | P_getlen | P_une None | R_next _ _ | R_load _ _ _ _ | R_call _ _ _ _ => 2
  | P_un _ | P_unr _ => 3
  | P_miss _ | P_prom | P_swap _ | P_new | P_clr2 => 4
  | E_load _ m | E_cas _ _ m => if again c m then 10 else 5
  | P_une (Some _) => if again c Fast then 11 else 6
  | P_amend | P_clr => 5
  | P_dl _ | P_dlx _ _ _ | P_dlc _ _ _ | P_unexp _ => 6
  | P_dirty => 7
  | P_read2 => 8
  | P_lock => 9
  | P_read => 12
  end.
Definition loop (p : pc) : nat :=
  match p with
  | P_dl todo => 2 * size todo
  | P_dlx _ _ todo | P_dlc _ _ todo => S (2 * size todo)
  | R_next todo _ => 3 * size todo
  | R_load _ _ todo _ => 2 + 3 * size todo
  | R_call _ _ todo _ => 1 + 3 * size todo
  | _ => 0
  end.
Definition stale (en : nat -> slot) (p : pc) : nat :=
  match p with
  | E_load _ _ | P_dlx _ _ _ => 2
  | E_cas e x _ => if decide (en e = x) then 1 else 3
  | P_dlc _ e _ => if decide (en e = SNil) then 1 else 3
  | _ => 0
  end.

Lemma stage_pos c p : 0 < stage c p.
Proof. destruct p as [| | | | | | | | | | | | |[]| | | | | | | | | | | | ]; cbn; try case_match; lia. Qed.
Lemma stage_after c m r : stage c (after c m r) <= 4.
Proof. destruct m; cbn; [|lia..]. unfold finish. case_decide; cbn; lia. Qed.
Lemma stage_after_panic c m : stage c (after_panic m) <= 4.
Proof. destruct m; cbn; lia. Qed.

Lemma step_down t c p s lab p' s' ev : step deref zero veq t c p s lab = Some (Some p', s', ev) ->
  stage c p' < stage c p \/
  (stage c p' = stage c p /\
   (loop p' < loop p \/
    (loop p' = loop p /\ s_ent s' = s_ent s /\ stale (s_ent s) p' < stale (s_ent s) p))).
Proof.
  intros Hs.
  assert (Hds : forall (k : K) e (q : pc) (s0 s1 : shared) (p1 : pc) ev1, dirty_store k e q s0 = Some (Some p1, s1, ev1) ->
    p1 = q \/ p1 = X_ret (RPanic : result V)).
  { intros k e q s0 s1 p1 ev1. unfold dirty_store, goto. destruct (s_dirty s0); intros [= <- <- <-]; [by left|by right]. }
  destruct p; try (destruct lab as [|kl|b]; [|discriminate Hs|discriminate Hs]); cbn [step] in Hs.
  - left. unfold step_read, goto in Hs. destruct c; try done; repeat (case_match || case_decide); simplify_eq; cbn; lia.
  - left. destruct (s_lock s); [done|]. unfold goto in Hs. simplify_eq. cbn. lia.
  - left. unfold step_read2, goto in Hs. destruct c; try done; repeat (case_match || case_decide); simplify_eq; cbn; lia.
  - left. unfold step_dirty, add_key, goto in Hs.
    destruct c; try done; repeat (case_match || case_decide); simplify_eq; cbn;
      try (match goal with |- context [dirty_map ?a !! ?b] => destruct (dirty_map a !! b) end); lia.
  - left. unfold goto in Hs. destruct (s_ent s e); [|destruct (call_key c); [apply Hds in Hs as [->| ->]|]|];
      simplify_eq; cbn; try lia; destruct c; cbn; lia.
  - left. unfold goto in Hs. destruct (s_ent s e), (call_ptr c); simplify_eq; cbn; lia.
  - destruct lab as [|kl|b]; [case_decide; [|done]|destruct (todo !! kl) as [e|] eqn:Ek; [|done]|done];
      unfold goto in Hs; simplify_eq; [left; cbn; lia|right; split; [done|left]]. cbn.
    pose proof (map_size_delete_Some kl todo (mk_is_Some _ _ Ek)).
    assert (size todo <> 0) by (intros E; apply map_size_empty_inv in E; by subst todo). lia.
  - unfold goto in Hs. destruct (s_ent s e) eqn:Ee; [| |apply Hds in Hs as [->| ->]]; simplify_eq; cbn.
    + right. split; [done|]. right. split_and!; try done. rewrite decide_True by done. lia.
    + right. split; [done|]. left. lia.
    + right. split; [done|]. left. lia.
    + left. lia.
  - unfold goto in Hs. destruct (s_ent s e) eqn:Ee; simplify_eq; cbn.
    + right. split; [done|]. left. lia.
    + right. split; [done|]. right. split_and!; try done. rewrite decide_False by congruence. lia.
    + right. split; [done|]. right. split_and!; try done. rewrite decide_False by congruence. lia.
  - left. unfold goto in Hs. simplify_eq. cbn. lia.
  - left. destruct (call_key c), (call_ptr c); try done. apply Hds in Hs as [->| ->]; cbn; lia.
  - left. unfold goto in Hs. simplify_eq. cbn. lia.
  - left. unfold goto in Hs. simplify_eq. unfold finish. case_decide; cbn; lia.
  - left. destruct o, lab; unfold goto in Hs; simplify_eq; cbn; try destruct (again c Fast); lia.
  - left. unfold goto in Hs. simplify_eq. cbn. lia.
  - left. unfold goto in Hs. simplify_eq. cbn. lia.
  - left. unfold goto in Hs. simplify_eq. cbn. lia.
  - left. unfold goto in Hs. simplify_eq. cbn. lia.
  - assert (Hfin : forall r, stage c (after c m r) < stage c (E_load e m)).
    { intros r. pose proof (stage_after c m r). cbn. destruct (again c m); lia. }
    assert (Hpan : stage c (after_panic m) < stage c (E_load e m)).
    { pose proof (stage_after_panic c m). cbn. destruct (again c m); lia. }
    assert (Hcas : p' = E_cas e (s_ent s e) m -> s' = s ->
      stage c p' < stage c (E_load e m) \/ (stage c p' = stage c (E_load e m) /\
       (loop p' < loop (E_load e m) \/
        (loop p' = loop (E_load e m) /\ s_ent s' = s_ent s /\ stale (s_ent s) p' < stale (s_ent s) (E_load e m))))).
    { intros -> ->. right. split; [done|]. right. cbn. rewrite decide_True by done. split_and!; try done; lia. }
    unfold step_load, goto in Hs.
    destruct c; try done; repeat case_match; simplify_eq; auto; left; cbn; destruct m; cbn; try lia.
  - unfold goto in Hs. case_decide as Ee; simplify_eq.
    + left. pose proof (stage_after c m (cas_result deref c (s_ent s e))). cbn. destruct (again c m); lia.
    + right. split; [done|]. right. cbn. rewrite decide_False by done. split_and!; try done; lia.
  - left. unfold goto in Hs. simplify_eq. cbn. lia.
  - destruct lab as [|kl|b]; [case_decide; [|done]|destruct (todo !! kl) as [e|] eqn:Ek; [|done]|done];
      unfold goto in Hs; simplify_eq; [left; cbn; lia|right; split; [done|left]]. cbn.
    pose proof (map_size_delete_Some kl todo (mk_is_Some _ _ Ek)).
    assert (size todo <> 0) by (intros E; apply map_size_empty_inv in E; by subst todo). lia.
  - unfold goto in Hs. destruct (slot_val deref (s_ent s e)); simplify_eq; right; (split; [done|left]); cbn; lia.
  - destruct lab as [| |b]; [done..|]. destruct c, b; simplify_eq; try (left; cbn; lia); right; (split; [done|left]); cbn; lia.
  - left. unfold goto in Hs. simplify_eq. cbn. lia.
  - done.
Qed.

Definition msr (cf : config) : nat * nat * nat :=
  (gsum (fun _ x => stage x.1 x.2) (c_thr cf), gsum (fun _ x => loop x.2) (c_thr cf),
   gsum (fun _ x => stale (s_ent (c_sh cf)) x.2) (c_thr cf)).

Lemma act_down cf t lab cf' ev : act deref zero veq cf (AStep t lab) = Some (cf', ev) -> lt3 (msr cf') (msr cf).
Proof.
  intros Ha. cbn [act] in Ha. destruct (c_thr cf !! t) as [[c p]|] eqn:Et; [|done].
  destruct (step deref zero veq t c p (c_sh cf) lab) as [[[[p'|] s'] ev']|] eqn:Es; simplify_eq;
    unfold msr, lt3; cbn [c_thr c_sh].
  - rewrite !gsum_ins, !(gsum_del _ (c_thr cf) t (c, p)) by done. cbn [fst snd].
    apply step_down in Es as [Es|(-> & [Es|(-> & -> & Es)])]; [left|right|right]; [lia| |]; (split; [done|]).
    + left. lia.
    + right. split; [done|]. lia.
  - left. rewrite !(gsum_del _ (c_thr cf) t (c, p)) by done. cbn [fst snd]. pose proof (stage_pos c p). lia.
Qed.

(** One step of any goroutine; no new calls. *)
Definition ticks_to (cf' cf : config) : Prop := exists t lab ev, act deref zero veq cf (AStep t lab) = Some (cf', ev).
Lemma ticks_wf : well_founded ticks_to.
Proof.
  apply (wf_incl _ _ (fun cf' cf => lt3 (msr cf') (msr cf))); [|apply wf_inverse_image, lt3_wf].
  intros cf' cf (t & lab & ev & Ha). by eapply act_down.
Qed.
End term.

(** ** All calls return *)

Section returns.
Context {K : Type} `{Countable K} {V : Type}.
Context (deref : nat -> V) (zero : V) (veq : V -> V -> option bool).

Lemma good_returns (cf : config K V) tr :
  good deref veq (c_sh cf) (c_thr cf) tr -> all_return deref zero veq cf.
Proof.
  revert tr. induction (ticks_wf deref zero veq cf) as [cf _ IH]. intros tr Hg.
  destruct (decide (c_thr cf = ∅)) as [He|He]; [by left|]. right.
  - apply map_choose in He as (t & x & Ht).
    destruct (good_goes_on deref zero veq cf tr t Hg (mk_is_Some _ _ Ht)) as [(lab & Hl)|(u & lab & _ & _ & Hl)]; eauto.
  - intros t lab cf' ev Ha. eapply IH; [by exists t, lab, ev|]. by eapply act_good.
Qed.

(** ** While others are in a callback *)
Definition at_callback (x : call K V * pc K V) : bool :=
  match x with (CRange, R_call _ _ _ _) => true | _ => false end.
Lemma at_callback_spec (cf : config K V) t x : c_thr cf !! t = Some x -> (at_callback x = true <-> in_callback cf t).
Proof.
  intros Ht. split.
  - destruct x as [[] []]; cbn; try done. intros _. unfold in_callback. eauto 10.
  - intros (k & v & todo & n & E). rewrite Ht in E. by injection E as ->.
Qed.
Lemma good_meanwhile (cf : config K V) tr :
  good deref veq (c_sh cf) (c_thr cf) tr -> return_meanwhile deref zero veq cf.
Proof.
  revert tr. induction (ticks_wf deref zero veq cf) as [cf _ IH]. intros tr Hg.
  destruct (decide (map_Forall (fun _ x => at_callback x = true) (c_thr cf))) as [Hd|Hd].
  { left. intros t [x Hx]. eapply at_callback_spec; [exact Hx|]. by apply (Hd t). }
  apply map_not_Forall in Hd as (t & x & Hx & Hn); [|intros; apply _]. right.
  - assert (Hcb : ~ in_callback cf t) by (intros Hc; apply Hn; by eapply at_callback_spec).
    destruct (good_goes_on deref zero veq cf tr t Hg (mk_is_Some _ _ Hx)) as [(lab & Hl)|(u & lab & _ & Hu & Hl)]; [by eauto|].
    exists u, lab. split; [|done]. intros (k & v & todo & n & E). destruct Hg as (h & kof & m & Hc & _).
    by apply (i_lock _ _ _ _ _ _ _ Hc _ _ _ E) in Hu.
  - intros u lab cf' ev _ Ha. eapply IH; [by exists u, lab, ev|]. by eapply act_good.
Qed.

(** ** Calls without retries *)
Definition plain (c : call K V) : bool :=
  match c with CLoad _ | CLen | CClear => true | _ => false end.
Definition left_ (c : call K V) (p : pc K V) : nat :=
  match p with
  | X_ret _ => 1
  | P_getlen | P_une None | P_un _ | E_load _ Fast => 2
  | P_miss _ | P_clr2 | P_une (Some _) | E_load _ Lck => 3
  | P_dirty | P_clr | E_load _ LckMiss => 4
  | P_read2 => 5
  | P_lock => 6
  | P_read => 7
  | _ => 0
  end.
Lemma plain_step t c p s lab p' s' ev : plain c = true -> 0 < left_ c p ->
  step deref zero veq t c p s lab = Some (Some p', s', ev) -> 0 < left_ c p' < left_ c p.
Proof.
  intros Hc Hp Hs. assert (Hd : forall r, delta c r = 0%Z) by (by destruct c).
  destruct p as [| | | | | | | | | | | | |[]| | | | |? []| | | | | | | ]; cbn in Hp; try lia;
    destruct lab; try discriminate Hs; cbn [step] in Hs; unfold step_read, step_read2, step_dirty, step_load, finish, goto in Hs;
    rewrite ?decide_True in Hs by apply Hd; destruct c; try done; cbn [after] in Hs; unfold finish in Hs; cbn in Hs; repeat (case_match || case_decide);
    simplify_eq; cbn; try lia;
    try (match goal with |- context [dirty_map ?a !! ?b] => destruct (dirty_map a !! b) end); try lia.
Qed.

Lemma other_act (cf : config K V) a cf' ev t x : act deref zero veq cf a = Some (cf', ev) -> c_thr cf !! t = Some x ->
  (forall lab, a <> AStep t lab) -> c_thr cf' !! t = Some x.
Proof.
  intros Ha Ht Hn. destruct a as [u c|u lab]; cbn in Ha.
  - destruct (c_thr cf !! u) eqn:Eu; [done|]. simplify_eq. cbn. rewrite lookup_insert_ne; [done|congruence].
  - assert (u <> t) by (intros ->; by apply (Hn lab)). destruct (c_thr cf !! u) as [[c p]|] eqn:Eu; [|done].
    destruct (step _ _ _ _ _ _ _ _) as [[[[p'|] s'] ev']|] eqn:Es; simplify_eq; cbn.
    + by rewrite lookup_insert_ne.
    + by rewrite lookup_delete_ne.
Qed.

Lemma plain_run acts : forall (cf : config K V) t c p cf' tr, c_thr cf !! t = Some (c, p) -> plain c = true -> 0 < left_ c p ->
  run deref zero veq cf acts = Some (cf', tr) -> (forall r, ERet t r ∉ tr) -> own t acts < left_ c p.
Proof.
  induction acts as [|a acts IH]; intros cf t c p cf' tr Ht Hc Hp Hr Hn; [cbn; lia|].
  cbn [run] in Hr. destruct (act deref zero veq cf a) as [[cf1 ev]|] eqn:Ha; [|done].
  destruct (run deref zero veq cf1 acts) as [[cf2 evs]|] eqn:Hr1; [|done]. injection Hr as -> <-.
  destruct a as [u d|u lab].
  - eapply other_act in Ha; [|exact Ht|done]. cbn [own].
    eapply IH; [exact Ha|done|done|exact Hr1|]. intros r Hi. apply (Hn r), elem_of_app. by right.
  - destruct (decide (u = t)) as [->|Hne].
    + cbn [own]. rewrite decide_True by done.
      cbn [act] in Ha. rewrite Ht in Ha.
      destruct (step deref zero veq t c p (c_sh cf) lab) as [[[[p'|] s'] ev']|] eqn:Es; [| |done]; simplify_eq.
      * pose proof (plain_step _ _ _ _ _ _ _ _ Hc Hp Es).
        assert (own t acts < left_ c p') as Ho; [|lia].
        eapply (IH (mk_config s' (<[t := (c, p')]> (c_thr cf)))); [apply lookup_insert|done|lia|exact Hr1|]. intros r Hi. apply (Hn r), elem_of_app. by right.
      * exfalso. destruct p as [| | | | | | | | | | | | |[]| | | | |? []| | | | | | | ]; cbn in Hp; try lia; destruct lab; try discriminate Es; cbn [step] in Es;
          unfold step_read, step_read2, step_dirty, step_load, goto in Es; destruct c; try done;
          repeat (case_match || case_decide); simplify_eq; by (eapply Hn, elem_of_app; left; apply elem_of_list_here).
    + eapply other_act in Ha; [|exact Ht|congruence]. cbn [own]. rewrite decide_False by done.
      eapply IH; [exact Ha|done|done|exact Hr1|]. intros r Hi. apply (Hn r), elem_of_app. by right.
Qed.
End returns.
