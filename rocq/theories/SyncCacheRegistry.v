(** The registry of caches of synccache, synccache.go:15-34, 58-65: the package variable [caches], a
    map of rwmap whose keys are the caches.  Start calls its Store (line 59), Close its Delete (line
    64), and on every tick of the ticker one Range is called whose callback trims the cache it is given
    and returns true (lines 26-29).  So a run of the registry is a run of rwmap (RwMapModel.v) in which
    only these three are called.  Not modelled: startOnce and the ticker itself, that is, when Ranges
    are called; that a Range does not overlap another one is not needed. *)
From Verif Require Import Base RwMapModel RwMapSpec RwMapRange RwMapSeq RwMapProperties.

Section registry.
Context {K : Type} `{Countable K} {V : Type}.
Context (deref : nat -> V) (zero : V) (veq : V -> V -> option bool).
Local Notation call := (call K V).
Local Notation result := (result V).
Local Notation event := (event K V).
Local Notation status := (status K V).
Local Notation astate := (astate K V).
Local Notation item := (item K V).
Local Notation astep := (astep deref veq).
Local Notation arun := (arun deref veq).
Implicit Types (k : K) (c : call) (a : astate) (l : list item) (i : item) (t u : nat) (tr : list event) (r : result).

(** ** What is claimed *)
Definition starts k c : Prop := exists p, c = CStore k p.
Definition closes k c : Prop := c = CDelete k.
(** Calls that may put the key into the map, or take it out; of the three only Start and Close. *)
Definition adds k c : Prop := match c with CStore k' _ | CSwap k' _ | CLoadOrStore k' _ | CCas k' _ _ => k' = k | _ => False end.
Definition drops k c : Prop := match c with CDelete k' | CLoadAndDelete k' | CCad k' _ => k' = k | CClear => True | _ => False end.

(** No call of the kind [P] is in progress after [tr]. *)
Definition none_running (P : call -> Prop) tr : Prop :=
  forall tr1 t c tr2, tr = tr1 ++ EInv t c :: tr2 -> P c -> exists r, ERet t r ∈ tr2.
Definition none_called (P : call -> Prop) tr : Prop := forall t c, EInv t c ∈ tr -> ~ P c.

(** In [tr] a call of the kind [P] has returned, and no call of the kind [Q] was running since it
    began. *)
Definition last_was (P Q : call -> Prop) tr : Prop :=
  exists tr1 t c tr2 r tr3, tr = tr1 ++ EInv t c :: tr2 ++ ERet t r :: tr3 /\ P c /\
    (forall r', ERet t r' ∉ tr2) /\ none_running Q tr1 /\ none_called Q (tr2 ++ ERet t r :: tr3).

(** ** Histories *)
Lemma observed_split l tr1 e tr2 : observed l = tr1 ++ e :: tr2 ->
  exists l1 i l2, l = l1 ++ i :: l2 /\ observed l1 = tr1 /\ visible i = [e] /\ observed l2 = tr2.
Proof.
  revert tr1. induction l as [|i l IH]; intros tr1 E.
  - by destruct tr1.
  - change (observed (i :: l)) with (visible i ++ observed l) in E.
    assert (visible i = [] \/ exists e', visible i = [e']) as [Hi|[e' Hi]] by (destruct i; cbn; eauto); rewrite Hi in E; cbn in E.
    + destruct (IH _ E) as (l1 & j & l2 & -> & <- & Hj & Ho). exists (i :: l1), j, l2. split_and!; try done.
      change (observed (i :: l1)) with (visible i ++ observed l1). by rewrite Hi.
    + destruct tr1 as [|e1 tr1]; cbn in E; injection E as -> E.
      * by exists [], i, l.
      * destruct (IH _ E) as (l1 & j & l2 & -> & <- & Hj & Ho). exists (i :: l1), j, l2. split_and!; try done.
        change (observed (i :: l1)) with (visible i ++ observed l1). by rewrite Hi.
Qed.
Lemma visible_inv i t c : visible i = [EInv t c] -> i = IInv t c.
Proof. destruct i; cbn; congruence. Qed.
Lemma visible_ret i t r : visible i = [ERet t r] -> i = IRet t r.
Proof. destruct i; cbn; congruence. Qed.
Lemma visible_in i l : i ∈ l -> forall e, e ∈ visible i -> e ∈ observed l.
Proof. intros Hi e He. apply elem_of_list_bind. eauto. Qed.

(** What a status says about the trace. *)
Lemma status_call l a : arun a_new l a -> forall t y, a_st a !! t = Some y ->
  exists tr1 c tr2, observed l = tr1 ++ EInv t c :: tr2 /\ (forall r, ERet t r ∉ tr2) /\
    match y with AInv_ c' | ADone c' _ | AIter c' _ _ _ => c' = c end.
Proof.
  revert a. induction l as [|i l IH] using rev_ind; intros a.
  - intros -> t y. cbn. by rewrite lookup_empty.
  - intros (a1 & Hr & Hs)%arun_snoc t y Hy. rewrite observed_app. cbn [observed mbind list_bind]. rewrite app_nil_r.
    specialize (IH _ Hr).
    assert (Hsame : forall z, a_st a1 !! t = Some z -> (forall r, ERet t r ∉ visible i) ->
      (forall c, match z with AInv_ c' | ADone c' _ | AIter c' _ _ _ => c' = c end ->
                 match y with AInv_ c' | ADone c' _ | AIter c' _ _ _ => c' = c end) ->
      exists tr1 c tr2, observed l ++ visible i = tr1 ++ EInv t c :: tr2 /\ (forall r, ERet t r ∉ tr2) /\
        match y with AInv_ c' | ADone c' _ | AIter c' _ _ _ => c' = c end).
    { intros z Hz Hv Hyz. destruct (IH _ _ Hz) as (tr1 & c & tr2 & E & Hno & Hc). exists tr1, c, (tr2 ++ visible i).
      rewrite E, <- app_assoc. split; [done|]. split; [|by apply Hyz].
      intros r [?|?]%elem_of_app; [by eapply Hno|by eapply Hv]. }
    destruct i as [u c|u r|u k v b|u|u ks|u k|u]; cbn in Hs.
    + destruct Hs as [Hn ->]. cbn in Hy. apply lookup_insert_Some in Hy as [[-> <-]|[Hne Hy]].
      * exists (observed l), c, []. cbn. split; [done|]. split; [|done]. intros r Hin. by apply elem_of_nil in Hin.
      * eapply Hsame; try done. intros r Hin. cbn in Hin. by apply elem_of_list_singleton in Hin.
    + destruct Hs as [-> _]. cbn in Hy. apply lookup_delete_Some in Hy as [Hne Hy].
      eapply Hsame; try done. intros r' Hin. cbn in Hin. apply elem_of_list_singleton in Hin. congruence.
    + destruct Hs as (c & ks & vis & n & Hu & _ & _ & ->). cbn in Hy. apply lookup_insert_Some in Hy as [[-> <-]|[Hne Hy]].
      * eapply Hsame; [done| |]; [intros r Hin; cbn in Hin; by apply elem_of_list_singleton in Hin|]. by destruct b.
      * eapply Hsame; try done. intros r Hin. cbn in Hin. by apply elem_of_list_singleton in Hin.
    + destruct Hs as (c & Hu & _ & ->). cbn in Hy. apply lookup_insert_Some in Hy as [[-> <-]|[Hne Hy]].
      * eapply Hsame; [done| |done]. intros r Hin. by apply elem_of_nil in Hin.
      * eapply Hsame; try done. intros r Hin. by apply elem_of_nil in Hin.
    + destruct Hs as (c & Hu & _ & _ & ->). cbn in Hy. apply lookup_insert_Some in Hy as [[-> <-]|[Hne Hy]].
      * eapply Hsame; [done| |done]. intros r Hin. by apply elem_of_nil in Hin.
      * eapply Hsame; try done. intros r Hin. by apply elem_of_nil in Hin.
    + destruct Hs as (c & ks & vis & n & Hu & _ & ->). cbn in Hy. apply lookup_insert_Some in Hy as [[-> <-]|[Hne Hy]].
      * eapply Hsame; [done| |done]. intros r Hin. by apply elem_of_nil in Hin.
      * eapply Hsame; try done. intros r Hin. by apply elem_of_nil in Hin.
    + destruct Hs as (c & n & Hu & ->). cbn in Hy. apply lookup_insert_Some in Hy as [[-> <-]|[Hne Hy]].
      * eapply Hsame; [done| |done]. intros r Hin. by apply elem_of_nil in Hin.
      * eapply Hsame; try done. intros r Hin. by apply elem_of_nil in Hin.
Qed.

(** No call of the kind [Q] can take effect. *)
Definition no_bad (Q : call -> Prop) a : Prop := forall t c, a_st a !! t = Some (AInv_ c) -> ~ Q c.
Lemma none_running_no_bad Q l a : arun a_new l a -> none_running Q (observed l) -> no_bad Q a.
Proof.
  intros Hr Hn t c Hc HQ. destruct (status_call _ _ Hr _ _ Hc) as (tr1 & c' & tr2 & E & Hno & ->).
  destruct (Hn _ _ _ _ E HQ) as [r Hin]. by eapply Hno.
Qed.
Lemma no_bad_run Q l : forall a a', arun a l a' -> none_called Q (observed l) -> no_bad Q a -> no_bad Q a'.
Proof.
  induction l as [|i l IH]; intros a a'; [intros Hx; cbn in Hx; subst a'; auto|]. intros (a1 & Hs & Hr) Hn Hb.
  eapply IH; [exact Hr| |]; [intros t c Hin; apply (Hn t c), elem_of_app; by right|].
  intros t c Hc. destruct i as [u c'|u r|u k v b|u|u ks|u k|u]; cbn in Hs.
  - destruct Hs as [_ ->]. cbn in Hc. apply lookup_insert_Some in Hc as [[-> [= ->]]|[_ Hc]]; [|by eapply Hb].
    apply (Hn t c). by left.
  - destruct Hs as [-> _]. cbn in Hc. apply lookup_delete_Some in Hc as [_ Hc]. by eapply Hb.
  - destruct Hs as (c' & ks & vis & n & _ & _ & _ & ->). cbn in Hc. apply lookup_insert_Some in Hc as [[-> Hc]|[_ Hc]]; [|by eapply Hb]. by destruct b.
  - destruct Hs as (c' & _ & _ & ->). cbn in Hc. apply lookup_insert_Some in Hc as [[-> Hc]|[_ Hc]]; [done|by eapply Hb].
  - destruct Hs as (c' & _ & _ & _ & ->). cbn in Hc. apply lookup_insert_Some in Hc as [[-> Hc]|[_ Hc]]; [done|by eapply Hb].
  - destruct Hs as (c' & ks & vis & n & _ & _ & ->). cbn in Hc. apply lookup_insert_Some in Hc as [[-> Hc]|[_ Hc]]; [done|by eapply Hb].
  - destruct Hs as (c' & n & _ & ->). cbn in Hc. apply lookup_insert_Some in Hc as [[-> Hc]|[_ Hc]]; [done|by eapply Hb].
Qed.

(** [G]: what calls of the kind [P] bring about and only calls of the kind [Q] undo. *)
Section settled.
Context (k : K) (P Q : call -> Prop) (G : option V -> Prop).
Hypothesis good : forall m c, P c -> G (seq_next deref veq m c !! k).
Hypothesis kept : forall m c, ~ Q c -> G (m !! k) -> G (seq_next deref veq m c !! k).

Lemma kept_run l : forall a a', arun a l a' -> none_called Q (observed l) -> no_bad Q a -> G (a_map a !! k) -> G (a_map a' !! k).
Proof.
  induction l as [|i l IH]; intros a a'; [intros Hx; cbn in Hx; subst a'; auto|]. intros (a1 & Hs & Hr) Hn Hb Hg.
  assert (Hn' : none_called Q (observed l)) by (intros t c Hin; apply (Hn t c), elem_of_app; by right).
  assert (Hb' : no_bad Q a1).
  { apply (no_bad_run Q [i] a a1); [by exists a1| |done]. intros t c Hin. apply (Hn t c). apply elem_of_app. left.
    cbn in Hin. by rewrite app_nil_r in Hin. }
  eapply IH; try done. destruct i as [u c'|u r|u k' v b|u|u ks|u k'|u]; cbn in Hs.
  - by destruct Hs as [_ ->].
  - by destruct Hs as [-> _].
  - by destruct Hs as (c' & ks & vis & n & _ & _ & _ & ->).
  - destruct Hs as (c' & Hc & _ & ->). cbn. apply kept; [|done]. by eapply Hb.
  - by destruct Hs as (c' & _ & _ & _ & ->).
  - by destruct Hs as (c' & ks & vis & n & _ & _ & ->).
  - by destruct Hs as (c' & n & _ & ->).
Qed.

(** The call of [t] on its way. *)
Lemma done_run l t c : P c -> atomic_call c -> forall a a', arun a l a' -> none_called Q (observed l) -> (forall r, IRet t r ∉ l) -> no_bad Q a ->
  a_st a !! t = Some (AInv_ c) \/ (exists r, a_st a !! t = Some (ADone c r)) /\ G (a_map a !! k) ->
  a_st a' !! t = Some (AInv_ c) \/ (exists r, a_st a' !! t = Some (ADone c r)) /\ G (a_map a' !! k).
Proof.
  intros HP Hat. induction l as [|i l IH]; intros a a'; [intros Hx; cbn in Hx; by subst a'|]. intros (a1 & Hs & Hr) Hn Hno Hb Hg.
  assert (Hn' : none_called Q (observed l)) by (intros t' c' Hin; apply (Hn t' c'), elem_of_app; by right).
  assert (Hn1 : none_called Q (observed [i])).
  { intros t' c' Hin. apply (Hn t' c'). apply elem_of_app. left. cbn in Hin. by rewrite app_nil_r in Hin. }
  assert (Hr1 : arun a [i] a1) by by exists a1.
  assert (Hb' : no_bad Q a1) by by eapply (no_bad_run Q [i]).
  eapply IH; try done. { intros r Hin. apply (Hno r). by right. }
  assert (Hm : G (a_map a !! k) -> G (a_map a1 !! k)) by by eapply (kept_run [i]).
  destruct i as [u c'|u r|u k' v b|u|u ks|u k'|u]; cbn in Hs.
  - destruct Hs as [Hu ->]. cbn in Hm |- *. destruct (decide (u = t)) as [->|Hne].
    + destruct Hg as [?|[[? ?] _]]; congruence.
    + rewrite lookup_insert_ne by done. naive_solver.
  - destruct Hs as [-> _]. cbn in Hm |- *. destruct (decide (u = t)) as [->|Hne]; [exfalso; apply (Hno r); by left|].
    rewrite lookup_delete_ne by done. naive_solver.
  - destruct Hs as (c' & ks & vis & n & Hu & _ & _ & ->). cbn in Hm |- *. destruct (decide (u = t)) as [->|Hne].
    + destruct Hg as [?|[[? ?] _]]; congruence.
    + rewrite lookup_insert_ne by done. naive_solver.
  - destruct Hs as (c' & Hu & _ & ->). cbn in Hm |- *. destruct (decide (u = t)) as [->|Hne].
    + rewrite lookup_insert. right. destruct Hg as [Hg|[[? ?] _]]; [|congruence]. rewrite Hu in Hg. injection Hg as ->. eauto.
    + rewrite lookup_insert_ne by done. naive_solver.
  - destruct Hs as (c' & Hu & Hrc & _ & ->). cbn in Hm |- *. destruct (decide (u = t)) as [->|Hne].
    + destruct Hg as [Hg|[[? ?] _]]; [|congruence]. rewrite Hu in Hg. injection Hg as ->. by destruct c.
    + rewrite lookup_insert_ne by done. naive_solver.
  - destruct Hs as (c' & ks & vis & n & Hu & _ & ->). cbn in Hm |- *. destruct (decide (u = t)) as [->|Hne].
    + destruct Hg as [?|[[? ?] _]]; congruence.
    + rewrite lookup_insert_ne by done. naive_solver.
  - destruct Hs as (c' & n & Hu & ->). cbn in Hm |- *. destruct (decide (u = t)) as [->|Hne].
    + destruct Hg as [?|[[? ?] _]]; congruence.
    + rewrite lookup_insert_ne by done. naive_solver.
Qed.

Hypothesis atomicP : forall c, P c -> atomic_call c.
Hypothesis disjointPQ : forall c, P c -> ~ Q c.
Lemma settled l a : arun a_new l a -> last_was P Q (observed l) -> G (a_map a !! k) /\ no_bad Q a.
Proof.
  intros Hr (tr1 & t & c & tr2 & r & tr3 & E & HP & Hno & Hnr & Hnc).
  destruct (observed_split _ _ _ _ E) as (l1 & i & l' & -> & E1 & Hi & E'). apply visible_inv in Hi as ->.
  destruct (observed_split _ _ _ _ E') as (l2 & i & l3 & -> & E2 & Hi & E3). apply visible_ret in Hi as ->.
  apply arun_app in Hr as (a1 & Hr1 & a2 & Hs & Hr'). apply arun_app in Hr' as (a3 & Hr2 & a4 & Hs' & Hr3).
  assert (Hn2 : none_called Q (observed l2)).
  { intros u c' Hin. apply (Hnc u c'). rewrite <- E2. apply elem_of_app. by left. }
  assert (Hn3 : none_called Q (observed l3)).
  { intros u c' Hin. apply (Hnc u c'). rewrite <- E3. apply elem_of_app. right. by right. }
  assert (Hb1 : no_bad Q a1) by (apply (none_running_no_bad _ _ _ Hr1); by rewrite E1).
  assert (Hb2 : no_bad Q a2).
  { destruct Hs as [_ ->]. intros u c' Hc. cbn in Hc. apply lookup_insert_Some in Hc as [[-> [= ->]]|[_ Hc]]; [by apply disjointPQ|by eapply Hb1]. }
  assert (Hb3 : no_bad Q a3) by by eapply no_bad_run.
  destruct (done_run l2 t c HP (atomicP _ HP) a2 a3 Hr2 Hn2) as [Hd|[_ Hg]].
  { intros r' Hin. apply (Hno r'). rewrite <- E2. apply (visible_in _ _ Hin). by left. }
  { done. }
  { destruct Hs as [_ ->]. cbn. rewrite lookup_insert. by left. }
  { exfalso. destruct Hs' as [_ [[c' Hc]|(n & _ & Hc)]]; rewrite Hd in Hc; [done|]. injection Hc as ->. by apply (atomicP _ HP). }
  assert (Hb4 : no_bad Q a4).
  { destruct Hs' as [-> _]. intros u c' Hc. cbn in Hc. apply lookup_delete_Some in Hc as [_ Hc]. by eapply Hb3. }
  assert (Hg4 : G (a_map a4 !! k)) by by destruct Hs' as [-> _].
  split; [by eapply (kept_run l3)|by eapply (no_bad_run _ l3)].
Qed.

(** It holds during all of a following stretch without calls of the kind [Q]. *)
Lemma settled_while l1 l2 a1 a2 : arun a_new l1 a1 -> last_was P Q (observed l1) -> none_called Q (observed l2) ->
  arun a1 l2 a2 -> G (a_map a2 !! k).
Proof. intros Hr Hl Hn Hr2. destruct (settled _ _ Hr Hl) as [Hg Hb]. by eapply kept_run. Qed.
End settled.

(** ** The claims *)
Lemma keeps_present k (m : gmap K V) c : ~ drops k c -> is_Some (m !! k) -> is_Some (seq_next deref veq m c !! k).
Proof.
  intros Hd Hm.
  assert (Hi : forall k' v, is_Some (<[k' := v]> m !! k)).
  { intros k' v. destruct (decide (k' = k)) as [->|Hne]; [rewrite lookup_insert; eauto|by rewrite lookup_insert_ne]. }
  assert (Hx : forall k', k' <> k -> is_Some (delete k' m !! k)) by (intros k' Hne; by rewrite lookup_delete_ne).
  destruct c; cbn in Hd |- *; auto; repeat case_match; auto. by destruct Hd.
Qed.
Lemma keeps_absent k (m : gmap K V) c : ~ adds k c -> m !! k = None -> seq_next deref veq m c !! k = None.
Proof.
  intros Hd Hm.
  assert (Hi : forall k' v, k' <> k -> <[k' := v]> m !! k = None) by (intros k' v Hne; by rewrite lookup_insert_ne).
  assert (Hx : forall k', delete k' m !! k = None) by (intros k'; apply lookup_delete_None; auto).
  destruct c; cbn in Hd |- *; auto; repeat case_match; auto.
Qed.

(** The claims for any use of the map by Store, Delete and Range. *)
Lemma run_visited acts (cf : config K V) tr1 tr2 tr3 u r k : Inhabited K ->
  run deref zero veq new_config acts = Some (cf, tr1 ++ EInv u CRange :: tr2 ++ ERet u r :: tr3) ->
  (forall r', ERet u r' ∉ tr2) -> (forall k v, ECall u k v false ∉ tr2) ->
  last_was (starts k) (drops k) tr1 -> none_called (drops k) tr2 ->
  exists v, ECall u k v true ∈ tr2.
Proof.
  intros HK Hr Hno Hcb Hl Hn. destruct (C71_range _ _ _ _ _ _ HK Hr) as (l & a & Ha & Ho & Hrg).
  destruct (observed_split _ _ _ _ Ho) as (l1 & i & l' & -> & E1 & Hi & E'). apply visible_inv in Hi as ->.
  destruct (observed_split _ _ _ _ E') as (l2 & i & l3 & -> & E2 & Hi & E3). apply visible_ret in Hi as ->.
  apply arun_app in Ha as (a1 & Hr1 & Hr'). change (IInv u CRange :: l2 ++ IRet u r :: l3) with ((IInv u CRange :: l2) ++ IRet u r :: l3) in Hr'.
  destruct (Hrg l1 u CRange l2 (IRet u r :: l3) a1 I eq_refl) as (_ & _ & _ & Hc).
  { intros r' Hin. apply (Hno r'). rewrite <- E2. apply (visible_in _ _ Hin). by left. }
  { done. }
  destruct (Hc r l3 eq_refl) as [Hv _].
  { intros k' v Hin. apply (Hcb k' v). rewrite <- E2. apply (visible_in _ _ Hin). by left. }
  assert (Hk : k ∈ visited u l2).
  { apply Hv. intros w1 w2 a2 -> Hw.
    eapply (settled_while k (starts k) (drops k) is_Some) in Hw; try done.
    - intros m c [p ->]. cbn. rewrite lookup_insert. eauto.
    - intros m c. apply keeps_present.
    - by intros c [p ->].
    - intros c [p ->] [].
    - by rewrite E1.
    - intros t c Hin. rewrite observed_app in E2. change (observed (IInv u CRange :: w1)) with (EInv u CRange :: observed w1) in Hin.
      apply elem_of_cons in Hin as [[= -> ->]|Hin]; [intros []|]. apply (Hn t c). rewrite <- E2. apply elem_of_app. by left. }
  apply elem_of_list_bind in Hk as (i & Hki & Hin). destruct i; try by apply elem_of_nil in Hki.
  case_decide; [|by apply elem_of_nil in Hki]. subst. apply elem_of_list_singleton in Hki as ->.
  exists v. destruct b.
  - apply (visible_in _ _ Hin). by left.
  - exfalso. apply (Hcb k0 v). apply (visible_in _ _ Hin). by left.
Qed.

Lemma run_not_visited acts (cf : config K V) tr1 tr2 tr3 u k : Inhabited K ->
  run deref zero veq new_config acts = Some (cf, tr1 ++ EInv u CRange :: tr2 ++ tr3) ->
  (forall r', ERet u r' ∉ tr2) ->
  last_was (closes k) (adds k) tr1 -> none_called (adds k) tr2 ->
  forall v b, ECall u k v b ∉ tr2.
Proof.
  intros HK Hr Hno Hl Hn v b Hin. destruct (C71_range _ _ _ _ _ _ HK Hr) as (l & a & Ha & Ho & Hrg).
  apply elem_of_list_split in Hin as (tra & trb & ->). rewrite <- !app_assoc in Ho. cbn in Ho.
  destruct (observed_split _ _ _ _ Ho) as (l1 & i & l' & -> & E1 & Hi & E'). apply visible_inv in Hi as ->.
  destruct (observed_split _ _ _ _ E') as (l2 & i & l3 & -> & E2 & Hi & E3).
  assert (i = ICall u k v b) as -> by (destruct i; cbn in Hi; congruence).
  apply arun_app in Ha as (a1 & Hr1 & Hr').
  destruct (Hrg l1 u CRange (l2 ++ [ICall u k v b]) l3 a1 I) as (_ & Hs & _).
  { by rewrite <- app_assoc. }
  { intros r' [Hin|Hin]%elem_of_app; [|by apply elem_of_list_singleton in Hin].
    apply (Hno r'). apply elem_of_app. left. rewrite <- E2. apply (visible_in _ _ Hin). by left. }
  { done. }
  destruct (Hs l2 k v b [] eq_refl) as (w1 & w2 & a2 & -> & Hw & Hk).
  eapply (settled_while k (closes k) (adds k) (fun o => o = None)) in Hw; try done.
  - congruence.
  - intros m c ->. cbn. apply lookup_delete.
  - intros m c. apply keeps_absent.
  - by intros c ->.
  - intros c -> [].
  - by rewrite E1.
  - intros t c Hin. rewrite observed_app in E2. change (observed (IInv u CRange :: w1)) with (EInv u CRange :: observed w1) in Hin.
    apply elem_of_cons in Hin as [[= -> ->]|Hin]; [intros []|]. apply (Hn t c). apply elem_of_app. left. rewrite <- E2. apply elem_of_app. by left.
Qed.

End registry.
