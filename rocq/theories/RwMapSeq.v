(** rwmap: without overlapping calls it is a plain map. *)
From Coq Require Import ZifyBool ZifyNat.
From Verif Require Import Base RwMapModel RwMapSpec RwMapInv RwMapFrame RwMapMoves RwMapMoves2 RwMapStep RwMapStep2 RwMapStep3 RwMapLin RwMapRange RwMapLen.

Section seq.
Context {K : Type} `{Countable K} {V : Type}.
Context (deref : nat -> V) (zero : V) (veq : V -> V -> option bool).
Local Notation call := (call K V).
Local Notation result := (result V).
Local Notation pc := (pc K V).
Local Notation shared := (shared K).
Local Notation hitem := (hitem (K := K) (V := V)).
Local Notation astate := (astate K V).
Local Notation item := (item K V).
Local Notation astep := (astep deref veq).
Local Notation arun := (arun deref veq).
Local Notation hrun := (hrun deref veq).
Local Notation hstep := (hstep deref veq).
Local Notation core := (core deref veq).
Local Notation good := (good deref veq).
Local Notation slot_val := (slot_val deref).
Local Notation pcinv := (pcinv deref veq).
Local Notation seq_res := (seq_res deref veq).
Local Notation seq_next := (seq_next deref veq).
Local Notation op_ok := (op_ok deref veq).

Implicit Types (s : shared) (thr : gmap nat (call * pc)) (h : list hitem) (c : call) (p : pc).

Local Notation event := (event K V).
Local Notation config := (config K V).
Local Notation run := (run deref zero veq).
Local Notation act := (act deref zero veq).
Local Notation step := (step deref zero veq).
Local Notation contents := (contents deref).

(** ** The atomic object, one call after the other *)
Local Notation seq_trace := (seq_trace deref veq).

Definition is_call (e : event) : Prop := match e with ECall _ _ _ _ => True | _ => False end.

Lemma alone_calls b (tr tr' : list event) : Forall is_call tr -> alone b (tr ++ tr') <-> alone b tr'.
Proof.
  induction 1 as [|e tr He _ IH]; [done|]. by destruct e.
Qed.
Lemma alone_pre b (tr tr' : list event) : alone b (tr ++ tr') -> alone b tr.
Proof.
  revert b. induction tr as [|[t c|t r|t k v b'] tr IH]; intros b; cbn; try done; [|by apply IH..].
  intros [-> Ha]. split; [done|]. by eapply IH.
Qed.
Lemma calls_are t (kvs : list (K * V)) : Forall is_call (calls t kvs).
Proof. apply Forall_fmap, Forall_true. by intros []. Qed.
Lemma calls_snoc t (kvs : list (K * V)) k v : calls t (kvs ++ [(k, v)]) = calls t kvs ++ [ECall t k v true].
Proof. unfold calls. by rewrite fmap_app. Qed.
Lemma observed_snoc (l : list item) i : observed (l ++ [i]) = observed l ++ visible i.
Proof. unfold observed. rewrite bind_app. cbn. by rewrite app_nil_r. Qed.
Lemma observed_app (l1 l2 : list item) : observed (l1 ++ l2) = observed l1 ++ observed l2.
Proof. unfold observed. by rewrite bind_app. Qed.

Definition full (m0 : gmap K V) t c (r : result) (tr : list event) : Prop :=
  (exists kvs, tr = calls t kvs /\ kvs ≡ₚ map_to_list m0 /\
     r = match c with CSlowLen => RInt (Z.of_nat (size m0)) | _ => RUnit end) \/
  (exists kvs k v rest, c = CRange /\ r = RUnit /\ tr = calls t kvs ++ [ECall t k v false] /\
     kvs ++ (k, v) :: rest ≡ₚ map_to_list m0).

Lemma full_calls m0 t c r tr : full m0 t c r tr -> Forall is_call tr.
Proof.
  intros [(kvs & -> & _)|(kvs & k & v & rest & _ & _ & -> & _)]; [apply calls_are|].
  apply Forall_app. split; [apply calls_are|]. by repeat constructor.
Qed.

Definition seg (m0 : gmap K V) t c (tr : list event) (a : astate) : Prop :=
  exists x, a_st a = {[t := x]} /\
  match x with
  | AInv_ c' => c' = c /\ a_map a = m0 /\ tr = []
  | ADone c' r => c' = c /\
      ((atomic_call c /\ a_map a = seq_next m0 c /\ r = seq_res m0 c /\ tr = []) \/
       (range_call c /\ a_map a = m0 /\ full m0 t c r tr))
  | AIter c' ks vis n =>
      c' = c /\ range_call c /\ a_map a = m0 /\
      exists kvs, tr = calls t kvs /\ n = Z.of_nat (length kvs) /\ NoDup kvs.*1 /\
        (forall k v, (k, v) ∈ kvs -> m0 !! k = Some v) /\
        (forall k v, vis !! k = Some v -> m0 !! k = Some v) /\
        (forall k, k ∈ kvs.*1 -> k ∉ ks /\ vis !! k = None) /\
        (forall k, k ∈ ks -> vis !! k = None) /\
        (forall k v, m0 !! k = Some v -> k ∈ ks \/ vis !! k = Some v \/ k ∈ kvs.*1)
  end.

Lemma seg_calls m0 t c tr a : seg m0 t c tr a -> Forall is_call tr.
Proof.
  intros (x & _ & Hx). destruct x as [c'|c' r|c' ks vis n].
  - destruct Hx as (_ & _ & ->). constructor.
  - destruct Hx as (_ & [(_ & _ & _ & ->)|(_ & _ & Hf)]); [constructor|by eapply full_calls].
  - destruct Hx as (_ & _ & _ & kvs & -> & _). apply calls_are.
Qed.

Lemma all_pairs (m0 : gmap K V) kvs :
  NoDup kvs.*1 -> (forall k v, (k, v) ∈ kvs -> m0 !! k = Some v) ->
  (forall k v, m0 !! k = Some v -> k ∈ kvs.*1) -> kvs ≡ₚ map_to_list m0.
Proof.
  intros Hnd H1 H2. apply NoDup_Permutation; [by apply NoDup_fmap_1 in Hnd|apply NoDup_map_to_list|].
  intros [k v]. rewrite elem_of_map_to_list. split; [apply H1|]. intros Hm.
  specialize (H2 _ _ Hm). apply elem_of_list_fmap in H2 as ([k' v'] & -> & Hin). cbn in *.
  rewrite (H1 _ _ Hin) in Hm. by injection Hm as ->.
Qed.

Lemma seg_run m0 t c (l2 : list item) a :
  arun (mk_astate m0 ∅) (IInv t c :: l2) a -> alone true (observed l2) -> (forall r, IRet t r ∉ l2) ->
  seg m0 t c (observed l2) a.
Proof.
  revert a. induction l2 as [|i l2 IH] using rev_ind; intros a Hr Hal Hno.
  - cbn in Hr. destruct Hr as (a2 & [_ ->] & ->). exists (AInv_ c). cbn. done.
  - change (IInv t c :: l2 ++ [i]) with ((IInv t c :: l2) ++ [i]) in Hr.
    apply arun_snoc in Hr as (a2 & Hr & Hs). rewrite observed_snoc in Hal |- *.
    assert (Hseg : seg m0 t c (observed l2) a2).
    { apply IH; [done|by eapply alone_pre|]. intros r Hin. apply (Hno r). apply elem_of_app. by left. }
    pose proof (seg_calls _ _ _ _ _ Hseg) as Hcalls.
    rewrite alone_calls in Hal by done.
    destruct Hseg as (x & Est & Hx).
    assert (Hthr : forall u y, a_st a2 !! u = Some y -> u = t /\ y = x).
    { intros u y. rewrite Est. intros Hy. apply lookup_singleton_Some in Hy. naive_solver. }
    destruct i as [u c'|u r|u k v b|u|u ks|u k|u]; cbn in Hs, Hal; cbn [visible]; rewrite ?app_nil_r.
    + by destruct Hal.
    + destruct Hs as [_ Hs]. assert (u = t) as ->.
      { destruct Hs as [[c' Hs]|[n [_ Hs]]]; by apply Hthr in Hs as [-> _]. }
      exfalso. apply (Hno r). apply elem_of_app. right. left.
    + destruct Hs as (c' & ks & vis & n & Hst & Hv & Hb & ->). apply Hthr in Hst as [-> <-].
      destruct Hx as (-> & Hrc & Hm & kvs & Htr & Hn & Hnd & H1 & H2 & H3 & H4 & H5).
      assert (Hk : k ∉ kvs.*1) by (intros Hin; destruct (H3 _ Hin); congruence).
      assert (Hnd' : NoDup (kvs ++ [(k, v)]).*1).
      { rewrite fmap_app. apply NoDup_app. split; [done|]. split; [|apply NoDup_singleton].
        by intros y Hy ->%elem_of_list_singleton. }
      assert (H1' : forall k' v', (k', v') ∈ kvs ++ [(k, v)] -> m0 !! k' = Some v').
      { intros k' v' [Hin|Hin%elem_of_list_singleton]%elem_of_app; [by apply H1|]. injection Hin as -> ->. by apply H2. }
      destruct b.
      * eexists. split; [cbn; by rewrite Est, insert_singleton|]. cbn.
        split; [done|]. split; [done|]. split; [done|]. exists (kvs ++ [(k, v)]).
        split; [by rewrite calls_snoc, Htr|]. split; [rewrite app_length; cbn; lia|]. split; [done|]. split; [done|].
        split; [intros k' v' [_ ?]%lookup_delete_Some; by apply H2|]. split; [|split].
        -- rewrite fmap_app. intros k' [Hk'|Hk'%elem_of_list_singleton]%elem_of_app.
           ++ destruct (H3 _ Hk'). split; [done|]. rewrite lookup_delete_None. by right.
           ++ cbn in Hk'. subst k'. split; [|by rewrite lookup_delete]. intros Hin. specialize (H4 _ Hin). congruence.
        -- intros k' Hk'. rewrite lookup_delete_None. right. by apply H4.
        -- intros k' v' Hm'. rewrite fmap_app, elem_of_app. destruct (decide (k' = k)) as [->|Hne]; [right; right; right; left|].
           rewrite lookup_delete_ne by done. destruct (H5 _ _ Hm') as [?|[?|?]]; auto.
      * eexists. split; [cbn; by rewrite Est, insert_singleton|]. cbn.
        split; [done|]. right. split; [done|]. split; [done|]. right.
        assert (Hsub : kvs ++ [(k, v)] ⊆+ map_to_list m0).
        { apply NoDup_submseteq; [by apply NoDup_fmap_1 in Hnd'|]. intros [k' v'] Hin. apply elem_of_map_to_list. by apply H1'. }
        apply submseteq_Permutation in Hsub as [rest Hrest].
        exists kvs, k, v, rest. split; [by apply Hb|]. split; [done|]. split; [by rewrite Htr|].
        rewrite Hrest. by rewrite <- app_assoc.
    + destruct Hs as (c' & Hst & Hat & ->). apply Hthr in Hst as [-> <-]. destruct Hx as (-> & Hm & Htr).
      eexists. split; [cbn; by rewrite Est, insert_singleton|]. cbn. split; [done|]. left. rewrite Hm. done.
    + destruct Hs as (c' & Hst & Hat & Hd & ->). apply Hthr in Hst as [-> <-]. destruct Hx as (-> & Hm & Htr).
      eexists. split; [cbn; by rewrite Est, insert_singleton|]. cbn. split; [done|]. split; [done|]. split; [done|].
      exists []. rewrite Htr. split; [done|]. split; [done|]. split; [apply NoDup_nil_2|].
      split; [by intros k v Hin%elem_of_nil|]. split; [done|]. split; [by intros k Hin%elem_of_nil|]. split; [done|].
      intros k v Hk. left. apply Hd. apply elem_of_dom. rewrite Hm. eauto.
    + destruct Hs as (c' & ks & vis & n & Hst & Hk & ->). apply Hthr in Hst as [-> <-].
      destruct Hx as (-> & Hrc & Hm & kvs & Htr & Hn & Hnd & H1 & H2 & H3 & H4 & H5).
      eexists. split; [cbn; by rewrite Est, insert_singleton|]. cbn. split; [done|]. split; [done|]. split; [done|].
      exists kvs. rewrite Hm. split; [done|]. split; [done|]. split; [done|]. split; [done|]. split; [|split; [|split]].
      * intros k' v' Hv'. destruct (m0 !! k) as [w|] eqn:Hw; [|by apply H2].
        apply lookup_insert_Some in Hv' as [[<- <-]|[_ Hv']]; [done|by apply H2].
      * intros k' Hk'. destruct (H3 _ Hk') as [Ha Hb]. split; [set_solver|].
        destruct (m0 !! k); [|done]. rewrite lookup_insert_ne; [done|]. by intros ->.
      * intros k' [Hk' Hne]%elem_of_difference. rewrite elem_of_singleton in Hne.
        destruct (m0 !! k); [rewrite lookup_insert_ne by done|]; by apply H4.
      * intros k' v' Hk'. destruct (decide (k' = k)) as [->|Hne].
        -- right; left. by rewrite Hk', lookup_insert.
        -- destruct (H5 _ _ Hk') as [?|[?|?]]; [left; set_solver|right; left|by right; right].
           destruct (m0 !! k); [by rewrite lookup_insert_ne|done].
    + destruct Hs as (c' & n & Hst & ->). apply Hthr in Hst as [-> <-].
      destruct Hx as (-> & Hrc & Hm & kvs & Htr & Hn & Hnd & H1 & H2 & H3 & H4 & H5).
      eexists. split; [cbn; by rewrite Est, insert_singleton|]. cbn. split; [done|]. right. split; [done|]. split; [done|].
      left. exists kvs. split; [done|].
      assert (Hperm : kvs ≡ₚ map_to_list m0).
      { apply all_pairs; [done|done|]. intros k v Hk. destruct (H5 _ _ Hk) as [Hin|[?|?]]; [set_solver|done|done]. }
      split; [done|]. rewrite Hn, (Permutation_length Hperm). by destruct c.
Qed.

(** [seq_trace] without what it says about Len. *)
Inductive wtrace : gmap K V -> list event -> gmap K V -> Prop :=
| wt_nil m : wtrace m [] m
| wt_atomic m t c tr m' :
    atomic_call c -> wtrace (seq_next m c) tr m' ->
    wtrace m (EInv t c :: ERet t (seq_res m c) :: tr) m'
| wt_len m t n tr m' :
    wtrace m tr m' -> wtrace m (EInv t CLen :: ERet t (RInt n) :: tr) m'
| wt_range m t c r tr0 tr m' :
    range_call c -> full m t c r tr0 -> wtrace m tr m' ->
    wtrace m (EInv t c :: tr0 ++ ERet t r :: tr) m'.

Lemma first_ret t (l : list item) :
  (forall r, IRet t r ∉ l) \/ exists l2 r l3, l = l2 ++ IRet t r :: l3 /\ forall r, IRet t r ∉ l2.
Proof.
  induction l as [|i l IH].
  - left. intros r. by apply not_elem_of_nil.
  - assert (Hi : (forall r, i <> IRet t r) \/ exists r, i = IRet t r).
    { destruct i as [| u r| | | | | ]; try (left; intros; discriminate).
      destruct (decide (u = t)) as [->|Hne]; [right; by exists r|left; intros r' [= ? ?]; done]. }
    destruct Hi as [Hi|[r ->]].
    + destruct IH as [IH|(l2 & r & l3 & -> & IH)].
      * left. intros r [E|Hin]%elem_of_cons; [by apply (Hi r)|by apply (IH r)].
      * right. exists (i :: l2), r, l3. split; [done|]. intros r' [E|Hin]%elem_of_cons; [by apply (Hi r')|by apply (IH r')].
    + right. exists [], r, l. split; [done|]. intros r'. apply not_elem_of_nil.
Qed.

Lemma seq_run_w (n : nat) (l : list item) m0 a :
  length l <= n -> arun (mk_astate m0 ∅) l a -> alone false (observed l) -> a_st a = ∅ ->
  wtrace m0 (observed l) (a_map a).
Proof.
  revert l m0. induction n as [|n IH]; intros l m0 Hlen Hr Hal Hst.
  - destruct l; [|cbn in Hlen; lia]. cbn in Hr. subst a. constructor.
  - destruct l as [|i l]; [cbn in Hr; subst a; constructor|].
    assert (exists t c, i = IInv t c) as (t & c & ->).
    { destruct Hr as (a1 & Hs & _). destruct i; cbn in Hs; rewrite ?lookup_empty in Hs; naive_solver. }
    change (observed (IInv t c :: l)) with (EInv t c :: observed l) in *. cbn in Hal. destruct Hal as [_ Hal].
    destruct (first_ret t l) as [Hno|(l2 & r & l3 & -> & Hno)].
    + destruct (seg_run _ _ _ _ _ Hr Hal Hno) as (x & Est & _). rewrite Hst in Est.
      symmetry in Est. by apply map_non_empty_singleton in Est.
    + rewrite observed_app in Hal |- *. change (observed (IRet t r :: l3)) with (ERet t r :: observed l3) in *.
      change (IInv t c :: l2 ++ IRet t r :: l3) with ((IInv t c :: l2) ++ IRet t r :: l3) in Hr.
      apply arun_app in Hr as (a2 & Hr2 & a3 & Hs & Hr3).
      pose proof (seg_run _ _ _ _ _ Hr2 (alone_pre _ _ _ Hal) Hno) as Hseg.
      rewrite alone_calls in Hal by by eapply seg_calls. cbn in Hal.
      destruct Hseg as (x & Est & Hx). cbn in Hs. destruct Hs as [-> Hs]. rewrite Est, lookup_singleton in Hs.
      rewrite Est, delete_singleton in Hr3.
      assert (Hlen3 : length l3 <= n). { cbn in Hlen. rewrite app_length in Hlen. cbn in Hlen. lia. }
      destruct Hs as [[c' [= ->]]|[k [-> [= ->]]]].
      * destruct Hx as (-> & [(Hat & Hm & -> & ->)|(Hrc & Hm & Hf)]).
        -- constructor; [done|]. rewrite Hm in Hr3. by apply IH.
        -- constructor; [done|done|]. rewrite Hm in Hr3. by apply IH.
      * destruct Hx as (<- & Hm & ->). constructor. rewrite Hm in Hr3. by apply IH.
Qed.

(** ** The final map is determined by the trace *)
Lemma calls_split (tr0 tr1 tr0' tr1' : list event) t r t' r' :
  Forall is_call tr0 -> Forall is_call tr0' ->
  tr0 ++ ERet t r :: tr1 = tr0' ++ ERet t' r' :: tr1' -> tr0 = tr0' /\ r = r' /\ tr1 = tr1'.
Proof.
  intros H0. revert tr0'. induction H0 as [|e tr0 He _ IH]; intros tr0' H0'.
  - destruct H0' as [|e' tr0' He' _]; cbn; [naive_solver|]. intros [= <- _]. done.
  - destruct H0' as [|e' tr0' He' H0']; cbn; [intros [= -> _]; done|].
    intros [= -> Htl]. destruct (IH _ H0' Htl) as (-> & -> & ->). done.
Qed.

Lemma wtrace_det m tr m1 m2 : wtrace m tr m1 -> wtrace m tr m2 -> m1 = m2.
Proof.
  intros H1. revert m2. induction H1 as [m|m t c tr m' Hat H1 IH|m t n tr m' H1 IH|m t c r tr0 tr m' Hrc Hf H1 IH]; intros m2 H2.
  - by inversion H2.
  - inversion H2 as [|m0 t0 c0 tr0 m0' Hat' H2'|m0 t0 n0 tr0 m0' H2'|m0 t0 c0 r0 tr0 tr1 m0' Hrc' Hf' H2']; subst.
    + by apply IH.
    + done.
    + by destruct c.
  - inversion H2 as [|m0 t0 c0 tr0 m0' Hat' H2'|m0 t0 n0 tr0 m0' H2'|m0 t0 c0 r0 tr0 tr1 m0' Hrc' Hf' H2']; subst; try done.
    by apply IH.
  - inversion H2 as [|m0 t0 c0 tr2 m0' Hat' H2' E1 E2|m0 t0 n0 tr2 m0' H2'|m0 t0 c0 r0 tr2 tr1 m0' Hrc' Hf' H2' E1 E2]; subst.
    + by destruct c.
    + done.
    + match goal with E : _ ++ _ = _ ++ _ |- _ => apply calls_split in E as (_ & _ & ->); [by apply IH|by eapply full_calls..] end.
Qed.

Lemma wtrace_app m tr1 m1 tr2 m2 : wtrace m tr1 m1 -> wtrace m1 tr2 m2 -> wtrace m (tr1 ++ tr2) m2.
Proof.
  induction 1 as [m|m t c tr m' Hat H1 IH|m t n tr m' H1 IH|m t c r tr0 tr m' Hrc Hf H1 IH]; intros H2; [done| | |].
  - cbn. constructor; auto.
  - cbn. constructor; auto.
  - cbn. rewrite <- app_assoc. cbn. constructor; auto.
Qed.

Lemma full_pend m t c r tr0 pend : full m t c r tr0 -> pend_tr pend tr0 = pend.
Proof.
  intros Hf. apply full_calls in Hf. induction Hf as [|e tr0 He _ IH]; [done|]. by destruct e.
Qed.
Lemma wtrace_pend m tr m' : wtrace m tr m' -> pend_tr ∅ tr = ∅.
Proof.
  induction 1 as [m|m t c tr m' Hat H1 IH|m t n tr m' H1 IH|m t c r tr0 tr m' Hrc Hf H1 IH]; [done| | |].
  - cbn. rewrite delete_insert by apply lookup_empty. done.
  - cbn. rewrite delete_insert by apply lookup_empty. done.
  - cbn. rewrite pend_app, (full_pend _ _ _ _ _ _ Hf). cbn. rewrite delete_insert by apply lookup_empty. done.
Qed.

(** With the right results of Len. *)
Definition lens_ok (m : gmap K V) (tr : list event) : Prop :=
  forall tr1 t n tr2 m1, tr = tr1 ++ EInv t CLen :: ERet t (RInt n) :: tr2 -> wtrace m tr1 m1 ->
    n = Z.of_nat (size m1).

Lemma lens_later m tr0 m0 tr : wtrace m tr0 m0 -> lens_ok m (tr0 ++ tr) -> lens_ok m0 tr.
Proof.
  intros Hw Hl tr1 t n tr2 m1 -> Hw1. eapply (Hl (tr0 ++ tr1) t n tr2).
  - by rewrite <- app_assoc.
  - by eapply wtrace_app.
Qed.

Lemma wtrace_seq m tr m' : wtrace m tr m' -> lens_ok m tr -> seq_trace m tr m'.
Proof.
  induction 1 as [m|m t c tr m' Hat H1 IH|m t n tr m' H1 IH|m t c r tr0 tr m' Hrc Hf H1 IH]; intros Hl.
  - constructor.
  - constructor; [done|]. apply IH. eapply (lens_later m [EInv t c; ERet t (seq_res m c)]); [|done].
    constructor; [done|constructor].
  - rewrite (Hl [] t n tr m eq_refl (wt_nil _)). constructor. apply IH.
    eapply (lens_later m [EInv t CLen; ERet t (RInt n)]); [|done]. constructor. constructor.
  - assert (Hl' : lens_ok m tr).
    { eapply (lens_later m (EInv t c :: tr0 ++ [ERet t r])); [|cbn; by rewrite <- app_assoc].
      constructor; [done|done|constructor]. }
    destruct Hf as [(kvs & -> & Hp & ->)|(kvs & k & v & rest & -> & -> & -> & Hp)].
    + destruct c; try done; constructor; auto.
    + rewrite <- app_assoc. cbn. econstructor; eauto.
Qed.

(** ** The code *)
Lemma act_events (cf : config) a cf' ev : act cf a = Some (cf', ev) -> ev = [] \/ exists e, ev = [e].
Proof.
  destruct a as [t c|t lab]; cbn.
  - destruct (c_thr cf !! t); [done|]. intros [= <- <-]. right. eauto.
  - destruct (c_thr cf !! t) as [[c p]|]; [|done].
    destruct (step t c p (c_sh cf) lab) as [[[op s'] ev']|] eqn:Hs; [|done].
    apply step_events in Hs. destruct op; intros [= <- <-]; destruct Hs as [->|[(u & k & v & b & ->)|(r & ->)]]; eauto.
Qed.

(** An execution cut at a place in its trace. *)
Lemma run_cut (acts : list (action K V)) (cf cf' : config) tr1 tr2 :
  run cf acts = Some (cf', tr1 ++ tr2) ->
  exists acts1 acts2 cf1, acts = acts1 ++ acts2 /\ run cf acts1 = Some (cf1, tr1) /\ run cf1 acts2 = Some (cf', tr2).
Proof.
  revert cf tr1. induction acts as [|a acts IH]; intros cf tr1 Hr.
  - cbn in Hr. injection Hr as <- Heq. symmetry in Heq. apply app_eq_nil in Heq as [-> ->].
    exists [], [], cf. done.
  - destruct tr1 as [|e tr1].
    + exists [], (a :: acts), cf. done.
    + cbn in Hr. destruct (act cf a) as [[cfa ev]|] eqn:Ha; [|done].
      destruct (run cfa acts) as [[cf2 evs]|] eqn:Hr2; [|done]. injection Hr as -> Heq.
      destruct (act_events _ _ _ _ Ha) as [->|[e' ->]]; cbn in Heq.
      * subst evs. destruct (IH cfa (e :: tr1) Hr2) as (acts1 & acts2 & cf1 & -> & H1 & H2).
        exists (a :: acts1), acts2, cf1. split; [done|]. split; [|done]. cbn. by rewrite Ha, H1.
      * injection Heq as -> Heq. subst evs. destruct (IH cfa tr1 Hr2) as (acts1 & acts2 & cf1 & -> & H1 & H2).
        exists (a :: acts1), acts2, cf1. split; [done|]. split; [|done]. cbn. by rewrite Ha, H1.
Qed.

Lemma step_ret_iff t c p s lab op s' ev :
  step t c p s lab = Some (op, s', ev) ->
  match op with Some _ => forall u r, ev <> [ERet u r] | None => exists r, ev = [ERet t r] end.
Proof.
  intros Hstep.
  destruct p as [| | | | | | | | | | | | |[]| | | | | | | | | | | | ], lab; cbn in Hstep; try done;
    unfold step_read, step_read2, step_dirty, step_load, add_key, dirty_store, goto in Hstep;
    repeat (case_match || case_decide); simplify_eq; eauto 10.
Qed.

Lemma run_pend (acts : list (action K V)) (cf cf' : config) pend tr :
  (forall t, pend !! t = fst <$> c_thr cf !! t) -> run cf acts = Some (cf', tr) ->
  forall t, pend_tr pend tr !! t = fst <$> c_thr cf' !! t.
Proof.
  revert cf pend tr. induction acts as [|a acts IH]; intros cf pend tr Hp Hr.
  - cbn in Hr. by injection Hr as <- <-.
  - cbn in Hr. destruct (act cf a) as [[cfa ev]|] eqn:Ha; [|done].
    destruct (run cfa acts) as [[cf2 evs]|] eqn:Hr2; [|done]. injection Hr as -> <-.
    rewrite pend_app. eapply IH; [|exact Hr2]. intros u.
    destruct a as [t c|t lab]; cbn in Ha.
    + destruct (c_thr cf !! t) eqn:Ht; [done|]. injection Ha as <- <-. cbn.
      destruct (decide (u = t)) as [->|Hne]; [by rewrite !lookup_insert|by rewrite !lookup_insert_ne].
    + destruct (c_thr cf !! t) as [[c p]|] eqn:Ht; [|done].
      destruct (step t c p (c_sh cf) lab) as [[[op s'] ev']|] eqn:Hs; [|done].
      pose proof (step_ret_iff _ _ _ _ _ _ _ _ Hs) as Hret.
      destruct op as [p'|]; injection Ha as <- <-; cbn.
      * assert (pend_tr pend ev' = pend) as ->.
        { apply step_events in Hs as [->|[(u' & k & v & b & ->)|(r & ->)]]; [done|done|]. by destruct (Hret t r). }
        destruct (decide (u = t)) as [->|Hne]; [|by rewrite lookup_insert_ne]. by rewrite lookup_insert, Hp, Ht.
      * destruct Hret as [r ->]. cbn.
        destruct (decide (u = t)) as [->|Hne]; [by rewrite !lookup_delete|by rewrite !lookup_delete_ne].
Qed.

Lemma len_call (acts : list (action K V)) (cf cf' : config) t r tr :
  c_thr cf = ∅ -> run cf acts = Some (cf', EInv t CLen :: ERet t r :: tr) -> r = RInt (s_len (c_sh cf)).
Proof.
  intros Hthr Hr.
  destruct acts as [|a1 acts]; [done|]. cbn in Hr.
  destruct (act cf a1) as [[cf1 ev1]|] eqn:Ha1; [|done].
  destruct (run cf1 acts) as [[cfx evs]|] eqn:Hr1; [|done]. injection Hr as -> Heq.
  destruct a1 as [t1 c1|t1 lab1]; cbn in Ha1; rewrite Hthr, lookup_empty in Ha1; [|done].
  injection Ha1 as <- <-. cbn in Heq. injection Heq as -> -> ->.
  destruct acts as [|a2 acts]; [done|]. cbn in Hr1.
  destruct (act _ a2) as [[cf2 ev2]|] eqn:Ha2; [|done].
  destruct (run cf2 acts) as [[cfx evs2]|] eqn:Hr2; [|done]. injection Hr1 as -> Heq.
  destruct a2 as [t2 c2|t2 lab2]; cbn in Ha2.
  { destruct (<[_ := _]> _ !! t2); [done|]. injection Ha2 as <- <-. done. }
  destruct (decide (t2 = t)) as [->|Hne]; [|by rewrite lookup_insert_ne, lookup_empty in Ha2].
  rewrite lookup_insert in Ha2. destruct lab2; try done. cbn in Ha2. injection Ha2 as <- <-. cbn in Heq. subst evs2.
  destruct acts as [|a3 acts]; [done|]. cbn in Hr2.
  destruct (act _ a3) as [[cf3 ev3]|] eqn:Ha3; [|done].
  destruct (run cf3 acts) as [[cfx evs3]|] eqn:Hr3; [|done]. injection Hr2 as -> Heq.
  destruct a3 as [t3 c3|t3 lab3]; cbn in Ha3.
  { destruct (<[_ := _]> _ !! t3); [done|]. injection Ha3 as <- <-. done. }
  destruct (decide (t3 = t)) as [->|Hne]; [|by rewrite !lookup_insert_ne, lookup_empty in Ha3].
  rewrite lookup_insert in Ha3. destruct lab3; try done. cbn in Ha3. injection Ha3 as <- <-. cbn in Heq.
  by injection Heq as <- _.
Qed.

(** If no two calls overlap no call overlaps a Clear. *)
Lemma alone_clear pend (tr : list event) :
  alone (if decide (pend = ∅) then false else true) tr -> (forall t c, pend !! t = Some c -> pend = {[t := c]}) ->
  (forall tr1 t r tr2, tr = tr1 ++ ERet t r :: tr2 -> is_Some (pend_tr pend tr1 !! t)) ->
  clear_alone pend tr.
Proof.
  revert pend. induction tr as [|[t c|t r|t k v b] tr IH]; intros pend Ha Hp Hret; cbn in *; [done| | |].
  - case_decide as Hd; [|by destruct Ha]. subst pend. destruct Ha as [_ Ha]. split; [done|].
    split; [intros u; by rewrite lookup_empty|]. apply IH.
    + rewrite decide_False; [done|]. apply insert_non_empty.
    + intros u c'. rewrite insert_empty. intros [-> ->]%lookup_singleton_Some. done.
    + intros tr1 u r tr2 ->. apply (Hret (EInv t c :: tr1) u r tr2). done.
  - destruct (Hret [] t r tr eq_refl) as [c Hc]. cbn in Hc. rewrite (Hp _ _ Hc) in *. rewrite delete_singleton.
    apply IH.
    + by rewrite decide_True.
    + intros u c'. by rewrite lookup_empty.
    + intros tr1 u r' tr2 ->. rewrite <- (delete_singleton t c). apply (Hret (ERet t r :: tr1) u r' tr2). done.
  - apply IH; [done|done|]. intros tr1 u r' tr2 ->. apply (Hret (ECall t k v b :: tr1) u r' tr2). done.
Qed.

Lemma run_rets (acts : list (action K V)) (cf cf' : config) tr1 t r tr2 pend :
  (forall t, pend !! t = fst <$> c_thr cf !! t) -> run cf acts = Some (cf', tr1 ++ ERet t r :: tr2) ->
  is_Some (pend_tr pend tr1 !! t).
Proof.
  intros Hp Hr. destruct (run_cut _ _ _ _ _ Hr) as (acts1 & acts2 & cf1 & -> & H1 & H2).
  pose proof (run_pend _ _ _ _ _ Hp H1 t) as Hpt. rewrite Hpt. clear Hpt Hr H1.
  revert cf1 H2. induction acts2 as [|a acts2 IH]; intros cf1 H2; [done|]. cbn in H2.
  destruct (act cf1 a) as [[cfa ev]|] eqn:Ha; [|done].
  destruct (run cfa acts2) as [[cf2 evs]|] eqn:Hr2; [|done]. injection H2 as -> Heq.
  destruct a as [u c|u lab]; cbn in Ha.
  - destruct (c_thr cf1 !! u); [done|]. by injection Ha as <- <-.
  - destruct (c_thr cf1 !! u) as [[c p]|] eqn:Hu; [|done].
    destruct (step u c p (c_sh cf1) lab) as [[[op s'] ev']|] eqn:Hs; [|done].
    pose proof (step_ret_iff _ _ _ _ _ _ _ _ Hs) as Hret. apply step_events in Hs.
    destruct op as [p'|]; injection Ha as <- <-.
    + destruct Hs as [->|[(u' & k & v & b & ->)|(r' & ->)]]; [|done|].
      * cbn in Heq. subst evs. apply IH in Hr2. cbn in Hr2.
        destruct (decide (t = u)) as [->|Hne]; [by rewrite Hu|by rewrite lookup_insert_ne in Hr2].
      * by destruct (Hret u r').
    + destruct Hret as [r' ->]. injection Heq as -> -> _. by rewrite Hu.
Qed.

Theorem run_alone (acts : list (action K V)) (cf : config) tr :
  Inhabited K -> run new_config acts = Some (cf, tr) -> alone false tr -> c_thr cf = ∅ ->
  seq_trace ∅ tr (contents (c_sh cf)).
Proof.
  intros HK Hr Hal Hthr.
  assert (Hw : forall acts cf tr, run new_config acts = Some (cf, tr) -> alone false tr -> c_thr cf = ∅ ->
                 wtrace ∅ tr (contents (c_sh cf))).
  { clear -HK. intros acts cf tr Hr Hal Hthr.
    destruct (quiet_linearizes deref zero veq _ _ _ HK Hr Hthr) as (l & Hl & <-).
    eapply (seq_run_w (length l)) in Hl; done. }
  apply wtrace_seq; [by eapply Hw|].
  intros tr1 t n tr2 m1 -> Hw1.
  destruct (run_cut _ _ _ _ _ Hr) as (acts1 & acts2 & cf1 & -> & H1 & H2).
  assert (Hp0 : forall t, (∅ : gmap nat call) !! t = fst <$> c_thr (new_config : config) !! t).
  { intros u. cbn. by rewrite !lookup_empty. }
  assert (Hthr1 : c_thr cf1 = ∅).
  { apply map_eq. intros u. rewrite lookup_empty. pose proof (run_pend _ _ _ _ _ Hp0 H1 u) as Hp.
    rewrite (wtrace_pend _ _ _ Hw1), lookup_empty in Hp. by destruct (c_thr cf1 !! u). }
  assert (Hal1 : alone false tr1) by by eapply alone_pre.
  pose proof (Hw _ _ _ H1 Hal1 Hthr1) as Hw1'. rewrite (wtrace_det _ _ _ _ Hw1 Hw1').
  apply len_call in H2; [|done]. injection H2 as ->.
  eapply run_len; [done|done| |done].
  apply alone_clear; [by rewrite decide_True|intros u c; by rewrite lookup_empty|].
  intros tr1' u r tr2' ->. eapply run_rets; done.
Qed.

(** ** Where a panic comes from *)
Lemma arun_called (l : list item) a t x : arun a_new l a -> a_st a !! t = Some x -> IInv t (scall x) ∈ l.
Proof.
  revert a t x. induction l as [|i l IH] using rev_ind; intros a t x Hr Hx.
  - cbn in Hr. by subst a.
  - apply arun_snoc in Hr as (a1 & Hr & Hs). apply elem_of_app. destruct (decide (ithr i = t)) as [Ht|Ht].
    + destruct i as [u c'|u r|u k v b|u|u ks|u k|u]; cbn in Ht; subst u; cbn in Hs.
      * destruct Hs as [_ ->]. cbn in Hx. rewrite lookup_insert in Hx. injection Hx as <-. right. left.
      * destruct Hs as [-> _]. cbn in Hx. by rewrite lookup_delete in Hx.
      * destruct Hs as (c' & ks & vis & n & H1 & _ & _ & ->). cbn in Hx. rewrite lookup_insert in Hx. left.
        apply (IH _ _ _ Hr) in H1. destruct b; by injection Hx as <-.
      * destruct Hs as (c' & H1 & Hat & ->). cbn in Hx. rewrite lookup_insert in Hx. left.
        apply (IH _ _ _ Hr) in H1. by injection Hx as <-.
      * destruct Hs as (c' & H1 & _ & _ & ->). cbn in Hx. rewrite lookup_insert in Hx. left.
        apply (IH _ _ _ Hr) in H1. by injection Hx as <-.
      * destruct Hs as (c' & ks & vis & n & H1 & _ & ->). cbn in Hx. rewrite lookup_insert in Hx. left.
        apply (IH _ _ _ Hr) in H1. by injection Hx as <-.
      * destruct Hs as (c' & n & H1 & ->). cbn in Hx. rewrite lookup_insert in Hx. left.
        apply (IH _ _ _ Hr) in H1. by injection Hx as <-.
    + rewrite (astep_other _ _ _ _ _ t Hs) in Hx by done. left. by eapply IH.
Qed.

Lemma arun_panics (l : list item) a :
  arun a_new l a -> forall t c, a_st a !! t = Some (ADone c RPanic) ->
     exists k old v, (c = CCad k old \/ exists q, c = CCas k old q) /\ veq v old = None.
Proof.
  revert a. induction l as [|i l IH] using rev_ind; intros a Hr; [cbn in Hr; by subst a|].
  apply arun_snoc in Hr as (a1 & Hr & Hs). intros t c. by eapply astep_panic; [apply IH|].
Qed.

Lemma run_panics (acts : list (action K V)) (cf : config) tr t :
  Inhabited K -> run new_config acts = Some (cf, tr) -> ERet t RPanic ∈ tr ->
  exists k old v, (EInv t (CCad k old) ∈ tr \/ exists q, EInv t (CCas k old q) ∈ tr) /\ veq v old = None.
Proof.
  intros HK Hr Hin. destruct (run_linearizes deref zero veq _ _ _ HK Hr) as (l & b & Hl & <- & _).
  assert (Hobs : forall c, IInv t c ∈ l -> EInv t c ∈ observed l).
  { intros c Hc. unfold observed. apply elem_of_list_bind. exists (IInv t c). split; [|done]. cbn. left. }
  unfold observed in Hin. apply elem_of_list_bind in Hin as (i & Hi & Hin).
  destruct i; cbn in Hi; try (by apply elem_of_nil in Hi); apply elem_of_list_singleton in Hi; try done.
  injection Hi as <- <-. apply elem_of_list_split in Hin as (l1 & l2 & ->).
  apply arun_app in Hl as (a1 & Hl1 & a2 & Hs & _). cbn in Hs. destruct Hs as [_ [[c Hst]|[n [? _]]]]; [|done].
  destruct (arun_panics _ _ Hl1 _ _ Hst) as (k & old & v & Hc & Hv). exists k, old, v. split; [|done].
  apply (arun_called _ _ _ _ Hl1) in Hst. cbn in Hst.
  assert (Hin : EInv t c ∈ observed (l1 ++ IRet t RPanic :: l2)).
  { apply Hobs. apply elem_of_app. by left. }
  destruct Hc as [->|[p ->]]; [by left|right; eauto].
Qed.

End seq.
