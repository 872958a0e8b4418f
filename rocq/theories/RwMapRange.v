(** Facts about runs of the atomic object: Range, SlowLen and panics. *)
From Verif Require Import Base RwMapModel RwMapSpec.

Section range.
Context {K : Type} `{Countable K} {V : Type}.
Context (deref : nat -> V) (veq : V -> V -> option bool).
Local Notation call := (call K V).
Local Notation result := (result V).
Local Notation astate := (astate K V).
Local Notation item := (item K V).
Local Notation astep := (astep deref veq).
Local Notation arun := (arun deref veq).

Lemma arun_app (a : astate) (l1 l2 : list item) a' :
  arun a (l1 ++ l2) a' <-> exists a1, arun a l1 a1 /\ arun a1 l2 a'.
Proof.
  revert a. induction l1 as [|i l1 IH]; intros a; cbn.
  - split; [intros Hr; by exists a | by intros (a1 & -> & Hr)].
  - split.
    + intros (a1 & Hh & Hr). apply IH in Hr as (a2 & Hr1 & Hr2). exists a2. split; [|done]. by exists a1.
    + intros (a2 & (a1 & Hh & Hr1) & Hr2). exists a1. split; [done|]. apply IH. by exists a2.
Qed.

Lemma arun_snoc (a : astate) (l : list item) i a' :
  arun a (l ++ [i]) a' <-> exists a1, arun a l a1 /\ astep a1 i a'.
Proof.
  rewrite arun_app. cbn. split.
  - intros (a1 & Hr & a2 & Hs & ->). by exists a1.
  - intros (a1 & Hr & Hs). exists a1. split; [done|]. by exists a'.
Qed.

Lemma astep_det (a : astate) (i : item) a1 a2 : astep a i a1 -> astep a i a2 -> a1 = a2.
Proof. destruct i; cbn; naive_solver. Qed.

Lemma arun_det (a : astate) (l : list item) a1 a2 : arun a l a1 -> arun a l a2 -> a1 = a2.
Proof.
  revert a. induction l as [|i l IH]; intros a; cbn; [by intros -> ->|].
  intros (b1 & Hb1 & Hr1) (b2 & Hb2 & Hr2). assert (b1 = b2) as -> by eauto using astep_det. eauto.
Qed.

Definition ithr (i : item) : nat :=
  match i with
  | IInv t _ | IRet t _ | ICall t _ _ _ | ILin t | ISnap t _ | ISee t _ | IEnd t => t
  end.

Lemma astep_other (a : astate) (i : item) a' t : astep a i a' -> ithr i <> t -> a_st a' !! t = a_st a !! t.
Proof.
  intros Hs Hne. destruct i; cbn in Hs, Hne.
  - destruct Hs as [_ ->]. cbn. by rewrite lookup_insert_ne.
  - destruct Hs as [-> _]. cbn. by rewrite lookup_delete_ne.
  - destruct Hs as (? & ? & ? & ? & _ & _ & _ & ->). cbn. by rewrite lookup_insert_ne.
  - destruct Hs as (? & _ & _ & ->). cbn. by rewrite lookup_insert_ne.
  - destruct Hs as (? & _ & _ & _ & ->). cbn. by rewrite lookup_insert_ne.
  - destruct Hs as (? & ? & ? & ? & _ & _ & ->). cbn. by rewrite lookup_insert_ne.
  - destruct Hs as (? & ? & _ & ->). cbn. by rewrite lookup_insert_ne.
Qed.

Lemma visited_app t (l1 l2 : list item) : visited t (l1 ++ l2) = visited t l1 ++ visited t l2.
Proof. unfold visited. by rewrite bind_app. Qed.

(** ** Range *)
Definition thru (a1 : astate) t c (l2 : list item) (k : K) : Prop :=
  forall w1 w2 a2, l2 = w1 ++ w2 -> arun a1 (IInv t c :: w1) a2 -> is_Some (a_map a2 !! k).
Definition once (a1 : astate) t c (l2 : list item) (k : K) (v : V) : Prop :=
  exists w1 w2 a2, l2 = w1 ++ w2 /\ arun a1 (IInv t c :: w1) a2 /\ a_map a2 !! k = Some v.

Lemma thru_snoc a1 t c l2 i k : thru a1 t c (l2 ++ [i]) k -> thru a1 t c l2 k.
Proof. intros Ht w1 w2 a2 -> Hr. apply (Ht w1 (w2 ++ [i]) a2); [by rewrite app_assoc|done]. Qed.
Lemma thru_now a1 t c l2 k a : thru a1 t c l2 k -> arun a1 (IInv t c :: l2) a -> is_Some (a_map a !! k).
Proof. intros Ht Hr. apply (Ht l2 [] a); [by rewrite app_nil_r|done]. Qed.
Lemma once_snoc a1 t c l2 i k v : once a1 t c l2 k v -> once a1 t c (l2 ++ [i]) k v.
Proof. intros (w1 & w2 & a2 & -> & Hr). exists w1, (w2 ++ [i]), a2. by rewrite app_assoc. Qed.

Definition rinv (a1 : astate) t c (l2 : list item) (a : astate) : Prop :=
  match a_st a !! t with
  | Some (AInv_ c') => c' = c /\ visited t l2 = []
  | Some (AIter c' ks vis n) =>
      c' = c /\ NoDup (visited t l2) /\ n = Z.of_nat (length (visited t l2)) /\
      (forall k, k ∈ visited t l2 -> k ∉ ks /\ vis !! k = None) /\
      (forall k, k ∈ ks -> vis !! k = None) /\
      (forall k v, vis !! k = Some v -> once a1 t c l2 k v) /\
      (forall k v, ICall t k v false ∉ l2) /\
      (forall k, thru a1 t c l2 k -> k ∈ ks \/ is_Some (vis !! k) \/ k ∈ visited t l2)
  | Some (ADone c' r) =>
      c' = c /\ NoDup (visited t l2) /\
      (forall u1 k v u2, l2 = u1 ++ ICall t k v false :: u2 -> visited t u2 = []) /\
      ((forall k v, ICall t k v false ∉ l2) ->
         (forall k, thru a1 t c l2 k -> k ∈ visited t l2) /\
         r = match c with CSlowLen => RInt (Z.of_nat (length (visited t l2))) | _ => RUnit end)
  | None => False
  end.

Lemma rinv_holds a1 t c (l2 : list item) (a : astate) :
  range_call c -> arun a1 (IInv t c :: l2) a -> (forall r, IRet t r ∉ l2) -> rinv a1 t c l2 a.
Proof.
  intros Hc. revert a. induction l2 as [|i l2 IH] using rev_ind; intros a Hr Hno.
  - cbn in Hr. destruct Hr as (a2 & [Hn ->] & ->). unfold rinv. cbn. by rewrite lookup_insert.
  - pose proof Hr as Hr0. change (IInv t c :: l2 ++ [i]) with ((IInv t c :: l2) ++ [i]) in Hr.
    apply arun_snoc in Hr as (a2 & Hr & Hs).
    assert (Hno2 : forall r, IRet t r ∉ l2) by (intros r Hin; apply (Hno r); apply elem_of_app; by left).
    specialize (IH a2 Hr Hno2).
    destruct (decide (ithr i = t)) as [Ht|Ht].
    + unfold rinv in *. destruct i as [u c'|u r|u k v b|u|u ks|u k|u]; cbn in Ht; subst u; cbn in Hs.
      * destruct Hs as [Hn ->]. by rewrite Hn in IH.
      * exfalso. apply (Hno r). apply elem_of_app. right. left.
      * destruct Hs as (c' & ks & vis & n & Hst & Hv & Hb & ->). rewrite Hst in IH.
        destruct IH as (-> & Hnd & Hn & Hvis & Hks & Honce & Hf & Hall). cbn. rewrite lookup_insert.
        rewrite visited_app. cbn. rewrite decide_True by done.
        assert (Hnk : k ∉ visited t l2).
        { intros Hin. destruct (Hvis _ Hin). congruence. }
        assert (Hnd' : NoDup (visited t l2 ++ [k])).
        { apply NoDup_app. split; [done|]. split; [by intros x Hx ->%elem_of_list_singleton|apply NoDup_singleton]. }
        destruct b.
        -- split; [done|]. split; [done|]. split; [rewrite app_length; cbn; lia|].
           split; [|split; [|split; [|split]]].
           ++ intros k' [Hk'| ->%elem_of_list_singleton]%elem_of_app.
              ** destruct (Hvis _ Hk'). split; [done|]. by rewrite lookup_delete_None; right.
              ** split; [|by rewrite lookup_delete]. intros Hin. specialize (Hks _ Hin). congruence.
           ++ intros k' Hk'. rewrite lookup_delete_None. right. by apply Hks.
           ++ intros k' v' [_ Hv']%lookup_delete_Some. apply once_snoc. by apply Honce.
           ++ intros k' v' [Hin|Hin%elem_of_list_singleton]%elem_of_app; [by apply (Hf k' v')|done].
           ++ intros k' Hk'%thru_snoc. rewrite elem_of_app. destruct (decide (k' = k)) as [->|Hne].
              ** right; right; right. left.
              ** rewrite lookup_delete_ne by done. destruct (Hall _ Hk') as [?|[?|?]]; auto.
        -- split; [done|]. split; [done|]. split.
           ++ intros u1 k' v' u2 Eu. destruct u2 as [|y u2 _] using rev_ind; [done|].
              exfalso. rewrite app_comm_cons, app_assoc in Eu. apply app_inj_tail in Eu as [Eu _].
              apply (Hf k' v'). rewrite Eu. apply elem_of_app. right. left.
           ++ intros Hnf. exfalso. apply (Hnf k v). apply elem_of_app. right. left.
      * destruct Hs as (c' & Hst & Hat & ->). rewrite Hst in IH. destruct IH as [-> _].
        destruct c; done.
      * destruct Hs as (c' & Hst & Hat & Hd & ->). rewrite Hst in IH. destruct IH as [-> Hv].
        cbn. rewrite lookup_insert, visited_app, Hv. cbn.
        split; [done|]. split; [apply NoDup_nil_2|]. split; [done|]. split; [by intros k Hk%elem_of_nil|].
        split; [done|]. split; [done|]. split.
        -- intros k v [Hin|Hin%elem_of_list_singleton]%elem_of_app; [|done].
           apply elem_of_list_split in Hin as (u1 & u2 & Eu). rewrite Eu, visited_app in Hv. cbn in Hv.
           rewrite decide_True in Hv by done. by destruct (visited t u1).
        -- intros k Hk. left. apply Hd. apply elem_of_dom. apply (thru_now _ _ _ _ _ a2 (thru_snoc _ _ _ _ _ _ Hk) Hr).
      * destruct Hs as (c' & ks & vis & n & Hst & Hk & ->). rewrite Hst in IH.
        destruct IH as (-> & Hnd & Hn & Hvis & Hks & Honce & Hf & Hall). cbn. rewrite lookup_insert.
        rewrite visited_app. cbn. rewrite app_nil_r.
        split; [done|]. split; [done|]. split; [done|]. split; [|split; [|split; [|split]]].
        -- intros k' Hk'. destruct (Hvis _ Hk') as [H1 H2]. split; [set_solver|].
           destruct (a_map a2 !! k); [|done]. rewrite lookup_insert_ne; [done|]. by intros ->.
        -- intros k' [Hk' Hne]%elem_of_difference. rewrite elem_of_singleton in Hne.
           destruct (a_map a2 !! k); [rewrite lookup_insert_ne by done|]; by apply Hks.
        -- intros k' v' Hv'. destruct (a_map a2 !! k) as [w|] eqn:Hw; [|by apply once_snoc, Honce].
           apply lookup_insert_Some in Hv' as [[<- <-] |[_ Hv']]; [|by apply once_snoc, Honce].
           exists l2, [ISee t k], a2. done.
        -- intros k' v' [Hin|Hin%elem_of_list_singleton]%elem_of_app; [by apply (Hf k' v')|done].
        -- intros k' Hk'. destruct (decide (k' = k)) as [->|Hne].
           ++ right; left. destruct (thru_now _ _ _ _ _ a2 (thru_snoc _ _ _ _ _ _ Hk') Hr) as [w Hw]. rewrite Hw, lookup_insert. eauto.
           ++ destruct (Hall _ (thru_snoc _ _ _ _ _ _ Hk')) as [?|[?|?]]; [left; set_solver|right; left|by right; right].
              destruct (a_map a2 !! k); [by rewrite lookup_insert_ne|done].
      * destruct Hs as (c' & n & Hst & ->). rewrite Hst in IH.
        destruct IH as (-> & Hnd & Hn & Hvis & Hks & Honce & Hf & Hall). cbn. rewrite lookup_insert.
        rewrite visited_app. cbn. rewrite app_nil_r.
        assert (Hf' : forall k v, ICall t k v false ∉ l2 ++ [IEnd t]).
        { intros k' v' [Hin|Hin%elem_of_list_singleton]%elem_of_app; [by apply (Hf k' v')|done]. }
        split; [done|]. split; [done|]. split.
        -- intros u1 k v u2 Eu. exfalso. apply (Hf' k v). rewrite Eu. apply elem_of_app. right. left.
        -- intros _. split; [|by rewrite Hn]. intros k Hk%thru_snoc.
           destruct (Hall _ Hk) as [?|[[? ?]|?]]; [set_solver|done|done].
    + assert (Hv : visited t (l2 ++ [i]) = visited t l2).
      { rewrite visited_app. destruct i; cbn in *; rewrite ?decide_False by done; by rewrite app_nil_r. }
      assert (Hin : forall k v, ICall t k v false ∈ l2 ++ [i] -> ICall t k v false ∈ l2).
      { intros k v [?|Hi%elem_of_list_singleton]%elem_of_app; [done|]. subst i. by cbn in Ht. }
      unfold rinv in *. rewrite (astep_other _ _ _ t Hs) by done. rewrite Hv.
      destruct (a_st a2 !! t) as [[c'|c' r|c' ks vis n]|]; [done| | |done].
      * destruct IH as (-> & Hnd & Hf & Hall). split; [done|]. split; [done|]. split.
        -- intros u1 k v u2 Eu. destruct u2 as [|y u2 _] using rev_ind; [done|].
           rewrite app_comm_cons, app_assoc in Eu. apply app_inj_tail in Eu as [Eu <-].
           pose proof (Hf _ _ _ _ Eu) as Hu. rewrite visited_app, Hu. cbn.
           rewrite visited_app in Hv. by rewrite <- (app_nil_r (visited t l2)) in Hv at 2; apply app_inv_head in Hv.
        -- intros Hnf. destruct Hall as [Hall ->].
           { intros k v Hin2. apply (Hnf k v). apply elem_of_app. by left. }
           split; [|done]. intros k Hk%thru_snoc. by apply Hall.
      * destruct IH as (-> & Hnd & Hn & Hvis & Hks & Honce & Hf & Hall).
        split; [done|]. split; [done|]. split; [done|]. split; [done|]. split; [done|].
        split; [intros k v Hk; by apply once_snoc, Honce|].
        split; [intros k v Hin2; by apply (Hf k v), Hin|]. intros k Hk%thru_snoc. by apply Hall.
Qed.

Lemma run_range_ok (l : list item) (a : astate) : arun a_new l a -> range_ok deref veq l.
Proof.
  intros Hr l1 t c l2 l3 a1 Hc -> Hno Hr1.
  apply arun_app in Hr as (a1' & Hr1' & Hr). rewrite (arun_det _ _ _ _ Hr1' Hr1) in Hr. clear a1' Hr1'.
  change (IInv t c :: l2 ++ l3) with ((IInv t c :: l2) ++ l3) in Hr.
  apply arun_app in Hr as (a2 & Hr2 & Hr3).
  pose proof (rinv_holds _ _ _ _ _ Hc Hr2 Hno) as Hi.
  split; [|split; [|split]].
  - unfold rinv in Hi. destruct (a_st a2 !! t) as [[c'|c' r|c' ks vis n]|].
    + destruct Hi as [_ ->]. apply NoDup_nil_2.
    + by destruct Hi as (_ & ? & _).
    + by destruct Hi as (_ & ? & _).
    + done.
  - intros u1 k v b u2 ->.
    assert (Hr' : exists a3, arun a1 (IInv t c :: u1) a3 /\ exists a4, astep a3 (ICall t k v b) a4).
    { change (IInv t c :: u1 ++ ICall t k v b :: u2) with ((IInv t c :: u1) ++ ICall t k v b :: u2) in Hr2.
      apply arun_app in Hr2 as (a3 & Hr3' & a4 & Hs & _). exists a3. split; [done|]. by exists a4. }
    destruct Hr' as (a3 & Hr' & a4 & Hs).
    assert (Hi3 : rinv a1 t c u1 a3).
    { apply rinv_holds; [done|done|]. intros r Hin. apply (Hno r). apply elem_of_app. by left. }
    cbn in Hs. destruct Hs as (c' & ks & vis & n & Hst & Hv & _). unfold rinv in Hi3. rewrite Hst in Hi3.
    destruct Hi3 as (_ & _ & _ & _ & _ & Honce & _). by apply Honce.
  - intros u1 k v u2 ->. unfold rinv in Hi. destruct (a_st a2 !! t) as [[c'|c' r|c' ks vis n]|].
    + destruct Hi as [_ Hv]. rewrite visited_app in Hv. cbn in Hv. rewrite decide_True in Hv by done.
      by destruct (visited t u1).
    + destruct Hi as (_ & _ & Hf & _). by eapply Hf.
    + destruct Hi as (_ & _ & _ & _ & _ & _ & Hf & _). destruct (Hf k v). apply elem_of_app. right. left.
    + done.
  - intros r l4 -> Hf. destruct Hr3 as (a3 & Hs & _). cbn in Hs. destruct Hs as [_ Hs].
    unfold rinv in Hi. destruct Hs as [[c' Hst]|[n [-> Hst]]]; rewrite Hst in Hi.
    + destruct Hi as (-> & _ & _ & Hi). exact (Hi Hf).
    + destruct Hi as [<- _]. done.
Qed.

(** ** Panics *)
(** A call that panics is a comparison that panics. *)
Lemma astep_panic (a : astate) (i : item) a' :
  (forall t c, a_st a !! t = Some (ADone c RPanic) ->
     exists k old v, (c = CCad k old \/ exists p, c = CCas k old p) /\ veq v old = None) ->
  astep a i a' ->
  (forall t c, a_st a' !! t = Some (ADone c RPanic) ->
     exists k old v, (c = CCad k old \/ exists p, c = CCas k old p) /\ veq v old = None).
Proof.
  intros IH Hs t c Hst. destruct (decide (ithr i = t)) as [Ht|Ht].
  - destruct i as [u c'|u r|u k v b|u|u ks|u k|u]; cbn in Ht; subst u; cbn in Hs.
    + destruct Hs as [_ ->]. cbn in Hst. by rewrite lookup_insert in Hst.
    + destruct Hs as [-> _]. cbn in Hst. by rewrite lookup_delete in Hst.
    + destruct Hs as (c' & ks & vis & n & _ & _ & _ & ->). cbn in Hst. rewrite lookup_insert in Hst. by destruct b.
    + destruct Hs as (c' & _ & Hat & ->). cbn in Hst. rewrite lookup_insert in Hst. injection Hst as -> Hres.
      destruct c; cbn in Hres, Hat; try done.
      * by destruct (a_map a !! k).
      * destruct (a_map a !! k) as [v|] eqn:Ev; [|done]. destruct (veq v old) eqn:Eq; [done|]. exists k, old, v. eauto.
      * destruct (a_map a !! k) as [v|] eqn:Ev; [|done]. destruct (veq v old) eqn:Eq; [done|]. exists k, old, v. eauto.
    + destruct Hs as (c' & _ & _ & _ & ->). cbn in Hst. by rewrite lookup_insert in Hst.
    + destruct Hs as (c' & ks & vis & n & _ & _ & ->). cbn in Hst. by rewrite lookup_insert in Hst.
    + destruct Hs as (c' & n & _ & ->). cbn in Hst. rewrite lookup_insert in Hst. injection Hst as -> Hres. by destruct c.
  - rewrite (astep_other _ _ _ t Hs) in Hst by done. eauto.
Qed.

End range.
