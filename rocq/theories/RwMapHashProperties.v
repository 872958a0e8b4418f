(** Property theorems for rwmap used with keys that cannot be hashed (C225, C226). *)
From Coq Require Import ZifyBool ZifyNat.
From Verif Require Import Base RwMapModel RwMapSpec RwMapInv RwMapProgress RwMapProperties RwMapHashModel RwMapHashSpec RwMapHash.

(** C225.  The other calls, Len excepted, are as in an execution without these calls, and so is the map, but for
    the counter. *)
Theorem C225_other_calls {K} `{Countable K} {V} (deref : nat -> V) (zero : V) veq hacts (hc : hconfig K V) tr :
  hrun deref zero veq new_hconfig hacts = Some (hc, tr) ->
  exists acts cf, run deref zero veq new_config acts = Some (cf, drop_len ∅ (hashed tr)) /\
    but_len (c_sh (h_cf hc)) (c_sh cf) /\ contents deref (c_sh (h_cf hc)) = contents deref (c_sh cf).
Proof.
  intros Hr. destruct (hrun_rel _ _ _ _ _ _ _ _ _ hrel_new Hr) as (acts & cf & l & H1 & [H2 _ _ _]).
  exists acts, cf. split_and!; [done|done|]. rewrite (but_len_set _ _ H2). done.
Qed.
Print Assumptions C225_other_calls.
(** So they are linearizable. *)
Theorem C225_linearizable {K} `{Countable K} {V} (deref : nat -> V) (zero : V) veq hacts (hc : hconfig K V) tr :
  Inhabited K -> hrun deref zero veq new_hconfig hacts = Some (hc, tr) -> linearizable deref veq (drop_len ∅ (hashed tr)).
Proof. intros HK Hr. destruct (C225_other_calls _ _ _ _ _ _ Hr) as (acts & cf & H1 & _). by eapply C67_linearizable. Qed.
Print Assumptions C225_linearizable.
(** The mutex is only held from inside another call: none of these calls ends, or stays, with the mutex. *)
Theorem C225_mutex {K} `{Countable K} {V} (deref : nat -> V) (zero : V) veq hacts (hc : hconfig K V) tr t :
  Inhabited K -> hrun deref zero veq new_hconfig hacts = Some (hc, tr) -> s_lock (c_sh (h_cf hc)) = Some t ->
  is_Some (c_thr (h_cf hc) !! t).
Proof.
  intros HK Hr Hl. destruct (hrun_rel _ _ _ _ _ _ _ _ _ hrel_new Hr) as (acts & cf & l & H1 & [H2 H3 _ _]).
  eapply run_reach in H1 as (h & kof & m & Hc & _); [|done].
  assert (Ht : is_Some (c_thr cf !! t)).
  { apply (i_lock2 _ _ _ _ _ _ _ Hc). rewrite (but_len_set _ _ H2). exact Hl. }
  destruct Ht as [x Hx]. rewrite H3 in Hx. destruct (c_thr (h_cf hc) !! t); [by eexists|done].
Qed.
Print Assumptions C225_mutex.
(** No goroutine is stuck: it can go on, or another one that has the mutex can. *)
Definition can_go_on {K} `{Countable K} {V} (deref : nat -> V) (zero : V) veq (hc : hconfig K V) (t : nat) : Prop :=
  is_Some (hact deref zero veq hc (HStep t)) \/ exists lab, is_Some (hact deref zero veq hc (HAct (AStep t lab))).
Theorem C225_no_deadlock {K} `{Countable K} {V} (deref : nat -> V) (zero : V) veq hacts (hc : hconfig K V) tr t :
  Inhabited K -> hrun deref zero veq new_hconfig hacts = Some (hc, tr) ->
  is_Some (c_thr (h_cf hc) !! t) \/ is_Some (h_bad hc !! t) ->
  can_go_on deref zero veq hc t \/ exists u, u <> t /\ s_lock (c_sh (h_cf hc)) = Some u /\ can_go_on deref zero veq hc u.
Proof.
  intros HK Hr Ht. destruct (hrun_rel _ _ _ _ _ _ _ _ _ hrel_new Hr) as (acts & cf & l & H1 & [H2 H3 _ H5]).
  assert (Hback : forall u lab, is_Some (act deref zero veq cf (AStep u lab)) -> can_go_on deref zero veq hc u).
  { intros u lab [x Hx]. right. exists lab. cbn in *. rewrite H3 in Hx. destruct (c_thr (h_cf hc) !! u) as [[c p]|] eqn:Hu; [|done].
    destruct (is_len c) eqn:Hc; [by destruct c|]. specialize (H5 _ _ _ Hu).
    assert (Hp : p <> P_getlen) by (by destruct c).
    assert (Hx' : exists op s1 ev, step deref zero veq u c p (c_sh cf) lab = Some (op, s1, ev)).
    { destruct c; try done; destruct (step _ _ _ u _ p (c_sh cf) lab) as [[[op s1] ev]|]; try done; eauto. }
    destruct Hx' as (op & s1 & ev & Hs). destruct (step_len _ _ _ _ _ _ _ _ _ _ _ (s_len (c_sh (h_cf hc))) Hp Hs) as [_ [n1 Hs1]].
    assert (Hb : but_len (c_sh cf) (c_sh (h_cf hc))) by (by unfold but_len in *).
    rewrite <- (but_len_set _ _ Hb) in Hs1. rewrite Hs1. destruct op; by eexists. }
  destruct Ht as [[[c p] Ht]|[[b p] Ht]].
  - destruct (is_len c) eqn:Hc.
    + destruct c; try done. left. right. exists LTick. cbn. rewrite Ht. specialize (H5 _ _ _ Ht). destruct p; try done; by eexists.
    + destruct (C72_no_deadlock deref zero veq acts cf _ t HK H1) as [[lab Hx]|(u & lab & Hu & Hl & Hx)].
      * rewrite H3, Ht. destruct c; try done; by eexists.
      * left. by eapply Hback.
      * right. exists u. split_and!; [done| |by eapply Hback]. rewrite (but_len_set _ _ H2) in Hl. exact Hl.
  - left. left. cbn. rewrite Ht. destruct p; by eexists.
Qed.
Print Assumptions C225_no_deadlock.

Lemma hrun_app {K} `{Countable K} {V} (deref : nat -> V) (zero : V) veq (hc : hconfig K V) a b hc1 e1 hc2 e2 :
  hrun deref zero veq hc a = Some (hc1, e1) -> hrun deref zero veq hc1 b = Some (hc2, e2) -> hrun deref zero veq hc (a ++ b) = Some (hc2, e1 ++ e2).
Proof.
  revert hc e1. induction a as [|x a IH]; intros hc e1 Ha Hb; cbn [hrun app] in *; [by injection Ha as <- <-|].
  destruct (hact deref zero veq hc x) as [[hc3 e3]|]; [|done]. destruct (hrun deref zero veq hc3 a) as [[hc4 e4]|] eqn:H4; [|done].
  injection Ha as <- <-. rewrite (IH _ _ H4 Hb). by rewrite app_assoc.
Qed.
(** C226.  What such a call does when it is alone: it panics, and Store, Swap and LoadOrStore have then counted a
    key that is not there. *)
Theorem C226_call {K} `{Countable K} {V} (deref : nat -> V) (zero : V) veq (hc : hconfig K V) t b :
  c_thr (h_cf hc) !! t = None -> h_bad hc !! t = None ->
  exists s', hrun deref zero veq hc (bad_alone t b) = Some (mk_hconfig (mk_config s' (c_thr (h_cf hc))) (h_bad hc), [HCall t b; HPanic t]) /\
    s' = set_len (s_len (c_sh (h_cf hc)) + miscounted b)%Z (c_sh (h_cf hc)).
Proof.
  intros H1 H2. eexists. split; [|reflexivity]. destruct hc as [[s thr] bad]. cbn [h_cf h_bad c_thr c_sh] in *.
  destruct b; cbn [bad_alone miscounted deferred_adds app hrun hact h_cf h_bad c_thr c_sh]; rewrite H1, H2; cbn [deferred_adds h_cf h_bad c_thr c_sh];
    rewrite lookup_insert; cbn [deferred_adds h_cf h_bad c_thr c_sh]; rewrite lookup_insert; cbn [deferred_adds h_cf h_bad c_thr c_sh]; rewrite ?lookup_insert, !insert_insert, delete_insert by done;
    rewrite ?Z.add_0_r, ?set_len_same; done.
Qed.
Print Assumptions C226_call.
(** So Len is not the number of keys, even if one goroutine makes all calls: by any number, with no key in the map.
    Clear does not repair it, since it finds nothing to clear. *)
Theorem C226_Len_refuted {K} `{Countable K} {V} (deref : nat -> V) (zero : V) veq (n : nat) :
  exists hacts (hc : hconfig K V) tr, hrun deref zero veq new_hconfig hacts = Some (hc, tr) /\ hquiet hc /\
    contents deref (c_sh (h_cf hc)) = ∅ /\ (forall t b, HCall t b ∈ tr -> t = 0 /\ b = BStore) /\
    exists hc', hrun deref zero veq hc ([HAct (AInv 0 CClear)] ++ replicate 2 (HAct (AStep 0 LTick)) ++ [HAct (AInv 0 CLen)] ++ replicate 2 (HAct (AStep 0 LTick)))
      = Some (hc', [HEv (EInv 0 CClear); HEv (ERet 0 RUnit); HEv (EInv 0 CLen); HEv (ERet 0 (RInt (Z.of_nat n)))]).
Proof.
  assert (Hrun : forall n (s : shared K), exists tr, hrun deref zero veq (mk_hconfig (mk_config s ∅) ∅) (mjoin (replicate n (bad_alone 0 BStore))) =
    Some (mk_hconfig (mk_config (set_len (s_len s + Z.of_nat n)%Z s) ∅) ∅ : hconfig K V, tr) /\ forall t b, HCall t b ∈ tr -> t = 0 /\ b = BStore).
  { clear n. intros n. induction n as [|n IH]; intros s.
    { exists []. cbn. rewrite Z.add_0_r, set_len_same. split; [done|]. by intros t b ?%elem_of_nil. }
    destruct (IH (set_len (s_len s + 1) s)) as (tr & Hr & Hb). exists (HCall 0 BStore :: HPanic 0 :: tr). split.
    - destruct (C226_call deref zero veq (mk_hconfig (mk_config s ∅) ∅) 0 BStore) as (s' & Hc & Hs'); [done|done|]. subst s'.
      cbn [miscounted h_cf h_bad c_thr c_sh] in Hc. rewrite set_len_twice in Hr. cbn [s_len set_len] in Hr.
      replace (s_len s + Z.of_nat (S n))%Z with (s_len s + 1 + Z.of_nat n)%Z by lia.
      exact (hrun_app _ _ _ _ _ _ _ _ _ _ Hc Hr).
    - intros t b [[= -> ->]|Hx]%elem_of_cons; [done|]. apply elem_of_cons in Hx as [?|Hx]; [done|auto]. }
  destruct (Hrun n new_shared) as (tr & Hr & Hb). exists (mjoin (replicate n (bad_alone 0 BStore))). eexists _, tr.
  split; [exact Hr|]. split; [done|]. split.
  { apply map_eq. intros k. unfold contents. cbn. by rewrite ?lookup_omap, ?lookup_empty. }
  split; [done|]. eexists. cbn [app replicate hrun hact h_cf h_bad]. rewrite lookup_empty.
  cbn -[lookup insert delete Z.add]. rewrite lookup_empty. cbn -[lookup insert delete Z.add].
  rewrite !lookup_insert. cbn -[lookup insert delete Z.add]. reflexivity.
Qed.
Print Assumptions C226_Len_refuted.

(** Goroutine 2 is inside a Store and has the mutex while goroutine 3 stores with a key that cannot be hashed; then
    goroutine 2 ends, and goroutine 1 asks for Len and loads the key. *)
Definition ex225 : list (haction nat nat) :=
  (HAct <$> (AInv 2 (CStore 6 60) :: ticks 2 2)) ++ bad_alone 3 BStore ++
  (HAct <$> (ticks 2 8 ++ [AInv 1 CLen] ++ ticks 1 2 ++ [AInv 1 (CLoad 6)] ++ ticks 1 7)).
Example C225_example :
  (fun x => (x.2, s_len (c_sh (h_cf x.1)), map_to_list (contents ex_deref (c_sh (h_cf x.1))), drop_len ∅ (hashed x.2)))
    <$> hrun ex_deref 0 ex_veq new_hconfig ex225 =
  Some ([HEv (EInv 2 (CStore 6 60)); HCall 3 BStore; HPanic 3; HEv (ERet 2 RUnit); HEv (EInv 1 CLen); HEv (ERet 1 (RInt 2));
         HEv (EInv 1 (CLoad 6)); HEv (ERet 1 (RVal (Some 60)))], 2%Z, [(6, 60)],
        [EInv 2 (CStore 6 60); ERet 2 RUnit; EInv 1 (CLoad 6); ERet 1 (RVal (Some 60))]).
Proof. vm_compute. reflexivity. Qed.
(** The mutex is taken at the moment goroutine 3 begins, and goroutine 3 goes on all the same. *)
Example C225_example_mutex :
  (fun x => (s_lock (c_sh (h_cf x.1)), c_thr (h_cf x.1) !! 3, h_bad (x.1) !! 3))
    <$> hrun ex_deref 0 ex_veq new_hconfig (take 5 ex225) = Some (Some 2, None, Some (BStore, B_len)).
Proof. vm_compute. reflexivity. Qed.
(** The other calls only panic: here Load and Delete, and LoadOrStore for comparison. *)
Example C226_example :
  (fun x : hconfig nat nat * list (hevent nat nat) => (x.2, s_len (c_sh (h_cf x.1)), size (contents ex_deref (c_sh (h_cf x.1)))))
    <$> hrun ex_deref 0 ex_veq (new_hconfig (K := nat)) (bad_alone 1 BLoad ++ bad_alone 1 BDelete ++ bad_alone 1 BLoadOrStore) =
  Some ([HCall 1 BLoad; HPanic 1; HCall 1 BDelete; HPanic 1; HCall 1 BLoadOrStore; HPanic 1], 1%Z, 0).
Proof. vm_compute. reflexivity. Qed.
