(** rwmap: panicking Range callbacks (C190); calls that never touch the mutex (C191). *)
From Coq Require Import ZifyBool ZifyNat.
From Verif Require Import Base RwMapModel RwMapSpec RwMapInv RwMapProgress RwMapProperties RwMapPanicSpec RwMapPanic.

(** ** C190 *)
(** A Range whose callback panics leaves the map, and all other calls, as one whose callback returns
    false: the same state is reached with the same events. *)
Theorem C190_panic_as_false {K} `{Countable K} {V} (deref : nat -> V) (zero : V) veq pacts (cf : config K V) ptr :
  prun deref zero veq new_config pacts = Some (cf, ptr) ->
  exists acts, run deref zero veq new_config acts = Some (cf, as_false ptr).
Proof. apply prun_run. Qed.
Print Assumptions C190_panic_as_false.
(** So the map stays linearizable, *)
Theorem C190_linearizable {K} `{Countable K} {V} (deref : nat -> V) (zero : V) veq pacts (cf : config K V) ptr :
  Inhabited K -> prun deref zero veq new_config pacts = Some (cf, ptr) -> linearizable deref veq (as_false ptr).
Proof. intros HK Hr. apply prun_run in Hr as [acts Hr]. by eapply C67_linearizable. Qed.
Print Assumptions C190_linearizable.
(** and no mutex stays locked: any goroutine inside a call can go on, or another one that has the mutex
    can. *)
Theorem C190_no_deadlock {K} `{Countable K} {V} (deref : nat -> V) (zero : V) veq pacts (cf : config K V) ptr t :
  Inhabited K -> prun deref zero veq new_config pacts = Some (cf, ptr) -> is_Some (c_thr cf !! t) ->
  (exists lab, is_Some (act deref zero veq cf (AStep t lab))) \/
  (exists u lab, u <> t /\ s_lock (c_sh cf) = Some u /\ is_Some (act deref zero veq cf (AStep u lab))).
Proof. intros HK Hr. apply prun_run in Hr as [acts Hr]. by eapply C72_no_deadlock. Qed.
Print Assumptions C190_no_deadlock.

(** The mutex is only held from inside a call. *)
Theorem C190_mutex_free {K} `{Countable K} {V} (deref : nat -> V) (zero : V) veq pacts (cf : config K V) ptr t :
  Inhabited K -> prun deref zero veq new_config pacts = Some (cf, ptr) -> s_lock (c_sh cf) = Some t -> is_Some (c_thr cf !! t).
Proof.
  intros HK Hr Hl. apply prun_run in Hr as [acts Hr]. eapply run_reach in Hr as (h & kof & m & Hc & _); [|done].
  by apply (i_lock2 _ _ _ _ _ _ _ Hc).
Qed.
Print Assumptions C190_mutex_free.

(** Goroutine 1 ranges and its callback panics at the first pair, while goroutine 2 is inside a Store. *)
Definition ex190 : list (paction nat nat) :=
  (PAct <$> play new_config (calls_ 1 (CStore 5 50) ++ calls_ 1 (CStore 6 60) ++
     AInv 1 CRange :: ticks 1 10 ++ [AStep 1 (LKey 6)] ++ ticks 1 1 ++ AInv 2 (CStore 6 61) :: ticks 2 2)) ++
  PPanic 1 :: (PAct <$> (ticks 2 2 ++ [AInv 1 (CLoad 6)] ++ ticks 1 3)).
Example C190_ex : (fun x => (x.2, s_lock (c_sh x.1))) <$> prun ex_deref 0 ex_veq new_config ex190 =
  Some ([PEv (EInv 1 (CStore 5 50)); PEv (ERet 1 RUnit); PEv (EInv 1 (CStore 6 60)); PEv (ERet 1 RUnit);
         PEv (EInv 1 CRange); PEv (EInv 2 (CStore 6 61)); PEnd 1 6 60; PEv (ERet 2 RUnit);
         PEv (EInv 1 (CLoad 6)); PEv (ERet 1 (RVal (Some 61)))], None).
Proof. vm_compute. reflexivity. Qed.

(** ** C191 *)
(** A Load, LoadAndDelete, Delete, CompareAndSwap or CompareAndDelete that has found its key in the read
    map can always go on, also while another goroutine has the mutex, and never takes it itself. *)
Theorem C191_no_mutex {K} `{Countable K} {V} (deref : nat -> V) (zero : V) veq acts0 (cf : config K V) tr0 t c acts cf' tr :
  Inhabited K -> run deref zero veq new_config acts0 = Some (cf, tr0) -> found_in_read cf t c ->
  run deref zero veq cf acts = Some (cf', tr) -> (forall r, ERet t r ∉ tr) ->
  (exists lab, is_Some (act deref zero veq cf' (AStep t lab))) /\ ~ holds_lock cf' t.
Proof. intros HK Hr0 (Hc & e & Ht). by eapply free_goes_on. Qed.
Print Assumptions C191_no_mutex.
(** Likewise a Range or SlowLen that has found the read map to be complete. *)
Theorem C191_Range_no_mutex {K} `{Countable K} {V} (deref : nat -> V) (zero : V) veq acts0 (cf : config K V) tr0 t c acts cf' tr :
  Inhabited K -> run deref zero veq new_config acts0 = Some (cf, tr0) -> ranges_read cf t c ->
  run deref zero veq cf acts = Some (cf', tr) -> (forall r, ERet t r ∉ tr) ->
  (exists lab, is_Some (act deref zero veq cf' (AStep t lab))) /\ ~ holds_lock cf' t.
Proof. intros HK Hr0 (Hc & e & Ht). by eapply free_goes_on. Qed.
Print Assumptions C191_Range_no_mutex.
(** Load then returns with its second step, whatever others do. *)
Theorem C191_Load_two_steps {K} `{Countable K} {V} (deref : nat -> V) (zero : V) veq (cf : config K V) t k acts cf' tr :
  found_in_read cf t (CLoad k) -> run deref zero veq cf acts = Some (cf', tr) -> 2 <= steps_of t acts ->
  exists r, ERet t r ∈ tr.
Proof.
  intros (Hc & e & Ht) Hr H2.
  assert (Hd : {exists r, ERet t r ∈ tr} + {forall r, ERet t r ∉ tr}); [|destruct Hd as [|Hn]; [done|]].
  { clear. induction tr as [|ev tr IH]; [right; intros r; apply not_elem_of_nil|].
    destruct IH as [IH|IH]; [left; destruct IH as [r Hr]; exists r; by right|].
    destruct ev as [|u r|]; try (right; intros r' Hin; apply elem_of_cons in Hin as [?|?]; [done|by destruct (IH r')]).
    destruct (decide (u = t)) as [->|Hne]; [left; exists r; left|].
    right. intros r' Hin. apply elem_of_cons in Hin as [?|?]; [by simplify_eq|by destruct (IH r')]. }
  pose proof (run_load_left deref zero veq _ _ _ _ _ _ _ Hr Hn Ht) as Hlt. cbn in Hlt. specialize (Hlt ltac:(lia)). lia.
Qed.
Print Assumptions C191_Load_two_steps.

(** Goroutine 3 has the mutex and stays; goroutines 1 and 2 load and delete key 5. *)
Definition ex191 : list (action nat nat) :=
  play new_config (calls_ 1 (CStore 5 50) ++ (AInv 1 CRange :: ticks 1 10 ++ [AStep 1 (LKey 5)] ++ ticks 1 1 ++
    [AStep 1 (LCb false)] ++ ticks 1 1) ++ AInv 3 (CStore 6 60) :: ticks 3 3 ++ [AInv 1 (CLoad 5); AInv 2 (CDelete 5)] ++ ticks 1 1 ++ ticks 2 1).
Example C191_ex : exists cf tr0, run ex_deref 0 ex_veq new_config ex191 = Some (cf, tr0) /\
  found_in_read cf 1 (CLoad 5) /\ found_in_read cf 2 (CDelete 5) /\ holds_lock cf 3 /\
  snd <$> run ex_deref 0 ex_veq cf (ticks 1 2 ++ ticks 2 4) = Some [ERet 1 (RVal (Some 50)); ERet 2 RUnit].
Proof.
  assert (Hx : match ex_run ex191 with
    | Some (cf, tr) => c_thr cf !! 1 = Some (CLoad 5, E_load 0 Fast) /\ c_thr cf !! 2 = Some (CDelete 5, E_load 0 Fast) /\
        s_lock (c_sh cf) = Some 3 /\ snd <$> run ex_deref 0 ex_veq cf (ticks 1 2 ++ ticks 2 4) = Some [ERet 1 (RVal (Some 50)); ERet 2 RUnit]
    | None => False end) by (vm_compute; repeat split; reflexivity).
  change (run ex_deref 0 ex_veq new_config) with ex_run.
  destruct (ex_run ex191) as [[cf tr]|]; [|contradiction Hx]. destruct Hx as (H1 & H2 & H3 & H4). exists cf, tr.
  split; [reflexivity|]. split; [split; [exact I|by exists 0]|]. split; [split; [exact I|by exists 0]|]. by split.
Qed.
