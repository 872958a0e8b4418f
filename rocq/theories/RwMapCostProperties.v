(** rwmap: amortised constant time (C113). *)
From Coq Require Import ZifyBool ZifyNat.
From Verif Require Import Base RwMapModel RwMapCostSpec RwMapCost RwMapProperties.

(** In every execution, however many goroutines there are, all steps of all goroutines together are at
    most 15 for each call, 6 for each entry of the maps that Range and SlowLen go through, and 2 for
    each compare-and-swap that fails since another goroutine was faster. *)
Theorem C113_steps {K} `{Countable K} {V} (deref : nat -> V) (zero : V) veq acts (cf : config K V) tr :
  run deref zero veq new_config acts = Some (cf, tr) ->
  total deref zero veq is_step new_config acts <=
    15 * total deref zero veq is_call new_config acts +
    6 * total deref zero veq ranged new_config acts +
    2 * total deref zero veq cas_fails new_config acts.
Proof.
  intros Hr. apply run_cost in Hr as [Hr _]. pose proof (new_cost (K := K) (V := V)) as Hn.
  change (c_sh new_config) with (new_shared (K := K)) in Hr. lia.
Qed.
Print Assumptions C113_steps.

(** Used by one goroutine at a time, and without Range, the calls take at most 15 steps on average. *)
Theorem C113_sequential {K} `{Countable K} {V} (deref : nat -> V) (zero : V) veq acts (cf : config K V) tr :
  run deref zero veq new_config acts = Some (cf, tr) ->
  one_at_a_time deref zero veq new_config acts -> no_ranges acts ->
  total deref zero veq is_step new_config acts <= 15 * total deref zero veq is_call new_config acts.
Proof.
  intros Hr Ho Hn. pose proof (C113_steps _ _ _ _ _ _ Hr) as Hs.
  rewrite (run_calm deref zero veq acts new_config cf tr) in Hs; [|by left|done|done].
  rewrite (run_rangeless deref zero veq acts new_config cf tr) in Hs; [lia| |done|done].
  intros t c p Ht. done.
Qed.
Print Assumptions C113_sequential.

(** The entries that dirtyLocked goes through, in all calls together, are at most as many as there are
    calls and entries that Range and SlowLen go through. *)
Theorem C113_copies {K} `{Countable K} {V} (deref : nat -> V) (zero : V) veq acts (cf : config K V) tr :
  run deref zero veq new_config acts = Some (cf, tr) ->
  total deref zero veq is_copy new_config acts <=
    total deref zero veq is_call new_config acts + total deref zero veq ranged new_config acts.
Proof.
  intros Hr. apply run_cost in Hr as [_ Hr]. pose proof (new_cost (K := K) (V := V)) as Hn.
  change (c_sh new_config) with (new_shared (K := K)) in Hr. lia.
Qed.
Print Assumptions C113_copies.

(** Four keys are stored; four Loads of another key make them the read map; the next Store copies them
    all: it takes 18 steps, 76 steps for the 9 calls together. *)
Definition copying (t n : nat) : list (action nat nat) :=
  concat ((fun k => AStep t (LKey k) :: ticks t 2) <$> seq 0 n).
Definition ex113 : list (action nat nat) :=
  concat ((fun k => calls_ 1 (CStore k k)) <$> seq 0 4) ++ concat ((fun _ => calls_ 1 (CLoad 9)) <$> seq 0 4).
Definition ex113_store : list (action nat nat) := AInv 1 (CStore 5 5) :: ticks 1 4 ++ copying 1 10 ++ ticks 1 10.
Definition tally (f : config nat nat -> action nat nat -> nat) acts : nat :=
  total (K := nat) ex_deref 0 ex_veq f new_config (play new_config acts).
Fixpoint alone (cf : config nat nat) (acts : list (action nat nat)) : bool :=
  match acts with
  | [] => true
  | a :: acts =>
      match a with AInv _ _ => match map_to_list (c_thr cf) with [] => true | _ => false end | AStep _ _ => true end &&
      match ex_act cf a with Some (cf', _) => alone cf' acts | None => true end
  end.
Lemma alone_ok acts cf : alone cf acts = true -> one_at_a_time ex_deref 0 ex_veq cf acts.
Proof.
  revert cf. induction acts as [|a acts IH]; intros cf; cbn [alone one_at_a_time]; [done|].
  intros [H1 H2]%andb_prop. split.
  - destruct a; [|done]. destruct (map_to_list (c_thr cf)) eqn:Em; [|done]. by apply map_to_list_empty_iff.
  - unfold ex_act in H2. destruct (act _ _ _ cf a) as [[cf' ev]|]; [|done]. by apply IH.
Qed.
Example C113_ex : exists acts (cf : config nat nat) tr, ex_run acts = Some (cf, tr) /\
  one_at_a_time ex_deref 0 ex_veq new_config acts /\ no_ranges acts /\ c_thr cf = ∅ /\
  acts = play new_config (ex113 ++ ex113_store) /\
  tally is_call (ex113 ++ ex113_store) = 9 /\ tally is_copy (ex113 ++ ex113_store) = 4 /\
  tally is_step (ex113 ++ ex113_store) = 76 /\ tally is_step ex113 = 58.
Proof.
  set (acts := play new_config (ex113 ++ ex113_store)).
  assert (Hx : (fun x => map_to_list (c_thr x.1)) <$> ex_run acts = Some []) by (vm_compute; reflexivity).
  exists acts. destruct (ex_run acts) as [[cf tr]|] eqn:Er; [|done]. injection Hx as Hx%map_to_list_empty_iff. exists cf, tr.
  split; [reflexivity|]. split; [|split; [|split; [exact Hx|]]].
  - apply alone_ok. vm_compute. reflexivity.
  - intros t c Ht.
    assert (Hf : forallb (fun a => match a with AInv _ (CRange | CSlowLen) => false | _ => true end) acts = true)
      by (vm_compute; reflexivity).
    rewrite forallb_forall in Hf. specialize (Hf _ (proj1 (elem_of_list_In _ _) Ht)). cbn in Hf. clear -Hf.
    destruct c; first [discriminate Hf|split; discriminate].
  - split; [reflexivity|]. clear. split_and!; vm_compute; reflexivity.
Qed.

(** A Range makes the new keys part of the read map even if its callback stops at once: the entries it
    could have gone through have to be counted.  Here 20 calls copy 63 entries. *)
Definition ex113_range : list (action nat nat) :=
  AInv 1 CRange :: ticks 1 5 ++ ((fun k => AStep 1 (LKey k)) <$> seq 0 14) ++ ticks 1 1 ++ [AStep 1 (LCb false)] ++ ticks 1 1.
Definition ex113_stores : list (action nat nat) :=
  concat ((fun k => calls_ 1 (CStore k k)) <$> seq 0 8) ++
  concat ((fun k => ex113_range ++ AInv 1 (CStore k k) :: ticks 1 4 ++ copying 1 14 ++ ticks 1 10) <$> seq 8 6).
Example C113_range_ex : exists acts (cf : config nat nat) tr, ex_run acts = Some (cf, tr) /\
  acts = play new_config ex113_stores /\ c_thr cf = ∅ /\
  tally is_call ex113_stores = 20 /\ tally is_copy ex113_stores = 63 /\ tally ranged ex113_stores = 63 /\
  length (List.filter (fun e => match e with ECall _ _ _ _ => true | _ => false end) tr) = 6.
Proof.
  set (acts := play new_config ex113_stores).
  assert (Hx : (fun x => (map_to_list (c_thr x.1), length (List.filter (fun e => match e with ECall _ _ _ _ => true | _ => false end) x.2))) <$> ex_run acts = Some ([], 6))
    by (vm_compute; reflexivity).
  exists acts. destruct (ex_run acts) as [[cf tr]|] eqn:Er; [|done]. injection Hx as Hx1%map_to_list_empty_iff Hx2. exists cf, tr.
  split; [reflexivity|]. split; [reflexivity|]. split; [exact Hx1|].
  split; [vm_compute; reflexivity|]. split; [vm_compute; reflexivity|]. split; [vm_compute; reflexivity|]. exact Hx2.
Qed.
