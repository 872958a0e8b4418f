(** rwmap: C67-C72. *)
From Verif Require Import Base RwMapModel RwMapSpec RwMapInv RwMapLin RwMapRange RwMapProgress RwMapLen RwMapSeq.

(** In the theorems [Inhabited K] says that there is a key at all; every Go type has its zero value. *)

(** ** Executions for the examples *)
(** Keys and values are numbers; pointer [p] points to [p].  [play] leaves out the actions that are
    impossible when they are due. *)
Definition ex_deref (p : nat) : nat := p.
Definition ex_veq (a b : nat) : option bool := Some (bool_decide (a = b)).
Definition ex_act := act (K := nat) ex_deref 0 ex_veq.
Definition ex_run := run (K := nat) ex_deref 0 ex_veq new_config.
Fixpoint play (cf : config nat nat) (acts : list (action nat nat)) : list (action nat nat) :=
  match acts with
  | [] => []
  | a :: acts => match ex_act cf a with Some (cf', _) => a :: play cf' acts | None => play cf acts end
  end.
Definition ticks (t n : nat) : list (action nat nat) := replicate n (AStep t LTick).
Definition calls_ (t : nat) (c : call nat nat) : list (action nat nat) :=
  AInv t c :: concat (replicate 20 (AStep t <$> [LTick; LKey 5; LKey 6; LKey 7; LKey 8])).
Definition trace_of (acts : list (action nat nat)) : option (list (event nat nat)) :=
  snd <$> ex_run (play new_config acts).
Definition map_of (acts : list (action nat nat)) : option (list (nat * nat)) :=
  (fun x => map_to_list (contents ex_deref (c_sh x.1))) <$> ex_run (play new_config acts).

(** ** C67 *)
Theorem C67_linearizable {K} `{Countable K} {V} (deref : nat -> V) (zero : V) veq acts (cf : config K V) tr :
  Inhabited K -> run deref zero veq new_config acts = Some (cf, tr) -> linearizable deref veq tr.
Proof.
  intros HK Hr. destruct (run_linearizes deref zero veq _ _ _ HK Hr) as (l & b & Hl & Ho & _). by exists l, b.
Qed.
Print Assumptions C67_linearizable.

(** Moreover the pairs found in the fields at the end are those of the plain map. *)
Theorem C67_final_map {K} `{Countable K} {V} (deref : nat -> V) (zero : V) veq acts (cf : config K V) tr :
  Inhabited K -> run deref zero veq new_config acts = Some (cf, tr) ->
  exists l a, arun deref veq a_new l a /\ observed l = tr /\ a_map a = contents deref (c_sh cf) /\
    forall t, c_thr cf !! t = None -> a_st a !! t = None.
Proof.
  intros HK Hr. destruct (run_linearizes deref zero veq _ _ _ HK Hr) as (l & b & Hl & Ho & Hm & Ht).
  exists l, b. split; [done|]. split; [done|]. split; [|done].
  apply map_eq. intros k. by rewrite Hm, contents_lookup.
Qed.
Print Assumptions C67_final_map.

(** Four goroutines at one key: a Store holds the mutex while a Load finds nothing in [read] and a
    LoadOrStore waits; later a LoadAndDelete is overtaken by a Swap. *)
Definition ex67 : list (action nat nat) :=
  AInv 1 (CStore 5 50) :: ticks 1 5 ++ AInv 2 (CLoad 5) :: ticks 2 1 ++
  AInv 3 (CLoadOrStore 5 51) :: ticks 3 1 ++ ticks 1 20 ++ ticks 3 1 ++
  AInv 4 (CCas 5 50 52) :: ticks 4 20 ++ ticks 3 20 ++ ticks 4 20 ++ ticks 2 20 ++
  AInv 1 (CLoadAndDelete 5) :: ticks 1 2 ++ AInv 2 (CSwap 5 53) :: ticks 2 20 ++ ticks 1 20.
Example C67_ex : trace_of ex67 =
  Some [EInv 1 (CStore 5 50); EInv 2 (CLoad 5); EInv 3 (CLoadOrStore 5 51); ERet 1 RUnit;
        EInv 4 (CCas 5 50 52); ERet 3 (RLos 50 true); ERet 4 (RBool true); ERet 2 (RVal None);
        EInv 1 (CLoadAndDelete 5); EInv 2 (CSwap 5 53); ERet 2 (RVal (Some 52)); ERet 1 (RVal (Some 53))].
Proof. vm_compute. reflexivity. Qed.

(** ** C68 *)
Theorem C68_sequential {K} `{Countable K} {V} (deref : nat -> V) (zero : V) veq acts (cf : config K V) tr :
  Inhabited K -> run deref zero veq new_config acts = Some (cf, tr) ->
  alone false tr -> c_thr cf = ∅ ->
  seq_trace deref veq ∅ tr (contents deref (c_sh cf)).
Proof. apply run_alone. Qed.
Print Assumptions C68_sequential.

Definition ex68 : list (action nat nat) :=
  calls_ 1 (CStore 5 50) ++ calls_ 1 (CStore 6 60) ++ calls_ 1 (CStore 5 51) ++ calls_ 1 CLen ++
  calls_ 1 (CLoad 6) ++ calls_ 1 (CDelete 6) ++ calls_ 1 (CLoad 6) ++ calls_ 1 (CStore 7 70) ++
  AInv 1 CRange :: ticks 1 10 ++ [AStep 1 (LKey 7)] ++ ticks 1 10 ++ [AStep 1 (LCb true)] ++
  [AStep 1 (LKey 5)] ++ ticks 1 10 ++ [AStep 1 (LCb false)] ++ ticks 1 10 ++
  calls_ 1 CClear ++ calls_ 1 (CLoadOrStore 7 71) ++ calls_ 1 CLen.
Example C68_ex_trace : trace_of ex68 =
  Some [EInv 1 (CStore 5 50); ERet 1 RUnit; EInv 1 (CStore 6 60); ERet 1 RUnit;
        EInv 1 (CStore 5 51); ERet 1 RUnit; EInv 1 CLen; ERet 1 (RInt 2);
        EInv 1 (CLoad 6); ERet 1 (RVal (Some 60)); EInv 1 (CDelete 6); ERet 1 RUnit;
        EInv 1 (CLoad 6); ERet 1 (RVal None); EInv 1 (CStore 7 70); ERet 1 RUnit;
        EInv 1 CRange; ECall 1 7 70 true; ECall 1 5 51 false; ERet 1 RUnit;
        EInv 1 CClear; ERet 1 RUnit; EInv 1 (CLoadOrStore 7 71); ERet 1 (RLos 71 false);
        EInv 1 CLen; ERet 1 (RInt 1)].
Proof. vm_compute. reflexivity. Qed.
Example C68_ex : exists cf tr, ex_run (play new_config ex68) = Some (cf, tr) /\
  alone false tr /\ c_thr cf = ∅ /\ length tr = 26.
Proof.
  assert (H : match ex_run (play new_config ex68) with
              | Some (cf, tr) => map_to_list (c_thr cf) = [] /\ length tr = 26
              | None => False end) by (vm_compute; split; reflexivity).
  pose proof C68_ex_trace as Htr. unfold trace_of in Htr.
  destruct (ex_run (play new_config ex68)) as [[cf tr]|]; [|done].
  exists cf, tr. destruct H as [H1 H2]. split; [done|]. split; [|split; [by apply map_to_list_empty_iff|done]].
  cbn in Htr. injection Htr as ->. repeat split; done.
Qed.

(** ** C69 *)
(** Len is wrong for good when a Clear overlaps a Store: the Store has put its pair into the map but
    has not counted it yet, the Clear empties the map and sets the counter to 0, and then the Store
    counts. *)
Definition ex69 : list (action nat nat) :=
  AInv 1 (CStore 5 50) :: ticks 1 8 ++ calls_ 2 CClear ++ ticks 1 2 ++ calls_ 3 CLen.
Theorem C69_len_at_quiescence_refuted :
  exists acts cf tr, ex_run acts = Some (cf, tr) /\ c_thr cf = ∅ /\
    contents ex_deref (c_sh cf) = ∅ /\ s_len (c_sh cf) = 1%Z /\
    tr = [EInv 1 (CStore 5 50); EInv 2 CClear; ERet 2 RUnit; ERet 1 RUnit; EInv 3 CLen; ERet 3 (RInt 1)].
Proof.
  exists (play new_config ex69).
  assert (H : match ex_run (play new_config ex69) with
    | Some (cf, tr) => map_to_list (c_thr cf) = [] /\ map_to_list (contents ex_deref (c_sh cf)) = [] /\
        s_len (c_sh cf) = 1%Z /\
        tr = [EInv 1 (CStore 5 50); EInv 2 CClear; ERet 2 RUnit; ERet 1 RUnit; EInv 3 CLen; ERet 3 (RInt 1)]
    | None => False end) by (vm_compute; repeat split; reflexivity).
  destruct (ex_run (play new_config ex69)) as [[cf tr]|]; [|done].
  exists cf, tr. destruct H as (H1 & H2 & H3 & H4).
  split; [done|]. split; [by apply map_to_list_empty_iff|]. split; [by apply map_to_list_empty_iff|done].
Qed.
Print Assumptions C69_len_at_quiescence_refuted.

(** If no other call overlaps a Clear, Len is right whenever no call is in progress. *)
Theorem C69_len_at_quiescence_partial {K} `{Countable K} {V} (deref : nat -> V) (zero : V) veq acts (cf : config K V) tr :
  Inhabited K -> run deref zero veq new_config acts = Some (cf, tr) ->
  clear_alone ∅ tr -> c_thr cf = ∅ ->
  s_len (c_sh cf) = Z.of_nat (size (contents deref (c_sh cf))) /\
  forall acts' cf' t r tr', run deref zero veq cf acts' = Some (cf', EInv t CLen :: ERet t r :: tr') ->
    r = RInt (Z.of_nat (size (contents deref (c_sh cf)))).
Proof.
  intros HK Hr Hcl Hthr. pose proof (run_len deref zero veq _ _ _ HK Hr Hcl Hthr) as Hlen.
  split; [done|]. intros acts' cf' t r tr' Hr'. apply len_call in Hr'; [|done]. by rewrite Hr', Hlen.
Qed.
Print Assumptions C69_len_at_quiescence_partial.

(** Two Stores and a Delete overlap, then a Clear, then a Store. *)
Definition ex69b : list (action nat nat) :=
  AInv 1 (CStore 5 50) :: ticks 1 8 ++ AInv 2 (CDelete 5) :: ticks 2 5 ++ AInv 3 (CSwap 5 51) :: ticks 3 1 ++
  ticks 1 10 ++ ticks 2 10 ++ ticks 3 10 ++ calls_ 1 CClear ++ calls_ 2 (CStore 6 60).
Example C69_ex : exists cf tr, ex_run (play new_config ex69b) = Some (cf, tr) /\ clear_alone ∅ tr /\
  c_thr cf = ∅ /\ s_len (c_sh cf) = 1%Z /\
  tr = [EInv 1 (CStore 5 50); EInv 2 (CDelete 5); EInv 3 (CSwap 5 51); ERet 1 RUnit;
        ERet 2 RUnit; ERet 3 (RVal None); EInv 1 CClear; ERet 1 RUnit; EInv 2 (CStore 6 60); ERet 2 RUnit].
Proof.
  assert (H : match ex_run (play new_config ex69b) with
    | Some (cf, tr) => map_to_list (c_thr cf) = [] /\ s_len (c_sh cf) = 1%Z /\
        tr = [EInv 1 (CStore 5 50); EInv 2 (CDelete 5); EInv 3 (CSwap 5 51); ERet 1 RUnit;
        ERet 2 RUnit; ERet 3 (RVal None); EInv 1 CClear; ERet 1 RUnit; EInv 2 (CStore 6 60); ERet 2 RUnit]
    | None => False end) by (vm_compute; repeat split; reflexivity).
  destruct (ex_run (play new_config ex69b)) as [[cf tr]|]; [|done].
  exists cf, tr. destruct H as (H1 & H2 & ->).
  split; [done|]. split; [|split; [by apply map_to_list_empty_iff|done]].
  cbn. split; [done|]. split; [set_solver|]. split; [done|]. split.
  { intros u [[_ ?]|[_ Hu]]%lookup_insert_Some; done. }
  split; [done|]. split.
  { intros u. rewrite !lookup_insert_Some, lookup_empty. naive_solver. }
  split; [intros _; apply map_to_list_empty_iff; vm_compute; reflexivity|].
  split; [intros u; rewrite ?lookup_delete_Some, !lookup_insert_Some, lookup_empty; naive_solver|].
  split; [done|]. split; [|done].
  intros u. rewrite ?lookup_delete_Some, ?lookup_insert_Some. naive_solver.
Qed.

(** ** C70 *)
(** A Store has put its pair into the map but has not counted it yet; a Delete of the key runs to its
    end; Len returns -1. *)
Definition ex70 : list (action nat nat) :=
  AInv 1 (CStore 5 50) :: ticks 1 8 ++ calls_ 2 (CDelete 5) ++ calls_ 3 CLen.
Theorem C70_len_nonnegative_refuted :
  exists acts cf tr, ex_run acts = Some (cf, tr) /\
    tr = [EInv 1 (CStore 5 50); EInv 2 (CDelete 5); ERet 2 RUnit; EInv 3 CLen; ERet 3 (RInt (-1))].
Proof.
  exists (play new_config ex70).
  assert (H : match ex_run (play new_config ex70) with
    | Some (cf, tr) =>
        tr = [EInv 1 (CStore 5 50); EInv 2 (CDelete 5); ERet 2 RUnit; EInv 3 CLen; ERet 3 (RInt (-1))]
    | None => False end) by (vm_compute; reflexivity).
  destruct (ex_run (play new_config ex70)) as [[cf tr]|]; [|done]. by exists cf, tr.
Qed.
Print Assumptions C70_len_nonnegative_refuted.

(** As long as no other call overlaps a Clear, the counter is off by at most one for every call in
    progress that may add or remove a key; in particular it is at least minus their number. *)
Theorem C70_len_off_partial {K} `{Countable K} {V} (deref : nat -> V) (zero : V) veq acts (cf : config K V) tr :
  Inhabited K -> run deref zero veq new_config acts = Some (cf, tr) ->
  clear_alone ∅ tr -> (forall t p, c_thr cf !! t <> Some (CClear, p)) ->
  (Z.abs (s_len (c_sh cf) - Z.of_nat (size (contents deref (c_sh cf)))) <= Z.of_nat (changing_now (c_thr cf)))%Z.
Proof. apply run_len_off. Qed.
Print Assumptions C70_len_off_partial.

Example C70_ex : exists cf tr, ex_run (play new_config ex70) = Some (cf, tr) /\ clear_alone ∅ tr /\
  (forall t p, c_thr cf !! t <> Some (CClear, p)) /\ changing_now (c_thr cf) = 1 /\ s_len (c_sh cf) = (-1)%Z.
Proof.
  assert (H : match ex_run (play new_config ex70) with
    | Some (cf, tr) =>
        tr = [EInv 1 (CStore 5 50); EInv 2 (CDelete 5); ERet 2 RUnit; EInv 3 CLen; ERet 3 (RInt (-1))] /\
        map_to_list (c_thr cf) = [(1, (CStore 5 50, P_len (RVal None) 1))] /\ s_len (c_sh cf) = (-1)%Z
    | None => False end) by (vm_compute; repeat split; reflexivity).
  destruct (ex_run (play new_config ex70)) as [[cf tr]|]; [|done].
  exists cf, tr. destruct H as (-> & H2 & H3).
  split; [done|]. split; [|split; [|split; [|done]]].
  - cbn. split; [done|]. split; [set_solver|]. split; [done|]. split; [intros u; rewrite !lookup_insert_Some, lookup_empty; naive_solver|].
    split; [done|]. split; [|done]. intros u. rewrite lookup_delete_Some, !lookup_insert_Some, lookup_empty. naive_solver.
  - intros t p Ht. apply elem_of_map_to_list in Ht. rewrite H2 in Ht. by apply elem_of_list_singleton in Ht.
  - unfold changing_now. rewrite H2. done.
Qed.

(** ** C71 *)
Theorem C71_range {K} `{Countable K} {V} (deref : nat -> V) (zero : V) veq acts (cf : config K V) tr :
  Inhabited K -> run deref zero veq new_config acts = Some (cf, tr) ->
  exists l a, arun deref veq a_new l a /\ observed l = tr /\ range_ok deref veq l.
Proof.
  intros HK Hr. destruct (run_linearizes deref zero veq _ _ _ HK Hr) as (l & b & Hl & Ho & _).
  exists l, b. split; [done|]. split; [done|]. by eapply run_range_ok.
Qed.
Print Assumptions C71_range.

(** A Range while another goroutine deletes a key before it is looked at, replaces one that was
    looked at, and adds one. *)
Definition ex71 : list (action nat nat) :=
  calls_ 1 (CStore 5 50) ++ calls_ 1 (CStore 6 60) ++ calls_ 1 (CStore 7 70) ++
  AInv 2 CRange :: ticks 2 10 ++ [AStep 2 (LKey 6)] ++ ticks 2 1 ++ calls_ 1 (CStore 6 61) ++
  calls_ 1 (CDelete 5) ++ calls_ 1 (CStore 8 80) ++ [AStep 2 (LCb true); AStep 2 (LKey 5)] ++ ticks 2 5 ++
  [AStep 2 (LKey 7)] ++ ticks 2 5 ++ [AStep 2 (LCb true)] ++ ticks 2 5.
Example C71_ex : trace_of ex71 =
  Some [EInv 1 (CStore 5 50); ERet 1 RUnit; EInv 1 (CStore 6 60); ERet 1 RUnit; EInv 1 (CStore 7 70); ERet 1 RUnit;
        EInv 2 CRange; EInv 1 (CStore 6 61); ERet 1 RUnit; EInv 1 (CDelete 5); ERet 1 RUnit;
        EInv 1 (CStore 8 80); ERet 1 RUnit; ECall 2 6 60 true; ECall 2 7 70 true; ERet 2 RUnit].
Proof. vm_compute. reflexivity. Qed.

(** ** C72 *)
(** A call panics only if it is a CompareAndSwap or CompareAndDelete whose comparison panics. *)
Theorem C72_no_panic {K} `{Countable K} {V} (deref : nat -> V) (zero : V) veq acts (cf : config K V) tr t :
  Inhabited K -> run deref zero veq new_config acts = Some (cf, tr) -> ERet t RPanic ∈ tr ->
  exists k old v, (EInv t (CCad k old) ∈ tr \/ exists p, EInv t (CCas k old p) ∈ tr) /\ veq v old = None.
Proof. apply run_panics. Qed.
Print Assumptions C72_no_panic.
Example C72_panic_ex :
  (fun x => (x.2, s_lock (c_sh x.1))) <$>
    run (K := nat) ex_deref 0 (fun _ _ => None) new_config
        (AInv 1 (CStore 5 50) :: ticks 1 10 ++ AInv 2 (CCas 5 50 51) :: ticks 2 7) =
  Some ([EInv 1 (CStore 5 50); ERet 1 RUnit; EInv 2 (CCas 5 50 51); ERet 2 RPanic], None).
Proof. vm_compute. reflexivity. Qed.

(** A goroutine inside a call can make a step, or it waits for the mutex, and the goroutine holding
    the mutex can make a step. *)
Theorem C72_no_deadlock {K} `{Countable K} {V} (deref : nat -> V) (zero : V) veq acts (cf : config K V) tr t :
  Inhabited K -> run deref zero veq new_config acts = Some (cf, tr) -> is_Some (c_thr cf !! t) ->
  (exists lab, is_Some (act deref zero veq cf (AStep t lab))) \/
  (exists u lab, u <> t /\ s_lock (c_sh cf) = Some u /\ is_Some (act deref zero veq cf (AStep u lab))).
Proof. intros HK Hr. eapply good_goes_on. by eapply run_reach. Qed.
Print Assumptions C72_no_deadlock.

(** If only [t] runs, with the mutex free or its own, it makes at most [n] steps, and can make
    another one until its call has returned. *)
Theorem C72_finishes {K} `{Countable K} {V} (deref : nat -> V) (zero : V) veq acts (cf : config K V) tr t :
  Inhabited K -> run deref zero veq new_config acts = Some (cf, tr) -> is_Some (c_thr cf !! t) ->
  s_lock (c_sh cf) = None \/ s_lock (c_sh cf) = Some t ->
  exists n : nat, forall labs cf' ev, run deref zero veq cf (AStep t <$> labs) = Some (cf', ev) ->
    length labs <= n /\
    (c_thr cf' !! t = None \/ exists lab, is_Some (act deref zero veq cf' (AStep t lab))).
Proof.
  intros HK Hr [[c p] Ht] Hl. exists (weight c p (c_sh cf)). intros labs cf' ev Hr'.
  eapply good_finishes; [by eapply run_reach|done|done|done].
Qed.
Print Assumptions C72_finishes.

(** A goroutine holds the mutex while two others wait for it. *)
Definition ex72 : list (action nat nat) :=
  AInv 1 (CStore 5 50) :: ticks 1 5 ++ AInv 2 (CStore 5 51) :: ticks 2 5 ++ AInv 3 CRange :: ticks 3 5 ++
  AInv 4 (CLoad 6) :: ticks 4 5.
Example C72_ex : exists cf tr, ex_run (play new_config ex72) = Some (cf, tr) /\
  s_lock (c_sh cf) = Some 1 /\ c_thr cf !! 1 = Some (CStore 5 50, P_amend) /\
  c_thr cf !! 2 = Some (CStore 5 51, P_lock) /\ c_thr cf !! 3 = None /\ c_thr cf !! 4 = None.
Proof.
  assert (H : match ex_run (play new_config ex72) with
    | Some (cf, tr) => s_lock (c_sh cf) = Some 1 /\ c_thr cf !! 1 = Some (CStore 5 50, P_amend) /\
  c_thr cf !! 2 = Some (CStore 5 51, P_lock) /\ c_thr cf !! 3 = None /\ c_thr cf !! 4 = None
    | None => False end) by (vm_compute; repeat split; reflexivity).
  destruct (ex_run (play new_config ex72)) as [[cf tr]|]; [|done]. by exists cf, tr.
Qed.
