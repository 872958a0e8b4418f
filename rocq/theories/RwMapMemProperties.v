(** rwmap: what the map keeps (C184, C185); Range and SlowLen are not of one moment (C186). *)
From Verif Require Import Base RwMapModel RwMapSpec RwMapProperties RwMapMemSpec RwMapMem.

(** ** C184 *)
(** Only pointers to the values that are in the map can be reached from it: a value that was deleted or
    replaced can be collected, however many goroutines are inside calls.  (Not while a Clear is between
    emptying [read] and emptying [dirty].) *)
Theorem C184_values_let_go :
  forall (K : Type) (EqK : EqDecision K) (CountK : Countable K) (V : Type) (deref : nat -> V) (zero : V)
    (veq : V -> V -> option bool) acts (cf : config K V) tr k p,
  Inhabited K -> run deref zero veq new_config acts = Some (cf, tr) -> no_half_clear cf ->
  keeps_value (c_sh cf) k p -> contents deref (c_sh cf) !! k = Some (deref p).
Proof. intros. by eapply kept_values. Qed.
Print Assumptions C184_values_let_go.

Theorem C184_values_kept :
  forall (K : Type) (EqK : EqDecision K) (CountK : Countable K) (V : Type) (deref : nat -> V) (zero : V)
    (veq : V -> V -> option bool) acts (cf : config K V) tr k v,
  run deref zero veq new_config acts = Some (cf, tr) -> contents deref (c_sh cf) !! k = Some v ->
  exists p, keeps_value (c_sh cf) k p /\ deref p = v.
Proof. intros. by eapply kept_values_back. Qed.
Print Assumptions C184_values_kept.

(** Key 5 was stored and replaced, key 6 is in both maps, key 7 only in [dirty], key 8 was deleted while
    in [read]; a Store of key 9 is under way. *)
Definition ex184 : list (action nat nat) :=
  calls_ 1 (CStore 5 50) ++ calls_ 1 (CStore 6 60) ++ calls_ 1 (CStore 8 80) ++ calls_ 1 CSlowLen ++
  (AInv 1 CRange :: ticks 1 10) ++ calls_ 2 (CStore 5 51) ++ calls_ 2 (CDelete 8) ++ calls_ 2 (CStore 7 70) ++
  (AInv 3 (CStore 9 90) :: ticks 3 4).

(** No Clear of the threads is half done, as a computation. *)
Definition no_half_clearb (cf : config nat nat) : bool :=
  forallb (fun x => match x.2.2 with P_clr2 => false | _ => true end) (map_to_list (c_thr cf)).
Lemma no_half_clearb_spec cf : no_half_clearb cf = true -> no_half_clear cf.
Proof.
  intros Hb t c Ht. unfold no_half_clearb in Hb. rewrite forallb_forall in Hb.
  apply elem_of_map_to_list, elem_of_list_In in Ht. by specialize (Hb _ Ht).
Qed.

Example C184_ex : exists acts cf tr, run ex_deref 0 ex_veq new_config acts = Some (cf, tr) /\ no_half_clear cf /\
  keeps_value (c_sh cf) 5 51 /\ keeps_value (c_sh cf) 7 70 /\ keeps_key (c_sh cf) 8 /\
  contents ex_deref (c_sh cf) !! 8 = None.
Proof.
  exists (play new_config ex184).
  assert (Hx : match ex_run (play new_config ex184) with
    | Some (cf, tr) => s_rd (c_sh cf) !! 5 = Some 0 /\ s_ent (c_sh cf) 0 = SPtr 51 /\
        dirty_map (c_sh cf) !! 7 = Some 3 /\ s_ent (c_sh cf) 3 = SPtr 70 /\ s_rd (c_sh cf) !! 8 = Some 2 /\
        contents ex_deref (c_sh cf) !! 8 = None /\ no_half_clearb cf = true
    | None => False end) by (vm_compute; repeat split; reflexivity).
  unfold ex_run in Hx. destruct (run _ _ _ _ _) as [[cf tr]|]; [|done].
  destruct Hx as (H1 & H2 & H3 & H4 & H5 & H6 & H7). exists cf, tr. split; [done|].
  split; [by apply no_half_clearb_spec|]. split; [exists 0; by split; [left|]|]. split; [exists 3; by split; [right|]|].
  split; [|done]. left. by apply elem_of_dom_2 in H5.
Qed.

(** Halfway through Clear [dirty] still has an entry of a value that is not in the map any more. *)
Definition ex184b : list (action nat nat) := calls_ 1 (CStore 5 50) ++ (AInv 1 CClear :: ticks 1 4).
Example C184_half_clear : exists acts cf tr, run ex_deref 0 ex_veq new_config acts = Some (cf, tr) /\
  keeps_value (c_sh cf) 5 50 /\ contents ex_deref (c_sh cf) !! 5 = None /\ c_thr cf !! 1 = Some (CClear, P_clr2).
Proof.
  exists (play new_config ex184b).
  assert (Hx : match ex_run (play new_config ex184b) with
    | Some (cf, tr) => dirty_map (c_sh cf) !! 5 = Some 0 /\ s_ent (c_sh cf) 0 = SPtr 50 /\
        contents ex_deref (c_sh cf) !! 5 = None /\ c_thr cf !! 1 = Some (CClear, P_clr2)
    | None => False end) by (vm_compute; repeat split; reflexivity).
  unfold ex_run in Hx. destruct (run _ _ _ _ _) as [[cf tr]|]; [|done].
  destruct Hx as (H1 & H2 & H3 & H4). exists cf, tr. split; [done|]. split; [exists 0; by split; [right|]|]. by split.
Qed.

(** ** C185 *)
(** Keys are not let go of: after all of them were deleted, with no call under way, the map still has
    them; and loading does not change that. *)
Definition ex185 : list (action nat nat) :=
  calls_ 1 (CStore 5 50) ++ calls_ 1 (CStore 6 60) ++ (AInv 1 CRange :: ticks 1 10 ++ [AStep 1 (LKey 5)] ++ ticks 1 1 ++
    [AStep 1 (LCb false)] ++ ticks 1 1) ++ calls_ 1 (CDelete 5) ++ calls_ 1 (CDelete 6) ++ calls_ 1 (CLoad 5) ++ calls_ 1 (CLoad 7).
Theorem C185_keys_let_go_refuted :
  exists acts (cf : config nat nat) tr, run ex_deref 0 ex_veq new_config acts = Some (cf, tr) /\ c_thr cf = ∅ /\
    contents ex_deref (c_sh cf) = ∅ /\ keeps_key (c_sh cf) 5 /\ keeps_key (c_sh cf) 6.
Proof.
  exists (play new_config ex185).
  assert (Hx : match ex_run (play new_config ex185) with
    | Some (cf, tr) => s_rd (c_sh cf) !! 5 = Some 0 /\ s_rd (c_sh cf) !! 6 = Some 1 /\
        map_to_list (contents ex_deref (c_sh cf)) = [] /\ map_to_list (c_thr cf) = []
    | None => False end) by (vm_compute; repeat split; reflexivity).
  unfold ex_run in Hx. destruct (run _ _ _ _ _) as [[cf tr]|]; [|done].
  destruct Hx as (H1 & H2 & H3 & H4). exists cf, tr. split; [done|].
  split; [by apply map_to_list_empty_iff|]. split; [by apply map_to_list_empty_iff|].
  split; left; by eapply elem_of_dom_2.
Qed.
Print Assumptions C185_keys_let_go_refuted.

(** ** C186 *)
(** While goroutine 1 goes through the map, goroutine 2 deletes 5 and then stores 6.  At each moment the
    map has at most one pair; Range hands out two, and SlowLen says 2. *)
Definition ex186_start : list (action nat nat) :=
  calls_ 1 (CStore 5 50) ++ calls_ 1 (CStore 6 60) ++ (AInv 1 CRange :: ticks 1 10 ++ [AStep 1 (LKey 5)] ++ ticks 1 1 ++
    [AStep 1 (LCb false)] ++ ticks 1 1) ++ calls_ 1 (CDelete 6).
Definition ex186_call : list (action nat nat) :=
  ticks 1 5 ++ [AStep 1 (LKey 5)] ++ ticks 1 1 ++ [AStep 1 (LCb true)] ++ calls_ 2 (CDelete 5) ++ calls_ 2 (CStore 6 61) ++
  [AStep 1 (LKey 6)] ++ ticks 1 1 ++ [AStep 1 (LCb true)] ++ ticks 1 5.
Definition ex186_cf : config nat nat := default new_config (fst <$> ex_run (play new_config ex186_start)).
Definition ex186_acts (c : call nat nat) : list (action nat nat) := drop 1 (play ex186_cf (AInv 1 c :: ex186_call)).
Definition small_at (c : call nat nat) (i : nat) : bool :=
  match run ex_deref 0 ex_veq ex186_cf (AInv 1 c :: take i (ex186_acts c)) with
  | Some (cf, _) => bool_decide (length (map_to_list (contents ex_deref (c_sh cf))) ≤ 1)%nat
  | None => false
  end.

Lemma ex186_small c m : forallb (small_at c) (seq 0 (S (length (ex186_acts c)))) = true ->
  at_moment ex_deref 0 ex_veq ex186_cf 1 c (ex186_acts c) m -> (size m <= 1)%nat.
Proof.
  intros Hb (a1 & a2 & cf & tr & Ha & Hr & <-). rewrite forallb_forall in Hb.
  assert (Hi : small_at c (length a1) = true).
  { apply Hb, in_seq. rewrite Ha, app_length. lia. }
  unfold small_at in Hi. rewrite Ha, take_app in Hi. rewrite Hr in Hi. apply bool_decide_eq_true in Hi.
  exact Hi.
Qed.

Lemma of_match (o : option (config nat nat * list (event nat nat))) T :
  match o with Some (_, tr) => tr = T | None => False end -> exists cf, o = Some (cf, T).
Proof. destruct o as [[cf tr]|]; [|done]. intros ->. by exists cf. Qed.
Lemma ex186_whole (c : call nat nat) r :
  whole_call 1 c r [EInv 1 c; ECall 1 5 50 true; EInv 2 (CDelete 5); ERet 2 RUnit; EInv 2 (CStore 6 61); ERet 2 RUnit;
    ECall 1 6 61 true; ERet 1 r].
Proof.
  exists [ECall 1 5 50 true; EInv 2 (CDelete 5); ERet 2 RUnit; EInv 2 (CStore 6 61); ERet 2 RUnit; ECall 1 6 61 true].
  split; [reflexivity|]. intros r' Hin. repeat (apply elem_of_cons in Hin as [Hin|Hin]; [discriminate Hin|]).
  by apply elem_of_nil in Hin.
Qed.
Lemma ex186_start_ok : exists tr0, run ex_deref 0 ex_veq new_config (play new_config ex186_start) = Some (ex186_cf, tr0).
Proof.
  assert (H0 : match ex_run (play new_config ex186_start) with Some _ => True | None => False end) by (vm_compute; exact I).
  unfold ex186_cf. change (run ex_deref 0 ex_veq new_config) with ex_run.
  destruct (ex_run (play new_config ex186_start)) as [[cf tr]|]; [|contradiction H0]. exists tr. reflexivity.
Qed.

Theorem C186_Range_of_one_moment_refuted :
  exists acts0 (cf1 : config nat nat) tr0 acts cf2 tr,
    run ex_deref 0 ex_veq new_config acts0 = Some (cf1, tr0) /\
    run ex_deref 0 ex_veq cf1 (AInv 1 CRange :: acts) = Some (cf2, tr) /\ whole_call 1 CRange RUnit tr /\
    handed 1 tr = [(5, 50); (6, 61)] /\
    forall m, at_moment ex_deref 0 ex_veq cf1 1 CRange acts m -> list_to_map (handed 1 tr) <> m.
Proof.
  exists (play new_config ex186_start), ex186_cf.
  destruct ex186_start_ok as [tr0 H0].
  assert (H1 : forallb (small_at CRange) (seq 0 (S (length (ex186_acts CRange)))) = true) by (vm_compute; reflexivity).
  assert (H2 : match run ex_deref 0 ex_veq ex186_cf (AInv 1 CRange :: ex186_acts CRange) with
    | Some (_, tr) => tr = [EInv 1 CRange; ECall 1 5 50 true; EInv 2 (CDelete 5); ERet 2 RUnit; EInv 2 (CStore 6 61); ERet 2 RUnit; ECall 1 6 61 true; ERet 1 RUnit]
    | None => False end) by (vm_compute; reflexivity).
  pose proof (fun m => ex186_small CRange m H1) as H3. clear H1.
  exists tr0, (ex186_acts CRange).
  apply of_match in H2 as [cf2 E2]. exists cf2. eexists.
  split; [exact H0|]. split; [exact E2|].
  split; [apply ex186_whole|]. split; [reflexivity|].
  intros m Hm <-. apply H3 in Hm. vm_compute in Hm. lia.
Qed.
Print Assumptions C186_Range_of_one_moment_refuted.

Theorem C186_SlowLen_of_one_moment_refuted :
  exists acts0 (cf1 : config nat nat) tr0 acts cf2 tr,
    run ex_deref 0 ex_veq new_config acts0 = Some (cf1, tr0) /\
    run ex_deref 0 ex_veq cf1 (AInv 1 CSlowLen :: acts) = Some (cf2, tr) /\ whole_call 1 CSlowLen (RInt 2) tr /\
    forall m, at_moment ex_deref 0 ex_veq cf1 1 CSlowLen acts m -> (size m <= 1)%nat.
Proof.
  exists (play new_config ex186_start), ex186_cf.
  destruct ex186_start_ok as [tr0 H0].
  assert (H1 : forallb (small_at CSlowLen) (seq 0 (S (length (ex186_acts CSlowLen)))) = true) by (vm_compute; reflexivity).
  assert (H2 : match run ex_deref 0 ex_veq ex186_cf (AInv 1 CSlowLen :: ex186_acts CSlowLen) with
    | Some (_, tr) => tr = [EInv 1 CSlowLen; ECall 1 5 50 true; EInv 2 (CDelete 5); ERet 2 RUnit; EInv 2 (CStore 6 61); ERet 2 RUnit; ECall 1 6 61 true; ERet 1 (RInt 2)]
    | None => False end) by (vm_compute; reflexivity).
  pose proof (fun m => ex186_small CSlowLen m H1) as H3. clear H1.
  exists tr0, (ex186_acts CSlowLen).
  apply of_match in H2 as [cf2 E2]. exists cf2. eexists.
  split; [exact H0|]. split; [exact E2|].
  split; [apply ex186_whole|]. exact H3.
Qed.
Print Assumptions C186_SlowLen_of_one_moment_refuted.
