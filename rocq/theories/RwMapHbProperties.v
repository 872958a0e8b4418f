(** rwmap: writes happen before the reads that observe them (C114). *)
From Coq Require Import ZifyBool ZifyNat.
From Verif Require Import Base RwMapModel RwMapHbSpec RwMapHb RwMapProperties.

(** Every execution of the machine is the execution of a history. *)
Theorem C114_histories {K} `{Countable K} {V} (deref : nat -> V) (zero : V) veq acts (cf : config K V) tr :
  run deref zero veq new_config acts = Some (cf, tr) ->
  exists h, hrun deref zero veq new_hist acts = Some (h, tr) /\ h_cf h = cf.
Proof. intros Hr. by apply (hrun_total deref zero veq acts new_hist). Qed.
Print Assumptions C114_histories.

(** When Load, Swap, LoadAndDelete or LoadOrStore returns a value it found in the map, a call that
    stores this value under this key began before, in the order of the Go memory model. *)
Theorem C114_reads {K} `{Countable K} {V} (deref : nat -> V) (zero : V) veq acts (h h' : hist K V) tr t lab ev c p k r v :
  Inhabited K -> hrun deref zero veq new_hist acts = Some (h, tr) ->
  hact deref zero veq h (AStep t lab) = Some (h', ev) -> c_thr (h_cf h) !! t = Some (c, p) ->
  ERet t r ∈ ev -> call_key c = Some k -> shows c r v -> stored_before deref h' t k v.
Proof.
  intros HK Hr Ha Hc He Hk Hs. apply hrun_inv in Hr; [|exact (new_inv deref veq)].
  destruct (hact_shows deref zero veq _ _ _ _ _ _ _ Hr Ha Hc) as [H1 _].
  destruct (H1 _ _ He) as (_ & r' & -> & Hrok).
  assert (match r' with RVal (Some v') | RLos v' true => v' = v | _ => False end) as Hv.
  { destruct c; try done; destruct r' as [[]|? []|[]| | |]; done. }
  destruct r' as [[v'|]|v' []|[]| | |]; try done; subst v'; destruct Hrok as (k' & Hk' & Hn); by simplify_eq.
Qed.
Print Assumptions C114_reads.

(** When CompareAndSwap or CompareAndDelete returns true, such a call stored a value equal to [old]. *)
Theorem C114_compares {K} `{Countable K} {V} (deref : nat -> V) (zero : V) veq acts (h h' : hist K V) tr t lab ev c p k old :
  Inhabited K -> hrun deref zero veq new_hist acts = Some (h, tr) ->
  hact deref zero veq h (AStep t lab) = Some (h', ev) -> c_thr (h_cf h) !! t = Some (c, p) ->
  ERet t (RBool true) ∈ ev -> (exists q, c = CCas k old q) \/ c = CCad k old ->
  exists v, veq v old = Some true /\ stored_before deref h' t k v.
Proof.
  intros HK Hr Ha Hc He Hk. apply hrun_inv in Hr; [|exact (new_inv deref veq)].
  destruct (hact_shows deref zero veq _ _ _ _ _ _ _ Hr Ha Hc) as [H1 _].
  destruct (H1 _ _ He) as (_ & r' & Hr' & Hrok).
  assert (r' = RBool true) as ->.
  { destruct Hk as [[q ->]| ->]; by destruct r' as [[]|? []|[]| | |]. }
  destruct Hk as [[q ->]| ->]; exact Hrok.
Qed.
Print Assumptions C114_compares.

(** So it is when Range hands a pair to its callback. *)
Theorem C114_range {K} `{Countable K} {V} (deref : nat -> V) (zero : V) veq acts (h h' : hist K V) tr t lab ev k v b :
  Inhabited K -> hrun deref zero veq new_hist acts = Some (h, tr) ->
  hact deref zero veq h (AStep t lab) = Some (h', ev) -> ECall t k v b ∈ ev -> stored_before deref h' t k v.
Proof.
  intros HK Hr Ha He. apply hrun_inv in Hr; [|exact (new_inv deref veq)].
  destruct (c_thr (h_cf h) !! t) as [[c p]|] eqn:Hc.
  - destruct (hact_shows deref zero veq _ _ _ _ _ _ _ Hr Ha Hc) as [_ H2]. by destruct (H2 _ _ _ _ He).
  - exfalso. revert Ha. unfold hact. cbn [act]. by rewrite Hc.
Qed.
Print Assumptions C114_range.

(** Goroutine 1 stores 50 under 5 and later 60 under 6; goroutine 2 loads key 5 in between.  It knows
    that the first Store began before (call 0), but does not know of the second (call 2), although
    that one has returned, too. *)
Definition ex114 : list (action nat nat) :=
  calls_ 1 (CStore 5 50) ++ AInv 2 (CLoad 5) :: ticks 2 6 ++ calls_ 1 (CStore 6 60).
Example C114_ex : exists acts (h h' : hist nat nat) tr lab,
  hrun (K := nat) ex_deref 0 ex_veq new_hist acts = Some (h, tr) /\
  hact (K := nat) ex_deref 0 ex_veq h (AStep 2 lab) = Some (h', [ERet 2 (RVal (Some 50))]) /\
  h_calls h = [(1, CStore 5 50); (2, CLoad 5); (1, CStore 6 60)] /\
  0 ∈ h_thr h' 2 /\ 2 ∉ h_thr h' 2 /\ c_thr (h_cf h) !! 1 = None.
Proof.
  set (acts := play new_config ex114).
  assert (Hx : (fun x => (h_calls x.1, map_to_list (c_thr (h_cf x.1)), elements (h_thr x.1 2))) <$>
     hrun (K := nat) ex_deref 0 ex_veq new_hist acts =
    Some ([(1, CStore 5 50); (2, CLoad 5); (1, CStore 6 60)], [(2, (CLoad 5, X_ret (RVal (Some 50))))], [0; 1]))
    by (vm_compute; reflexivity).
  destruct (hrun _ _ _ new_hist acts) as [[h tr]|] eqn:Er; [|discriminate Hx].
  cbn [fmap option_fmap option_map fst] in Hx. injection Hx as H1 H2 H3.
  assert (H4 : c_thr (h_cf h) !! 2 = Some (CLoad 5, X_ret (RVal (Some 50)))).
  { apply elem_of_map_to_list. rewrite H2. apply elem_of_list_singleton. reflexivity. }
  assert (H5 : forall n, n ∈ h_thr h 2 <-> n = 0 \/ n = 1).
  { intros n. rewrite <- elem_of_elements, H3, !elem_of_cons, elem_of_nil. intuition. }
  assert (H6 : exists h', hact (K := nat) ex_deref 0 ex_veq h (AStep 2 LTick) = Some (h', [ERet 2 (RVal (Some 50))]) /\
     h_thr h' 2 = h_thr h 2 ∪ ∅).
  { unfold hact. cbn [act]. rewrite H4. cbn [step ret_of observes writes]. eexists. split; [reflexivity|].
    cbn [h_thr]. apply fn_lookup_insert. }
  destruct H6 as (h' & H6 & H7). exists acts, h, h', tr, LTick.
  split; [exact Er|]. split; [exact H6|]. split; [exact H1|].
  rewrite H7, !elem_of_union, !H5, !elem_of_empty. split; [auto|]. split; [intuition lia|].
  apply eq_None_not_Some. intros [x Hs]. apply elem_of_map_to_list in Hs. rewrite H2 in Hs.
  apply elem_of_list_singleton in Hs. discriminate Hs.
Qed.
