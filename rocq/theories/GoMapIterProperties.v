(** Property theorems for set.Range and GenMap.Range with callbacks that change the maps
    (C97-C100). *)
From Coq Require Import ZifyBool ZifyNat.
From Verif Require Import Base GoMap GoMapSpec GoMapProofs GenMapModel SetModel
  GoMapIter GoMapIterSpec GoMapIterProofs GoMapIterUse.

(** C97: whatever calls the callback makes (also a Range of its own). *)
Theorem C97_range_produces :
  forall (K V C R S : Type) (eqb : K -> K -> bool) (step : C -> world K V -> R * world K V)
    (m : ref) (f : K -> V -> S -> prog (bool * S)) w s ts r w',
  equivb eqb -> range eqb step m f w s ts r w' ->
  (* what is produced is in the map at that moment, with that value *)
  (forall i t, ts !! i = Some t -> (t_key t, t_val t) ∈ content (world_at w ts i) m) /\
  (* nothing is produced twice unless it was gone in between *)
  (forall i j t t', i < j -> ts !! i = Some t -> ts !! j = Some t' -> eqb (t_key t) (t_key t') = true ->
     exists w1, w1 ∈ worlds_between ts i j /\ ~ has_key eqb m (t_key t) w1) /\
  (* unless the callback stops the loop, every key that is there all the time is produced *)
  (r.1 = true -> forall k, (forall w1, w1 ∈ w :: worlds_in ts -> has_key eqb m k w1) ->
     produced eqb k ts) /\
  (* the loop leaves what the calls of its callbacks leave *)
  w' = List.last (worlds_in ts) w.
Proof.
  intros K V C R S eqb step m f w s ts r w' E Hr.
  destruct (range_turns eqb step m f w s ts r w' Hr) as (ts0 & tl & st & -> & Ht & Htl & _ & _).
  split_and!.
  - intros i t Hi. exact (turns_tail_sound eqb step m f _ _ _ tl Ht Htl i t Hi).
  - intros i j t t' Hij Hi Hj He.
    pose proof (turns_between eqb step E m f _ _ _ tl Ht Htl i j t t' Hij Hi Hj He) as Hn.
    destruct (existsb (fun w1 => negb (present eqb m (t_key t) w1)) (worlds_between (ts0 ++ tl) i j)) eqn:Hx.
    + apply existsb_exists in Hx as (w1 & Hin & Hp). exists w1. split; [by apply elem_of_list_In|].
      intros Hh. apply (present_iff eqb E) in Hh. by rewrite Hh in Hp.
    + exfalso. apply Hn. intros w1 Hin. apply (present_iff eqb E).
      destruct (present eqb m (t_key t) w1) eqn:Hp; [done|].
      assert (existsb (fun w1 => negb (present eqb m (t_key t) w1)) (worlds_between (ts0 ++ tl) i j) = true);
        [|congruence].
      apply existsb_exists. exists w1. split; [by apply elem_of_list_In|]. by rewrite Hp.
  - intros Hr1 k Hk. exact (range_complete eqb step E m f w s _ r w' k Hr Hr1 Hk).
  - destruct (worlds_last eqb step) as (_ & _ & H). exact (H _ _ _ _ _ _ _ _ Hr).
Qed.
Print Assumptions C97_range_produces.

(** C98: a loop is never stuck, and ends if its callbacks add no key to the map: it has at most
    as many turns as the map had entries. *)
Theorem C98_range_ends :
  forall (K V C R S : Type) (eqb : K -> K -> bool) (step : C -> world K V -> R * world K V)
    (m : ref) (f : K -> V -> S -> prog (bool * S)) w s,
  equivb eqb -> wf eqb w ->
  (* so far *)
  (forall ts st, turns eqb step m f (loop_start m w s) ts st ->
     (l_todo st <> [] -> exists k v, may_come eqb m st k v) /\
     (no_new_key eqb m (w :: worlds_in ts) -> length ts <= length (content w m))) /\
  (* in the end *)
  (forall ts r w', range eqb step m f w s ts r w' -> no_new_key eqb m (w :: worlds_in ts) ->
     length ts <= length (content w m)).
Proof.
  intros K V C R S eqb step m f w s E Hw.
  assert (Hk : keys_ok eqb (content (l_world (loop_start m w s)) m)) by (by apply wf_content).
  split.
  - intros ts st Ht. split.
    + apply (turns_progress eqb E). eapply (good_turns eqb step E); [exact Ht|]. by apply good_start.
    + intros Hn. rewrite <- (app_nil_r ts) in Hn. rewrite <- (app_nil_r ts).
      refine (turns_bound eqb step E m f _ ts st [] Hk Ht _ Hn). by left.
  - intros ts r w' Hr Hn.
    destruct (range_turns eqb step m f w s ts r w' Hr) as (ts0 & tl & st & -> & Ht & Htl & _ & _).
    exact (turns_bound eqb step E m f _ _ _ tl Hk Ht Htl Hn).
Qed.
Print Assumptions C98_range_ends.

(** C99: deleting the current entry inside Range. *)
Theorem C99_delete_in_range :
  forall (K V : Type) (eqb : K -> K -> bool) (upd : bool) (ord : nat -> list (K * V) -> list (K * V)) (zero : V)
    (n : nat) (p : K -> V -> bool) w ts r w',
  equivb eqb -> (forall i l, ord i l ≡ₚ l) -> wf eqb w -> n < next w ->
  range eqb (gm_step eqb upd ord zero) (Some n) (delete_if p (GDelete (Some n))) w tt ts r w' ->
  (* every entry is produced exactly once, and exactly those asked for are gone *)
  r.1 = true /\ entries_of ts ≡ₚ content w (Some n) /\
  (forall k v, (k, v) ∈ content w' (Some n) <-> (k, v) ∈ content w (Some n) /\ p k v = false) /\
  (* which is what DeleteFunc leaves *)
  (forall g w2, gm_step eqb upd ord zero (GDeleteFunc (Some n) p) w = (g, w2) ->
     forall k, mlookup eqb (content w2 (Some n)) k = mlookup eqb (content w' (Some n)) k).
Proof.
  intros K V eqb upd ord zero n p w ts r w' E Ho Hw Hn Hr.
  assert (Hk := wf_content eqb w (Some n) Hw).
  destruct (del_range eqb (gm_step eqb upd ord zero) E (Some n)
              (delete_if p (GDelete (Some n))) p w tt ts r w' Hk) as (H1 & H2 & H3 & H4); auto.
  { intros k v s1 w1 ws r1 w1' Hx. unfold delete_if in Hx. destruct (p k v) eqn:Hp.
    - apply exec_inv in Hx as (r2 & w2 & ws' & Hs & -> & Hx).
      apply exec_inv in Hx as (-> & -> & ->). split; [done|]. split; [done|].
      cbn in Hs. inversion Hs; subst. fold (wput w1 n (mdel eqb (content w1 (Some n)) k)).
      rewrite content_wput. by rewrite decide_True.
    - apply exec_inv in Hx as (-> & -> & ->). done. }
  split_and!; [done|done|done|].
  intros g w2 Hg k. unfold gm_step, gm_exec, mmap, gm_DeleteFunc, maps_DeleteFunc, go_range, bind in Hg.
  fold (tick w) in Hg.
  destruct (for_each_del eqb E n p (ord (its w) (content w (Some n))) (tick w)) as (w3 & l3 & Hf & _ & Ho3 & Hl);
    [by apply wf_tick|done|].
  rewrite Hf in Hg. inversion Hg; subst. destruct Ho3 as (_ & Hc & _). rewrite Hc, Hl, content_tick.
  destruct (mlookup eqb (content w' (Some n)) k) as [v'|] eqn:Hl'.
  - apply (mlookup_elem eqb E) in Hl' as (k' & Hin & He); [|done]. apply H3 in Hin as [Hin Hp].
    destruct (existsb _ _) eqn:Hx.
    + apply existsb_exists in Hx as (e & Hine & Hpe). apply andb_prop in Hpe as [Hpe Hee].
      rewrite <- elem_of_list_In, Ho in Hine.
      assert (e = (k', v')) as ->; [|simpl in *; congruence].
      apply (keys_ok_same eqb E (content w (Some n))); auto. simpl.
      apply (eq_trans' eqb E _ k); [done|]. by rewrite (eq_sym eqb E).
    + apply (mlookup_elem eqb E); [done|]. by exists k'.
  - destruct (existsb _ _) eqn:Hx; [done|].
    destruct (mlookup eqb (content w (Some n)) k) as [v|] eqn:Hl2; [|done]. exfalso.
    apply (mlookup_elem eqb E) in Hl2 as (k' & Hin & He); [|done].
    destruct (p k' v) eqn:Hp.
    + assert (existsb (fun e => p e.1 e.2 && eqb e.1 k) (ord (its w) (content w (Some n))) = true); [|congruence].
      apply existsb_exists. exists (k', v). rewrite <- elem_of_list_In, Ho. simpl. by rewrite Hp, He.
    + assert ((k', v) ∈ content w' (Some n)) as Hin2 by (by apply H3).
      rewrite (mlookup_none eqb E) in Hl'. specialize (Hl' _ Hin2). simpl in Hl'. congruence.
Qed.
Print Assumptions C99_delete_in_range.

(** The same for sets, with Remove. *)
Theorem C99_remove_in_range :
  forall (T : Type) (eqb : T -> T -> bool) (upd : bool) (ord : nat -> list (T * unit) -> list (T * unit))
    (n : nat) (p : T -> bool) w ts r w',
  equivb eqb -> wf eqb w -> n < next w ->
  range eqb (set_step eqb upd ord) (Some n) (delete_if (fun k _ => p k) (SRemove (Some n))) w tt ts r w' ->
  map t_key ts ≡ₚ map fst (content w (Some n)) /\
  (forall k, k ∈ map fst (content w' (Some n)) <-> k ∈ map fst (content w (Some n)) /\ p k = false).
Proof.
  intros T eqb upd ord n p w ts r w' E Hw Hn Hr.
  assert (Hk := wf_content eqb w (Some n) Hw).
  destruct (del_range eqb (set_step eqb upd ord) E (Some n)
              (delete_if (fun k _ => p k) (SRemove (Some n))) (fun k _ => p k) w tt ts r w' Hk) as (H1 & H2 & H3 & H4); auto.
  { intros k v s1 w1 ws r1 w1' Hx. unfold delete_if in Hx. destruct (p k) eqn:Hp.
    - apply exec_inv in Hx as (r2 & w2 & ws' & Hs & -> & Hx).
      apply exec_inv in Hx as (-> & -> & ->). split; [done|]. split; [done|].
      unfold set_step, set_exec, smap, set_Remove, set_Contain, go_get, bind, ret in Hs.
      destruct (mlookup eqb (content w1 (Some n)) k) as [u|] eqn:Hl.
      + cbn in Hs. inversion Hs; subst. fold (wput w1 n (mdel eqb (content w1 (Some n)) k)).
        rewrite content_wput. by rewrite decide_True.
      + cbn in Hs. inversion Hs; subst.
        rewrite (mlookup_none eqb E) in Hl. clear -Hl. induction (content w2 (Some n)) as [|[k1 v1] l IH]; [done|].
        assert (Hk1 := Hl (k1, v1) ltac:(set_solver)). simpl in *. rewrite Hk1. f_equal. apply IH. intros e He. apply Hl. set_solver.
    - apply exec_inv in Hx as (-> & -> & ->). done. }
  split.
  - replace (map t_key ts) with (map fst (entries_of ts)) by (unfold entries_of; by rewrite map_map).
    by rewrite H2.
  - intros k. rewrite !elem_of_list_fmap. split.
    + intros ([k' []] & -> & Hin). apply H3 in Hin as [Hin Hp]. split; [|done]. by exists (k', tt).
    + intros [([k' []] & -> & Hin) Hp]. exists (k', tt). split; [done|]. by apply H3.
Qed.
Print Assumptions C99_remove_in_range.

(** C100: if the callback leaves the entries of the map as they are, Range is a loop over the
    entries there were at the start, in some order, as GoMap.v has it: every result of the one
    is a result of the other. *)
Theorem C100_snapshot :
  forall (K V S : Type) (eqb : K -> K -> bool) (m : ref) (f : K -> V -> S -> M (world K V) (bool * S)) w s r w',
  equivb eqb -> wf eqb w ->
  (forall k v s w, exists r w', f k v s w = Ok (r, w') /\ same_entries m w' w) ->
  let w0 := World (tables w) (next w) (Datatypes.S (its w)) in
  (forall ts, range eqb (run_callback f) m (one_call) w0 s ts r w' ->
     exists l, l ≡ₚ content w m /\
       forall ord, ord (its w) (content w m) = l -> gm_Range ord m f s w = Ok (r, w')) /\
  (forall ord, (forall i l, ord i l ≡ₚ l) -> gm_Range ord m f s w = Ok (r, w') ->
     exists ts, range eqb (run_callback f) m (one_call) w0 s ts r w').
Proof.
  intros K V S eqb m f w s r w' E Hw Hf w0.
  assert (Hk : keys_ok eqb (content w0 m)) by exact (wf_content eqb w m Hw).
  assert (Hg : acts_as eqb (run_callback f) m one_call f).
  { intros k v s1 w1. destruct (Hf k v s1 w1) as (r2 & w2 & H2 & Hc). exists r2, w2. split; [done|].
    split; [done|]. intros ws r3 w3. split.
    - intros Hx. apply exec_inv in Hx as (o & w4 & ws' & Hs & -> & Hx).
      unfold run_callback in Hs. simpl in Hs. rewrite H2 in Hs. inversion Hs; subst.
      apply exec_inv in Hx as (-> & -> & ->). done.
    - intros (-> & -> & ->). econstructor; [unfold run_callback; simpl; rewrite H2; reflexivity|].
      simpl. constructor. }
  split.
  - intros ts Hr. destruct (same_range eqb (run_callback f) E m one_call f w0 s ts r w' Hk Hg Hr)
      as (rest & Hp & _ & Hfw).
    exists (entries_of ts ++ rest). split; [by rewrite <- Hp|]. intros ord Ho.
    unfold gm_Range, bind, go_range. rewrite Ho. exact Hfw.
  - intros ord Ho Hr. unfold gm_Range, bind, go_range in Hr.
    eapply (same_range_back eqb (run_callback f) E m one_call f w0 s _ r w' Hk Hg); [|exact Hr].
    symmetry. apply Ho.
Qed.
Print Assumptions C100_snapshot.

(** Examples: a set 1, 2, 3 whose Range removes 3 and inserts 9 in every turn. *)
Definition ex_set : world nat unit := World {[0 := [(1, tt); (2, tt); (3, tt)]]} 1 0.
Definition ex_body (k : nat) (_ : unit) (s : list nat) : prog (K := nat) (V := unit) (bool * list nat) :=
  PDo (SRemove (Some 0) 3) (fun _ : set_res nat => PDo (SInsert (Some 0) 9) (fun _ => PRet (true, s ++ [k]))).
Definition ex_step := set_step Nat.eqb true (fun _ l => l).

Lemma r_end' {K V C R S} eqb (step : C -> world K V -> R * world K V) m
    (f : K -> V -> S -> prog (bool * S)) w s ts st r w' :
  turns eqb step m f (loop_start m w s) ts st -> l_todo st = [] -> (true, l_vars st) = r -> l_world st = w' ->
  range eqb step m f w s ts r w'.
Proof. intros Ht Hn <- <-. by constructor. Qed.
Lemma t_turn' {K V C R S} eqb (step : C -> world K V -> R * world K V) m
    (f : K -> V -> S -> prog (bool * S)) st k v ws s' w' ts st' :
  existsb (fun e => true) (content (l_world st) m) = true ->
  (k, v) ∈ content (l_world st) m -> forallb (fun k' => negb (eqb k' k)) (l_done st) = true ->
  exec eqb step (f k v (l_vars st)) (l_world st) ws (true, s') w' ->
  turns eqb step m f (loop_next eqb m st k ws w' s') ts st' ->
  turns eqb step m f st (Turn k v ws :: ts) st'.
Proof.
  intros _ H1 H2 H3 H4. eapply t_turn; [|exact H3|exact H4]. split; [done|].
  intros k' Hk'. rewrite forallb_forall in H2. apply elem_of_list_In in Hk'. specialize (H2 _ Hk').
  by apply negb_true_iff.
Qed.

Ltac ex_turn k := eapply (t_turn' _ _ _ _ _ k tt);
  [reflexivity|apply elem_of_list_In; vm_compute; tauto|reflexivity
  |eapply x_do; [reflexivity|]; eapply x_do; [reflexivity|]; apply x_ret|].

(** The 3 never comes; the 9 may come or not. *)
Example ex_C97 : exists ts w',
  range Nat.eqb ex_step (Some 0) ex_body ex_set [] ts (true, [1; 9; 2]) w' /\
  content w' (Some 0) = [(1, tt); (2, tt); (9, tt)].
Proof.
  eexists _, _. split.
  - eapply r_end'; [ex_turn 1; ex_turn 9; ex_turn 2; apply t_none|reflexivity|reflexivity|reflexivity].
  - reflexivity.
Qed.
Example ex_C97_skip : exists ts w', range Nat.eqb ex_step (Some 0) ex_body ex_set [] ts (true, [2; 1]) w'.
Proof.
  eexists _, _.
  eapply r_end'; [ex_turn 2; ex_turn 1; apply t_none|reflexivity|reflexivity|reflexivity].
Qed.
(** If the 3 comes first, the turn removes it. *)
Example ex_C97_first : exists ts w', range Nat.eqb ex_step (Some 0) ex_body ex_set [] ts (true, [3; 1; 2]) w'.
Proof.
  eexists _, _.
  eapply r_end'; [ex_turn 3; ex_turn 1; ex_turn 2; apply t_none|reflexivity|reflexivity|reflexivity].
Qed.

(** With new keys in every turn the language sets no bound. *)
Definition ex_grow (k : nat) (_ : unit) (s : unit) : prog (K := nat) (V := unit) (bool * unit) :=
  PDo (SInsert (Some 0) (S k)) (fun _ : set_res nat => PRet (true, tt)).
Definition ex_count (n : nat) : list (nat * unit) := map (fun k => (k, tt)) (seq 0 n).
Lemma ex_count_snoc n : mset Nat.eqb true (ex_count n) n tt = ex_count (S n).
Proof.
  unfold ex_count. rewrite seq_S, map_app. simpl.
  assert (H : forall k, k ∈ seq 0 n -> k < n).
  { intros k Hk. apply elem_of_seq in Hk. lia. }
  revert H. generalize (seq 0 n). intros l. induction l as [|k l IH]; intros H; [done|]. simpl.
  destruct (Nat.eqb_spec k n) as [->|]; [exfalso; specialize (H n ltac:(set_solver)); lia|].
  f_equal. apply IH. set_solver.
Qed.
Lemma ex_count_miss n : mlookup Nat.eqb (ex_count n) n = None.
Proof.
  unfold ex_count. assert (H : forall k, k ∈ seq 0 n -> k < n).
  { intros k Hk. apply elem_of_seq in Hk. lia. }
  revert H. generalize (seq 0 n). intros l. induction l as [|k l IH]; intros H; [done|]. simpl.
  destruct (Nat.eqb_spec k n) as [->|]; [exfalso; specialize (H n ltac:(set_solver)); lia|].
  apply IH. set_solver.
Qed.
Lemma ex_grow_from : forall j i (st : loop unit),
  content (l_world st) (Some 0) = ex_count (S i) -> (forall k, k ∈ l_done st -> k < i) ->
  exists ts st', length ts = j /\ turns Nat.eqb ex_step (Some 0) ex_grow st ts st'.
Proof.
  induction j as [|j IH]; intros i st Hc Hd; [exists [], st; split; [done|constructor]|].
  assert (Hs : ex_step (SInsert (Some 0) (S i)) (l_world st) =
    (SBool true, wput (l_world st) 0 (ex_count (S (S i))))).
  { unfold ex_step, set_step, set_exec, smap, set_Insert, set_Contain, go_get, go_set, bind, ret.
    rewrite Hc, ex_count_miss. cbn -[ex_count mset content]. rewrite Hc, ex_count_snoc. done. }
  destruct (IH (S i) (loop_next Nat.eqb (Some 0) st i [wput (l_world st) 0 (ex_count (S (S i)))]
              (wput (l_world st) 0 (ex_count (S (S i)))) tt)) as (ts & st' & Hl & Ht).
  - simpl. rewrite content_wput. by rewrite decide_True.
  - intros k Hin. unfold loop_next, l_done, keep in Hin. apply elem_of_list_In, filter_In in Hin as [Hin _].
    apply elem_of_list_In, elem_of_cons in Hin as [->|Hin]; [lia|]. specialize (Hd k Hin). lia.
  - exists (Turn i tt [wput (l_world st) 0 (ex_count (S (S i)))] :: ts), st'. split; [simpl; lia|].
    eapply t_turn; [| |exact Ht].
    + split.
      * rewrite Hc. unfold ex_count. apply elem_of_list_fmap. exists i. split; [done|]. apply elem_of_seq. lia.
      * intros k' Hk'. apply Nat.eqb_neq. specialize (Hd k' Hk'). lia.
    + eapply x_do; [exact Hs|]. simpl. constructor.
Qed.
Example ex_C98_unbounded : forall n, exists ts st, length ts = n /\
  turns Nat.eqb ex_step (Some 0) ex_grow (loop_start (Some 0) (World {[0 := [(0, tt)]]} 1 0) tt) ts st.
Proof. intros n. apply (ex_grow_from n 0); [done|]. intros k Hk. by apply elem_of_nil in Hk. Qed.

(** A Range of the same set inside a Range that removes a member. *)
Definition ex_nested (k : nat) (_ : unit) (s : nat) : prog (K := nat) (V := unit) (bool * nat) :=
  PRange (Some 0) (fun _ _ (a : nat) => PRet (true, S a)) s (fun r : bool * nat =>
  PDo (SRemove (Some 0) 2) (fun _ : set_res nat => PRet (true, r.2))).
Example ex_C97_nested : exists ts w',
  range Nat.eqb ex_step (Some 0) ex_nested (World {[0 := [(1, tt); (2, tt)]]} 1 0) 0 ts (true, 2) w' /\
  map t_key ts = [1].
Proof.
  eexists _, _. split.
  - eapply r_end'.
    eapply (t_turn' _ _ _ _ _ 1 tt); [reflexivity|apply elem_of_list_In; vm_compute; tauto|reflexivity| |].
    { eapply x_range. eapply r_end'.
      eapply (t_turn' _ _ _ _ _ 1 tt); [reflexivity|apply elem_of_list_In; vm_compute; tauto|reflexivity|apply x_ret|].
      eapply (t_turn' _ _ _ _ _ 2 tt); [reflexivity|apply elem_of_list_In; vm_compute; tauto|reflexivity|apply x_ret|].
      apply t_none. 1-3: reflexivity. eapply x_do; [reflexivity|]. apply x_ret. }
    apply t_none. all: reflexivity.
  - reflexivity.
Qed.

(** Removing the even members. *)
Example ex_C99 : exists ts r w', range Nat.eqb ex_step (Some 0)
  (delete_if (fun k _ => Nat.even k) (SRemove (Some 0))) ex_set tt ts r w' /\ wf Nat.eqb ex_set /\
  0 < next ex_set.
Proof.
  eexists _, _, _. split_and!.
  - eapply r_end'.
    eapply (t_turn' _ _ _ _ _ 3 tt); [reflexivity|apply elem_of_list_In; vm_compute; tauto|reflexivity|apply x_ret|].
    eapply (t_turn' _ _ _ _ _ 2 tt); [reflexivity|apply elem_of_list_In; vm_compute; tauto|reflexivity
                                       |eapply x_do; [reflexivity|]; apply x_ret|].
    eapply (t_turn' _ _ _ _ _ 1 tt); [reflexivity|apply elem_of_list_In; vm_compute; tauto|reflexivity|apply x_ret|].
    apply t_none. all: reflexivity.
  - split.
    + intros n. unfold content, ex_set. simpl. destruct (decide (n = 0)) as [->|Hn].
      * rewrite lookup_singleton. simpl. split_and!; try done; intros e He; set_solver.
      * by rewrite lookup_singleton_ne by done.
    + intros n Hn. simpl in *. apply lookup_singleton_ne. lia.
  - simpl. lia.
Qed.

(** A callback as in set.Difference (set.go:121-126): it inserts into another set. *)
Example ex_C100 : forall k (v s : unit) (w : world nat unit), exists r w',
  (set_Insert Nat.eqb true (Some 1) k ;;; ret (true, s)) w = Ok (r, w') /\ same_entries (Some 0) w' w.
Proof.
  intros k v s w. unfold set_Insert, set_Contain, go_get, go_set, bind, ret.
  destruct (mlookup Nat.eqb (content w (Some 1)) k) as [u|].
  - exists (true, s), w. split; [done|]. unfold same_entries. done.
  - eexists _, _. split; [reflexivity|]. unfold same_entries.
    fold (wput w 1 (mset Nat.eqb true (content w (Some 1)) k tt)).
    rewrite content_wput. by rewrite decide_False.
Qed.
