(** Property theorems for GenMap with keys that need not be equal to themselves, and a Range whose callback
    changes the map (C216, C217). *)
From Coq Require Import ZifyBool ZifyNat.
From Verif Require Import Base GoMap GoMapSpec GoMapProofs GenMapModel GoMapIter GoMapIterSpec GoMapIterProofs
  GenMapOddModel GenMapOddSpec GenMapOdd.
From Verif Require GoMapIterProperties.

Lemma idb_equiv {K} : equivb (idb (K := K)).
Proof. unfold idb. split_and!; intros; rewrite ?Nat.eqb_eq in *; congruence. Qed.
Lemma never_unnumbered {K V A} (c : gm_call K V) (p : prog (R := gm_res K V) A) : never c p -> never c (unnumbered p).
Proof.
  induction p as [A a|A c' k IH|A S m f IHf s k IHk]; cbn; [done| |].
  - intros [H1 H2]. split; [done|]. intros r. by apply IH.
  - intros [H1 H2]. split; [intros q v s'; by apply IHf|intros r; by apply IHk].
Qed.

(** C216.  Without the numbers of the entries the calls are those of GenMapModel.v. *)
Theorem C216_agree :
  forall (K V : Type) (eqb : K -> K -> bool) (upd : bool) ord ord' (zero : V) c (w : world (nat * K) V),
  (forall i l, ord' i (map plain_entry l) = map plain_entry (ord i l)) ->
  gm_step eqb upd ord' zero c (plain w) = ((i_step eqb upd ord zero c w).1, plain (i_step eqb upd ord zero c w).2).
Proof. intros K V eqb upd ord ord' zero c w H. by apply step_plain. Qed.
Print Assumptions C216_agree.
(** The numbers tell the entries apart. *)
Theorem C216_numbers :
  forall (K V : Type) (eqb : K -> K -> bool) (upd : bool) ord (zero : V) c (w : world (nat * K) V),
  numbers_ok w -> numbers_ok (i_step eqb upd ord zero c w).2.
Proof. exact @numbers_step. Qed.
Print Assumptions C216_numbers.
(** They stay with the entries: a call that removes entries leaves the others as they are, any other call
    leaves every entry its number. *)
Theorem C216_same_entries :
  forall (K V : Type) (eqb : K -> K -> bool) (upd : bool) ord (zero : V) c (w : world (nat * K) V),
  (removing c = true -> forall m, sublist (content (i_step eqb upd ord zero c w).2 m) (content w m)) /\
  (removing c = false -> forall n j, n < next w -> has_number (Some n) j w -> has_number (Some n) j (i_step eqb upd ord zero c w).2).
Proof. intros. split; [intros H m; by apply removing_step|intros H n j; by apply other_step]. Qed.
Print Assumptions C216_same_entries.
(** Whatever == is and whatever calls the callback makes. *)
Theorem C216_produced :
  forall (K V S : Type) (eqb : K -> K -> bool) (upd : bool) ord (zero : V) (m : ref) (f : K -> V -> S -> prog (bool * S)) w s ts r w',
  i_range eqb upd ord zero m f w s ts r w' ->
  (* what is produced is in the map at that moment, with that value *)
  (forall i t, ts !! i = Some t -> (t_key t, t_val t) ∈ content (world_at w ts i) m) /\
  (* no entry is produced twice unless it was gone in between *)
  (forall i j t t', i < j -> ts !! i = Some t -> ts !! j = Some t' -> (t_key t).1 = (t_key t').1 ->
     exists w1, w1 ∈ worlds_between ts i j /\ forall e, e ∈ content w1 m -> e.1.1 <> (t_key t).1) /\
  (* unless the callback stops the loop, every entry that is there all the time is produced *)
  (r.1 = true -> forall n, (forall w1, w1 ∈ w :: worlds_in ts -> exists e, e ∈ content w1 m /\ e.1.1 = n) ->
     exists t, t ∈ ts /\ (t_key t).1 = n) /\
  w' = List.last (worlds_in ts) w.
Proof.
  intros K V S eqb upd ord zero m f w s ts r w' H.
  destruct (GoMapIterProperties.C97_range_produces _ _ _ _ _ _ _ _ _ _ _ _ _ _ idb_equiv H) as (H1 & H2 & H3 & H4).
  split_and!; [exact H1| | |exact H4].
  - intros i j t t' Hij Hi Hj He. destruct (H2 i j t t' Hij Hi Hj) as (w1 & Hw & Hn); [unfold idb; by apply Nat.eqb_eq|].
    exists w1. split; [done|]. intros [[n k] v] Hin Hx. apply Hn. exists (n, k), v. split; [done|]. unfold idb. by apply Nat.eqb_eq.
  - intros Hr n Hall. destruct (Hall w) as ([[n0 k0] v0] & Hin & Hn0); [left|]. cbn in Hn0. subst n0.
    destruct (H3 Hr (n, k0)) as (t & Ht & He).
    + intros w1 Hw. destruct (Hall w1 Hw) as ([k1 v1] & Hin1 & Hn1). exists k1, v1. split; [done|]. unfold idb. by apply Nat.eqb_eq.
    + exists t. split; [done|]. unfold idb in He. by apply Nat.eqb_eq in He.
Qed.
Print Assumptions C216_produced.
(** A callback given without numbers makes the calls it says, and its own Ranges are of the same kind. *)
Theorem C216_callback :
  forall (K V S A : Type) (eqb : K -> K -> bool) (upd : bool) ord (zero : V) (w : world (nat * K) V) ws a w2,
  (forall c k, let (r, w1) := i_step eqb upd ord zero c w in
     exec idb (i_step eqb upd ord zero) (unnumbered (A := A) (k r)) w1 ws a w2 ->
     exec idb (i_step eqb upd ord zero) (unnumbered (PDo c k)) w (w1 :: ws) a w2) /\
  (forall m (f : K -> V -> S -> prog (bool * S)) s k ts r w1,
     i_range eqb upd ord zero m f w s ts r w1 -> exec idb (i_step eqb upd ord zero) (unnumbered (A := A) (k r)) w1 ws a w2 ->
     exec idb (i_step eqb upd ord zero) (unnumbered (PRange m f s k)) w (worlds_in ts ++ ws) a w2).
Proof.
  intros K V S A eqb upd ord zero w ws a w2. split.
  - intros c k. destruct (i_step eqb upd ord zero c w) as [r w1] eqn:Hs. intros H. cbn. by eapply x_do.
  - intros m f s k ts r w1 Hr He. cbn. by eapply x_range.
Qed.
Print Assumptions C216_callback.
(** An entry whose key is not equal to itself is produced exactly once, with the value it was created with,
    and is there afterwards, unless the callback clears the map or stops the loop. *)
Theorem C216_odd_once :
  forall (K V S : Type) (eqb : K -> K -> bool) (upd : bool) ord (zero : V) n (f : K -> V -> S -> prog (bool * S)) w s ts r w' j k v,
  (forall x y, eqb x y = true -> eqb y x = true) -> (forall x y z, eqb x y = true -> eqb y z = true -> eqb x z = true) ->
  numbers_ok w -> n < next w -> ((j, k), v) ∈ content w (Some n) -> eqb k k = false ->
  (forall k v s, never (GClear (Some n)) (f k v s)) ->
  i_range eqb upd ord zero (Some n) f w s ts r w' ->
  (r.1 = true -> exists t, t ∈ ts /\ t_key t = (j, k)) /\
  (forall i t, ts !! i = Some t -> (t_key t).1 = j -> t_key t = (j, k) /\ t_val t = v) /\
  (forall i i' t t', ts !! i = Some t -> ts !! i' = Some t' -> (t_key t).1 = j -> (t_key t').1 = j -> i = i') /\
  ((j, k), v) ∈ content w' (Some n).
Proof.
  intros K V S eqb upd ord zero n f w s ts r w' j k v Hsym Htrans Hnum Hn Hin Ho Hnev Hr.
  assert (Hnev' : forall (q : nat * K) v s, never (GClear (Some n)) (unnumbered (f q.2 v s))) by (intros; by apply never_unnumbered).
  destruct (all_states idb (i_step eqb upd ord zero) (GClear (Some n)) (fun w => numbers_ok w /\ stays n ((j, k), v) w)) as (_ & _ & Hall).
  { intros c w1 Hc [H1 H2]. split; [by apply numbers_step|by apply odd_step]. }
  destruct (Hall S (Some n) _ w s ts r w' Hr Hnev') as [H1 [H2 H3]]; [by split|].
  assert (Hall' : forall w1, w1 ∈ w :: worlds_in ts -> numbers_ok w1 /\ ((j, k), v) ∈ content w1 (Some n)).
  { intros w1 [->|Hw]%elem_of_cons; [done|]. rewrite Forall_forall in H1. destruct (H1 w1 Hw) as [? []]. done. }
  destruct (C216_produced _ _ _ _ _ _ _ _ _ _ _ _ _ _ Hr) as (P1 & P2 & P3 & _).
  assert (Hkey : forall i t, ts !! i = Some t -> (t_key t).1 = j -> t_key t = (j, k) /\ t_val t = v).
  { intros i t Hi Hj. specialize (P1 i t Hi). destruct (Hall' (world_at w ts i)) as [Hx Hy].
    { eapply elem_of_list_lookup_2. apply world_at_lookup. apply lookup_lt_Some in Hi. lia. }
    specialize (Hx n). apply elem_of_list_lookup in P1 as [a Ha], Hy as [b Hb].
    assert (a = b) as <-.
    { eapply (NoDup_lookup _ _ _ j Hx); rewrite list_lookup_fmap; [by rewrite Ha; cbn; rewrite Hj|by rewrite Hb]. }
    rewrite Ha in Hb. injection Hb as -> ->. done. }
  split_and!; [|exact Hkey| |apply H3].
  - intros Hr1. destruct (P3 Hr1 j) as (t & Ht & Hj).
    { intros w1 Hw. exists ((j, k), v). split; [|done]. by apply Hall'. }
    exists t. split; [done|]. apply elem_of_list_lookup in Ht as [i Hi]. by eapply Hkey.
  - assert (Hlt : forall i i' t t', i < i' -> ts !! i = Some t -> ts !! i' = Some t' -> (t_key t).1 = j -> (t_key t').1 = j -> False).
    { intros i i' t t' Hlt Hi Hi' Hj Hj'. destruct (P2 i i' t t' Hlt Hi Hi') as (w1 & Hw & Hx); [congruence|].
      destruct (between_lookup (i_step eqb upd ord zero) w ts i i' w1) as (p & _ & Hp); [lia|apply lookup_lt_Some in Hi'; lia|done|].
      apply elem_of_list_lookup_2 in Hp. destruct (Hall' w1 Hp) as [_ Hy]. by apply (Hx _ Hy). }
    intros i i' t t' Hi Hi' Hj Hj'. destruct (lt_eq_lt_dec i i') as [[Hl|He]|Hl]; [by destruct (Hlt i i' t t')|done|by destruct (Hlt i' i t' t)].
Qed.
Print Assumptions C216_odd_once.
(** So the entries produced contain those with such keys, each as often as it was there. *)
Theorem C216_odd_all :
  forall (K V S : Type) (eqb : K -> K -> bool) (upd : bool) ord (zero : V) n (f : K -> V -> S -> prog (bool * S)) w s ts s' w',
  (forall x y, eqb x y = true -> eqb y x = true) -> (forall x y z, eqb x y = true -> eqb y z = true -> eqb x z = true) ->
  numbers_ok w -> n < next w -> (forall k v s, never (GClear (Some n)) (f k v s)) ->
  i_range eqb upd ord zero (Some n) f w s ts (true, s') w' ->
  List.filter (fun e => negb (eqb e.1 e.1)) (content (plain w) (Some n)) ⊆+ map plain_entry (entries_of ts).
Proof.
  intros K V S eqb upd ord zero n f w s ts s' w' Hsym Htrans Hnum Hn Hnev Hr.
  rewrite content_plain.
  assert (Hf : forall l : list (nat * K * V), List.filter (fun e => negb (eqb e.1 e.1)) (map plain_entry l) =
    map plain_entry (List.filter (fun e => negb (eqb e.1.2 e.1.2)) l)).
  { intros l. induction l as [|[[a b] c] l IH]; cbn; [done|]. destruct (eqb b b); cbn; by rewrite IH. }
  rewrite Hf. apply (fmap_submseteq plain_entry). apply NoDup_submseteq.
  - apply NoDup_ListNoDup, List.NoDup_filter, NoDup_ListNoDup. exact (NoDup_fmap_1 _ _ (Hnum n)).
  - intros [[j k] v] He. apply elem_of_list_In, filter_In in He as [He Ho]. apply elem_of_list_In in He. cbn in Ho. apply negb_true_iff in Ho.
    destruct (C216_odd_once K V S eqb upd ord zero n f w s ts (true, s') w' j k v) as (H1 & H2 & _); auto.
    destruct (H1 eq_refl) as (t & Ht & Hk). assert (Ht' := Ht). apply elem_of_list_lookup in Ht' as [i Hi].
    destruct (H2 i t Hi) as [_ Hv]; [by rewrite Hk|]. apply elem_of_list_fmap. exists t. by rewrite Hk, Hv.
Qed.
Print Assumptions C216_odd_all.

(** C217.  A callback that stores the key and value it is given again, which for other keys changes nothing,
    makes entries for ever: from any map with one entry whose key is not equal to itself the loop can make any number of turns. *)
Theorem C217_forever_refuted :
  forall (K V : Type) (eqb : K -> K -> bool) (upd : bool) ord (zero : V) n (w : world (nat * K) V) j k v,
  (forall x y, eqb x y = true -> eqb y x = true) -> (forall x y z, eqb x y = true -> eqb y z = true -> eqb x z = true) ->
  content w (Some n) = [((j, k), v)] -> eqb k k = false ->
  forall len, exists ts st,
    turns idb (i_step eqb upd ord zero) (Some n) (fun q v s => unnumbered (store_again (Some n) q.2 v s)) (loop_start (Some n) w tt) ts st /\
    length ts = len /\ length (content (l_world st) (Some n)) = S len.
Proof.
  intros K V eqb upd ord zero n w j k v Hsym Htrans Hw Ho.
  assert (Hgo : forall len (st : loop unit) i l, content (l_world st) (Some n) = l -> ((i, k), v) ∈ l ->
    (forall e, e ∈ l -> e.1 = (e.1.1, k) /\ e.1.1 <= i) -> (forall q, q ∈ l_done st -> q.1 < i) ->
    exists ts st', turns idb (i_step eqb upd ord zero) (Some n) (fun q v s => unnumbered (store_again (Some n) q.2 v s)) st ts st' /\
      length ts = len /\ length (content (l_world st') (Some n)) = length l + len).
  { induction len as [|len IH]; intros st i l Hl Hin Hall Hdone.
    { exists [], st. split_and!; [constructor|done|rewrite Hl; lia]. }
    set (w1 := World (<[n := iset_at eqb upd l (new_id l) k v]> (tables (l_world st))) (next (l_world st)) (its (l_world st))).
    assert (Hiset : iset_at eqb upd l (new_id l) k v = l ++ [((new_id l, k), v)]).
    { clear - Ho Hall. revert Hall. generalize (new_id l). intros a. induction l as [|[[b c] d] l IH]; cbn; intros Hall; [done|].
      destruct (Hall ((b, c), d)) as [[= ->] _]; [left|]. rewrite Ho. f_equal. apply IH. intros e He. apply Hall. by right. }
    assert (Hc1 : content w1 (Some n) = l ++ [((new_id l, k), v)]).
    { rewrite <- Hiset. unfold w1. rewrite content_put. by rewrite decide_True. }
    destruct (IH (loop_next idb (Some n) st (i, k) [w1] w1 tt) (new_id l) (l ++ [((new_id l, k), v)])) as (ts & st' & Ht & Hlen & Hct).
    - exact Hc1.
    - apply elem_of_app. right. left.
    - intros e [He|He]%elem_of_app; [|apply elem_of_list_singleton in He as ->; done].
      split; [by apply Hall|]. pose proof (new_id_gt ord l e He). lia.
    - intros q Hq. apply (keep_elem idb idb_equiv) in Hq as [Hq _]. pose proof (new_id_gt ord l _ Hin) as Hg. cbn in Hg.
      apply elem_of_cons in Hq as [->|Hq]; [done|]. specialize (Hdone q Hq). lia.
    - exists (Turn (i, k) v [w1] :: ts), st'. split_and!; [|cbn; lia|rewrite Hct, app_length; cbn; lia].
      eapply t_turn; [| |exact Ht].
      + split; [by rewrite Hl|]. intros q Hq. unfold idb. apply Nat.eqb_neq. specialize (Hdone q Hq). cbn. lia.
      + cbn. destruct (l_vars st). eapply x_do; [|apply x_ret]. unfold i_step, i_exec, i_set, bind. rewrite Hl. reflexivity. }
  intros len. destruct (Hgo len (loop_start (Some n) w tt) j [((j, k), v)]) as (ts & st & H1 & H2 & H3).
  - exact Hw.
  - left.
  - intros e ->%elem_of_list_singleton. done.
  - intros q Hq. by apply elem_of_nil in Hq.
  - exists ts, st. done.
Qed.
Print Assumptions C217_forever_refuted.

(** [None] is a key that is not equal to itself, as NaN.  The callback deletes the key it is given: the two
    entries with the odd key are produced once each and stay. *)
Definition ex_eqb (x y : option nat) : bool := match x, y with Some a, Some b => Nat.eqb a b | _, _ => false end.
Definition ex_odd : world (nat * option nat) nat := World {[ 0 := [((1, None), 10); ((2, Some 5), 20); ((3, None), 10)] ]} 1 0.
Definition ex_delete (k : option nat) (v : nat) (_ : unit)
  : prog (K := option nat) (V := nat) (C := gm_call (option nat) nat) (R := gm_res (option nat) nat) (bool * unit) :=
  PDo (GDelete (Some 0) k) (fun _ => PRet (true, tt)).
Example C216_example :
  (forall x y, ex_eqb x y = true -> ex_eqb y x = true) /\ (forall x y z, ex_eqb x y = true -> ex_eqb y z = true -> ex_eqb x z = true) /\
  numbers_ok ex_odd /\ (forall k v s, never (GClear (Some 0)) (ex_delete k v s)) /\
  exists ts w', i_range ex_eqb true (fun _ l => l) 0 (Some 0) ex_delete ex_odd tt ts (true, tt) w' /\
    map plain_entry (entries_of ts) = [(None, 10); (None, 10); (Some 5, 20)] /\
    content w' (Some 0) = [((1, None), 10); ((3, None), 10)].
Proof.
  split_and!.
  - intros [x|] [y|]; cbn; rewrite ?Nat.eqb_eq; congruence.
  - intros [x|] [y|] [z|]; cbn; rewrite ?Nat.eqb_eq; congruence.
  - intros [|n]; [vm_compute; repeat constructor; set_solver|]. unfold content, ex_odd. cbn [tables]. rewrite lookup_singleton_ne by done. constructor.
  - intros k v s. cbn. done.
  - set (w1 := (i_step ex_eqb true (fun _ l => l) 0 (GDelete (Some 0) None) ex_odd).2).
    set (w2 := (i_step ex_eqb true (fun _ l => l) 0 (GDelete (Some 0) None) w1).2).
    set (w3 := (i_step ex_eqb true (fun _ l => l) 0 (GDelete (Some 0) (Some 5)) w2).2).
    exists [Turn (3, None) 10 [w1]; Turn (1, None) 10 [w2]; Turn (2, Some 5) 20 [w3]], w3. split_and!; [|reflexivity|vm_compute; reflexivity].
    eapply (r_end _ _ _ _ _ _ _ _ (loop_next idb (Some 0) (loop_next idb (Some 0) (loop_next idb (Some 0)
      (loop_start (Some 0) ex_odd tt) (3, None) [w1] w1 tt) (1, None) [w2] w2 tt) (2, Some 5) [w3] w3 tt)); [|vm_compute; reflexivity].
    eapply t_turn; [|eapply x_do; [reflexivity|apply x_ret]|]; [split; [vm_compute; set_solver|intros q Hq; by apply elem_of_nil in Hq]|].
    eapply t_turn; [|eapply x_do; [reflexivity|apply x_ret]|].
    { split; [vm_compute; set_solver|]. intros q Hq. change (q ∈ [(3, @None nat)]) in Hq. by apply elem_of_list_singleton in Hq as ->. }
    eapply t_turn; [|eapply x_do; [reflexivity|apply x_ret]|constructor].
    split; [vm_compute; set_solver|]. intros q Hq. change (q ∈ [(1, @None nat); (3, @None nat)]) in Hq.
    apply elem_of_cons in Hq as [->|Hq]; [done|]. by apply elem_of_list_singleton in Hq as ->.
Qed.
Example C217_example :
  let w : world (nat * option nat) nat := World {[ 0 := [((1, None), 10)] ]} 1 0 in
  content w (Some 0) = [((1, None), 10)] /\ ex_eqb None None = false /\
  exists ts st, turns idb (i_step ex_eqb true (fun _ l => l) 0) (Some 0) (fun q v s => unnumbered (store_again (Some 0) q.2 v s))
    (loop_start (Some 0) w tt) ts st /\ length ts = 1000 /\ length (content (l_world st) (Some 0)) = 1001.
Proof.
  split; [vm_compute; reflexivity|]. split; [done|].
  apply (C217_forever_refuted _ _ ex_eqb true (fun _ l => l) 0 0 _ 1 None 10).
  - intros [x|] [y|]; cbn; rewrite ?Nat.eqb_eq; congruence.
  - intros [x|] [y|] [z|]; cbn; rewrite ?Nat.eqb_eq; congruence.
  - vm_compute. reflexivity.
  - done.
Qed.
