(** Property theorems for Set with elements that need not be equal to themselves, and a Range whose callback
    changes the set (C223, C224). *)
From Coq Require Import ZifyBool ZifyNat.
From Verif Require Import Base GoMap GoMapSpec GoMapProofs GenMapModel SetModel GoMapIter GoMapIterSpec GoMapIterProofs
  GenMapOddModel GenMapOddSpec GenMapOdd SetOddModel SetOdd.
From Verif Require GoMapIterProperties GenMapOddProperties.

(** C223.  Without the numbers of the entries the calls are those of SetModel.v. *)
Theorem C223_agree :
  forall (T : Type) (eqb : T -> T -> bool) (upd : bool) ord ord' c (w : world (nat * T) unit),
  (forall i l, ord' i (map plain_entry l) = map plain_entry (ord i l)) ->
  set_step eqb upd ord' c (plain w) = ((is_step eqb upd ord c w).1, plain (is_step eqb upd ord c w).2).
Proof. intros T eqb upd ord ord' c w H. by apply sstep_plain. Qed.
Print Assumptions C223_agree.
(** The numbers tell the entries apart. *)
Theorem C223_numbers :
  forall (T : Type) (eqb : T -> T -> bool) (upd : bool) ord c (w : world (nat * T) unit),
  numbers_ok w -> numbers_ok (is_step eqb upd ord c w).2.
Proof. exact @numbers_sstep. Qed.
Print Assumptions C223_numbers.
(** Whatever == is and whatever calls the callback makes. *)
Theorem C223_produced :
  forall (T S : Type) (eqb : T -> T -> bool) (upd : bool) ord (m : ref) (f : T -> S -> prog (bool * S)) w s ts r w',
  is_range eqb upd ord m f w s ts r w' ->
  (* what is produced is in the set at that moment *)
  (forall i t, ts !! i = Some t -> (t_key t, t_val t) ∈ content (world_at w ts i) m) /\
  (* no entry is produced twice unless it was gone in between *)
  (forall i j t t', i < j -> ts !! i = Some t -> ts !! j = Some t' -> (t_key t).1 = (t_key t').1 ->
     exists w1, w1 ∈ worlds_between ts i j /\ forall e, e ∈ content w1 m -> e.1.1 <> (t_key t).1) /\
  (* unless the callback stops the loop, every entry that is there all the time is produced *)
  (r.1 = true -> forall n, (forall w1, w1 ∈ w :: worlds_in ts -> exists e, e ∈ content w1 m /\ e.1.1 = n) ->
     exists t, t ∈ ts /\ (t_key t).1 = n) /\
  w' = List.last (worlds_in ts) w.
Proof.
  intros T S eqb upd ord m f w s ts r w' H.
  destruct (GoMapIterProperties.C97_range_produces _ _ _ _ _ _ _ _ _ _ _ _ _ _ GenMapOddProperties.idb_equiv H) as (H1 & H2 & H3 & H4).
  split_and!; [exact H1| | |exact H4].
  - intros i j t t' Hij Hi Hj He. destruct (H2 i j t t' Hij Hi Hj) as (w1 & Hw & Hn); [unfold idb; by apply Nat.eqb_eq|].
    exists w1. split; [done|]. intros [[n k] v] Hin Hx. apply Hn. exists (n, k), v. split; [done|]. unfold idb. by apply Nat.eqb_eq.
  - intros Hr n Hall. destruct (Hall w) as ([[n0 k0] v0] & Hin & Hn0); [left|]. cbn in Hn0. subst n0.
    destruct (H3 Hr (n, k0)) as (t & Ht & He).
    + intros w1 Hw. destruct (Hall w1 Hw) as ([k1 v1] & Hin1 & Hn1). exists k1, v1. split; [done|]. unfold idb. by apply Nat.eqb_eq.
    + exists t. split; [done|]. unfold idb in He. by apply Nat.eqb_eq in He.
Qed.
Print Assumptions C223_produced.
(** A callback given without numbers makes the calls it says, and its own Ranges are of the same kind. *)
Theorem C223_callback :
  forall (T S A : Type) (eqb : T -> T -> bool) (upd : bool) ord (w : world (nat * T) unit) ws a w2,
  (forall c k, let (r, w1) := is_step eqb upd ord c w in
     exec idb (is_step eqb upd ord) (no_number (A := A) (k r)) w1 ws a w2 ->
     exec idb (is_step eqb upd ord) (no_number (PDo c k)) w (w1 :: ws) a w2) /\
  (forall m (f : T -> S -> prog (bool * S)) s k ts r w1,
     is_range eqb upd ord m f w s ts r w1 -> exec idb (is_step eqb upd ord) (no_number (A := A) (k r)) w1 ws a w2 ->
     exec idb (is_step eqb upd ord) (no_number (PRange m (fun x _ s => f x s) s k)) w (worlds_in ts ++ ws) a w2).
Proof.
  intros T S A eqb upd ord w ws a w2. split.
  - intros c k. destruct (is_step eqb upd ord c w) as [r w1] eqn:Hs. intros H. cbn. by eapply x_do.
  - intros m f s k ts r w1 Hr He. cbn. by eapply x_range.
Qed.
Print Assumptions C223_callback.
(** An element that is not equal to itself is produced exactly once and is there afterwards, unless the callback
    clears the set or stops the loop. *)
Theorem C223_odd_once :
  forall (T S : Type) (eqb : T -> T -> bool) (upd : bool) ord n (f : T -> S -> prog (bool * S)) w s ts r w' j k,
  (forall x y, eqb x y = true -> eqb y x = true) -> (forall x y z, eqb x y = true -> eqb y z = true -> eqb x z = true) ->
  numbers_ok w -> n < next w -> ((j, k), tt) ∈ content w (Some n) -> eqb k k = false ->
  (forall k s, never (SClear (Some n)) (f k s)) ->
  is_range eqb upd ord (Some n) f w s ts r w' ->
  (r.1 = true -> exists t, t ∈ ts /\ t_key t = (j, k)) /\
  (forall i t, ts !! i = Some t -> (t_key t).1 = j -> t_key t = (j, k)) /\
  (forall i i' t t', ts !! i = Some t -> ts !! i' = Some t' -> (t_key t).1 = j -> (t_key t').1 = j -> i = i') /\
  ((j, k), tt) ∈ content w' (Some n).
Proof.
  intros T S eqb upd ord n f w s ts r w' j k Hsym Htrans Hnum Hn Hin Ho Hnev Hr.
  assert (Hnev' : forall (q : nat * T) (v : unit) s, never (SClear (Some n)) (no_number (f q.2 s))) by (intros; by apply never_no_number).
  destruct (all_states idb (is_step eqb upd ord) (SClear (Some n)) (fun w => numbers_ok w /\ stays n ((j, k), tt) w)) as (_ & _ & Hall).
  { intros c w1 Hc [H1 H2]. split; [by apply numbers_sstep|by apply odd_sstep]. }
  destruct (Hall S (Some n) _ w s ts r w' Hr Hnev') as [H1 [H2 H3]]; [by split|].
  assert (Hall' : forall w1, w1 ∈ w :: worlds_in ts -> numbers_ok w1 /\ ((j, k), tt) ∈ content w1 (Some n)).
  { intros w1 [->|Hw]%elem_of_cons; [done|]. rewrite Forall_forall in H1. destruct (H1 w1 Hw) as [? []]. done. }
  destruct (C223_produced _ _ _ _ _ _ _ _ _ _ _ _ Hr) as (P1 & P2 & P3 & _).
  assert (Hkey : forall i t, ts !! i = Some t -> (t_key t).1 = j -> t_key t = (j, k)).
  { intros i t Hi Hj. specialize (P1 i t Hi). destruct (Hall' (world_at w ts i)) as [Hx Hy].
    { eapply elem_of_list_lookup_2. apply world_at_lookup. apply lookup_lt_Some in Hi. lia. }
    specialize (Hx n). apply elem_of_list_lookup in P1 as [a Ha], Hy as [b Hb].
    assert (a = b) as <-.
    { eapply (NoDup_lookup _ _ _ j Hx); rewrite list_lookup_fmap; [by rewrite Ha; cbn; rewrite Hj|by rewrite Hb]. }
    rewrite Ha in Hb. by injection Hb as ->. }
  split_and!; [|exact Hkey| |apply H3].
  - intros Hr1. destruct (P3 Hr1 j) as (t & Ht & Hj).
    { intros w1 Hw. exists ((j, k), tt). split; [|done]. by apply Hall'. }
    exists t. split; [done|]. apply elem_of_list_lookup in Ht as [i Hi]. by eapply Hkey.
  - assert (Hlt : forall i i' t t', i < i' -> ts !! i = Some t -> ts !! i' = Some t' -> (t_key t).1 = j -> (t_key t').1 = j -> False).
    { intros i i' t t' Hlt Hi Hi' Hj Hj'. destruct (P2 i i' t t' Hlt Hi Hi') as (w1 & Hw & Hx); [congruence|].
      destruct (between_lookup (is_step eqb upd ord) w ts i i' w1) as (p & _ & Hp); [lia|apply lookup_lt_Some in Hi'; lia|done|].
      apply elem_of_list_lookup_2 in Hp. destruct (Hall' w1 Hp) as [_ Hy]. by apply (Hx _ Hy). }
    intros i i' t t' Hi Hi' Hj Hj'. destruct (lt_eq_lt_dec i i') as [[Hl|He]|Hl]; [by destruct (Hlt i i' t t')|done|by destruct (Hlt i' i t' t)].
Qed.
Print Assumptions C223_odd_once.
(** So the elements produced contain those, each as often as it was there. *)
Theorem C223_odd_all :
  forall (T S : Type) (eqb : T -> T -> bool) (upd : bool) ord n (f : T -> S -> prog (bool * S)) w s ts s' w',
  (forall x y, eqb x y = true -> eqb y x = true) -> (forall x y z, eqb x y = true -> eqb y z = true -> eqb x z = true) ->
  numbers_ok w -> n < next w -> (forall k s, never (SClear (Some n)) (f k s)) ->
  is_range eqb upd ord (Some n) f w s ts (true, s') w' ->
  List.filter (fun x => negb (eqb x x)) (map fst (content (plain w) (Some n))) ⊆+ map (fun t => (t_key t).2) ts.
Proof.
  intros T S eqb upd ord n f w s ts s' w' Hsym Htrans Hnum Hn Hnev Hr.
  rewrite content_plain, map_map. cbn.
  assert (Hf : forall l : list (nat * T * unit), List.filter (fun x => negb (eqb x x)) (map (fun e => e.1.2) l) =
    map snd (map fst (List.filter (fun e => negb (eqb e.1.2 e.1.2)) l))).
  { intros l. induction l as [|[[a b] c] l IH]; cbn; [done|]. destruct (eqb b b); cbn; by rewrite IH. }
  rewrite Hf. rewrite <- (map_map (fun t => t_key t) snd). apply (fmap_submseteq snd). apply NoDup_submseteq.
  - assert (H : NoDup (List.filter (fun e => negb (eqb e.1.2 e.1.2)) (content w (Some n)))).
    { apply NoDup_ListNoDup, List.NoDup_filter, NoDup_ListNoDup. exact (NoDup_fmap_1 _ _ (Hnum n)). }
    apply NoDup_fmap_2; [|exact H]. intros [x []] [y []]; cbn. congruence.
  - intros [j k] He. apply elem_of_list_fmap in He as ([[j' k'] []] & [= -> ->] & He).
    apply elem_of_list_In, filter_In in He as [He Ho]. apply elem_of_list_In in He. cbn in Ho. apply negb_true_iff in Ho.
    destruct (C223_odd_once T S eqb upd ord n f w s ts (true, s') w' j' k') as (H1 & _); auto.
    destruct (H1 eq_refl) as (t & Ht & Hk). apply elem_of_list_fmap. by exists t.
Qed.
Print Assumptions C223_odd_all.

(** C224.  A callback that inserts the element it is given, which for other elements changes nothing, adds
    elements for ever: from any set with one element, not equal to itself, the loop can make any number of turns. *)
Definition insert_again {T} (m : ref) (x : T) (_ : unit)
  : prog (K := T) (V := unit) (C := set_call T) (R := set_res T) (bool * unit) :=
  PDo (SInsert m x) (fun _ => PRet (true, tt)).
Theorem C224_forever_refuted :
  forall (T : Type) (eqb : T -> T -> bool) (upd : bool) ord n (w : world (nat * T) unit) j k,
  content w (Some n) = [((j, k), tt)] -> eqb k k = false ->
  forall len, exists ts st,
    turns idb (is_step eqb upd ord) (Some n) (fun q _ s => no_number (insert_again (Some n) q.2 s)) (loop_start (Some n) w tt) ts st /\
    length ts = len /\ length (content (l_world st) (Some n)) = S len.
Proof.
  intros T eqb upd ord n w j k Hw Ho.
  assert (Hgo : forall len (st : loop unit) i l, content (l_world st) (Some n) = l -> ((i, k), tt) ∈ l ->
    (forall e, e ∈ l -> e.1 = (e.1.1, k) /\ e.1.1 <= i) -> (forall q, q ∈ l_done st -> q.1 < i) ->
    exists ts st', turns idb (is_step eqb upd ord) (Some n) (fun q _ s => no_number (insert_again (Some n) q.2 s)) st ts st' /\
      length ts = len /\ length (content (l_world st') (Some n)) = length l + len).
  { induction len as [|len IH]; intros st i l Hl Hin Hall Hdone.
    { exists [], st. split_and!; [constructor|done|rewrite Hl; lia]. }
    set (w1 := World (<[n := iset_at eqb upd l (new_id l) k tt]> (tables (l_world st))) (next (l_world st)) (its (l_world st))).
    assert (Hiset : iset_at eqb upd l (new_id l) k tt = l ++ [((new_id l, k), tt)]).
    { clear - Ho Hall. revert Hall. generalize (new_id l). intros a. induction l as [|[[b c] d] l IH]; cbn; intros Hall; [done|].
      destruct (Hall ((b, c), d)) as [[= ->] _]; [left|]. rewrite Ho. f_equal. apply IH. intros e He. apply Hall. by right. }
    assert (Hget : mlookup (eqk eqb) l (0, k) = None).
    { clear - Ho Hall. revert Hall. induction l as [|[[b c] d] l IH]; cbn; intros Hall; [done|].
      destruct (Hall ((b, c), d)) as [[= ->] _]; [left|]. unfold eqk at 1. cbn. rewrite Ho. apply IH. intros e He. apply Hall. by right. }
    assert (Hc1 : content w1 (Some n) = l ++ [((new_id l, k), tt)]).
    { rewrite <- Hiset. unfold w1. rewrite content_put. by rewrite decide_True. }
    destruct (IH (loop_next idb (Some n) st (i, k) [w1] w1 tt) (new_id l) (l ++ [((new_id l, k), tt)])) as (ts & st' & Ht & Hlen & Hct).
    - exact Hc1.
    - apply elem_of_app. right. left.
    - intros e [He|He]%elem_of_app; [|apply elem_of_list_singleton in He as ->; done].
      split; [by apply Hall|]. pose proof (new_id_gt ord l e He). lia.
    - intros q Hq. apply (keep_elem idb GenMapOddProperties.idb_equiv) in Hq as [Hq _]. pose proof (new_id_gt ord l _ Hin) as Hg. cbn in Hg.
      apply elem_of_cons in Hq as [->|Hq]; [done|]. specialize (Hdone q Hq). lia.
    - exists (Turn (i, k) tt [w1] :: ts), st'. split_and!; [|cbn; lia|rewrite Hct, app_length; cbn; lia].
      eapply t_turn; [| |exact Ht].
      + split; [by rewrite Hl|]. intros q Hq. unfold idb. apply Nat.eqb_neq. specialize (Hdone q Hq). cbn. lia.
      + cbn. destruct (l_vars st). eapply x_do; [|apply x_ret].
        unfold is_step, is_exec, is_Insert, is_Contain, i_get, go_get, i_set, bind. rewrite Hl, Hget. unfold ret. rewrite Hl. reflexivity. }
  intros len. destruct (Hgo len (loop_start (Some n) w tt) j [((j, k), tt)]) as (ts & st & H1 & H2 & H3).
  - exact Hw.
  - left.
  - intros e ->%elem_of_list_singleton. done.
  - intros q Hq. by apply elem_of_nil in Hq.
  - exists ts, st. done.
Qed.
Print Assumptions C224_forever_refuted.

(** [None] is an element that is not equal to itself.  The callback removes the element it is given: the two odd
    ones are produced once each and stay. *)
Definition ex_eqb (x y : option nat) : bool := match x, y with Some a, Some b => Nat.eqb a b | _, _ => false end.
Definition ex_odd : world (nat * option nat) unit := World {[ 0 := [((1, None), tt); ((2, Some 5), tt); ((3, None), tt)] ]} 1 0.
Definition ex_remove (x : option nat) (_ : unit)
  : prog (K := option nat) (V := unit) (C := set_call (option nat)) (R := set_res (option nat)) (bool * unit) :=
  PDo (SRemove (Some 0) x) (fun _ => PRet (true, tt)).
Example C223_example :
  (forall x y, ex_eqb x y = true -> ex_eqb y x = true) /\ (forall x y z, ex_eqb x y = true -> ex_eqb y z = true -> ex_eqb x z = true) /\
  numbers_ok ex_odd /\ (forall k s, never (SClear (Some 0)) (ex_remove k s)) /\
  exists ts w', is_range ex_eqb true (fun _ l => l) (Some 0) ex_remove ex_odd tt ts (true, tt) w' /\
    map (fun t => (t_key t).2) ts = [None; None; Some 5] /\
    content w' (Some 0) = [((1, None), tt); ((3, None), tt)].
Proof.
  split_and!.
  - intros [x|] [y|]; cbn; rewrite ?Nat.eqb_eq; congruence.
  - intros [x|] [y|] [z|]; cbn; rewrite ?Nat.eqb_eq; congruence.
  - intros [|n]; [vm_compute; repeat constructor; set_solver|]. unfold content, ex_odd. cbn [tables]. rewrite lookup_singleton_ne by done. constructor.
  - intros k s. cbn. done.
  - set (w1 := (is_step ex_eqb true (fun _ l => l) (SRemove (Some 0) None) ex_odd).2).
    set (w2 := (is_step ex_eqb true (fun _ l => l) (SRemove (Some 0) None) w1).2).
    set (w3 := (is_step ex_eqb true (fun _ l => l) (SRemove (Some 0) (Some 5)) w2).2).
    exists [Turn (3, None) tt [w1]; Turn (1, None) tt [w2]; Turn (2, Some 5) tt [w3]], w3. split_and!; [|reflexivity|vm_compute; reflexivity].
    eapply (r_end _ _ _ _ _ _ _ _ (loop_next idb (Some 0) (loop_next idb (Some 0) (loop_next idb (Some 0)
      (loop_start (Some 0) ex_odd tt) (3, None) [w1] w1 tt) (1, None) [w2] w2 tt) (2, Some 5) [w3] w3 tt)); [|vm_compute; reflexivity].
    eapply t_turn; [|eapply x_do; [reflexivity|apply x_ret]|]; [split; [apply elem_of_list_In; vm_compute; tauto|intros q Hq; by apply elem_of_nil in Hq]|].
    eapply t_turn; [|eapply x_do; [reflexivity|apply x_ret]|].
    { split; [apply elem_of_list_In; vm_compute; tauto|]. intros q Hq. change (q ∈ [(3, @None nat)]) in Hq. by apply elem_of_list_singleton in Hq as ->. }
    eapply t_turn; [|eapply x_do; [reflexivity|apply x_ret]|constructor].
    split; [apply elem_of_list_In; vm_compute; tauto|]. intros q Hq. change (q ∈ [(1, @None nat); (3, @None nat)]) in Hq.
    apply elem_of_cons in Hq as [->|Hq]; [done|]. by apply elem_of_list_singleton in Hq as ->.
Qed.
Example C224_example :
  let w : world (nat * option nat) unit := World {[ 0 := [((1, None), tt)] ]} 1 0 in
  content w (Some 0) = [((1, None), tt)] /\ ex_eqb None None = false /\
  exists ts st, turns idb (is_step ex_eqb true (fun _ l => l)) (Some 0) (fun q _ s => no_number (insert_again (Some 0) q.2 s))
    (loop_start (Some 0) w tt) ts st /\ length ts = 1000 /\ length (content (l_world st) (Some 0)) = 1001.
Proof.
  split; [vm_compute; reflexivity|]. split; [done|].
  apply (C224_forever_refuted _ ex_eqb true (fun _ l => l) 0 _ 1 None); [vm_compute; reflexivity|done].
Qed.
