(** C106: Range of lhashmap with a callback that calls methods of the map. *)
From Verif Require Import Base GoMap DllistModel LHashMapModel LHashMapSpec LHashMapProofs LHashMapProperties LHashMapIterSpec LHashMapIter.

(** Whatever methods of the map the callback calls, the loop is a sequence of turns in which its place
    moves with the entry it stands at ([shift]); and all calls together are a history of the map, so a
    Range within the callback counts as calls too. *)
Theorem C106_lhashmap_Range_exact :
  forall (K V : Type) (eqb : K -> K -> bool) (upd : bool) (zero_k : K) (zero : V), per eqb ->
  forall (A : Type) (f : K -> V -> A -> M (lhm K V) (bool * A)) R fuel w a a' w',
  makes eqb upd zero_k zero f R -> lh_reached eqb upd zero_k zero w -> lh_Range fuel f a w = Ok (a', w') ->
  (exists h, lh_steps eqb upd zero w h w') /\
  match labs zero_k zero w with
  | [] => a' = a /\ w' = w
  | x :: _ => exists ts, turns eqb upd zero_k zero f w (At 0) x a ts a' w' /\ forall t, t ∈ ts -> R (t_entry t) (t_calls t)
  end.
Proof. intros K V eqb upd zero_k zero P A f R fuel w a a' w' H1 H2 H3. by apply (Range_turns eqb upd zero_k zero P f R fuel w a a' w'). Qed.
Print Assumptions C106_lhashmap_Range_exact.
(** Range does not panic unless the callback does. *)
Theorem C106_lhashmap_Range_no_panic :
  forall (K V : Type) (eqb : K -> K -> bool) (upd : bool) (zero_k : K) (zero : V), per eqb ->
  forall (A : Type) (f : K -> V -> A -> M (lhm K V) (bool * A)) R fuel w a,
  makes eqb upd zero_k zero f R -> (forall x a w, lh_reached eqb upd zero_k zero w -> f x.1 x.2 a w <> Panic) ->
  lh_reached eqb upd zero_k zero w -> lh_Range fuel f a w <> Panic.
Proof. intros K V eqb upd zero_k zero P A f R fuel w a. by apply Range_no_panic. Qed.
Print Assumptions C106_lhashmap_Range_no_panic.
(** If the callback never loads or stores the key it is given, then the entries it is given are some
    of those there were at the start, with the values they had then, each once and in the same order;
    and Range returns, if the callback does. *)
Theorem C106_lhashmap_Range_in_order :
  forall (K V : Type) (eqb : K -> K -> bool) (upd : bool) (zero_k : K) (zero : V), per eqb ->
  forall (A : Type) (f : K -> V -> A -> M (lhm K V) (bool * A)) w x a ts a' w',
  lh_reached eqb upd zero_k zero w -> head (labs zero_k zero w) = Some x ->
  turns eqb upd zero_k zero f w (At 0) x a ts a' w' ->
  (forall t, t ∈ ts -> forall c, c ∈ (t_calls t).*1 -> ~ refreshes eqb (t_entry t).1 c) ->
  (t_entry <$> ts) `sublist_of` labs zero_k zero w.
Proof.
  intros K V eqb upd zero_k zero P A f w x a ts a' w' Hr Hx Ht Hn. destruct (labs zero_k zero w) as [|y s] eqn:E; [done|]. injection Hx as ->.
  pose proof (turns_sublist eqb upd zero_k zero P f w (At 0) x a ts a' w' Hr Ht) as H. rewrite E in H. cbn [to_come stands] in H.
  change (drop 1 (x :: s)) with s in H. apply H; [|done]. exists x.2. by destruct x.
Qed.
Print Assumptions C106_lhashmap_Range_in_order.
Theorem C106_lhashmap_Range_ends :
  forall (K V : Type) (eqb : K -> K -> bool) (upd : bool) (zero_k : K) (zero : V), per eqb ->
  forall (A : Type) (f : K -> V -> A -> M (lhm K V) (bool * A)) fuel w a,
  makes eqb upd zero_k zero f (fun x h => forall c, c ∈ h.*1 -> ~ refreshes eqb x.1 c) ->
  (forall x a w, lh_reached eqb upd zero_k zero w -> exists r w', f x.1 x.2 a w = Ok (r, w')) ->
  lh_reached eqb upd zero_k zero w -> length (labs zero_k zero w) < fuel ->
  exists a' w', lh_Range fuel f a w = Ok (a', w').
Proof. intros K V eqb upd zero_k zero P A f fuel w a. by apply Range_ends. Qed.
Print Assumptions C106_lhashmap_Range_ends.
(** If the callback does not call Clear, every entry it is given is in the map when it is given. *)
Theorem C106_lhashmap_Range_in_map :
  forall (K V : Type) (eqb : K -> K -> bool) (upd : bool) (zero_k : K) (zero : V), per eqb ->
  forall (A : Type) (f : K -> V -> A -> M (lhm K V) (bool * A)) w x a ts a' w',
  head (labs zero_k zero w) = Some x -> turns eqb upd zero_k zero f w (At 0) x a ts a' w' ->
  (forall t, t ∈ ts -> LClear ∉ (t_calls t).*1) ->
  forall t, t ∈ ts -> t_entry t ∈ labs zero_k zero (t_map t).
Proof.
  intros K V eqb upd zero_k zero P A f w x a ts a' w' Hx Ht Hn. apply (turns_in_map eqb upd zero_k zero f w (At 0) x a ts a' w' Ht); [done| |done].
  destruct (labs zero_k zero w); [done|]. injection Hx as ->. by left.
Qed.
Print Assumptions C106_lhashmap_Range_in_map.
(** An entry that none of the calls has to do with is given to the callback, if the callback always
    asks to go on and never removes the key it is given. *)
Theorem C106_lhashmap_Range_untouched :
  forall (K V : Type) (eqb : K -> K -> bool) (upd : bool) (zero_k : K) (zero : V), per eqb ->
  forall (A : Type) (f : K -> V -> A -> M (lhm K V) (bool * A)) w x a ts a' w' y,
  lh_reached eqb upd zero_k zero w -> head (labs zero_k zero w) = Some x ->
  turns eqb upd zero_k zero f w (At 0) x a ts a' w' ->
  (forall x a w b a1 w1, lh_reached eqb upd zero_k zero w -> f x.1 x.2 a w = Ok ((b, a1), w1) -> b = true) ->
  (forall t, t ∈ ts -> forall c, c ∈ (t_calls t).*1 -> ~ removes eqb (t_entry t).1 c /\ ~ touches eqb y.1 c) ->
  y ∈ labs zero_k zero w -> y ∈ (t_entry <$> ts).
Proof.
  intros K V eqb upd zero_k zero P A f w x a ts a' w' y Hr Hx Ht Hg Hn Hy. apply elem_of_list_lookup in Hy as [j Hj].
  apply (turns_all eqb upd zero_k zero P f y w (At 0) x a ts a' w' Hr Ht Hg Hn 0 j); [done| |done|lia].
  destruct (labs zero_k zero w); [done|]. by injection Hx as ->.
Qed.
Print Assumptions C106_lhashmap_Range_untouched.
(** C106 is false of the code when the callback calls Clear: the map is empty from then on, but Range
    goes on through the entries it had. *)
Theorem C106_lhashmap_Range_Clear_refuted :
  forall (K V : Type) (eqb : K -> K -> bool) (upd : bool) (zero_k : K) (zero : V), per eqb ->
  forall fuel w, lh_reached eqb upd zero_k zero w -> length (labs zero_k zero w) < fuel ->
  exists w', lh_Range fuel (fun k v a => lh_Clear ;;; note (fun _ _ => true) k v a) [] w = Ok (labs zero_k zero w, w') /\
    labs zero_k zero w' = [] /\
    match labs zero_k zero w with
    | [] => True
    | x :: _ => exists ts, turns eqb upd zero_k zero (fun k v a => lh_Clear ;;; note (fun _ _ => true) k v a) w (At 0) x [] ts (labs zero_k zero w) w' /\
        forall t, t ∈ tail ts -> labs zero_k zero (t_map t) = []
    end.
Proof.
  intros K V eqb upd zero_k zero P fuel w Hr Hlen. change (fun k v a => lh_Clear ;;; note (fun _ _ => true) k v a) with (@clearing K V).
  destruct (Range_ends eqb upd zero_k zero P clearing fuel w []) as (a' & w' & E).
  - intros x a r w1 w2 H1 H2. destruct (clearing_makes eqb upd zero_k zero P x a r w1 w2 H1 H2) as (h & Hh & Hc). exists h. split; [done|].
    unfold just_clear in Hc. rewrite Hc. intros c Hc'. apply elem_of_list_singleton in Hc' as ->. intros [].
  - intros x a w1 H1. destruct (clearing_ok eqb upd zero_k zero P x a w1 H1) as (w2 & H2 & _). by eexists _, _.
  - done.
  - done.
  - exists w'. destruct (Range_turns eqb upd zero_k zero P clearing just_clear fuel w [] a' w' (clearing_makes eqb upd zero_k zero P) Hr E) as [_ H].
    destruct (labs zero_k zero w) as [|x s] eqn:El.
    + destruct H as [-> ->]. done.
    + destruct H as (ts & Ht & Hc). destruct (clearing_turns eqb upd zero_k zero P w (At 0) x [] ts a' w' Hr Ht Hc) as (Ha & Hw & Hts); [done|].
      rewrite El in Ha. cbn in Ha. rewrite ?drop_0 in Ha. subst a'. split; [done|]. split; [done|]. by exists ts.
Qed.
Print Assumptions C106_lhashmap_Range_Clear_refuted.

(** The map of the examples has the entries (4, 40), (2, 21), (1, 10).  A callback that stores a new key
    sees none of the new ones; one that removes the next key skips it; one that loads the last key
    from the first misses it, and one that stores the key it is given goes on until it stops itself. *)
Definition ex_range (f : nat -> nat -> list (nat * nat) -> M (lhm nat nat) (bool * list (nat * nat))) (l l' : list (nat * nat)) : Prop :=
  match lh_run Nat.eqb false 0 0 ex_cs with
  | Some (_, w) => lh_reached Nat.eqb false 0 0 w /\
      match lh_Range 9 f [] w with Ok (seen, w') => seen = l /\ labs 0 0 w' = l' | _ => False end
  | None => False end.
Lemma ex_range_intro f l l' :
  match lh_run Nat.eqb false 0 0 ex_cs with
  | Some (_, w) => match lh_Range 9 f [] w with Ok (seen, w') => seen = l /\ labs 0 0 w' = l' | _ => False end
  | None => False end -> ex_range f l l'.
Proof.
  unfold ex_range. destruct (lh_run Nat.eqb false 0 0 ex_cs) as [[rs w]|] eqn:E; [|done]. intros H. split; [by eapply run_reached|done].
Qed.
Example C106_example_new :
  ex_range (fun k v a => lh_Store Nat.eqb false (k + 10) v ;;; note (fun _ _ => true) k v a)
    [(4, 40); (2, 21); (1, 10)] [(11, 10); (12, 21); (14, 40); (4, 40); (2, 21); (1, 10)].
Proof. apply ex_range_intro. vm_compute. done. Qed.
Example C106_example_skip :
  ex_range (fun k v a => lh_Remove Nat.eqb 2 ;;; note (fun _ _ => true) k v a) [(4, 40); (1, 10)] [(4, 40); (1, 10)].
Proof. apply ex_range_intro. vm_compute. done. Qed.
Example C106_example_missed :
  ex_range (fun k v a => lh_Load Nat.eqb 0 1 ;;; note (fun _ _ => true) k v a) [(4, 40); (2, 21)] [(1, 10); (4, 40); (2, 21)].
Proof. apply ex_range_intro. vm_compute. done. Qed.
Example C106_example_again :
  ex_range (fun k v a => lh_Store Nat.eqb false k (v + 1) ;;; note (fun _ v => Nat.ltb v 42) k v a)
    [(4, 40); (2, 21); (4, 41); (2, 22); (4, 42)] [(4, 43); (2, 23); (1, 10)].
Proof. apply ex_range_intro. vm_compute. done. Qed.
Example C106_example_clear :
  ex_range (fun k v a => lh_Clear ;;; note (fun _ _ => true) k v a) [(4, 40); (2, 21); (1, 10)] [].
Proof. apply ex_range_intro. vm_compute. done. Qed.
Example C106_example_makes :
  makes Nat.eqb false 0 0 (fun k v a => lh_Remove Nat.eqb 2 ;;; note (fun _ _ => true) k v a) (fun _ h => h.*1 = [LRemove 2]).
Proof.
  intros x a r w w' Hr. unfold bind. intros Hf. destruct (lh_Remove Nat.eqb 2 w) as [[u w1]| |] eqn:E; [|done..].
  unfold note, ret in Hf. injection Hf as <- <-. exists [(LRemove 2, LUnit)]. split; [|done]. econstructor; [|constructor].
  cbn. unfold lmap, bind. by rewrite E.
Qed.
