(** Proofs about range loops whose body changes the maps. *)
From Coq Require Import ZifyBool ZifyNat.
From Verif Require Import Base GoMap GoMapSpec GoMapProofs GoMapIter GoMapIterSpec.

Scheme exec_mut := Minimality for exec Sort Prop
  with turns_mut := Minimality for turns Sort Prop
  with range_mut := Minimality for range Sort Prop.
Combined Scheme exec_all from exec_mut, turns_mut, range_mut.

Lemma last_app {A} (l1 l2 : list A) d : List.last (l1 ++ l2) d = List.last l2 (List.last l1 d).
Proof.
  induction l1 as [|x l1 IH] in d |- *; [done|]. simpl.
  destruct l1 as [|y l1]; simpl in *; [|exact (IH d)]. destruct l2 as [|z l2]; [done|].
  clear IH. revert z d. induction l2 as [|z2 l2 IH2]; intros z d; [done|]. simpl in *. apply (IH2 z2 d).
Qed.
Lemma last_cons' {A} (x : A) l d : List.last (x :: l) d = List.last l x.
Proof. exact (last_app [x] l d). Qed.

Section pr.
  Context {K V C R : Type} (eqb : K -> K -> bool).
  Context (step : C -> world K V -> R * world K V).
  Notation W := (world K V).
  Notation turn := (@turn K V).
  Notation loop := (@loop K V).

  Lemma worlds_last :
    (forall A (p : @prog K V C R A) w ws (a : A) w', exec eqb step p w ws a w' -> w' = List.last ws w) /\
    (forall S m (f : K -> V -> S -> @prog K V C R (bool * S)) st ts st', turns eqb step m f st ts st' ->
       l_world st' = List.last (worlds_in ts) (l_world st)) /\
    (forall S m (f : K -> V -> S -> @prog K V C R (bool * S)) w s ts r w', range eqb step m f w s ts r w' ->
       w' = List.last (worlds_in ts) w).
  Proof.
    apply exec_all; intros; try done.
    - by rewrite last_cons'.
    - rewrite last_app. unfold worlds_in in *. congruence.
    - unfold worlds_in in *. simpl in *. rewrite last_app. congruence.
    - subst. unfold worlds_in in *. rewrite map_app, concat_app, last_app. simpl.
      rewrite app_nil_r. simpl in *. congruence.
  Qed.

  Context (E : equivb eqb).
  Implicit Types (w : W) (ws : list W) (k : K) (m : ref) (t : turn) (ts : list turn).

  Lemma present_iff m k w : present eqb m k w = true <-> has_key eqb m k w.
  Proof.
    unfold present, has_key. destruct (mlookup eqb (content w m) k) as [v|] eqn:H.
    - split; [|done]. intros _. revert H. generalize (content w m). intros l.
      induction l as [|[k1 v1] l IH]; simpl; [done|]. destruct (eqb k1 k) eqn:H1.
      + intros _. exists k1, v1. split; [set_solver|done].
      + intros H. destruct (IH H) as (k' & v' & ? & ?). exists k', v'. split; [set_solver|done].
    - split; [done|]. intros (k' & v & H1 & H2).
      pose proof (proj1 (mlookup_none eqb E _ _) H (k', v) H1) as H3. simpl in H3. congruence.
  Qed.
  Lemma present_congr m k k' w : eqb k k' = true -> present eqb m k w = present eqb m k' w.
  Proof. intros H. unfold present. by rewrite (mlookup_proper eqb E (content w m) k k' H). Qed.
  Lemma has_key_congr m k k' w : eqb k k' = true -> has_key eqb m k w -> has_key eqb m k' w.
  Proof. intros H. by rewrite <- !present_iff, (present_congr m k k' w H). Qed.

  Local Arguments keep : simpl never.
  Local Arguments other_keys : simpl never.
  Lemma keep_elem m ws l k : k ∈ keep eqb m ws l <-> k ∈ l /\ forall w, w ∈ ws -> has_key eqb m k w.
  Proof.
    unfold keep. rewrite elem_of_list_In, filter_In, <- elem_of_list_In, forallb_forall.
    setoid_rewrite <- elem_of_list_In. setoid_rewrite present_iff. done.
  Qed.
  Lemma other_elem k l k' : k' ∈ other_keys eqb k l <-> k' ∈ l /\ eqb k' k = false.
  Proof.
    unfold other_keys. rewrite elem_of_list_In, filter_In, <- elem_of_list_In.
    by rewrite negb_true_iff.
  Qed.

  Lemma worlds_in_cons (t : turn) (ts : list turn) : worlds_in (t :: ts) = t_worlds t ++ worlds_in ts.
  Proof. done. Qed.

  (** What is to come is in the map, and is not done. *)
  Definition good {S} m (st : loop S) : Prop :=
    (forall k, k ∈ l_todo st -> has_key eqb m k (l_world st)) /\
    (forall k, k ∈ l_done st -> has_key eqb m k (l_world st)) /\
    (forall k k', k ∈ l_todo st -> k' ∈ l_done st -> eqb k' k = false).

  Lemma good_start {S} m w (s : S) : good m (loop_start m w s).
  Proof.
    split_and!; simpl.
    - intros k ([k' v] & -> & H)%elem_of_list_fmap. exists k', v. split; [done|]. apply (eq_refl' eqb E).
    - intros k H. by apply elem_of_nil in H.
    - intros k k' _ H. by apply elem_of_nil in H.
  Qed.

  Lemma has_key_last m k ws w : has_key eqb m k w -> (forall w', w' ∈ ws -> has_key eqb m k w') ->
    has_key eqb m k (List.last ws w).
  Proof.
    intros H1 H2. destruct ws as [|w1 ws]; [done|]. rewrite last_cons'.
    revert w1 H2. induction ws as [|w2 ws IH]; intros w1 H2; [apply H2; set_solver|].
    rewrite last_cons'. apply IH. set_solver.
  Qed.

  Lemma good_next {S} m (st : loop S) k v ws (s : S) :
    good m st -> may_come eqb m st k v -> good m (loop_next eqb m st k ws (List.last ws (l_world st)) s).
  Proof.
    intros (H1 & H2 & H3) (H4 & H5). split_and!; simpl.
    - intros k' [[Ha Hb]%other_elem Hc]%keep_elem. apply has_key_last; auto.
    - intros k' [Ha Hc]%keep_elem. apply has_key_last; auto.
      apply elem_of_cons in Ha as [->|Ha]; [|auto]. exists k, v. split; [done|]. apply (eq_refl' eqb E).
    - intros k1 k2 [[Ha Hb]%other_elem _]%keep_elem [Hc _]%keep_elem.
      apply elem_of_cons in Hc as [->|Hc]; [|auto]. by rewrite (eq_sym eqb E).
  Qed.

  Lemma good_turns {S} m (f : K -> V -> S -> @prog K V C R (bool * S)) st ts st' :
    turns eqb step m f st ts st' -> good m st -> good m st'.
  Proof.
    induction 1 as [|S m f st k v ws s' w' ts st' Hm Hx Ht IH]; [done|]. intros Hg. apply IH.
    apply worlds_last in Hx as ->. by eapply good_next.
  Qed.

  (** Every entry produced is in the map then. *)
  Lemma turns_sound {S} m (f : K -> V -> S -> @prog K V C R (bool * S)) st ts st' :
    turns eqb step m f st ts st' ->
    forall i t, ts !! i = Some t -> (t_key t, t_val t) ∈ content (world_at (l_world st) ts i) m.
  Proof.
    induction 1 as [|S m f st k v ws s' w' ts st' Hm Hx Ht IH]; [done|].
    intros i t Hi. destruct i as [|i]; simpl in Hi.
    - simplify_eq. simpl. apply Hm.
    - specialize (IH i t Hi). apply worlds_last in Hx as ->.
      unfold world_at in *. simpl. rewrite worlds_in_cons, last_app. exact IH.
  Qed.

  (** A key that stays is produced, or still to come. *)
  Lemma turns_complete {S} m (f : K -> V -> S -> @prog K V C R (bool * S)) st ts st' k k0 :
    turns eqb step m f st ts st' -> k0 ∈ l_todo st -> eqb k0 k = true ->
    (forall w, w ∈ worlds_in ts -> has_key eqb m k w) ->
    produced eqb k ts \/ exists k1, k1 ∈ l_todo st' /\ eqb k1 k = true.
  Proof.
    intros Ht. revert k0. induction Ht as [|S m f st k1 v ws s' w' ts st' Hm Hx Ht IH]; intros k0 Hk He Hw.
    { right. by exists k0. }
    destruct (eqb k1 k) eqn:H1.
    { left. exists (Turn k1 v ws). split; [set_solver|done]. }
    destruct (IH k0) as [(t & ? & ?)|H]; auto.
    - simpl. apply keep_elem. split.
      + apply other_elem. split; [done|]. destruct (eqb k0 k1) eqn:H2; [|done].
        rewrite (eq_congr eqb E k0 k1 k H2) in He. congruence.
      + intros w Hin. eapply has_key_congr; [rewrite (eq_sym eqb E); exact He|]. apply Hw.
        rewrite worlds_in_cons. set_solver.
    - intros w Hin. apply Hw. rewrite worlds_in_cons. set_solver.
    - left. exists t. split; [set_solver|done].
  Qed.

  (** The last turn may be one whose body stopped the loop. *)
  Definition tail_ok {S} m (st : loop S) (tl : list turn) : Prop :=
    tl = [] \/ exists t, tl = [t] /\ may_come eqb m st (t_key t) (t_val t).

  (** A key that is done and stays is not produced again. *)
  Lemma turns_once {S} m (f : K -> V -> S -> @prog K V C R (bool * S)) st ts st' tl k0 :
    turns eqb step m f st ts st' -> tail_ok m st' tl -> k0 ∈ l_done st ->
    forall i t, (ts ++ tl) !! i = Some t -> eqb k0 (t_key t) = true ->
    ~ (forall w, w ∈ worlds_in (take i (ts ++ tl)) -> has_key eqb m k0 w).
  Proof.
    intros Ht Htl Hk i t Hi He Hw. revert i Hi Hw.
    induction Ht as [|S m f st k1 v ws s' w' ts st' Hm Hx Ht IH]; intros i Hi Hw; simpl in Hi.
    { destruct Htl as [->|(t' & -> & _ & Hm)]; [done|]. destruct i as [|i]; [|done].
      simpl in Hi. simplify_eq. rewrite (Hm k0 Hk) in He. done. }
    destruct i as [|i]; simpl in Hi.
    - simplify_eq. simpl in *. destruct Hm as [_ Hm]. rewrite (Hm k0 Hk) in He. done.
    - apply (IH Htl) with (i := i); auto.
      + simpl. apply keep_elem. split; [set_solver|]. intros w Hin. apply Hw.
        simpl. rewrite worlds_in_cons. set_solver.
      + intros w Hin. apply Hw. simpl. rewrite worlds_in_cons. set_solver.
  Qed.

  Lemma turns_between {S} m (f : K -> V -> S -> @prog K V C R (bool * S)) st ts st' tl :
    turns eqb step m f st ts st' -> tail_ok m st' tl ->
    forall i j t t', i < j -> (ts ++ tl) !! i = Some t -> (ts ++ tl) !! j = Some t' ->
    eqb (t_key t) (t_key t') = true ->
    ~ (forall w, w ∈ worlds_between (ts ++ tl) i j -> has_key eqb m (t_key t) w).
  Proof.
    intros Ht Htl.
    induction Ht as [|S m f st k1 v ws s' w' ts st' Hm Hx Ht IH]; intros i j t t' Hij Hi Hj He.
    { destruct Htl as [->|(t1 & -> & _)]; [done|]. destruct j as [|j]; [lia|done]. }
    destruct j as [|j]; [lia|]. simpl in Hj. destruct i as [|i]; simpl in Hi.
    - simplify_eq. simpl in *. unfold worlds_between. simpl. rewrite worlds_in_cons. simpl. intros Hw.
      eapply (turns_once m f _ ts st' tl k1 Ht Htl); [| exact Hj|exact He|].
      + simpl. apply keep_elem. split; [set_solver|]. intros w Hin. apply Hw. set_solver.
      + intros w Hin. apply Hw. set_solver.
    - unfold worlds_between. simpl. apply (IH Htl i j t t'); auto. lia.
  Qed.

  Lemma turns_tail_sound {S} m (f : K -> V -> S -> @prog K V C R (bool * S)) st ts st' tl :
    turns eqb step m f st ts st' -> tail_ok m st' tl ->
    forall i t, (ts ++ tl) !! i = Some t ->
      (t_key t, t_val t) ∈ content (world_at (l_world st) (ts ++ tl) i) m.
  Proof.
    intros Ht Htl i t Hi. destruct (decide (i < length ts)) as [Hl|Hl].
    - rewrite lookup_app_l in Hi by done.
      unfold world_at. rewrite take_app_le by lia. exact (turns_sound _ _ _ _ _ Ht i t Hi).
    - rewrite lookup_app_r in Hi by lia. destruct Htl as [->|(t' & -> & Hm & _)]; [done|].
      destruct (i - length ts) as [|] eqn:Hd; [|done]. simpl in Hi. simplify_eq.
      unfold world_at. replace i with (length ts) by lia. rewrite take_app.
      destruct worlds_last as (_ & Hl2 & _). rewrite (Hl2 _ _ _ _ _ _ Ht) in Hm. exact Hm.
  Qed.

  (** The turns of a whole Range. *)
  Lemma range_turns {S} m (f : K -> V -> S -> @prog K V C R (bool * S)) w s ts r w' :
    range eqb step m f w s ts r w' ->
    exists ts0 tl st, ts = ts0 ++ tl /\ turns eqb step m f (loop_start m w s) ts0 st /\ tail_ok m st tl /\
      (r.1 = true -> tl = [] /\ l_todo st = [] /\ r.2 = l_vars st /\ w' = l_world st) /\
      (r.1 = false -> exists k v ws, tl = [Turn k v ws] /\
          exec eqb step (f k v (l_vars st)) (l_world st) ws r w').
  Proof.
    destruct 1 as [S m f w s ts st Ht Hn|S m f w s ts st k v ws s' w' Ht Hm Hx].
    - exists ts, [], st. rewrite app_nil_r. split_and!; try done. by left.
    - exists ts, [Turn k v ws], st. split_and!; try done.
      + right. by exists (Turn k v ws).
      + intros _. by exists k, v, ws.
  Qed.

  Lemma worlds_in_app ts1 ts2 : worlds_in (ts1 ++ ts2) = worlds_in ts1 ++ worlds_in ts2.
  Proof. unfold worlds_in. by rewrite map_app, concat_app. Qed.
  (** Where the states are in the list of all states. *)
  Lemma world_at_lookup w ts i : i <= length ts ->
    (w :: worlds_in ts) !! length (worlds_in (take i ts)) = Some (world_at w ts i).
  Proof.
    intros _. unfold world_at.
    replace (worlds_in ts) with (worlds_in (take i ts) ++ worlds_in (drop i ts))
      by (by rewrite <- worlds_in_app, take_drop).
    generalize (worlds_in (take i ts)) as l1. intros l1. revert w.
    induction l1 as [|w1 l1 IH]; intros w; [done|]. rewrite last_cons'. simpl. apply (IH w1).
  Qed.
  Lemma between_lookup w0 ts i j w : i <= j -> j <= length ts -> w ∈ worlds_between ts i j ->
    exists p, p <= length (worlds_in (take j ts)) /\ (w0 :: worlds_in ts) !! p = Some w.
  Proof.
    intros Hij Hj Hw. unfold worlds_between in Hw.
    assert (take j ts = take i ts ++ take (j - i) (drop i ts)) as Hs.
    { replace j with (i + (j - i)) at 1 by lia. by rewrite <- take_take_drop. }
    apply elem_of_list_lookup_1 in Hw as [q Hq].
    exists (Datatypes.S (length (worlds_in (take i ts)) + q)).
    assert (Hq' := lookup_lt_Some _ _ _ Hq). rewrite Hs, worlds_in_app, app_length. split; [lia|].
    assert (worlds_in ts = worlds_in (take i ts) ++ worlds_in (take (j - i) (drop i ts)) ++
              worlds_in (drop j ts)) as Hall.
    { rewrite <- !worlds_in_app, app_assoc, <- Hs, take_drop. done. }
    simpl. rewrite Hall, lookup_app_r by lia.
    rewrite lookup_app_l by lia. rewrite <- Hq. f_equal. lia.
  Qed.

  Lemma no_new_mono m L : no_new_key eqb m L ->
    forall a b w1 w2, L !! a = Some w1 -> L !! b = Some w2 -> a <= b ->
    forall k, has_key eqb m k w2 -> has_key eqb m k w1.
  Proof.
    intros HL a b w1 w2 Ha Hb Hle k. revert w2 Hb. induction Hle as [|b Hle IH]; intros w2 Hb Hk.
    - congruence.
    - destruct (L !! b) as [w3|] eqn:H3.
      + apply (IH w3); [done|]. eapply HL; [exact H3|exact Hb|done].
      + apply lookup_lt_Some in Hb. apply lookup_ge_None in H3. lia.
  Qed.

  (** Without new keys, no key comes twice, and all were there at the start. *)
  Lemma turns_distinct {S} m (f : K -> V -> S -> @prog K V C R (bool * S)) st ts st' tl :
    turns eqb step m f st ts st' -> tail_ok m st' tl ->
    no_new_key eqb m (l_world st :: worlds_in (ts ++ tl)) ->
    (forall i j t t', (ts ++ tl) !! i = Some t -> (ts ++ tl) !! j = Some t' ->
       eqb (t_key t) (t_key t') = true -> i = j) /\
    (forall t, t ∈ ts ++ tl -> has_key eqb m (t_key t) (l_world st)).
  Proof.
    intros Ht Htl Hn. set (TS := ts ++ tl) in *.
    assert (Hsnd : forall i t, TS !! i = Some t -> has_key eqb m (t_key t) (world_at (l_world st) TS i)).
    { intros i t Hi. exists (t_key t), (t_val t). split; [|apply (eq_refl' eqb E)].
      exact (turns_tail_sound _ _ _ _ _ _ Ht Htl i t Hi). }
    assert (Hno : forall i j t t', i < j -> TS !! i = Some t -> TS !! j = Some t' ->
              eqb (t_key t) (t_key t') = true -> False).
    { intros i j t t' Hij Hi Hj He.
      apply (turns_between _ _ _ _ _ _ Ht Htl i j t t' Hij Hi Hj He). intros w Hw.
      assert (Hj2 := lookup_lt_Some _ _ _ Hj).
      destruct (between_lookup (l_world st) TS i j w) as (p & Hp & Hl); [lia|lia|done|].
      eapply (no_new_mono m _ Hn); [exact Hl| |exact Hp|].
      - apply world_at_lookup. lia.
      - eapply has_key_congr; [|exact (Hsnd j t' Hj)]. by rewrite (eq_sym eqb E). }
    split.
    - intros i j t t' Hi Hj He. destruct (Nat.lt_trichotomy i j) as [H|[H|H]]; [|done|].
      + exfalso. eauto.
      + exfalso. eapply (Hno j i t' t); eauto. by rewrite (eq_sym eqb E).
    - intros t [i Hi]%elem_of_list_lookup_1.
      assert (Hi2 := lookup_lt_Some _ _ _ Hi).
      eapply (no_new_mono m _ Hn 0); [done| |apply Nat.le_0_l|exact (Hsnd i t Hi)].
      apply world_at_lookup. lia.
  Qed.

  Lemma keys_ok_of (l : list (K * V)) :
    (forall i j x y, l !! i = Some x -> l !! j = Some y -> eqb x.1 y.1 = true -> i = j) -> keys_ok eqb l.
  Proof.
    induction l as [|[k v] l IH]; intros H; simpl; [done|]. split.
    - intros e [i Hi]%elem_of_list_lookup_1. destruct (eqb k e.1) eqn:He; [|done].
      specialize (H 0 (Datatypes.S i) (k, v) e eq_refl Hi He). done.
    - apply IH. intros i j x y Hi Hj He.
      specialize (H (Datatypes.S i) (Datatypes.S j) x y Hi Hj He). lia.
  Qed.

  Lemma turns_bound {S} m (f : K -> V -> S -> @prog K V C R (bool * S)) st ts st' tl :
    keys_ok eqb (content (l_world st) m) ->
    turns eqb step m f st ts st' -> tail_ok m st' tl ->
    no_new_key eqb m (l_world st :: worlds_in (ts ++ tl)) ->
    length (ts ++ tl) <= length (content (l_world st) m).
  Proof.
    intros Hk Ht Htl Hn. destruct (turns_distinct _ _ _ _ _ _ Ht Htl Hn) as [H1 H2].
    replace (length (ts ++ tl)) with (length (entries_of (ts ++ tl))) by apply map_length. apply (submap_length eqb E); [|done|].
    - apply keys_ok_of. intros i j x y. unfold entries_of. rewrite !list_lookup_fmap.
      intros (t & Hi & ->)%fmap_Some (t' & Hj & ->)%fmap_Some He. eauto.
    - intros k Hl Hf.
      assert (exists t, t ∈ ts ++ tl /\ eqb (t_key t) k = true) as (t & Hin & He).
      { clear -Hl. induction (ts ++ tl) as [|t l IH]; simpl in Hl; [done|].
        destruct (eqb (t_key t) k) eqn:He.
        - exists t. split; [set_solver|done].
        - destruct (IH Hl) as (t' & ? & ?). exists t'. split; [set_solver|done]. }
      assert (has_key eqb m k (l_world st)) as Hh by (eapply has_key_congr; [exact He|auto]).
      apply present_iff in Hh. unfold present in Hh. by rewrite Hf in Hh.
  Qed.

  (** A loop that has something to do can go on. *)
  Lemma turns_progress {S} m (st : loop S) : good m st -> l_todo st <> [] ->
    exists k v, may_come eqb m st k v.
  Proof.
    intros (H1 & _ & H3) Hn. destruct (l_todo st) as [|k0 l] eqn:Hl; [done|].
    destruct (H1 k0) as (k & v & Hin & He); [rewrite ?Hl; set_solver|].
    exists k, v. split; [done|]. intros k' Hk'.
    specialize (H3 k0 k' ltac:(set_solver) Hk').
    destruct (eqb k' k) eqn:H; [|done]. rewrite (eq_trans' eqb E k' k k0 H He) in H3. done.
  Qed.

  Lemma range_complete {S} m (f : K -> V -> S -> @prog K V C R (bool * S)) w s ts r w' k :
    range eqb step m f w s ts r w' -> r.1 = true ->
    (forall w1, w1 ∈ w :: worlds_in ts -> has_key eqb m k w1) -> produced eqb k ts.
  Proof.
    intros (ts0 & tl & st & -> & Ht & Htl & Hr & _)%range_turns Hr1 Hw.
    destruct (Hr Hr1) as (-> & Htd & _ & _). rewrite app_nil_r in *.
    destruct (Hw w ltac:(set_solver)) as (k0 & v0 & Hin & He).
    destruct (turns_complete _ _ _ _ _ k k0 Ht) as [H|(k1 & Hk1 & _)]; auto.
    - simpl. apply elem_of_list_fmap. by exists (k0, v0).
    - intros w1 H1. apply Hw. set_solver.
    - rewrite Htd in Hk1. by apply elem_of_nil in Hk1.
  Qed.
End pr.
