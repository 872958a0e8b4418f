(** Range loops whose body leaves the map alone, or deletes the entry it is given. *)
From Coq Require Import ZifyBool ZifyNat.
From Verif Require Import Base GoMap GoMapSpec GoMapProofs GoMapIter GoMapIterSpec GoMapIterProofs.

Section lists.
  Context {K V : Type} (eqb : K -> K -> bool) (E : equivb eqb).
  Implicit Types l : list (K * V).

  Lemma keys_ok_NoDup l : keys_ok eqb l -> NoDup l.
  Proof.
    induction l as [|[k v] l IH]; simpl; [constructor|]. intros [H1 H2]. constructor; [|auto].
    intros Hin. specialize (H1 _ Hin). simpl in H1. by rewrite (eq_refl' eqb E) in H1.
  Qed.
  Lemma keys_ok_same l e1 e2 : keys_ok eqb l -> e1 ∈ l -> e2 ∈ l -> eqb e1.1 e2.1 = true -> e1 = e2.
  Proof.
    intros Hk [i Hi]%elem_of_list_lookup_1 [j Hj]%elem_of_list_lookup_1 He.
    rewrite (keys_ok_inj eqb E l Hk i j e1 e2 Hi Hj He) in Hi. congruence.
  Qed.
  Lemma keys_ok_sub l1 l2 : keys_ok eqb l1 -> (forall e, e ∈ l1 -> e ∈ l2) -> exists l, l2 ≡ₚ l1 ++ l.
  Proof.
    intros Hk Hs. apply keys_ok_NoDup in Hk. apply submseteq_Permutation. apply NoDup_submseteq; done.
  Qed.
  Lemma mdel_elem l k e : keys_ok eqb l -> e ∈ mdel eqb l k <-> e ∈ l /\ eqb k e.1 = false.
  Proof.
    induction l as [|[k1 v1] l IH]; simpl.
    - intros _. split; [intros H; by apply elem_of_nil in H|]. intros [H _]. by apply elem_of_nil in H.
    - intros [H1 H2]. destruct (eqb k1 k) eqn:H.
      + split.
        * intros He. split; [set_solver|]. rewrite <- (eq_congr eqb E k1 k) by done. auto.
        * intros [[->|He]%elem_of_cons Hf]; [|done]. simpl in Hf. rewrite (eq_sym eqb E) in Hf. congruence.
      + rewrite elem_of_cons, IH, elem_of_cons by done. split.
        * intros [->|[? ?]]; [|tauto]. split; [by left|]. simpl. by rewrite (eq_sym eqb E).
        * tauto.
  Qed.
End lists.

Section inv.
  Context {K V C R : Type} (eqb : K -> K -> bool).
  Context (step : C -> world K V -> R * world K V).
  Lemma exec_inv A (p : @prog K V C R A) w ws a w' : exec eqb step p w ws a w' ->
    match p with
    | PRet a' => ws = [] /\ a = a' /\ w' = w
    | PDo c k => exists r w1 ws', step c w = (r, w1) /\ ws = w1 :: ws' /\ exec eqb step (k r) w1 ws' a w'
    | PRange m f s k => True
    end.
  Proof. destruct 1; eauto 10. Qed.
End inv.

(** Bodies that leave the entries of the map as they are. *)
Local Arguments keep : simpl never.
Local Arguments other_keys : simpl never.
Section same.
  Context {K V C R : Type} (eqb : K -> K -> bool).
  Context (step : C -> world K V -> R * world K V).
  Context (E : equivb eqb).
  Notation W := (world K V).

  (** [f] does what [g] does, in one step, and leaves [m] as it is. *)
  Definition acts_as {S} m (f : K -> V -> S -> @prog K V C R (bool * S))
      (g : K -> V -> S -> M W (bool * S)) : Prop :=
    forall k v s w, exists r w', g k v s w = Ok (r, w') /\ content w' m ≡ₚ content w m /\
      forall ws r1 w1, exec eqb step (f k v s) w ws r1 w1 <-> ws = [w'] /\ r1 = r /\ w1 = w'.

  Definition gbody {S} (g : K -> V -> S -> M W (bool * S)) (e : K * V) : S -> M W (bool * S) :=
    g (fst e) (snd e).

  Lemma same_turns {S} m (f : K -> V -> S -> @prog K V C R (bool * S)) st ts st' :
    turns eqb step m f st ts st' -> forall g, acts_as m f g ->
    (forall w, w ∈ worlds_in ts -> content w m ≡ₚ content (l_world st) m) /\
    (forall rest, for_while (entries_of ts ++ rest) (gbody g) (l_vars st) (l_world st) =
       for_while rest (gbody g) (l_vars st') (l_world st')).
  Proof.
    induction 1 as [|S m f st k v ws s' w' ts st' Hm Hx Ht IH]; intros g Hg.
    - split; [|done]. intros w Hw. by apply elem_of_nil in Hw.
    - destruct (Hg k v (l_vars st) (l_world st)) as (r & w2 & Hgo & Hc & Hex).
      apply Hex in Hx as (-> & <- & ->). destruct (IH g Hg) as [IH1 IH2]. simpl in IH1, IH2. split.
      + intros w Hw. rewrite worlds_in_cons in Hw. simpl in Hw.
        apply elem_of_cons in Hw as [->|Hw]; [done|]. by rewrite (IH1 w Hw).
      + intros rest. simpl. unfold bind, gbody at 1. simpl. rewrite Hgo. simpl. apply IH2.
  Qed.

  Lemma same_no_new m (w : W) ws : (forall w1, w1 ∈ ws -> content w1 m ≡ₚ content w m) ->
    no_new_key eqb m (w :: ws).
  Proof.
    intros H i w1 w2 H1 H2 k (k' & v & Hin & He). exists k', v. split; [|done].
    simpl in H2. apply elem_of_list_lookup_2 in H1, H2. rewrite (H w2 H2) in Hin.
    apply elem_of_cons in H1 as [->|H1]; [done|]. by rewrite (H w1 H1).
  Qed.

  Lemma same_range {S} m (f : K -> V -> S -> @prog K V C R (bool * S)) g w s ts r w' :
    keys_ok eqb (content w m) -> acts_as m f g ->
    range eqb step m f w s ts r w' ->
    exists rest, content w m ≡ₚ entries_of ts ++ rest /\ (r.1 = true -> rest = []) /\
      for_while (entries_of ts ++ rest) (gbody g) s w = Ok (r, w').
  Proof.
    intros Hk Hg Hr. pose proof (range_complete eqb step E m f w s ts r w') as Hcomp.
    destruct (range_turns eqb step m f w s ts r w' Hr) as (ts0 & tl & st & -> & Ht & Htl & Ht1 & Ht2).
    destruct (same_turns _ _ _ _ _ Ht g Hg) as [Hw Hf]. simpl in Hw, Hf.
    assert (Hlast : forall k v ws r1 w1, tl = [Turn k v ws] ->
      exec eqb step (f k v (l_vars st)) (l_world st) ws r1 w1 ->
      ws = [w1] /\ content w1 m ≡ₚ content (l_world st) m /\
      g k v (l_vars st) (l_world st) = Ok (r1, w1)).
    { intros k v ws r1 w1 _ Hx. destruct (Hg k v (l_vars st) (l_world st)) as (r2 & w2 & Hgo & Hc & Hex).
      pose proof (proj1 (Hex _ _ _) Hx) as (Hx1 & Hx2 & Hx3). rewrite Hx1, Hx2, Hx3. done. }
    assert (Hst : content (l_world st) m ≡ₚ content w m).
    { destruct (worlds_last eqb step) as (_ & Hl & _). rewrite (Hl _ _ _ _ _ _ Ht). simpl.
      destruct (worlds_in ts0) as [|w1 l] eqn:Hws; [done|].
      apply Hw. rewrite last_cons'. clear. revert w1. induction l as [|w2 l IH]; intros w1; [set_solver|].
      rewrite last_cons'. specialize (IH w2). set_solver. }
    assert (Hw2 : forall w1, w1 ∈ worlds_in (ts0 ++ tl) -> content w1 m ≡ₚ content w m).
    { intros w1. rewrite worlds_in_app. intros [H1|H1]%elem_of_app; [auto|].
      destruct (r.1) eqn:Hr1.
      - destruct (Ht1 eq_refl) as (-> & _). by apply elem_of_nil in H1.
      - destruct (Ht2 eq_refl) as (k & v & ws & -> & Hx).
        destruct (Hlast k v ws r w' eq_refl Hx) as (-> & Hc & _). simpl in H1.
        apply elem_of_list_singleton in H1 as ->. by rewrite Hc. }
    assert (Hnn := same_no_new m w _ Hw2).
    destruct (turns_distinct eqb step E m f _ _ _ tl Ht Htl Hnn) as [Hd1 Hd2].
    assert (Hent : forall e, e ∈ entries_of (ts0 ++ tl) -> e ∈ content w m).
    { intros e (t & -> & [i Hi]%elem_of_list_lookup_1)%elem_of_list_fmap.
      assert (H3 := turns_tail_sound eqb step m f _ _ _ tl Ht Htl i t Hi).
      assert (Hi2 := lookup_lt_Some _ _ _ Hi).
      assert (H4 := world_at_lookup w (ts0 ++ tl) i ltac:(lia)).
      apply elem_of_list_lookup_2, elem_of_cons in H4 as [H4|H4]; simpl in *.
      - by rewrite H4 in H3.
      - by rewrite (Hw2 _ H4) in H3. }
    assert (Hok : keys_ok eqb (entries_of (ts0 ++ tl))).
    { apply keys_ok_of. intros i j x y. unfold entries_of. rewrite !list_lookup_fmap.
      intros (t & Hi & ->)%fmap_Some (t' & Hj & ->)%fmap_Some He. eauto. }
    destruct (keys_ok_sub eqb E _ _ Hok Hent) as [rest Hrest]. exists rest. split; [done|].
    assert (Hnil : r.1 = true -> rest = []).
    { intros Hr1. destruct rest as [|[k v] rest]; [done|]. exfalso.
      destruct (Hcomp k Hr Hr1) as (t & Hin & He).
      - intros w1 Hw1. exists k, v. split; [|apply (eq_refl' eqb E)].
        assert (content w1 m ≡ₚ content w m) as ->.
        { apply elem_of_cons in Hw1 as [->|Hw1]; auto. }
        rewrite Hrest. apply elem_of_app. right. by left.
      - assert (Hk2 := keys_ok_perm eqb E _ _ Hrest Hk).
        apply keys_ok_NoDup in Hk2; [|done]. apply NoDup_app in Hk2 as (_ & Hdis & _).
        assert (Ht' : (t_key t, t_val t) ∈ entries_of (ts0 ++ tl)) by (apply elem_of_list_fmap; by exists t).
        apply (Hdis _ Ht'). rewrite (keys_ok_same eqb E _ (t_key t, t_val t) (k, v) Hk);
          [by left| auto| |done]. rewrite Hrest. apply elem_of_app. right. by left. }
    split; [done|]. destruct (r.1) eqn:Hr1.
    - rewrite (Hnil eq_refl), app_nil_r. destruct (Ht1 eq_refl) as (-> & _ & Hv & ->).
      rewrite app_nil_r. specialize (Hf []). rewrite app_nil_r in Hf. rewrite Hf. simpl.
      destruct r as [b v]; simpl in *. subst. done.
    - destruct (Ht2 eq_refl) as (k & v & ws & -> & Hx).
      destruct (Hlast k v ws r w' eq_refl Hx) as (_ & _ & Hgo).
      unfold entries_of. rewrite map_app, <- app_assoc. fold (entries_of ts0). rewrite Hf. simpl.
      unfold bind, gbody. simpl. rewrite Hgo. rewrite Hr1. destruct r as [b v']; simpl in *. by subst.
  Qed.

  Lemma same_from {S} m (f : K -> V -> S -> @prog K V C R (bool * S)) g : acts_as m f g ->
    forall l pre (st : loop S) r w',
    keys_ok eqb (content (l_world st) m) -> content (l_world st) m ≡ₚ pre ++ l ->
    (forall k, k ∈ l_done st -> exists e, e ∈ pre /\ e.1 = k) ->
    (forall k, k ∈ l_todo st -> exists e, e ∈ l /\ eqb e.1 k = true) ->
    for_while l (gbody g) (l_vars st) (l_world st) = Ok (r, w') ->
    exists ts st', turns eqb step m f st ts st' /\
      ((r.1 = true /\ l_todo st' = [] /\ l_vars st' = r.2 /\ l_world st' = w') \/
       (r.1 = false /\ exists k v ws, may_come eqb m st' k v /\
          exec eqb step (f k v (l_vars st')) (l_world st') ws r w')).
  Proof.
    intros Hg l. induction l as [|[k v] l IH]; intros pre st r w' Hk Hp Hd Htd Hf.
    - simpl in Hf. inversion Hf; subst. exists [], st. split; [constructor|]. left. split_and!; try done.
      destruct (l_todo st) as [|k t]; [done|]. destruct (Htd k ltac:(set_solver)) as (e & He & _).
      by apply elem_of_nil in He.
    - simpl in Hf. unfold bind, gbody at 1 in Hf. simpl in Hf.
      destruct (Hg k v (l_vars st) (l_world st)) as (r1 & w1 & Hgo & Hc & Hex). rewrite Hgo in Hf.
      assert (Hk2 := keys_ok_perm eqb E _ _ Hp Hk).
      assert (Hmc : may_come eqb m st k v).
      { split; [rewrite Hp; set_solver|]. intros k' Hk'. destruct (Hd k' Hk') as (e & He & <-).
        destruct (eqb e.1 k) eqn:Heq; [|done]. exfalso.
        apply (keys_ok_NoDup eqb E) in Hk2 as Hnd. apply NoDup_app in Hnd as (_ & Hdis & _).
        apply (Hdis _ He). rewrite (keys_ok_same eqb E _ e (k, v) Hk2); set_solver. }
      destruct (fst r1) eqn:Hr1.
      + destruct (IH (pre ++ [(k, v)]) (loop_next eqb m st k [w1] w1 (snd r1)) r w') as (ts & st' & Ht & Hend).
        * simpl. eapply keys_ok_perm; [done| |exact Hk]. by rewrite Hc.
        * simpl. rewrite Hc, Hp. by rewrite <- app_assoc.
        * simpl. intros k' [Hin _]%keep_elem; [|done].
          apply elem_of_cons in Hin as [->|Hin]; [exists (k, v); set_solver|].
          destruct (Hd k' Hin) as (e & ? & ?). exists e. set_solver.
        * simpl. intros k' [[Hin Hne]%other_elem _]%keep_elem; [|done].
          destruct (Htd k' Hin) as (e & He & Heq).
          apply elem_of_cons in He as [->|He]; [|by exists e]. simpl in Heq.
          rewrite (eq_sym eqb E) in Heq. congruence.
        * exact Hf.
        * exists (Turn k v [w1] :: ts), st'. split; [|done].
          eapply t_turn; [done| |exact Ht]. apply Hex. destruct r1; simpl in *; by subst.
      + simpl in Hf. inversion Hf; subst.
        exists [], st. split; [constructor|]. right. split; [done|]. exists k, v, [w'].
        split; [done|]. apply Hex. destruct r1; simpl in *; by subst.
  Qed.

  Lemma same_range_back {S} m (f : K -> V -> S -> @prog K V C R (bool * S)) g w s l r w' :
    keys_ok eqb (content w m) -> acts_as m f g -> content w m ≡ₚ l ->
    for_while l (gbody g) s w = Ok (r, w') ->
    exists ts, range eqb step m f w s ts r w'.
  Proof.
    intros Hk Hg Hp Hf.
    destruct (same_from m f g Hg l [] (loop_start m w s) r w') as (ts & st' & Ht & Hend); auto.
    - intros k Hin. by apply elem_of_nil in Hin.
    - simpl. intros k (e & -> & Hin)%elem_of_list_fmap. exists e. rewrite <- Hp. split; [done|].
      apply (eq_refl' eqb E).
    - destruct r as [b s']. simpl in *. destruct Hend as [(-> & Htd & <- & <-)|(-> & k & v & ws & Hmc & Hx)].
      + exists ts. by constructor.
      + exists (ts ++ [Turn k v ws]). by econstructor.
  Qed.
End same.

(** Bodies that delete the entry they are given. *)
Section del.
  Context {K V C R : Type} (eqb : K -> K -> bool).
  Context (step : C -> world K V -> R * world K V).
  Context (E : equivb eqb).
  Notation W := (world K V).

  Definition deletes {S} m (f : K -> V -> S -> @prog K V C R (bool * S)) (p : K -> V -> bool) : Prop :=
    forall k v s w ws r w', exec eqb step (f k v s) w ws r w' -> r.1 = true /\
      (if p k v then ws = [w'] /\ content w' m = mdel eqb (content w m) k else ws = [] /\ w' = w).

  Lemma no_new_cons m (w w1 : W) ws : (forall k, has_key eqb m k w1 -> has_key eqb m k w) ->
    no_new_key eqb m (w1 :: ws) -> no_new_key eqb m (w :: w1 :: ws).
  Proof.
    intros H1 H2 i wa wb Ha Hb. destruct i as [|i]; simpl in *; [by simplify_eq|].
    exact (H2 i wa wb Ha Hb).
  Qed.

  Lemma del_turns {S} m (f : K -> V -> S -> @prog K V C R (bool * S)) st ts st' :
    turns eqb step m f st ts st' -> forall p, deletes m f p -> keys_ok eqb (content (l_world st) m) ->
    no_new_key eqb m (l_world st :: worlds_in ts) /\
    (forall w e, w ∈ l_world st :: worlds_in ts -> e ∈ content w m -> e ∈ content (l_world st) m) /\
    (forall e, e ∈ content (l_world st') m <-> e ∈ content (l_world st) m /\
       ~ exists t, t ∈ ts /\ p (t_key t) (t_val t) = true /\ eqb (t_key t) e.1 = true) /\
    (forall k, has_key eqb m k (l_world st) -> ~ produced eqb k ts ->
       forall w, w ∈ l_world st :: worlds_in ts -> has_key eqb m k w) /\
    keys_ok eqb (content (l_world st') m).
  Proof.
    induction 1 as [|S m f st k v ws s' w' ts st' Hm Hx Ht IH]; intros p Hp Hk.
    { split_and!.
      - intros i wa wb Ha Hb. by destruct i.
      - intros w e Hw. simpl in Hw. apply elem_of_list_singleton in Hw as ->. done.
      - intros e. split; [|tauto]. intros He. split; [done|]. intros (t & Ht & _). by apply elem_of_nil in Ht.
      - intros k Hk1 _ w Hw. simpl in Hw. by apply elem_of_list_singleton in Hw as ->.
      - done. }
    destruct (Hp _ _ _ _ _ _ _ Hx) as [_ Hx2]. specialize (IH p Hp). simpl in IH.
    rewrite worlds_in_cons. simpl. destruct (p k v) eqn:Hpk.
    - destruct Hx2 as [-> Hc].
      assert (Hk' : keys_ok eqb (content w' m)) by (rewrite Hc; by apply keys_ok_mdel).
      destruct (IH Hk') as (H1 & H2 & H3 & H4 & H5).
      assert (Hsub : forall e, e ∈ content w' m -> e ∈ content (l_world st) m).
      { intros e. rewrite Hc. by apply mdel_sub. }
      split_and!.
      + simpl. apply no_new_cons; [|done]. intros k1 (k2 & v2 & Hin & He). exists k2, v2. auto.
      + intros w e [->|Hw]%elem_of_cons He; [done|]. apply Hsub. eapply H2; [exact Hw|done].
      + intros e. rewrite H3, Hc, mdel_elem by done. split.
        * intros [[Ha Hb] Hn]. split; [done|]. intros (t & Hin & Hpt & Heq).
          apply elem_of_cons in Hin as [->|Hin]; [simpl in *; congruence|]. apply Hn. eauto.
        * intros [Ha Hn]. split; [split; [done|]|].
          -- destruct (eqb k e.1) eqn:He; [|done]. exfalso. apply Hn.
             exists (Turn k v [w']). split; [set_solver|done].
          -- intros (t & Hin & Hpt & Heq). apply Hn. exists t. split; [set_solver|done].
      + intros k1 Hk1 Hnp w [->|Hw]%elem_of_cons; [done|]. eapply H4; [| |exact Hw].
        * destruct Hk1 as (k2 & v2 & Hin & He). exists k2, v2. split; [|done]. rewrite Hc.
          apply (mdel_elem eqb E); [done|]. split; [done|]. simpl.
          destruct (eqb k k2) eqn:He2; [|done]. exfalso. apply Hnp.
          exists (Turn k v [w']). split; [set_solver|]. simpl. by eapply (eq_trans' eqb E).
        * intros (t & Hin & He). apply Hnp. exists t. split; [set_solver|done].
      + done.
    - destruct Hx2 as [-> ->]. destruct (IH Hk) as (H1 & H2 & H3 & H4 & H5). split_and!; simpl.
      + done.
      + done.
      + intros e. rewrite H3. split.
        * intros [Ha Hn]. split; [done|]. intros (t & Hin & Hpt & Heq).
          apply elem_of_cons in Hin as [->|Hin]; [simpl in *; congruence|]. apply Hn. eauto.
        * intros [Ha Hn]. split; [done|]. intros (t & Hin & Hpt & Heq). apply Hn.
          exists t. split; [set_solver|done].
      + intros k1 Hk1 Hnp w Hw. eapply H4; [done| |exact Hw].
        intros (t & Hin & He). apply Hnp. exists t. split; [set_solver|done].
      + done.
  Qed.

  Lemma produced_dec k (ts : list (turn (K := K) (V := V))) : produced eqb k ts \/ ~ produced eqb k ts.
  Proof.
    induction ts as [|t ts [IH|IH]].
    - right. intros (t & Hin & _). by apply elem_of_nil in Hin.
    - left. destruct IH as (t' & ? & ?). exists t'. split; [set_solver|done].
    - destruct (eqb (t_key t) k) eqn:He.
      + left. exists t. split; [set_solver|done].
      + right. intros (t' & [->|Hin]%elem_of_cons & He'); [congruence|]. apply IH. by exists t'.
  Qed.

  Lemma del_range {S} m (f : K -> V -> S -> @prog K V C R (bool * S)) p w s ts r w' :
    keys_ok eqb (content w m) -> deletes m f p ->
    range eqb step m f w s ts r w' ->
    r.1 = true /\ entries_of ts ≡ₚ content w m /\
    (forall k v, (k, v) ∈ content w' m <-> (k, v) ∈ content w m /\ p k v = false) /\
    keys_ok eqb (content w' m).
  Proof.
    intros Hk Hp Hr. pose proof (range_complete eqb step E m f w s ts r w') as Hcomp.
    destruct (range_turns eqb step m f w s ts r w' Hr) as (ts0 & tl & st & -> & Ht & Htl & Ht1 & Ht2).
    destruct (r.1) eqn:Hr1.
    2:{ destruct (Ht2 eq_refl) as (k & v & ws & _ & Hx). apply Hp in Hx as [Hx _]. congruence. }
    destruct (Ht1 eq_refl) as (-> & _ & _ & ->). clear Ht1 Ht2. rewrite app_nil_r in *. split; [done|].
    destruct (del_turns _ _ _ _ _ Ht p Hp Hk) as (H1 & H2 & H3 & H4 & Hkw). simpl in *.
    destruct (turns_distinct eqb step E m f _ _ _ [] Ht) as [Hd1 Hd2]; [by left|by rewrite app_nil_r|].
    rewrite app_nil_r in *.
    assert (Hent : forall t, t ∈ ts0 -> (t_key t, t_val t) ∈ content w m).
    { intros t [i Hi]%elem_of_list_lookup_1.
      assert (H5 := turns_sound eqb step m f _ _ _ Ht i t Hi). simpl in H5.
      eapply H2; [|exact H5]. assert (Hi2 := lookup_lt_Some _ _ _ Hi).
      eapply elem_of_list_lookup_2. apply world_at_lookup. lia. }
    assert (Hall : forall e, e ∈ content w m -> exists t, t ∈ ts0 /\ e = (t_key t, t_val t)).
    { intros [k v] He. assert (Hpr : produced eqb k ts0).
      { destruct (produced_dec k ts0) as [|Hn]; [done|]. apply Hcomp; auto. apply H4; [|done].
        exists k, v. split; [done|]. apply (eq_refl' eqb E). }
      destruct Hpr as (t & Hin & Heq). exists t. split; [done|]. symmetry.
      apply (keys_ok_same eqb E (content w m)); auto. }
    split_and!; [| |done].
    - assert (Hok : keys_ok eqb (entries_of ts0)).
      { apply keys_ok_of. intros i j x y. unfold entries_of. rewrite !list_lookup_fmap.
        intros (t & Hi & ->)%fmap_Some (t' & Hj & ->)%fmap_Some He. eauto. }
      apply NoDup_Permutation; [by apply (keys_ok_NoDup eqb E)|by apply (keys_ok_NoDup eqb E)|].
      intros e. split.
      + intros (t & -> & Hin)%elem_of_list_fmap. auto.
      + intros He. destruct (Hall e He) as (t & Hin & ->). apply elem_of_list_fmap. by exists t.
    - intros k v. rewrite H3. split.
      + intros [Ha Hn]. split; [done|]. destruct (p k v) eqn:Hpk; [|done]. exfalso. apply Hn.
        destruct (Hall _ Ha) as (t & Hin & He). exists t. split; [done|]. inversion He; subst.
        split; [done|]. simpl. apply (eq_refl' eqb E).
      + intros [Ha Hpk]. split; [done|]. intros (t & Hin & Hpt & He). simpl in He.
        assert ((t_key t, t_val t) = (k, v)) as Heq by (apply (keys_ok_same eqb E (content w m)); auto).
        inversion Heq; subst. congruence.
  Qed.
End del.
