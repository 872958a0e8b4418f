From Verif Require Import Base GoMap GoMapSpec GoMapProofs GenMapModel GenMapSpec.

Section proofs.
  Context {K V : Type} (eqb : K -> K -> bool) (upd : bool) (E : equivb eqb).
  Context (ord : nat -> list (K * V) -> list (K * V)) (ordP : forall n l, ord n l ≡ₚ l).
  Context (zero : V).
  Implicit Types w : world K V.
  Implicit Types l : list (K * V).
  Notation wf := (wf (V:=V) eqb). Notation mlookup := (mlookup eqb).

  Definition gabs (w : world K V) : gstate K V :=
    GState (next w) (fun r => mlookup (content w r)).

  Lemma unchanged_refl w : unchanged (gabs w) (gabs w). Proof. done. Qed.
  Lemma unchanged_tick w : unchanged (gabs w) (gabs (tick w)).
  Proof. split; [done|]. intros r k. simpl. by rewrite content_tick. Qed.

  Lemma becomes_wonly w w' n l m :
    wonly w w' n l -> (forall k, mlookup l k = m k) -> becomes (gabs w) (gabs w') n m.
  Proof.
    intros (H1 & H2 & H3) Hm. split; [done|]. split.
    - intros k. simpl. by rewrite H2.
    - intros r k Hr. simpl. by rewrite H3.
  Qed.
  Lemma wonly_wput w n l : wonly w (wput w n l) n l.
  Proof.
    split; [done|]. split.
    - rewrite content_wput. by rewrite decide_True.
    - intros r Hr. rewrite content_wput. by rewrite decide_False.
  Qed.
  Lemma becomes_wput w n l m :
    (forall k, mlookup l k = m k) -> becomes (gabs w) (gabs (wput w n l)) n m.
  Proof. apply becomes_wonly, wonly_wput. Qed.
  Lemma created_wnew w l m :
    (forall k, mlookup l k = m k) -> created (gabs w) (gabs (wnew w l)) (next w) m.
  Proof.
    intros Hm. split; [done|]. split; [done|]. split.
    - intros k. simpl. by rewrite content_wnew, decide_True.
    - intros r k Hr. simpl. by rewrite content_wnew, decide_False.
  Qed.

  Lemma wf_mset w n k v : wf w -> n < next w -> wf (wput w n (mset eqb upd (content w (Some n)) k v)).
  Proof. intros Hw Hn. apply wf_wput; auto. apply keys_ok_mset; auto. by apply wf_content. Qed.
  Lemma wf_mdel w n k : wf w -> n < next w -> wf (wput w n (mdel eqb (content w (Some n)) k)).
  Proof. intros Hw Hn. apply wf_wput; auto. apply keys_ok_mdel; auto. by apply wf_content. Qed.
  Lemma becomes_mset w n k v :
    becomes (gabs w) (gabs (wput w n (mset eqb upd (content w (Some n)) k v))) n
      (fupd eqb (tab (gabs w) (Some n)) k (Some v)).
  Proof. apply becomes_wput. intros k'. simpl. by apply mlookup_mset. Qed.
  Lemma becomes_mdel w n k : wf w ->
    becomes (gabs w) (gabs (wput w n (mdel eqb (content w (Some n)) k))) n
      (fupd eqb (tab (gabs w) (Some n)) k None).
  Proof. intros Hw. apply becomes_wput. intros k'. simpl. apply mlookup_mdel; auto. by apply wf_content. Qed.

  Lemma comma_val o : GVal (comma_ok zero o).1 (comma_ok zero o).2 = val_ok (K:=K) zero o.
  Proof. by destruct o. Qed.

  Lemma lists_entries_len w r : wf w ->
    lists_entries eqb (tab (gabs w) r) (content w r).
  Proof. intros Hw. simpl. apply lists_entries_of; auto. by apply wf_content. Qed.
  Lemma lists_entries_ord w r i : wf w ->
    lists_entries eqb (tab (gabs w) r) (ord i (content w r)).
  Proof. intros Hw. simpl. apply lists_entries_of; auto. by apply wf_content. Qed.

  Lemma wonly_wnew_trans w w' (l : list (K * V)) :
    wonly (wnew w []) w' (next w) l -> forall m, (forall k, mlookup l k = m k) ->
    created (gabs w) (gabs w') (next w) m.
  Proof.
    intros (H1 & H2 & H3) m Hm. split; [done|]. split; [done|]. split.
    - intros k. simpl. by rewrite H2.
    - intros r k Hr. simpl. rewrite H3 by done. by rewrite content_wnew, decide_False.
  Qed.

  Lemma for_while_pair (f : K * V -> bool) l w seen :
    for_while l (fun e seen => ret (f e, seen ++ [(e.1, e.2)])) seen w
    = Ok ((forallb f l, seen ++ visited f l), w).
  Proof.
    revert seen. induction l as [|[k v] l IH]; intros seen; simpl.
    - unfold ret. by rewrite app_nil_r.
    - unfold bind, ret at 1. simpl. destruct (f (k, v)); simpl; [|done].
      rewrite IH. by rewrite <- app_assoc.
  Qed.

  Lemma gm_step_spec c w r w' :
    wf w -> (forall n, Some n ∈ gm_refs c -> n < next w) ->
    gm_step eqb upd ord zero c w = (r, w') ->
    wf w' /\ gm_does eqb zero (gabs w) (gabs w') c r.
  Proof.
    intros Hw Href. unfold gm_step.
    destruct c as [|m|m|m k|m k v|m k|m|m|m|m|m f|m k v|m k v|m k|m k v|m m2 eq|m|m dst|m src|m f];
      cbn [gm_exec gm_refs] in *; unfold mmap.
    - (* New *)
      intros [= <- <-]. split; [by apply (wf_wnew eqb w []) |]. apply d_New.
      by apply (created_wnew w []).
    - intros [= <- <-]. split; auto. constructor. apply unchanged_refl.
    - intros [= <- <-]. split; auto. constructor; [apply unchanged_refl|].
      by apply lists_entries_len.
    - intros [= <- <-]. split; auto. rewrite comma_val. constructor. apply unchanged_refl.
    - (* Store *)
      destruct m as [n|]; intros [= <- <-].
      + split; [apply wf_mset; auto; apply Href; set_solver|]. constructor. apply becomes_mset.
      + split; auto. constructor. apply unchanged_refl.
    - (* Delete *)
      destruct m as [n|]; intros [= <- <-].
      + split; [apply wf_mdel; auto; apply Href; set_solver|]. constructor. by apply becomes_mdel.
      + split; auto. constructor. apply unchanged_refl.
    - (* Clone *)
      unfold bind, gm_Clone, gm_New, go_make, gm_CopyFrom, bind.
      fold (wnew w []).
      destruct (maps_Copy_some eqb upd E ord ordP (next w) m (wnew w []))
        as (w1 & l & Hc & Hw1 & Ho & Hl); [by apply wf_wnew|simpl; lia|].
      rewrite Hc. intros [= <- <-]. split; auto. constructor.
      eapply wonly_wnew_trans; [exact Ho|].
      intros k. rewrite Hl. rewrite content_wnew, decide_True by done.
      unfold over. simpl.
      assert (content (wnew w []) m = content w m) as ->.
      { rewrite content_wnew. destruct (decide _) as [->|]; auto.
        assert (next w < next w) by (apply Href; set_solver). lia. }
      by destruct (mlookup (content w m) k).
    - intros [= <- <-]. split; auto. constructor. apply unchanged_refl.
    - (* Keys *)
      intros [= <- <-]. split; [by apply (wf_tick eqb)|]. constructor; [apply unchanged_tick|].
      simpl. apply lists_members_of; auto. by apply wf_content.
    - (* Values *)
      intros [= <- <-]. split; [by apply (wf_tick eqb)|]. constructor; [apply unchanged_tick|].
      by apply lists_entries_ord.
    - (* Range *)
      unfold gm_Range, bind, go_range. fold (tick w).
      rewrite (for_while_pair (fun e : K * V => f e.1 e.2)).
      simpl. intros [= <- <-]. split; [by apply (wf_tick eqb)|].
      constructor; [apply unchanged_tick|]. by apply lists_entries_ord.
    - (* LoadOrStore *)
      unfold gm_LoadOrStore, bind, go_get, comma_ok.
      destruct (mlookup (content w m) k) as [x|] eqn:Hx.
      + intros [= <- <-]. split; auto. constructor; [apply unchanged_refl|done].
      + destruct m as [n|]; intros [= <- <-].
        * split; [apply wf_mset; auto; apply Href; set_solver|].
          apply d_LoadOrStore_miss; [done|]. apply becomes_mset.
        * split; auto. constructor. apply unchanged_refl.
    - (* LoadOrStoreFunc *)
      unfold gm_LoadOrStoreFunc, bind, go_get, comma_ok.
      destruct (mlookup (content w m) k) as [x|] eqn:Hx.
      + intros [= <- <-]. split; auto. constructor; [apply unchanged_refl|done].
      + destruct m as [n|]; intros [= <- <-].
        * split; [apply wf_mset; auto; apply Href; set_solver|].
          apply d_LoadOrStoreFunc_miss; [done|]. apply becomes_mset.
        * split; auto. constructor. apply unchanged_refl.
    - (* LoadAndDelete *)
      unfold gm_LoadAndDelete, bind, go_get, comma_ok.
      destruct (mlookup (content w m) k) as [x|] eqn:Hx.
      + destruct m as [n|]; [|done]. intros [= <- <-].
        split; [apply wf_mdel; auto; apply Href; set_solver|].
        replace (GVal x true) with (val_ok (K:=K) zero (tab (gabs w) (Some n) k))
          by (simpl; by rewrite Hx).
        constructor. by apply becomes_mdel.
      + intros [= <- <-]. split; auto. destruct m as [n|].
        * replace (GVal zero false) with (val_ok (K:=K) zero (tab (gabs w) (Some n) k))
            by (simpl; by rewrite Hx).
          constructor. split; [done|]. split; [|done]. intros k'. unfold fupd. simpl.
          destruct (eqb k k') eqn:H1; auto. by rewrite <- (mlookup_proper eqb E _ k k').
        * constructor. apply unchanged_refl.
    - (* LoadAndStore *)
      unfold gm_LoadAndStore, bind, go_get.
      destruct m as [n|]; intros [= <- <-].
      + rewrite comma_val. split; [apply wf_mset; auto; apply Href; set_solver|].
        apply (d_LoadAndStore eqb zero (gabs w)). apply becomes_mset.
      + split; auto. constructor. apply unchanged_refl.
    - (* EqualFunc *)
      unfold gm_EqualFunc, bind.
      destruct (maps_EqualFunc_spec eqb E ord ordP m m2 eq w Hw) as (b & w1 & He & Hw1 & Hb).
      rewrite He. intros [= <- <-]. destruct Hw1 as [->| ->].
      + split; auto. constructor; [apply unchanged_refl|done].
      + split; [by apply (wf_tick eqb)|]. constructor; [apply unchanged_tick|done].
    - (* Clear *)
      destruct m as [n|]; intros [= <- <-].
      + split; [apply (wf_wput eqb w n []); auto; [done|apply Href; set_solver]|].
        constructor. by apply (becomes_wput w n []).
      + split; auto. constructor. apply unchanged_refl.
    - (* CopyTo *)
      unfold gm_CopyTo, bind. destruct dst as [n|].
      + destruct (maps_Copy_some eqb upd E ord ordP n m w) as (w1 & l & Hc & Hw1 & Ho & Hl);
          [done|apply Href; set_solver|].
        rewrite Hc. intros [= <- <-]. split; auto. constructor. eapply becomes_wonly; [exact Ho|done].
      + destruct (maps_Copy_nil eqb upd ord ordP m w Hw) as [[Hn Hc]|[Hn Hc]].
        * rewrite Hc. intros [= <- <-]. split; [by apply (wf_tick eqb)|].
          constructor; [apply unchanged_tick|]. intros k. simpl. by rewrite Hn.
        * rewrite Hc. intros [= <- <-]. split; auto. constructor; [apply unchanged_refl|].
          intros He. apply Hn. by apply (content_empty eqb E).
    - (* CopyFrom *)
      unfold gm_CopyFrom, bind. destruct m as [n|].
      + destruct (maps_Copy_some eqb upd E ord ordP n src w) as (w1 & l & Hc & Hw1 & Ho & Hl);
          [done|apply Href; set_solver|].
        rewrite Hc. intros [= <- <-]. split; auto. constructor. eapply becomes_wonly; [exact Ho|done].
      + destruct (maps_Copy_nil eqb upd ord ordP src w Hw) as [[Hn Hc]|[Hn Hc]].
        * rewrite Hc. intros [= <- <-]. split; [by apply (wf_tick eqb)|].
          constructor; [apply unchanged_tick|]. intros k. simpl. by rewrite Hn.
        * rewrite Hc. intros [= <- <-]. split; auto. constructor; [apply unchanged_refl|].
          intros He. apply Hn. by apply (content_empty eqb E).
    - (* DeleteFunc *)
      unfold gm_DeleteFunc, maps_DeleteFunc, bind, go_range. fold (tick w).
      destruct m as [n|].
      + destruct (for_each_del eqb E n f (ord (its w) (content w (Some n))) (tick w))
          as (w1 & l & Hc & Hw1 & Ho & Hl); [by apply (wf_tick eqb)|apply Href; set_solver|].
        rewrite Hc. intros [= <- <-]. split; auto.
        eapply d_DeleteFunc.
        2:{ eapply (becomes_wonly _ _ n l (mlookup l)); [|done].
            destruct Ho as (H1 & H2 & H3). split; [done|]. split; [done|].
            intros r Hr. rewrite H3 by done. apply content_tick. }
        pose proof (wf_content eqb w (Some n) Hw) as Hk.
        exists (fun k => match find (fun e => eqb e.1 k) (content w (Some n)) with
                         | Some e => e.1 | None => k end).
        assert (Hfind : forall k v, mlookup (content w (Some n)) k = Some v ->
          exists k1, find (fun e => eqb e.1 k) (content w (Some n)) = Some (k1, v) /\
            eqb k1 k = true /\ (k1, v) ∈ content w (Some n)).
        { clear. intros k v. induction (content w (Some n)) as [|[k1 v1] l IH]; [done|].
          simpl. destruct (eqb k1 k) eqn:H1.
          - intros [= ->]. exists k1. repeat split; auto. set_solver.
          - intros Hl. destruct (IH Hl) as (k2 & H2 & H3 & H4). exists k2. repeat split; auto. set_solver. }
        split.
        * intros k Hne. simpl in Hne. destruct (mlookup (content w (Some n)) k) as [v|] eqn:Hl1; [|done].
          destruct (Hfind _ _ Hl1) as (k1 & -> & H1 & _). done.
        * intros k. rewrite Hl, content_tick. simpl.
          destruct (mlookup (content w (Some n)) k) as [v|] eqn:Hl1; [|by destruct (existsb _ _)].
          destruct (Hfind _ _ Hl1) as (k1 & -> & H1 & H2). simpl.
          destruct (f k1 v) eqn:Hf.
          -- assert (existsb (fun e : K * V => f e.1 e.2 && eqb e.1 k) (ord (its w) (content w (Some n))) = true) as ->; auto.
             apply existsb_exists. exists (k1, v). split.
             { apply elem_of_list_In. by rewrite ordP. } simpl. by rewrite Hf, H1.
          -- destruct (existsb _ _) eqn:Hx; auto. exfalso.
             apply existsb_exists in Hx as ([k2 v2] & He & Hb). simpl in Hb.
             apply andb_true_iff in Hb as [Hb1 Hb2]. apply elem_of_list_In in He.
             rewrite ordP in He.
             apply elem_of_list_lookup in He as [i Hi]. apply elem_of_list_lookup in H2 as [j Hj].
             assert (i = j).
             { eapply (keys_ok_inj eqb E _ Hk); eauto. simpl.
               apply (eq_trans' eqb E k2 k k1); auto. by rewrite eq_sym. }
             subst. rewrite Hi in Hj. simplify_eq. congruence.
      + assert (ord (its w) (content w None) = []) as ->.
        { apply Permutation_nil. symmetry. apply ordP. }
        intros [= <- <-]. split; [by apply (wf_tick eqb)|]. constructor. apply unchanged_tick.
  Qed.

  Lemma gm_history_spec w h w' :
    wf w -> gm_history eqb upd ord zero w h w' ->
    wf w' /\ gm_behaves eqb zero (gabs w) h (gabs w').
  Proof.
    intros Hw H. induction H as [w|w c r w1 h w2 Hr Hs Hh IH].
    - split; auto. constructor. apply unchanged_refl.
    - destruct (gm_step_spec c w r w1 Hw Hr Hs) as [Hw1 Hd].
      destruct (IH Hw1) as [Hw2 Hb]. split; auto. by econstructor.
  Qed.

  Lemma wf_empty : wf w_empty.
  Proof. split; [intros n; unfold content; simpl; rewrite lookup_empty; done|]. intros n _. apply lookup_empty. Qed.

  Lemma gm_history_empty h w' :
    gm_history eqb upd ord zero w_empty h w' ->
    exists s0 s, alloc s0 = 0 /\ (forall r k, tab s0 r k = None) /\ gm_behaves eqb zero s0 h s.
  Proof.
    intros H. exists (gabs w_empty), (gabs w'). repeat split.
    - intros r k. simpl. destruct r as [n|]; [|done]. unfold content. simpl. by rewrite lookup_empty.
    - eapply gm_history_spec; [apply wf_empty|done].
  Qed.

  (** LoadOrStoreFunc with an arbitrary constructor (which may itself use the maps). *)
  Lemma gm_LoadOrStoreFunc_hit m k newFunc w x :
    tab (gabs w) m k = Some x -> gm_LoadOrStoreFunc eqb upd zero m k newFunc w = Ok ((x, true), w).
  Proof. intros H. unfold gm_LoadOrStoreFunc, bind, go_get, comma_ok. simpl in H. by rewrite H. Qed.
  Lemma gm_LoadOrStoreFunc_miss n k newFunc w v w1 :
    tab (gabs w) (Some n) k = None -> newFunc w = Ok (v, w1) ->
    exists w2, gm_LoadOrStoreFunc eqb upd zero (Some n) k newFunc w = Ok ((v, false), w2) /\
      becomes (gabs w1) (gabs w2) n (fupd eqb (tab (gabs w1) (Some n)) k (Some v)).
  Proof.
    intros H Hf. unfold gm_LoadOrStoreFunc, bind, go_get, comma_ok. simpl in H. rewrite H, Hf.
    simpl. eexists. split; [done|]. apply becomes_mset.
  Qed.
  Lemma gm_LoadOrStoreFunc_fail m k newFunc w :
    tab (gabs w) m k = None -> newFunc w = Panic ->
    gm_LoadOrStoreFunc eqb upd zero m k newFunc w = Panic.
  Proof. intros H Hf. unfold gm_LoadOrStoreFunc, bind, go_get, comma_ok. simpl in H. by rewrite H, Hf. Qed.

  Lemma gm_LoadOrStore_wrong n k v w :
    wf w -> n < next w -> tab (gabs w) (Some n) k = None ->
    exists w', gm_LoadOrStore eqb upd zero (Some n) k v w = Ok ((zero, false), w') /\
      tab (gabs w') (Some n) k = Some v.
  Proof.
    intros Hw Hn H. unfold gm_LoadOrStore, bind, go_get, comma_ok. simpl in H. rewrite H.
    eexists. split; [done|]. simpl. fold (wput w n (mset eqb upd (content w (Some n)) k v)).
    rewrite content_wput, decide_True by done. rewrite mlookup_mset by done.
    unfold fupd. by rewrite eq_refl'.
  Qed.
End proofs.

(** A map not mentioned by the calls of a history keeps its content. *)
Lemma gm_does_frame {K V} (eqb : K -> K -> bool) (zero : V) (s s' : gstate K V) c r n :
  gm_does eqb zero s s' c r -> Some n ∉ gm_refs c -> n < alloc s ->
  alloc s <= alloc s' /\ forall k, tab s' (Some n) k = tab s (Some n) k.
Proof.
  intros H Hn Ha.
  destruct H; cbn [gm_refs] in Hn;
    repeat match goal with
    | H : unchanged _ _ |- _ => destruct H as [Hal Htab]
    | H : becomes _ _ _ _ |- _ => destruct H as (Hal & Htab1 & Htab)
    | H : created _ _ _ _ |- _ => destruct H as (Hnew & Hal & Htab1 & Htab)
    end; (split; [lia|]); intros k'; apply Htab; try (intros [= ->]; set_solver).
  all: intros [= ->]; lia.
Qed.

Lemma gm_behaves_frame {K V} (eqb : K -> K -> bool) (zero : V) (s s' : gstate K V) h n :
  gm_behaves eqb zero s h s' -> (forall c r, (c, r) ∈ h -> Some n ∉ gm_refs c) -> n < alloc s ->
  forall k, tab s' (Some n) k = tab s (Some n) k.
Proof.
  intros H. induction H as [s s' [Hu1 Hu2]|s s1 c r h s2 Hd Hb IH]; intros Hh Hn k; [by apply Hu2|].
  destruct (gm_does_frame eqb zero s s1 c r n Hd) as [Hle Ht]; auto.
  { apply (Hh c r). set_solver. }
  rewrite IH; auto; [|lia]. intros c' r' Hin. apply (Hh c' r'). set_solver.
Qed.

Section proofs2.
  Context {K V : Type} (eqb : K -> K -> bool) (upd : bool) (E : equivb eqb).
  Context (ord : nat -> list (K * V) -> list (K * V)) (ordP : forall n l, ord n l ≡ₚ l).
  Context (zero : V).

  Lemma gm_history_frame w h w' n :
    wf eqb w -> gm_history eqb upd ord zero w h w' ->
    n < next w -> (forall c r, (c, r) ∈ h -> Some n ∉ gm_refs c) ->
    forall k, tab (gabs eqb w') (Some n) k = tab (gabs eqb w) (Some n) k.
  Proof.
    intros Hw Hh Hn Hm. destruct (gm_history_spec eqb upd E ord ordP zero w h w' Hw Hh) as [_ Hb].
    by apply (gm_behaves_frame eqb zero _ _ h n Hb).
  Qed.

  Lemma gm_alias w m r w' :
    wf eqb w -> (forall n, m = Some n -> n < next w) ->
    (gm_step eqb upd ord zero (GClone m) w = (r, w') ->
       exists n, r = GRef (Some n) /\ Some n <> m /\
         created (gabs eqb w) (gabs eqb w') n (tab (gabs eqb w) m)) /\
    (gm_step eqb upd ord zero (GMap m) w = (r, w') -> r = GRef m /\ w' = w) /\
    (gm_step eqb upd ord zero (GFrom m) w = (r, w') -> r = GRef m /\ w' = w).
  Proof.
    intros Hw Hm. split; [|split].
    - intros H. destruct (gm_step_spec eqb upd E ord ordP zero (GClone m) w r w' Hw) as [_ Hd]; auto.
      { intros n Hn. cbn in Hn. apply Hm. set_solver. }
      inversion Hd; subst. eexists. split; [done|]. split; [|done].
      intros <-. destruct H1 as (-> & _). specialize (Hm _ eq_refl). simpl in Hm. lia.
    - by intros [= <- <-].
    - by intros [= <- <-].
  Qed.

  Lemma gm_Range_spec (f : K -> V -> bool) m w : wf eqb w ->
    exists l w', gm_Range ord m (fun k v seen => ret (f k v, seen ++ [(k, v)])) [] w
      = Ok ((forallb (fun e => f e.1 e.2) l, visited (fun e => f e.1 e.2) l), w') /\
      lists_entries eqb (tab (gabs eqb w) m) l /\ unchanged (gabs eqb w) (gabs eqb w').
  Proof.
    intros Hw. unfold gm_Range, bind, go_range.
    rewrite (for_while_pair (fun e : K * V => f e.1 e.2)). eexists _, _. split; [reflexivity|].
    split; [by apply lists_entries_ord|apply unchanged_tick].
  Qed.

  Lemma gm_Keys_Values_spec m w : wf eqb w ->
    (exists l w', gm_Keys ord m w = Ok (l, w') /\
       lists_members eqb (fun k => tab (gabs eqb w) m k <> None) l) /\
    (exists l w', gm_Values ord m w = Ok (map snd l, w') /\ lists_entries eqb (tab (gabs eqb w) m) l).
  Proof.
    intros Hw. split.
    - eexists _, _. split; [reflexivity|]. simpl. apply lists_members_of; auto. by apply wf_content.
    - eexists _, _. split; [reflexivity|]. by apply lists_entries_ord.
  Qed.
End proofs2.

(** Running a list of calls, to exhibit concrete histories. *)
Section run.
  Context {K V : Type} (eqb : K -> K -> bool) (upd : bool).
  Context (ord : nat -> list (K * V) -> list (K * V)) (zero : V).
  Fixpoint gm_run (cs : list (gm_call K V)) (w : world K V) :
    option (list (gm_call K V * gm_res K V) * world K V) :=
    match cs with
    | [] => Some ([], w)
    | c :: cs' =>
        if forallb (fun r => match r with Some n => Nat.ltb n (next w) | None => true end) (gm_refs c)
        then let '(r, w1) := gm_step eqb upd ord zero c w in
             match gm_run cs' w1 with Some (h, w2) => Some ((c, r) :: h, w2) | None => None end
        else None
    end.
  Lemma gm_run_history cs w h w' :
    gm_run cs w = Some (h, w') -> gm_history eqb upd ord zero w h w'.
  Proof.
    revert w h. induction cs as [|c cs IH]; intros w h; simpl.
    - intros [= <- <-]. constructor.
    - destruct (forallb _ _) eqn:Hf; [|done].
      destruct (gm_step eqb upd ord zero c w) as [r w1] eqn:Hs.
      destruct (gm_run cs w1) as [[h2 w2]|] eqn:Hr; [|done]. intros [= <- <-].
      eapply gh_cons; [|exact Hs|by apply IH]. by apply refs_below.
  Qed.
End run.

(** The witness against "LoadOrStore returns what the map now holds". *)
Lemma gm_LoadOrStore_refuted :
  exists (h : list (gm_call nat nat * gm_res nat nat)) w,
    gm_history Nat.eqb false (fun _ l => l) 0 w_empty h w /\
    h = [ (GNew, GRef (Some 0)); (GLoadOrStore (Some 0) 7 42, GVal 0 false);
          (GLoad (Some 0) 7, GVal 42 true) ].
Proof.
  eexists _, _. split; [|reflexivity].
  eapply gh_cons; [set_solver|reflexivity|].
  eapply gh_cons; [|reflexivity|].
  { intros n Hn. assert (n = 0) as -> by set_solver. simpl. lia. }
  eapply gh_cons; [|reflexivity|constructor].
  intros n Hn. assert (n = 0) as -> by set_solver. simpl. lia.
Qed.
