From Verif Require Import Base GoMap GoMapSpec GoMapProofs SetModel SetSpec.

Section proofs.
  Context {T : Type} (eqb : T -> T -> bool) (upd : bool) (E : equivb eqb).
  Context (ord : nat -> list (T * unit) -> list (T * unit)) (ordP : forall n l, ord n l ≡ₚ l).
  Notation wf := (wf (V:=unit) eqb). Notation mlookup := (mlookup eqb).
  Implicit Types w : world T unit.
  Implicit Types l : list (T * unit).

  Definition inb l (v : T) : Prop := mlookup l v <> None.
  Definition sabs w : sstate T := SState (next w) (fun r v => inb (content w r) v).

  Lemma s_unchanged_refl w : s_unchanged (sabs w) (sabs w). Proof. done. Qed.
  Lemma s_unchanged_tick w : s_unchanged (sabs w) (sabs (tick w)).
  Proof. split; [done|]. intros r v. simpl. by rewrite content_tick. Qed.

  Lemma wonly_refl w n : wonly w w n (content w (Some n)).
  Proof. done. Qed.
  Lemma wonly_wput w n l : wonly w (wput w n l) n l.
  Proof.
    split; [done|]. split.
    - rewrite content_wput. by rewrite decide_True.
    - intros r Hr. rewrite content_wput. by rewrite decide_False.
  Qed.
  Lemma wonly_trans w1 w2 w3 n l l' : wonly w1 w2 n l -> wonly w2 w3 n l' -> wonly w1 w3 n l'.
  Proof.
    intros (H1 & H2 & H3) (H4 & H5 & H6). split; [congruence|]. split; [done|].
    intros r Hr. rewrite H6, H3; auto.
  Qed.
  Lemma wonly_tick w w' n l : wonly (tick w) w' n l -> wonly w w' n l.
  Proof.
    intros (H1 & H2 & H3). split; [done|]. split; [done|]. intros r Hr.
    rewrite H3 by done. apply content_tick.
  Qed.

  Lemma s_becomes_wonly w w' n l P :
    wonly w w' n l -> (forall v, inb l v <-> P v) -> s_becomes (sabs w) (sabs w') n P.
  Proof.
    intros (H1 & H2 & H3) Hm. split; [done|]. split.
    - intros v. simpl. by rewrite H2.
    - intros r v Hr. simpl. by rewrite H3.
  Qed.
  Lemma s_created_wonly w w' l0 l P :
    wonly (wnew w l0) w' (next w) l -> (forall v, inb l v <-> P v) ->
    s_created (sabs w) (sabs w') (next w) P.
  Proof.
    intros (H1 & H2 & H3) Hm. split; [done|]. split; [done|]. split.
    - intros v. simpl. by rewrite H2.
    - intros r v Hr. simpl. rewrite H3 by done. by rewrite content_wnew, decide_False.
  Qed.

  Lemma unit_opt (o : option unit) : o = None \/ o = Some tt.
  Proof. destruct o as [[]|]; auto. Qed.

  Lemma inb_mset l v x : inb (mset eqb upd l v tt) x <-> inb l x \/ eqb v x = true.
  Proof.
    unfold inb. rewrite mlookup_mset by done. unfold fupd. destruct (eqb v x) eqn:H.
    - split; auto.
    - split; [auto|]. intros [?|?]; [done|congruence].
  Qed.
  Lemma inb_mdel l v x : keys_ok eqb l -> inb (mdel eqb l v) x <-> inb l x /\ eqb v x = false.
  Proof.
    intros Hk. unfold inb. rewrite mlookup_mdel by done. unfold fupd. destruct (eqb v x) eqn:H.
    - split; [done|]. intros [_ ?]; congruence.
    - naive_solver.
  Qed.

  Lemma contain_ok r v w :
    set_Contain eqb r v w = Ok (bool_decide (inb (content w r) v), w).
  Proof.
    unfold set_Contain, bind, go_get, ret. do 2 f_equal.
    symmetry. unfold inb. destruct (mlookup (content w r) v).
    - apply bool_decide_eq_true. done.
    - apply bool_decide_eq_false. naive_solver.
  Qed.

  (** Insert into an existing set. *)
  Lemma insert_ok n v w : wf w -> n < next w ->
    exists w' l', set_Insert eqb upd (Some n) v w
        = Ok (negb (bool_decide (inb (content w (Some n)) v)), w') /\
      wf w' /\ wonly w w' n l' /\
      forall x, inb l' x <-> inb (content w (Some n)) x \/ eqb v x = true.
  Proof.
    intros Hw Hn. unfold set_Insert, bind. rewrite contain_ok.
    case_bool_decide as Hc; simpl.
    - exists w, (content w (Some n)). split; [done|]. split; [done|]. split; [done|].
      intros x. split; [auto|]. intros [?|Hx]; auto. unfold inb.
      by rewrite <- (mlookup_proper eqb E _ v x).
    - exists (wput w n (mset eqb upd (content w (Some n)) v tt)), (mset eqb upd (content w (Some n)) v tt).
      split; [done|]. split; [|split; [apply wonly_wput|intros x; apply inb_mset]].
      apply wf_wput; auto. apply keys_ok_mset; auto. by apply wf_content.
  Qed.

  (** A loop inserting into the set [n] the visited values selected by [sel]; the selection
      may read the sets other than [n]. *)
  Lemma insert_loop n (body : T -> unit -> M (world T unit) (bool * unit))
      (sel : T -> bool) (es : list (T * unit)) w0 w :
    (forall v w, (forall r, r <> Some n -> content w r = content w0 r) -> wf w -> n < next w ->
       exists w' l', body v tt w = Ok ((true, tt), w') /\ wf w' /\ wonly w w' n l' /\
         forall x, inb l' x <-> inb (content w (Some n)) x \/ (sel v = true /\ eqb v x = true)) ->
    (forall r, r <> Some n -> content w r = content w0 r) -> wf w -> n < next w ->
    exists w' l', for_while es (fun e => body (fst e)) tt w = Ok ((true, tt), w') /\
      wf w' /\ wonly w w' n l' /\
      forall x, inb l' x <-> inb (content w (Some n)) x \/
        exists e, e ∈ es /\ sel e.1 = true /\ eqb e.1 x = true.
  Proof.
    intros Hb. revert w. induction es as [|e es IH]; intros w Hc Hw Hn.
    - exists w, (content w (Some n)). split; [done|]. split; [done|]. split; [done|].
      intros x. split; [auto|]. intros [?|(e & He & _)]; auto. by apply elem_of_nil in He.
    - cbn [for_while]. unfold bind.
      destruct (Hb e.1 w Hc Hw Hn) as (w1 & l1 & Hb1 & Hw1 & Ho1 & Hl1).
      rewrite Hb1. simpl.
      destruct (IH w1) as (w' & l' & Hf & Hw' & Ho & Hl); auto.
      { intros r Hr. rewrite <- Hc by done. destruct Ho1 as (_ & _ & H3). by apply H3. }
      { destruct Ho1 as (-> & _). done. }
      exists w', l'. split; [done|]. split; [done|]. split; [by eapply wonly_trans|].
      intros x. rewrite Hl. destruct Ho1 as (_ & -> & _). rewrite Hl1. split.
      + intros [[?|[? ?]]|(e' & He' & H1 & H2)]; auto; right.
        * exists e. repeat split; auto. set_solver.
        * exists e'. repeat split; auto. set_solver.
      + intros [?|(e' & [->|He']%elem_of_cons & H1 & H2)]; auto.
        right. eauto.
  Qed.

  (** set_Range over such a loop. *)
  Lemma range_insert n src (body : T -> unit -> M (world T unit) (bool * unit)) (sel : T -> bool) w0 w :
    (forall v w, (forall r, r <> Some n -> content w r = content w0 r) -> wf w -> n < next w ->
       exists w' l', body v tt w = Ok ((true, tt), w') /\ wf w' /\ wonly w w' n l' /\
         forall x, inb l' x <-> inb (content w (Some n)) x \/ (sel v = true /\ eqb v x = true)) ->
    (forall x y, eqb x y = true -> sel x = sel y) ->
    (forall r, r <> Some n -> content w r = content w0 r) -> wf w -> n < next w ->
    exists w' l', set_Range ord src body tt w = Ok (tt, w') /\
      wf w' /\ wonly w w' n l' /\
      forall x, inb l' x <-> inb (content w (Some n)) x \/ (inb (content w src) x /\ sel x = true).
  Proof.
    intros Hb Hsel Hc Hw Hn. unfold set_Range, bind, go_range. fold (tick w).
    destruct (insert_loop n body sel (ord (its w) (content w src)) w0 (tick w) Hb)
      as (w' & l' & Hf & Hw' & Ho & Hl); auto.
    rewrite Hf. exists w', l'. split; [done|]. split; [done|]. split; [by apply wonly_tick|].
    intros x. rewrite Hl, content_tick. apply or_iff_compat_l.
    pose proof (wf_content eqb w src Hw) as Hk. split.
    - intros (e & He & H1 & H2). rewrite ordP in He. split; [|by rewrite <- (Hsel e.1)].
      unfold inb. intros Hn0. rewrite (mlookup_none eqb E) in Hn0. rewrite (Hn0 e He) in H2. done.
    - intros [Hi Hs]. unfold inb in Hi. destruct (mlookup (content w src) x) as [u|] eqn:Hx; [|done].
      apply mlookup_elem in Hx as (k & He & Hkx); auto.
      exists (k, u). rewrite ordP. repeat split; auto. simpl. by rewrite (Hsel k x).
  Qed.

  Lemma inb_proper l x y : eqb x y = true -> inb l x <-> inb l y.
  Proof. intros H. unfold inb. by rewrite (mlookup_proper eqb E _ x y). Qed.

  (** The body "if c(val) then insert" where c tests membership in the set [t]. *)
  Definition sbody n t (neg : bool) : T -> unit -> M (world T unit) (bool * unit) := fun v _ =>
    c <- set_Contain eqb t v ;;
    if (if neg then negb c else c) then set_Insert eqb upd (Some n) v ;;; ret (true, tt) else ret (true, tt).

  Lemma body_sel n t (neg : bool) w0 v w :
    Some n <> t ->
    (forall r, r <> Some n -> content w r = content w0 r) -> wf w -> n < next w ->
    exists w' l',
      sbody n t neg v tt w = Ok ((true, tt), w') /\ wf w' /\ wonly w w' n l' /\
      forall x, inb l' x <-> inb (content w (Some n)) x \/
        (xorb neg (bool_decide (inb (content w0 t) v)) = true /\ eqb v x = true).
  Proof.
    intros Ht Hc Hw Hn. unfold sbody, bind. rewrite contain_ok. rewrite Hc by done.
    assert ((if neg then negb (bool_decide (inb (content w0 t) v)) else bool_decide (inb (content w0 t) v))
      = xorb neg (bool_decide (inb (content w0 t) v))) as -> by (by destruct neg, (bool_decide _)).
    destruct (xorb neg (bool_decide (inb (content w0 t) v))).
    - destruct (insert_ok n v w Hw Hn) as (w' & l' & Hi & Hw' & Ho & Hl).
      rewrite Hi. exists w', l'. split; [done|]. split; [done|]. split; [done|].
      intros x. rewrite Hl. naive_solver.
    - exists w, (content w (Some n)). split; [done|]. split; [done|]. split; [done|].
      intros x. naive_solver.
  Qed.

  Lemma lists_inb w r l' : wf w -> l' ≡ₚ content w r ->
    lists_members eqb (mem (sabs w) r) (map fst l').
  Proof. intros Hw Hp. apply lists_members_of; auto. by apply wf_content. Qed.

  Lemma subset_loop t (es : list (T * unit)) w :
    for_while es (fun e (b : bool) =>
      (c <- set_Contain eqb t (fst e) ;;
       ret (if negb c then (false, false) else (true, b)))) true w
    = Ok (let b := forallb (fun e => bool_decide (inb (content w t) e.1)) es in (b, b), w).
  Proof.
    induction es as [|e es IH]; [done|]. cbn [for_while forallb]. unfold bind at 1 2.
    rewrite contain_ok. unfold ret at 1. case_bool_decide; cbn [negb fst snd andb]; [|done].
    exact IH.
  Qed.

  Lemma subset_ok a t w : wf w ->
    exists b w', set_IsSubSet eqb ord a t w = Ok (b, w') /\ (w' = w \/ w' = tick w) /\
      (b = true <-> forall v, inb (content w a) v -> inb (content w t) v).
  Proof.
    intros Hw. unfold set_IsSubSet, bind at 1 2, set_Len, go_len.
    pose proof (wf_content eqb w a Hw) as Ka. pose proof (wf_content eqb w t Hw) as Kt.
    destruct (Nat.ltb (length (content w t)) (length (content w a))) eqn:Hlt.
    - exists false, w. split; [done|]. split; [by left|]. split; [done|]. intros H.
      apply Nat.ltb_lt in Hlt.
      assert (length (content w a) <= length (content w t)); [|lia].
      by apply (submap_length eqb E).
    - unfold set_Range, bind at 1, go_range. fold (tick w).
      unfold bind at 1.
      pose proof (subset_loop t (ord (its w) (content w a)) (tick w)) as Hl.
      cbn [fst] in Hl |- *. rewrite Hl. simpl.
      eexists _, (tick w). split; [done|]. split; [by right|].
      rewrite forallb_forall. split.
      + intros H v Hv. unfold inb in Hv. destruct (mlookup (content w a) v) as [u|] eqn:Hx; [|done].
        apply mlookup_elem in Hx as (k & He & Hk); auto.
        specialize (H (k, u)). rewrite bool_decide_eq_true in H. rewrite content_tick in H.
        apply (inb_proper _ k v Hk). apply H. apply elem_of_list_In. by rewrite ordP.
      + intros H e He. apply elem_of_list_In in He. rewrite ordP in He.
        apply bool_decide_eq_true. rewrite content_tick. apply H.
        unfold inb. intros Hn. rewrite (mlookup_none eqb E) in Hn. specialize (Hn e He).
        by rewrite eq_refl' in Hn.
  Qed.

  Lemma bool_iff (b : bool) (P : Prop) : (b = true <-> P) -> (negb b = true <-> ~ P).
  Proof. destruct b; naive_solver. Qed.

  Lemma wf_step_new w : wf w -> wf (wnew w []).
  Proof. intros Hw. by apply wf_wnew. Qed.
  Lemma content_new_other w r : wf w -> (forall n, r = Some n -> n < next w) ->
    Some (next w) <> r /\ content (wnew w []) r = content w r.
  Proof.
    intros Hw Hr. assert (Some (next w) <> r).
    { intros <-. specialize (Hr _ eq_refl). lia. }
    split; [done|]. rewrite content_wnew. by rewrite decide_False.
  Qed.

  Lemma push_ok n vs w : wf w -> n < next w ->
    exists w' l', for_each vs (fun v => go_set eqb upd (Some n) v tt) w = Ok (tt, w') /\
      wf w' /\ wonly w w' n l' /\
      forall x, inb l' x <-> inb (content w (Some n)) x \/ among eqb vs x.
  Proof.
    revert w. induction vs as [|v vs IH]; intros w Hw Hn.
    - exists w, (content w (Some n)). split; [done|]. split; [done|]. split; [done|].
      intros x. split; [auto|]. intros [?|(e & He & _)]; auto. by apply elem_of_nil in He.
    - cbn [for_each]. unfold bind. rewrite go_set_some.
      set (w1 := wput w n _).
      destruct (IH w1) as (w' & l' & Hf & Hw' & Ho & Hl); auto.
      { apply wf_wput; auto. apply keys_ok_mset; auto. by apply wf_content. }
      exists w', l'. split; [done|]. split; [done|].
      split; [eapply wonly_trans; [apply wonly_wput|exact Ho]|].
      intros x. rewrite Hl. unfold w1. rewrite content_wput, decide_True by done.
      rewrite inb_mset. unfold among. split.
      + intros [[?|?]|(y & Hy & ?)]; auto; right; [exists v|exists y]; split; auto; set_solver.
      + intros [?|(y & [->|Hy]%elem_of_cons & ?)]; auto. right. eauto.
  Qed.

  Lemma union_loop n sets w : wf w -> n < next w -> Some n ∉ sets ->
    exists w' l', for_each sets (fun v =>
        set_Range ord v (fun val (_ : unit) => set_Insert eqb upd (Some n) val ;;; ret (true, tt)) tt ;;; ret tt) w
      = Ok (tt, w') /\ wf w' /\ wonly w w' n l' /\
      forall x, inb l' x <-> inb (content w (Some n)) x \/ exists c, c ∈ sets /\ inb (content w c) x.
  Proof.
    revert w. induction sets as [|c sets IH]; intros w Hw Hn Hni.
    - exists w, (content w (Some n)). split; [done|]. split; [done|]. split; [done|].
      intros x. split; [auto|]. intros [?|(e & He & _)]; auto. by apply elem_of_nil in He.
    - cbn [for_each]. unfold bind at 1 2.
      destruct (range_insert n c (fun val (_ : unit) => set_Insert eqb upd (Some n) val ;;; ret (true, tt))
        (fun _ => true) w w) as (w1 & l1 & Hf1 & Hw1 & Ho1 & Hl1); auto.
      { intros v w2 Hc2 Hw2 Hn2. destruct (insert_ok n v w2 Hw2 Hn2) as (w' & l' & Hi & Hw' & Ho & Hl).
        exists w', l'. unfold bind. rewrite Hi. split; [done|]. split; [done|]. split; [done|].
        intros x. rewrite Hl. naive_solver. }
      rewrite Hf1. unfold ret at 1.
      destruct (IH w1) as (w' & l' & Hf & Hw' & Ho & Hl); auto.
      { destruct Ho1 as (-> & _). done. } { set_solver. }
      exists w', l'. split; [exact Hf|]. split; [done|]. split; [by eapply wonly_trans|].
      intros x. rewrite Hl. destruct Ho1 as (_ & H2 & H3). rewrite H2, Hl1. split.
      + intros [[?|[? _]]|(d & Hd & Hx)]; auto; right.
        * exists c. split; [set_solver|done].
        * exists d. split; [set_solver|]. rewrite <- H3; [done|]. set_solver.
      + intros [?|(d & [->|Hd]%elem_of_cons & Hx)]; auto. right. exists d. split; auto.
        rewrite H3; [done|]. set_solver.
  Qed.

  Lemma set_step_spec c w r w' :
    wf w -> (forall n, Some n ∈ set_refs c -> n < next w) ->
    set_step eqb upd ord c w = (r, w') ->
    wf w' /\ set_does eqb (sabs w) (sabs w') c r.
  Proof.
    intros Hw Href. unfold set_step.
    destruct c as [|a|a|a|a vs|a v|a v|a v|a|a|a t|a v|a f|a t|a t|a t|a t|a t|a t|a ts];
      cbn [set_exec set_refs] in *; unfold smap.
    - (* New *)
      intros [= <- <-]. split; [by apply (wf_step_new w)|]. apply e_New.
      apply (s_created_wonly w (wnew w []) [] []).
      + split; [done|]. split; [|done]. by rewrite content_wnew, decide_True.
      + intros v. unfold inb. simpl. naive_solver.
    - (* Len *)
      intros [= <- <-]. split; auto.
      rewrite <- (map_length fst). constructor; [apply s_unchanged_refl|]. by apply lists_inb.
    - (* Slice *)
      intros [= <- <-]. split; [by apply (wf_tick eqb)|]. constructor; [apply s_unchanged_tick|].
      apply lists_inb; auto.
    - (* Clone *)
      destruct a as [m|]; intros [= <- <-].
      + split; [apply (wf_wnew eqb w (content w (Some m))); auto; by apply wf_content|].
        constructor. apply (s_created_wonly w (wnew w (content w (Some m))) (content w (Some m)) (content w (Some m))); [|done].
        split; [done|]. split; [|done]. by rewrite content_wnew, decide_True.
      + split; auto. constructor. apply s_unchanged_refl.
    - (* Push *)
      unfold set_Push, bind. destruct a as [n|].
      + destruct (push_ok n vs w) as (w1 & l & Hf & Hw1 & Ho & Hl); [done|apply Href; set_solver|].
        rewrite Hf. intros [= <- <-]. split; auto. constructor. by eapply s_becomes_wonly.
      + destruct vs as [|v vs]; intros [= <- <-]; (split; [done|]).
        * constructor. apply s_unchanged_refl.
        * by constructor.
    - (* Insert *)
      destruct a as [n|].
      + destruct (insert_ok n v w) as (w1 & l & Hf & Hw1 & Ho & Hl); [done|apply Href; set_solver|].
        unfold bind. rewrite Hf. intros [= <- <-]. split; auto. constructor.
        * apply bool_iff. apply bool_decide_eq_true.
        * by eapply s_becomes_wonly.
      + unfold set_Insert, bind. rewrite contain_ok.
        rewrite bool_decide_eq_false_2 by (unfold inb, content; simpl; naive_solver).
        intros [= <- <-]. split; auto. constructor. apply s_unchanged_refl.
    - (* Contain *)
      unfold bind. rewrite contain_ok. intros [= <- <-]. split; auto.
      constructor; [apply s_unchanged_refl|]. apply bool_decide_eq_true.
    - (* Remove *)
      unfold set_Remove, bind. rewrite contain_ok.
      destruct a as [n|].
      + case_bool_decide as Hc; intros [= <- <-].
        * fold (wput w n (mdel eqb (content w (Some n)) v)).
          pose proof (wf_content eqb w (Some n) Hw) as Hk. split.
          { apply wf_wput; auto; [by apply keys_ok_mdel|apply Href; set_solver]. }
          constructor; [done|]. eapply s_becomes_wonly; [apply wonly_wput|].
          intros x. by apply inb_mdel.
        * split; auto. constructor; [done|]. eapply s_becomes_wonly; [apply wonly_refl|].
          intros x. simpl. split; [|tauto]. intros Hx. split; auto.
          destruct (eqb v x) eqn:Hvx; auto. exfalso. apply Hc. by apply (inb_proper _ v x).
      + rewrite bool_decide_eq_false_2 by (unfold inb, content; simpl; naive_solver).
        intros [= <- <-]. split; auto. constructor. apply s_unchanged_refl.
    - (* IsEmpty *)
      unfold set_IsEmpty, set_Len, bind, go_len, ret. intros [= <- <-]. split; auto.
      constructor; [apply s_unchanged_refl|]. rewrite Nat.eqb_eq. split.
      + intros H v Hv. simpl in Hv. destruct (content w a); done.
      + intros H. destruct (content w a) as [|[k u] l] eqn:Hc; auto.
        exfalso. apply (H k). simpl. rewrite Hc. unfold inb. simpl. by rewrite eq_refl'.
    - (* Clear *)
      destruct a as [n|]; intros [= <- <-].
      + split; [apply (wf_wput eqb w n []); auto; [done|apply Href; set_solver]|].
        constructor. apply (s_becomes_wonly w (wput w n []) n []); [apply wonly_wput|].
        intros v. unfold inb. simpl. naive_solver.
      + split; auto. constructor. apply s_unchanged_refl.
    - (* CopyFrom *)
      unfold set_CopyFrom, bind. destruct a as [n|].
      + destruct (maps_Copy_some eqb upd E ord ordP n t w) as (w1 & l & Hc & Hw1 & Ho & Hl);
          [done|apply Href; set_solver|].
        rewrite Hc. intros [= <- <-]. split; auto. constructor.
        eapply s_becomes_wonly; [exact Ho|]. intros v. unfold inb. rewrite Hl. unfold over. simpl.
        unfold inb. destruct (mlookup (content w t) v); naive_solver.
      + destruct (maps_Copy_nil eqb upd ord ordP t w Hw) as [[Hn Hc]|[Hn Hc]].
        * rewrite Hc. intros [= <- <-]. split; [by apply (wf_tick eqb)|].
          constructor; [apply s_unchanged_tick|]. intros v. simpl. rewrite Hn. unfold inb. simpl. naive_solver.
        * rewrite Hc. intros [= <- <-]. split; auto. constructor; [apply s_unchanged_refl|].
          intros He. apply Hn. apply (content_empty eqb E); auto. intros v. specialize (He v).
          simpl in He. unfold inb in He. destruct (mlookup (content w t) v); naive_solver.
    - (* ContainAndRemove *)
      unfold set_ContainAndRemove, set_Remove, bind. rewrite contain_ok.
      destruct a as [n|].
      + case_bool_decide as Hc; intros [= <- <-].
        * fold (wput w n (mdel eqb (content w (Some n)) v)).
          pose proof (wf_content eqb w (Some n) Hw) as Hk. split.
          { apply wf_wput; auto; [by apply keys_ok_mdel|apply Href; set_solver]. }
          constructor; [done|]. eapply s_becomes_wonly; [apply wonly_wput|].
          intros x. by apply inb_mdel.
        * split; auto. constructor; [done|]. eapply s_becomes_wonly; [apply wonly_refl|].
          intros x. simpl. split; [|tauto]. intros Hx. split; auto.
          destruct (eqb v x) eqn:Hvx; auto. exfalso. apply Hc. by apply (inb_proper _ v x).
      + rewrite bool_decide_eq_false_2 by (unfold inb, content; simpl; naive_solver).
        intros [= <- <-]. split; auto. constructor. apply s_unchanged_refl.
    - (* Range *)
      unfold set_Range, bind, go_range. fold (tick w).
      assert (Hx : forall (es : list (T * unit)) seen,
        for_while es (fun e seen => ret (f e.1, seen ++ [e.1])) seen (tick w)
        = Ok ((forallb f (map fst es), seen ++ visited f (map fst es)), tick w)).
      { induction es as [|[k u] es IH]; intros seen; simpl.
        - unfold ret. by rewrite app_nil_r.
        - unfold bind, ret at 1. simpl. destruct (f k); simpl; [|done].
          rewrite IH. by rewrite <- app_assoc. }
      rewrite Hx. simpl. intros [= <- <-]. split; [by apply (wf_tick eqb)|].
      constructor; [apply s_unchanged_tick|]. by apply lists_inb.
    - (* Equal *)
      unfold set_Equal, bind.
      destruct (maps_EqualFunc_spec eqb E ord ordP a t (fun _ _ => true) w Hw) as (b & w1 & He & Hw1 & Hb).
      rewrite He. intros [= <- <-].
      assert (Hb' : b = true <-> forall v, mem (sabs w) a v <-> mem (sabs w) t v).
      { rewrite Hb. simpl. unfold inb. split; intros H v; specialize (H v);
          destruct (mlookup (content w a) v), (mlookup (content w t) v); naive_solver. }
      destruct Hw1 as [->| ->].
      + split; auto. constructor; [apply s_unchanged_refl|done].
      + split; [by apply (wf_tick eqb)|]. constructor; [apply s_unchanged_tick|done].
    - (* IsSubSet *)
      unfold bind. destruct (subset_ok a t w Hw) as (b & w1 & He & Hw1 & Hb).
      rewrite He. intros [= <- <-]. destruct Hw1 as [->| ->].
      + split; auto. constructor; [apply s_unchanged_refl|done].
      + split; [by apply (wf_tick eqb)|]. constructor; [apply s_unchanged_tick|done].
    - (* IsSupperSet *)
      unfold set_IsSupperSet, bind. destruct (subset_ok t a w Hw) as (b & w1 & He & Hw1 & Hb).
      rewrite He. intros [= <- <-]. destruct Hw1 as [->| ->].
      + split; auto. constructor; [apply s_unchanged_refl|by apply bool_iff].
      + split; [by apply (wf_tick eqb)|]. constructor; [apply s_unchanged_tick|by apply bool_iff].
    - (* Difference *)
      unfold set_Difference, set_New, go_make, bind at 1 2. fold (wnew w []).
      destruct (content_new_other w a Hw) as [Ha1 Ha2]; [intros n ->; apply Href; set_solver|].
      destruct (content_new_other w t Hw) as [Ht1 Ht2]; [intros n ->; apply Href; set_solver|].
      pose proof (fun v w2 => body_sel (next w) t true (wnew w []) v w2 Ht1) as Hbody.
      destruct (range_insert (next w) a (sbody (next w) t true) (fun v => xorb true (bool_decide (inb (content (wnew w []) t) v)))
        (wnew w []) (wnew w []) Hbody) as (w1 & l1 & Hf1 & Hw1 & Ho1 & Hl1).
      { intros x y Hxy. f_equal. apply bool_decide_ext. by apply inb_proper. }
      { done. } { by apply wf_step_new. } { simpl; lia. }
      unfold bind at 1. unfold sbody in Hf1. cbn beta iota in Hf1 |- *. rewrite Hf1. intros [= <- <-]. split; auto.
      constructor. eapply s_created_wonly; [exact Ho1|].
      intros v. rewrite Hl1. rewrite content_wnew, decide_True, Ha2, Ht2 by done.
      rewrite xorb_true_l, negb_true_iff, bool_decide_eq_false. simpl. unfold inb at 1. simpl. naive_solver.
    - (* SymmetricDifference *)
      unfold set_SymmetricDifference, set_New, go_make, bind at 1 2. fold (wnew w []).
      destruct (content_new_other w a Hw) as [Ha1 Ha2]; [intros n ->; apply Href; set_solver|].
      destruct (content_new_other w t Hw) as [Ht1 Ht2]; [intros n ->; apply Href; set_solver|].
      pose proof (fun v w2 => body_sel (next w) t true (wnew w []) v w2 Ht1) as Hbody.
      destruct (range_insert (next w) a (sbody (next w) t true) (fun v => xorb true (bool_decide (inb (content (wnew w []) t) v)))
        (wnew w []) (wnew w []) Hbody) as (w1 & l1 & Hf1 & Hw1 & Ho1 & Hl1).
      { intros x y Hxy. f_equal. apply bool_decide_ext. by apply inb_proper. }
      { done. } { by apply wf_step_new. } { simpl; lia. }
      unfold sbody in Hf1. cbn beta iota in Hf1 |- *. rewrite (bind_ok _ _ _ _ _ Hf1).
      pose proof (fun v w2 => body_sel (next w) a true w1 v w2 Ha1) as Hbody2.
      destruct (range_insert (next w) t (sbody (next w) a true) (fun v => xorb true (bool_decide (inb (content w1 a) v)))
        w1 w1 Hbody2) as (w2 & l2 & Hf2 & Hw2 & Ho2 & Hl2).
      { intros x y Hxy. f_equal. apply bool_decide_ext. by apply inb_proper. }
      { done. } { done. } { destruct Ho1 as (-> & _). simpl; lia. }
      unfold sbody in Hf2. cbn beta iota in Hf2 |- *. rewrite (bind_ok _ _ _ _ _ Hf2). unfold ret. intros [= <- <-]. split; auto.
      constructor. eapply s_created_wonly; [by eapply wonly_trans|].
      destruct Ho1 as (_ & H2 & H3).
      assert (content w1 a = content w a) as Hca by (rewrite H3 by done; done).
      assert (content w1 t = content w t) as Hct by (rewrite H3 by done; done).
      intros v. rewrite Hl2. rewrite H2, Hl1. rewrite content_wnew, decide_True by done.
      rewrite Hca, Hct, Ha2, Ht2.
      rewrite !xorb_true_l, !negb_true_iff, !bool_decide_eq_false. simpl. unfold inb at 1. simpl. naive_solver.
    - (* Intersection *)
      unfold set_Intersection, set_New, go_make, bind at 1 2. fold (wnew w []).
      destruct (content_new_other w a Hw) as [Ha1 Ha2]; [intros n ->; apply Href; set_solver|].
      destruct (content_new_other w t Hw) as [Ht1 Ht2]; [intros n ->; apply Href; set_solver|].
      pose proof (fun v w2 => body_sel (next w) t false (wnew w []) v w2 Ht1) as Hbody.
      destruct (range_insert (next w) a (sbody (next w) t false) (fun v => xorb false (bool_decide (inb (content (wnew w []) t) v)))
        (wnew w []) (wnew w []) Hbody) as (w1 & l1 & Hf1 & Hw1 & Ho1 & Hl1).
      { intros x y Hxy. f_equal. apply bool_decide_ext. by apply inb_proper. }
      { done. } { by apply wf_step_new. } { simpl; lia. }
      unfold bind at 1. unfold sbody in Hf1. cbn beta iota in Hf1 |- *. rewrite Hf1. intros [= <- <-]. split; auto.
      constructor. eapply s_created_wonly; [exact Ho1|].
      intros v. rewrite Hl1. rewrite content_wnew, decide_True, Ha2, Ht2 by done.
      rewrite xorb_false_l, bool_decide_eq_true. simpl. unfold inb at 1. simpl. naive_solver.
    - (* Union *)
      unfold set_Union, set_New, go_make, bind at 1 2. fold (wnew w []).
      destruct (union_loop (next w) (a :: ts) (wnew w [])) as (w1 & l1 & Hf & Hw1 & Ho & Hl).
      { by apply wf_step_new. } { simpl; lia. }
      { intros Hin. assert (next w < next w) by (by apply Href). lia. }
      cbn [for_each] in Hf.
      destruct (set_Range ord a (fun val (_ : unit) => set_Insert eqb upd (Some (next w)) val ;;; ret (true, tt)) tt (wnew w []))
        as [[[] w2]| |] eqn:Hr; 
        [|rewrite (bind_panic _ _ _ (bind_panic _ _ _ Hr)) in Hf; done
         |rewrite (bind_nofuel _ _ _ (bind_nofuel _ _ _ Hr)) in Hf; done].
      rewrite (bind_ok _ _ _ _ _ Hr).
      rewrite (bind_ok _ _ _ tt w2) in Hf by (rewrite (bind_ok _ _ _ _ _ Hr); done).
      rewrite (bind_ok _ _ _ _ _ Hf). unfold ret.
      intros [= <- <-]. split; auto. constructor.
      eapply s_created_wonly; [exact Ho|]. intros v. rewrite Hl.
      rewrite content_wnew, decide_True by done.
      assert (Hc : forall c, c ∈ a :: ts -> content (wnew w []) c = content w c).
      { intros c Hc. apply content_new_other; auto. intros n ->. by apply Href. }
      simpl. unfold inb at 1. simpl. split.
      + intros [?|(c & Hc1 & Hv)]; [done|]. rewrite Hc in Hv by done.
        apply elem_of_cons in Hc1 as [->|Hc1]; eauto.
      + intros Hv. right. destruct Hv as [Hv|(c & Hc1 & Hv)].
        * exists a. rewrite Hc by set_solver. split; [set_solver|done].
        * exists c. rewrite Hc by set_solver. split; [set_solver|done].
  Qed.

  Lemma set_history_spec w h w' :
    wf w -> set_history eqb upd ord w h w' -> wf w' /\ set_behaves eqb (sabs w) h (sabs w').
  Proof.
    intros Hw H. induction H as [w|w c r w1 h w2 Hr Hs Hh IH].
    - split; auto. constructor. apply s_unchanged_refl.
    - destruct (set_step_spec c w r w1 Hw Hr Hs) as [Hw1 Hd].
      destruct (IH Hw1) as [Hw2 Hb]. split; auto. by econstructor.
  Qed.

  Lemma set_history_empty h w' :
    set_history eqb upd ord (World ∅ 0 0) h w' ->
    exists s0 s, count s0 = 0 /\ (forall r v, ~ mem s0 r v) /\ set_behaves eqb s0 h s.
  Proof.
    intros H. exists (sabs (World ∅ 0 0)), (sabs w'). repeat split.
    - intros r v. simpl. destruct r as [n|]; unfold inb, content; simpl; rewrite ?lookup_empty; simpl; naive_solver.
    - eapply set_history_spec; [|exact H]. split.
      + intros n. unfold content. simpl. by rewrite lookup_empty.
      + intros n _. apply lookup_empty.
  Qed.

  Lemma set_algebra a b w r w' :
    wf w -> (forall n, a = Some n \/ b = Some n -> n < next w) ->
    (set_step eqb upd ord (SUnion a [b]) w = (r, w') -> exists n, r = SRef (Some n) /\
       s_created (sabs w) (sabs w') n (fun v => mem (sabs w) a v \/ mem (sabs w) b v)) /\
    (set_step eqb upd ord (SIntersection a b) w = (r, w') -> exists n, r = SRef (Some n) /\
       s_created (sabs w) (sabs w') n (fun v => mem (sabs w) a v /\ mem (sabs w) b v)) /\
    (set_step eqb upd ord (SDifference a b) w = (r, w') -> exists n, r = SRef (Some n) /\
       s_created (sabs w) (sabs w') n (fun v => mem (sabs w) a v /\ ~ mem (sabs w) b v)) /\
    (set_step eqb upd ord (SSymmetricDifference a b) w = (r, w') -> exists n, r = SRef (Some n) /\
       s_created (sabs w) (sabs w') n
         (fun v => (mem (sabs w) a v /\ ~ mem (sabs w) b v) \/ (mem (sabs w) b v /\ ~ mem (sabs w) a v))).
  Proof.
    intros Hw Hr.
    assert (Hr' : forall n, Some n ∈ [a; b] -> n < next w) by (intros n Hn; apply Hr; set_solver).
    repeat split; intros Hs; (destruct (fun H => set_step_spec _ w r w' Hw H Hs) as [_ Hd];
      [exact Hr'|inversion Hd; subst; eexists; (split; [reflexivity|]); auto]).
    match goal with H : s_created _ _ _ _ |- _ => destruct H as (H1 & H2 & H3 & H4) end.
    split; [done|]. split; [done|]. split; [|done].
    intros v. rewrite H3. split; [|set_solver]. intros [?|(c & Hc & ?)]; auto.
    right. by assert (c = b) as <- by set_solver.
  Qed.

  Lemma set_tests a b w r w' :
    wf w -> (forall n, a = Some n \/ b = Some n -> n < next w) ->
    (set_step eqb upd ord (SIsSubSet a b) w = (r, w') -> exists x, r = SBool x /\
       (x = true <-> forall v, mem (sabs w) a v -> mem (sabs w) b v)) /\
    (set_step eqb upd ord (SEqual a b) w = (r, w') -> exists x, r = SBool x /\
       (x = true <-> forall v, mem (sabs w) a v <-> mem (sabs w) b v)) /\
    (set_step eqb upd ord (SIsSupperSet a b) w = (r, w') -> exists x, r = SBool x /\
       (x = true <-> ~ forall v, mem (sabs w) b v -> mem (sabs w) a v)).
  Proof.
    intros Hw Hr.
    assert (Hr' : forall n, Some n ∈ [a; b] -> n < next w) by (intros n Hn; apply Hr; set_solver).
    repeat split; intros Hs; (destruct (fun H => set_step_spec _ w r w' Hw H Hs) as [_ Hd];
      [exact Hr'|inversion Hd; subst; eexists; (split; [reflexivity|]); auto]).
  Qed.

  Lemma set_lawful_insert n v w : wf w -> n < next w ->
    exists b w', set_Insert eqb upd (Some n) v w = Ok (b, w') /\
      set_Contain eqb (Some n) v w' = Ok (true, w') /\
      set_Insert eqb upd (Some n) v w' = Ok (false, w').
  Proof.
    intros Hw Hn. destruct (insert_ok n v w Hw Hn) as (w' & l' & Hi & Hw' & (H1 & H2 & H3) & Hl).
    eexists _, w'. split; [exact Hi|].
    assert (Hc : set_Contain eqb (Some n) v w' = Ok (true, w')).
    { rewrite contain_ok. rewrite bool_decide_eq_true_2; [done|]. rewrite H2, Hl. right. by apply eq_refl'. }
    split; [done|]. unfold set_Insert. by rewrite (bind_ok _ _ _ _ _ Hc).
  Qed.
End proofs.

(** A set not mentioned by the calls of a history keeps its members. *)
Lemma set_does_frame {T} (eqb : T -> T -> bool) (s s' : sstate T) c r n :
  set_does eqb s s' c r -> Some n ∉ set_refs c -> n < count s ->
  count s <= count s' /\ forall v, mem s' (Some n) v <-> mem s (Some n) v.
Proof.
  intros H Hn Ha.
  destruct H; cbn [set_refs] in Hn;
    repeat match goal with
    | H : s_unchanged _ _ |- _ => destruct H as [Hal Htab]
    | H : s_becomes _ _ _ _ |- _ => destruct H as (Hal & Htab1 & Htab)
    | H : s_created _ _ _ _ |- _ => destruct H as (Hnew & Hal & Htab1 & Htab)
    end; (split; [lia|]); intros k'; apply Htab;
    try (intros [= ->]; first [by apply Hn, elem_of_list_here | lia]).
Qed.
Lemma set_behaves_frame {T} (eqb : T -> T -> bool) (s s' : sstate T) h n :
  set_behaves eqb s h s' -> (forall c r, (c, r) ∈ h -> Some n ∉ set_refs c) -> n < count s ->
  forall v, mem s' (Some n) v <-> mem s (Some n) v.
Proof.
  intros H. induction H as [s s' [Hu1 Hu2]|s s1 c r h s2 Hd Hb IH]; intros Hh Hn v; [by apply Hu2|].
  destruct (set_does_frame eqb s s1 c r n Hd) as [Hle Ht]; auto.
  { apply (Hh c r). set_solver. }
  rewrite IH; auto; [|lia]. intros c' r' Hin. apply (Hh c' r'). set_solver.
Qed.

Section proofs2.
  Context {T : Type} (eqb : T -> T -> bool) (upd : bool) (E : equivb eqb).
  Context (ord : nat -> list (T * unit) -> list (T * unit)) (ordP : forall n l, ord n l ≡ₚ l).
  Lemma set_history_frame w h w' n :
    wf eqb w -> set_history eqb upd ord w h w' ->
    n < next w -> (forall c r, (c, r) ∈ h -> Some n ∉ set_refs c) ->
    forall v, mem (sabs eqb w') (Some n) v <-> mem (sabs eqb w) (Some n) v.
  Proof.
    intros Hw Hh Hn Hm. destruct (set_history_spec eqb upd E ord ordP w h w' Hw Hh) as [_ Hb].
    by apply (set_behaves_frame eqb _ _ h n Hb).
  Qed.
  Lemma set_copies w r w' :
    wf eqb w ->
    (forall m, m < next w -> set_step eqb upd ord (SClone (Some m)) w = (r, w') ->
       exists n, r = SRef (Some n) /\ n <> m /\
         s_created (sabs eqb w) (sabs eqb w') n (mem (sabs eqb w) (Some m))) /\
    (forall n m, n < next w -> m < next w -> set_step eqb upd ord (SCopyFrom (Some n) (Some m)) w = (r, w') ->
       r = SRef (Some n) /\
       s_becomes (sabs eqb w) (sabs eqb w') n (fun v => mem (sabs eqb w) (Some n) v \/ mem (sabs eqb w) (Some m) v)).
  Proof.
    intros Hw. split.
    - intros m Hm H. destruct (fun G => set_step_spec eqb upd E ord ordP _ w r w' Hw G H) as [_ Hd].
      { intros n Hn. cbn in Hn. assert (n = m) as -> by set_solver. done. }
      inversion Hd; subst. eexists. split; [done|]. split; [|done].
      match goal with H : s_created _ _ _ _ |- _ => destruct H as (-> & _) end. simpl. lia.
    - intros n m Hn Hm H. destruct (fun G => set_step_spec eqb upd E ord ordP _ w r w' Hw G H) as [_ Hd].
      { intros x Hx. cbn in Hx. assert (x = n \/ x = m) as [->| ->] by set_solver; done. }
      inversion Hd; subst. done.
  Qed.
  Lemma set_run_history cs w h w' :
    set_run eqb upd ord cs w = Some (h, w') -> set_history eqb upd ord w h w'.
  Proof using Type.
    revert w h. induction cs as [|c cs IH]; intros w h; simpl.
    - intros [= <- <-]. constructor.
    - destruct (forallb _ _) eqn:Hf; [|done].
      destruct (set_step eqb upd ord c w) as [r w1] eqn:Hs.
      destruct (set_run eqb upd ord cs w1) as [[h2 w2]|] eqn:Hr; [|done]. intros [= <- <-].
      eapply sh_cons; [|exact Hs|by apply IH]. by apply refs_below.
  Qed.
End proofs2.
