(** Sets with numbered entries: proofs. *)
From Coq Require Import ZifyBool ZifyNat.
From Verif Require Import Base GoMap GoMapSpec GoMapProofs GenMapModel SetModel GoMapIter GoMapIterSpec GoMapIterProofs
  GenMapOddModel GenMapOddSpec GenMapOdd SetOddModel.

Section agree.
  Context {T : Type} (eqb : T -> T -> bool) (upd : bool).
  Notation IT := (nat * T)%type.
  Notation W := (world IT unit).
  Context (ord : nat -> list (IT * unit) -> list (IT * unit)) (ord' : nat -> list (T * unit) -> list (T * unit)).
  Context (Hord : forall i l, ord' i (map plain_entry l) = map plain_entry (ord i l)).

  Lemma sim_Contain s v : sim id (is_Contain eqb s v) (set_Contain eqb s v).
  Proof. eapply sim_bind; [apply sim_get|]. intros o. by apply sim_ret. Qed.
  Lemma sim_Insert s v : sim id (is_Insert eqb upd s v) (set_Insert eqb upd s v).
  Proof.
    eapply sim_bind; [apply sim_Contain|]. intros []; cbn; [by apply sim_ret|].
    eapply sim_bind; [apply sim_set|]. intros _. by apply sim_ret.
  Qed.
  Lemma sim_Remove s v : sim id (is_Remove eqb s v) (set_Remove eqb s v).
  Proof.
    eapply sim_bind; [apply sim_Contain|]. intros []; cbn; [|by apply sim_ret].
    eapply sim_bind; [apply sim_delete|]. intros _. by apply sim_ret.
  Qed.
  Lemma sim_Range {S} s f f' (st : S) : (forall v st, sim id (f v st) (f' v st)) -> sim id (is_Range ord s f st) (set_Range ord' s f' st).
  Proof.
    intros H. eapply sim_bind; [by apply sim_range|]. intros es. eapply sim_bind; [|intros r; by apply sim_ret].
    apply sim_for_while. intros e s'. apply H.
  Qed.
  Lemma sim_IsSubSet s set : sim id (is_IsSubSet eqb ord s set) (set_IsSubSet eqb ord' s set).
  Proof.
    eapply sim_bind; [apply sim_len|]. intros n1. eapply sim_bind; [apply sim_len|]. intros n2. unfold id.
    destruct (n2 <? n1); [by apply sim_ret|]. apply sim_Range. intros v b. eapply sim_bind; [apply sim_Contain|].
    intros c. by apply sim_ret.
  Qed.
  Lemma sim_pick d s set : sim id (is_pick eqb upd ord d s set false)
    (set_Range ord' s (fun val (_ : unit) =>
      c <- set_Contain eqb set val ;; if negb c then set_Insert eqb upd d val ;;; ret (true, tt) else ret (true, tt)) tt).
  Proof.
    apply sim_Range. intros v _. eapply sim_bind; [apply sim_Contain|]. intros []; cbn; [by apply sim_ret|].
    eapply sim_bind; [apply sim_Insert|]. intros b. by apply sim_ret.
  Qed.
  Lemma sim_pick_true d s set : sim id (is_pick eqb upd ord d s set true)
    (set_Range ord' s (fun val (_ : unit) =>
      c <- set_Contain eqb set val ;; if c then set_Insert eqb upd d val ;;; ret (true, tt) else ret (true, tt)) tt).
  Proof.
    apply sim_Range. intros v _. eapply sim_bind; [apply sim_Contain|]. intros []; cbn; [|by apply sim_ret].
    eapply sim_bind; [apply sim_Insert|]. intros b. by apply sim_ret.
  Qed.
  Lemma sim_all d s : sim id (is_all eqb upd ord d s)
    (set_Range ord' s (fun val (_ : unit) => set_Insert eqb upd d val ;;; ret (true, tt)) tt).
  Proof. apply sim_Range. intros v _. eapply sim_bind; [apply sim_Insert|]. intros b. by apply sim_ret. Qed.
  Lemma sim_Clone r : sim (K := T) (V := unit) id (maps_Clone r) (maps_Clone r).
  Proof.
    intros w. unfold maps_Clone. destruct r as [n|]; [|done]. rewrite content_plain. unfold plain, id. cbn [tables next its].
    by rewrite fmap_insert.
  Qed.
  Lemma sim_each {A} (es : list A) f f' : (forall e, sim (K := T) (V := unit) id (f e) (f' e)) -> sim id (for_each es f) (for_each es f').
  Proof. intros H. induction es as [|e es IH]; cbn; [by apply sim_ret|]. eapply sim_bind; [apply H|]. intros _. exact IH. Qed.

  Lemma sim_sexec c : sim id (is_exec eqb upd ord c) (set_exec eqb upd ord' c).
  Proof.
    destruct c as [|s|s|s|s vs|s v|s v|s v|s|s|s set|s v|s f|s set|s set|s set|s set|s set|s set|s sets]; cbn [is_exec set_exec]; unfold smap.
    - eapply sim_bind; [apply sim_make|]. intros r. by apply sim_ret.
    - eapply sim_bind; [apply sim_len|]. intros r. by apply sim_ret.
    - eapply sim_ext; [done|intros w; unfold set_Slice, maps_Keys; rewrite bind_assoc; reflexivity|].
      eapply sim_bind; [by apply sim_range|intros a w]. unfold bind, ret, id. by rewrite map_map.
    - eapply sim_bind; [apply sim_Clone|]. intros r. by apply sim_ret.
    - eapply sim_ext; [done|intros w; unfold set_Push; rewrite bind_assoc; reflexivity|].
      eapply sim_bind; [apply sim_each; intros v; apply sim_set|]. intros _ w. done.
    - eapply sim_bind; [apply sim_Insert|]. intros r. by apply sim_ret.
    - eapply sim_bind; [apply sim_Contain|]. intros r. by apply sim_ret.
    - eapply sim_bind; [apply sim_Remove|]. intros r. by apply sim_ret.
    - eapply sim_ext; [done|intros w; unfold set_IsEmpty, set_Len; rewrite bind_assoc; reflexivity|].
      eapply sim_bind; [apply sim_len|]. intros r w. done.
    - eapply sim_ext; [done|intros w; unfold set_Clear, maps_Clear; rewrite bind_assoc; reflexivity|].
      eapply sim_bind; [apply sim_clear|]. intros r w. done.
    - eapply sim_ext; [done|intros w; unfold set_CopyFrom; rewrite bind_assoc; reflexivity|].
      eapply sim_bind; [by apply sim_copy|]. intros r w. done.
    - eapply sim_bind; [apply sim_Remove|]. intros r. by apply sim_ret.
    - eapply sim_bind; [apply sim_Range; intros v st; by apply sim_ret|]. intros r. by apply sim_ret.
    - eapply sim_bind; [|intros r; by apply sim_ret]. unfold set_Equal, maps_EqualFunc.
      eapply sim_bind; [apply sim_len|intros n1]. eapply sim_bind; [apply sim_len|intros n2]. unfold id.
      destruct (negb _); [by apply sim_ret|]. eapply sim_bind; [by apply sim_range|intros es].
      eapply sim_bind; [apply sim_for_while; intros e s1|intros a; by apply sim_ret].
      eapply sim_bind; [apply sim_get'|intros o; by apply sim_ret].
    - eapply sim_bind; [apply sim_IsSubSet|]. intros r. by apply sim_ret.
    - eapply sim_ext; [done|intros w; unfold set_IsSupperSet; rewrite bind_assoc; reflexivity|].
      eapply sim_bind; [apply sim_IsSubSet|]. intros r w. done.
    - eapply sim_ext; [done|intros w; unfold set_Difference, set_New; rewrite bind_assoc; reflexivity|].
      eapply sim_bind; [apply sim_make|]. intros d.
      eapply sim_ext; [done|intros w; rewrite bind_assoc; reflexivity|]. eapply sim_bind; [apply sim_pick|]. intros r w. done.
    - eapply sim_ext; [done|intros w; unfold set_SymmetricDifference, set_New; rewrite bind_assoc; reflexivity|].
      eapply sim_bind; [apply sim_make|]. intros d.
      eapply sim_ext; [done|intros w; rewrite bind_assoc; reflexivity|]. eapply sim_bind; [apply sim_pick|]. intros _.
      eapply sim_ext; [done|intros w; rewrite bind_assoc; reflexivity|]. eapply sim_bind; [apply sim_pick|]. intros r w. done.
    - eapply sim_ext; [done|intros w; unfold set_Intersection, set_New; rewrite bind_assoc; reflexivity|].
      eapply sim_bind; [apply sim_make|]. intros d.
      eapply sim_ext; [done|intros w; rewrite bind_assoc; reflexivity|]. eapply sim_bind; [apply sim_pick_true|]. intros r w. done.
    - eapply sim_ext; [done|intros w; unfold set_Union, set_New; rewrite bind_assoc; reflexivity|].
      eapply sim_bind; [apply sim_make|]. intros d.
      eapply sim_ext; [done|intros w; rewrite bind_assoc; reflexivity|]. eapply sim_bind; [apply sim_all|]. intros _.
      eapply sim_ext; [done|intros w; rewrite bind_assoc; reflexivity|]. eapply sim_bind; [|intros r w; done].
      apply sim_each. intros v. eapply sim_ext; [done| |apply (sim_all d v)]. intros w. unfold bind at 1.
      by destruct (set_Range ord' v _ tt w) as [[[] w1]| |].
  Qed.
  Lemma sstep_plain c w : set_step eqb upd ord' c (plain w) = ((is_step eqb upd ord c w).1, plain (is_step eqb upd ord c w).2).
  Proof. unfold set_step, is_step. rewrite (sim_sexec c w). by destruct (is_exec eqb upd ord c w) as [[]| |]. Qed.
End agree.

(** * What the calls keep *)
Section keep.
  Context {T : Type} (eqb : T -> T -> bool) (upd : bool).
  Notation IT := (nat * T)%type.
  Notation W := (world IT unit).
  Context (ord : nat -> list (IT * unit) -> list (IT * unit)) (P : W -> Prop).
  Notation kept := (kept P).
  Lemma kept_sstep c w :
    (forall r, kept (go_range ord r)) -> (forall r k, kept (i_delete eqb r k)) -> (forall r, c = SClear r -> kept (go_clear r)) ->
    kept go_make -> (forall r k v, kept (i_set eqb upd r k v)) -> (forall r, kept (maps_Clone r)) ->
    P w -> P (is_step eqb upd ord c w).2.
  Proof.
    intros Hrange Hdel Hclear Hmake Hset Hclone Hw.
    assert (H : kept (is_exec eqb upd ord c)).
    { destruct c; cbn [is_exec]; unfold is_pick, is_all, is_Range, is_Remove, is_Insert, is_Contain, is_IsSubSet, is_Range, is_Contain, i_copy, maps_EqualFunc;
      repeat first [ apply kept_ret | apply Hmake | apply Hset | apply Hdel | apply Hrange | apply Hclone | by apply Hclear
                   | apply kept_get | apply kept_get' | apply kept_len
                   | apply kept_for_each; intros | apply kept_for_while; intros | simple apply kept_bind; [|intros]
                   | match goal with |- kept (if ?b then _ else _) => destruct b end ]. }
    specialize (H w Hw). unfold is_step. by destruct (is_exec eqb upd ord c w) as [[]| |].
  Qed.
End keep.

Section numbers.
  Context {T : Type} (eqb : T -> T -> bool) (upd : bool).
  Notation IT := (nat * T)%type.
  Notation W := (world IT unit).
  Context (ord : nat -> list (IT * unit) -> list (IT * unit)).

  Lemma numbers_sstep c w : numbers_ok w -> numbers_ok (is_step eqb upd ord c w).2.
  Proof.
    apply (kept_sstep eqb upd ord numbers_ok).
    - intros r w1 H. exact H.
    - intros [r|] k w1 H; [|done]. intros n. unfold i_delete, go_delete. rewrite content_put. case_decide as Hn; [|apply H].
      apply nums_mdel, (H r).
    - intros [r|] _ w1 H; [|done]. intros n. unfold go_clear. rewrite content_put. case_decide; [constructor|apply H].
    - intros w1 H n. unfold content. cbn [tables]. destruct (decide (n = next w1)) as [->|Hn]; [rewrite lookup_insert; constructor|].
      rewrite lookup_insert_ne by done. apply (H n).
    - intros [r|] k v w1 H; [|done]. intros n. unfold i_set. rewrite content_put. case_decide as Hn; [|apply H]. injection Hn as ->.
      destruct (nums_iset eqb upd (content w1 (Some r)) (new_id (content w1 (Some r))) k v) as [-> | ->]; [apply H|].
      apply NoDup_app. split_and!; [apply H| |apply NoDup_singleton]. intros x Hx ->%elem_of_list_singleton. by apply (new_id_fresh ord (content w1 (Some r))).
    - intros [r|] w1 H; [|done]. intros n. unfold content at 1. cbn [tables]. destruct (decide (n = next w1)) as [->|Hn]; [rewrite lookup_insert; apply (H r)|].
      rewrite lookup_insert_ne by done. apply (H n).
  Qed.
  Context (Hsym : forall x y, eqb x y = true -> eqb y x = true) (Htrans : forall x y z, eqb x y = true -> eqb y z = true -> eqb x z = true).
  Lemma odd_sstep n j k c w : eqb k k = false -> c <> SClear (Some n) -> stays n ((j, k), tt) w -> stays n ((j, k), tt) (is_step eqb upd ord c w).2.
  Proof.
    intros Ho Hc. apply (kept_sstep eqb upd ord (stays n ((j, k), tt))).
    - intros r w1 H. exact H.
    - intros [r|] k' w1 [H1 H2]; [|done]. split; [done|]. unfold i_delete, go_delete. rewrite content_put. case_decide as Hn; [|done]. injection Hn as ->. by apply odd_mdel.
    - intros [r|] -> w1 [H1 H2]; [|done]. split; [done|]. unfold go_clear. rewrite content_put. case_decide as Hn; [|done]. by injection Hn as ->.
    - intros w1 [H1 H2]. split; [cbn; lia|]. unfold content. cbn [tables]. rewrite lookup_insert_ne by lia. exact H2.
    - intros [r|] k' v' w1 [H1 H2]; [|done]. split; [done|]. unfold i_set. rewrite content_put. case_decide as Hn; [|done]. injection Hn as ->. by apply odd_iset.
    - intros [r|] w1 [H1 H2]; [|done]. split; [cbn; lia|]. unfold content. cbn [tables]. rewrite lookup_insert_ne by lia. exact H2.
  Qed.
End numbers.

Lemma never_no_number {T A} (c : set_call T) (p : prog (R := set_res T) A) : never c p -> never c (no_number p).
Proof.
  induction p as [A a|A c' k IH|A S m f IHf s k IHk]; cbn; [done| |].
  - intros [H1 H2]. split; [done|]. intros r. by apply IH.
  - intros [H1 H2]. split; [intros q v s'; by apply IHf|intros r; by apply IHk].
Qed.
