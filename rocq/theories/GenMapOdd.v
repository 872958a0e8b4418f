(** Maps with numbered entries: proofs. *)
From Coq Require Import ZifyBool ZifyNat.
From Verif Require Import Base GoMap GoMapSpec GoMapProofs GenMapModel GoMapIter GoMapIterSpec GoMapIterProofs
  GenMapOddModel GenMapOddSpec.

Section proofs.
  Context {K V : Type} (eqb : K -> K -> bool) (upd : bool).
  Notation IK := (nat * K)%type.
  Notation W := (world IK V).
  Context (ord : nat -> list (IK * V) -> list (IK * V)) (zero : V).

  (** * Without the numbers *)
  Context (ord' : nat -> list (K * V) -> list (K * V)).
  Definition sim {A B} (g : A -> B) (m : M W A) (m' : M (world K V) B) : Prop := forall w,
    m' (plain w) = match m w with Ok (a, w1) => Ok (g a, plain w1) | Panic => Panic | NoFuel => NoFuel end.
  Lemma sim_ret {A B} (g : A -> B) a b : g a = b -> sim g (ret a) (ret b). Proof. by intros <- w. Qed.
  Lemma sim_bind {A B A' B'} (g : A -> A') (h : B -> B') m m' f f' :
    sim g m m' -> (forall a, sim h (f a) (f' (g a))) -> sim h (bind m f) (bind m' f').
  Proof. intros H1 H2 w. unfold bind. rewrite H1. destruct (m w) as [[a w1]| |]; [apply H2|done|done]. Qed.
  Lemma content_plain (w : W) r : content (plain w) r = map plain_entry (content w r).
  Proof. destruct r as [n|]; [|done]. unfold content, plain. cbn [tables]. rewrite lookup_fmap. by destruct (tables w !! n). Qed.
  Lemma sim_make : sim id go_make go_make.
  Proof. intros w. unfold go_make, plain, id. cbn [tables next its]. by rewrite fmap_insert. Qed.
  Lemma sim_len r : sim id (go_len r) (go_len r).
  Proof. intros w. unfold go_len. rewrite content_plain, map_length. done. Qed.
  Lemma sim_get r k : sim id (i_get eqb r k) (go_get eqb r k).
  Proof.
    intros w. unfold i_get, go_get. rewrite content_plain. f_equal. f_equal. unfold id.
    induction (content w r) as [|[[j k'] v'] l IH]; [done|]. cbn. unfold eqk at 1. cbn. destruct (eqb k' k); [done|exact IH].
  Qed.
  Lemma sim_get' r e : sim id (go_get (eqk eqb) r e) (go_get eqb r e.2).
  Proof.
    intros w. unfold go_get. rewrite content_plain. f_equal. f_equal. unfold id.
    induction (content w r) as [|[[j k'] v'] l IH]; [done|]. cbn. unfold eqk at 1. cbn. destruct (eqb k' e.2); [done|exact IH].
  Qed.
  Lemma sim_set r k v : sim id (i_set eqb upd r k v) (go_set eqb upd r k v).
  Proof.
    intros w. unfold i_set, go_set. destruct r as [n|]; [|done]. rewrite content_plain. unfold plain, id. cbn [tables next its]. rewrite fmap_insert.
    f_equal. f_equal. f_equal. f_equal. generalize (new_id (content w (Some n))). cbn. intros i.
    induction (content w (Some n)) as [|[[j k'] v'] l IH]; [done|]. cbn. destruct (eqb k' k); [done|]. by rewrite IH.
  Qed.
  Lemma sim_delete r k : sim id (i_delete eqb r k) (go_delete eqb r k).
  Proof.
    intros w. unfold i_delete, go_delete. destruct r as [n|]; [|done]. rewrite content_plain. unfold plain, id. cbn [tables next its]. rewrite fmap_insert.
    f_equal. f_equal. f_equal. f_equal.
    induction (content w (Some n)) as [|[[j k'] v'] l IH]; [done|]. cbn. unfold eqk at 1. cbn. destruct (eqb k' k); [done|]. cbn. by rewrite IH.
  Qed.
  Lemma sim_clear r : sim id (go_clear r) (go_clear r).
  Proof. intros w. unfold go_clear. destruct r as [n|]; [|done]. unfold plain, id. cbn [tables next its]. by rewrite fmap_insert. Qed.
  Context (Hord : forall i l, ord' i (map plain_entry l) = map plain_entry (ord i l)).
  Lemma sim_range r : sim (map plain_entry) (go_range ord r) (go_range ord' r).
  Proof. intros w. unfold go_range. rewrite content_plain, Hord. done. Qed.
  Lemma sim_for_each (es : list (IK * V)) f f' : (forall e, sim id (f e) (f' (plain_entry e))) -> sim id (for_each es f) (for_each (map plain_entry es) f').
  Proof. intros H. induction es as [|e es IH]; cbn; [by apply sim_ret|]. eapply sim_bind; [apply H|]. intros _. exact IH. Qed.
  Lemma sim_for_while {S} (es : list (IK * V)) f f' : (forall e (s : S), sim id (f e s) (f' (plain_entry e) s)) ->
    forall s, sim id (for_while es f s) (for_while (map plain_entry es) f' s).
  Proof.
    intros H. induction es as [|e es IH]; intros s; cbn; [by apply sim_ret|]. eapply sim_bind; [apply H|]. intros [b s']. cbn.
    destruct b; [apply IH|by apply sim_ret].
  Qed.
  Lemma sim_copy d s : sim id (i_copy eqb upd ord d s) (maps_Copy eqb upd ord' d s).
  Proof. eapply sim_bind; [apply sim_range|]. intros es. apply sim_for_each. intros e. apply sim_set. Qed.
  Lemma bind_assoc {S A B C} (m : M S A) (f : A -> M S B) (g : B -> M S C) w : bind (bind m f) g w = bind m (fun a => bind (f a) g) w.
  Proof. unfold bind. by destruct (m w) as [[]| |]. Qed.
  Lemma sim_ext {A B} (g : A -> B) m m1 m' m1' : (forall w, m w = m1 w) -> (forall w, m' w = m1' w) -> sim g m1 m1' -> sim g m m'.
  Proof. intros H1 H2 H w. by rewrite H1, H2. Qed.
  Lemma sim_exec c : sim id (i_exec eqb upd ord zero c) (gm_exec eqb upd ord' zero c).
  Proof.
    destruct c as [|m|m|m k|m k v|m k|m|m|m|m|m f|m k v|m k v|m k|m k v|m m2 eq|m|m d|m s|m f]; cbn [i_exec gm_exec]; unfold mmap.
    - eapply sim_bind; [apply sim_make|intros a; by apply sim_ret].
    - intros w. done.
    - eapply sim_bind; [apply sim_len|intros a; by apply sim_ret].
    - eapply sim_ext; [done|intros w; unfold gm_Load; rewrite bind_assoc; reflexivity|]. eapply sim_bind; [apply sim_get|intros a w; done].
    - eapply sim_ext; [done|intros w; unfold gm_Store; rewrite bind_assoc; reflexivity|]. eapply sim_bind; [apply sim_set|intros a w; done].
    - eapply sim_ext; [done|intros w; unfold gm_Delete; rewrite bind_assoc; reflexivity|]. eapply sim_bind; [apply sim_delete|intros a w; done].
    - eapply sim_ext; [done|intros w; unfold gm_Clone, gm_New; rewrite bind_assoc; reflexivity|]. eapply sim_bind; [apply sim_make|intros a].
      eapply sim_ext; [done|intros w; unfold gm_CopyFrom; rewrite bind_assoc; reflexivity|]. eapply sim_bind; [apply sim_copy|intros [] w; done].
    - intros w. done.
    - eapply sim_ext; [done|intros w; unfold gm_Keys, maps_Keys; rewrite bind_assoc; reflexivity|]. eapply sim_bind; [apply sim_range|intros a w].
      unfold bind, ret, id. by rewrite map_map.
    - eapply sim_ext; [done|intros w; unfold gm_Values, maps_Values; rewrite bind_assoc; reflexivity|]. eapply sim_bind; [apply sim_range|intros a w].
      unfold bind, ret, id. by rewrite map_map.
    - eapply sim_ext; [done|intros w; unfold gm_Range; rewrite bind_assoc; reflexivity|]. eapply sim_bind; [apply sim_range|intros es].
      eapply sim_bind; [apply sim_for_while; intros; by apply sim_ret|intros a w; done].
    - eapply sim_ext; [done|intros w; unfold gm_LoadOrStore; rewrite bind_assoc; reflexivity|]. eapply sim_bind; [apply sim_get|intros a].
      unfold id. destruct a as [v0|]; cbn; [intros w; done|].
      eapply sim_ext; [done|intros w; rewrite bind_assoc; reflexivity|]. eapply sim_bind; [apply sim_set|intros a w; done].
    - eapply sim_ext; [done|intros w; unfold gm_LoadOrStoreFunc; rewrite bind_assoc; reflexivity|]. eapply sim_bind; [apply sim_get|intros a].
      unfold id. destruct a as [v0|]; cbn; [intros w; done|].
      eapply sim_ext; [done|intros w; rewrite bind_assoc; unfold bind at 1, ret at 1; rewrite bind_assoc; reflexivity|]. eapply sim_bind; [apply sim_set|intros a w; done].
    - eapply sim_ext; [done|intros w; unfold gm_LoadAndDelete; rewrite bind_assoc; reflexivity|]. eapply sim_bind; [apply sim_get|intros a].
      unfold id. destruct a as [v0|]; cbn; [|intros w; done].
      eapply sim_ext; [done|intros w; rewrite bind_assoc; reflexivity|]. eapply sim_bind; [apply sim_delete|intros a w; done].
    - eapply sim_ext; [done|intros w; unfold gm_LoadAndStore; rewrite bind_assoc; reflexivity|]. eapply sim_bind; [apply sim_get|intros a].
      eapply sim_ext; [done|intros w; rewrite bind_assoc; reflexivity|]. eapply sim_bind; [apply sim_set|intros [] w; done].
    - eapply sim_bind; [|intros a; by apply sim_ret]. unfold gm_EqualFunc, maps_EqualFunc.
      eapply sim_bind; [apply sim_len|intros n1]. eapply sim_bind; [apply sim_len|intros n2]. unfold id.
      destruct (negb _); [by apply sim_ret|]. eapply sim_bind; [apply sim_range|intros es].
      eapply sim_bind; [apply sim_for_while; intros e s|intros a; by apply sim_ret].
      eapply sim_bind; [apply sim_get'|intros o; by apply sim_ret].
    - eapply sim_ext; [done|intros w; unfold gm_Clear; rewrite bind_assoc; reflexivity|]. eapply sim_bind; [apply sim_clear|intros a w; done].
    - eapply sim_ext; [done|intros w; unfold gm_CopyTo; rewrite bind_assoc; reflexivity|]. eapply sim_bind; [apply sim_copy|intros a w; done].
    - eapply sim_ext; [done|intros w; unfold gm_CopyFrom; rewrite bind_assoc; reflexivity|]. eapply sim_bind; [apply sim_copy|intros a w; done].
    - eapply sim_ext; [done|intros w; unfold gm_DeleteFunc, maps_DeleteFunc; rewrite bind_assoc; reflexivity|]. eapply sim_bind; [apply sim_range|intros es].
      eapply sim_bind; [apply sim_for_each|intros a w; done]. intros e. cbn. destruct (f e.1.2 e.2); [apply sim_delete|by apply sim_ret].
  Qed.
  Lemma step_plain c w : gm_step eqb upd ord' zero c (plain w) = ((i_step eqb upd ord zero c w).1, plain (i_step eqb upd ord zero c w).2).
  Proof. unfold gm_step, i_step. rewrite (sim_exec c w). by destruct (i_exec eqb upd ord zero c w) as [[]| |]. Qed.
End proofs.

(** * Properties that calls keep *)
Section keep.
  Context {K V : Type} (eqb : K -> K -> bool) (upd : bool).
  Notation IK := (nat * K)%type.
  Notation W := (world IK V).
  Context (ord : nat -> list (IK * V) -> list (IK * V)) (zero : V).
  Context (P : W -> Prop).
  Definition kept {A} (m : M W A) : Prop := forall w, P w -> match m w with Ok (_, w') => P w' | _ => True end.
  Lemma kept_ret {A} (a : A) : kept (ret a). Proof. by intros w. Qed.
  Lemma kept_bind {A B} (m : M W A) (f : A -> M W B) : kept m -> (forall a, kept (f a)) -> kept (bind m f).
  Proof. intros H1 H2 w Hw. unfold bind. specialize (H1 w Hw). destruct (m w) as [[a w1]| |]; [by apply H2|done|done]. Qed.
  Lemma kept_get r k : kept (i_get eqb r k). Proof. by intros w. Qed.
  Lemma kept_get' r k : kept (go_get (eqk eqb) r k). Proof. by intros w. Qed.
  Lemma kept_len r : kept (go_len r). Proof. by intros w. Qed.
  Context (Hrange : forall r, kept (go_range ord r)).
  Lemma kept_for_each {A} (es : list A) f : (forall e, kept (f e)) -> kept (for_each es f).
  Proof. intros H. induction es as [|e es IH]; cbn; [apply kept_ret|]. apply kept_bind; [apply H|]. by intros _. Qed.
  Lemma kept_for_while {A S} (es : list A) f : (forall e (s : S), kept (f e s)) -> forall s, kept (for_while es f s).
  Proof.
    intros H. induction es as [|e es IH]; intros s; cbn; [apply kept_ret|]. apply kept_bind; [apply H|]. intros [[] s']; [apply IH|apply kept_ret].
  Qed.
  Lemma kept_exec c :
    (removing c = true -> (forall r k, kept (i_delete eqb r k)) /\ (forall r, c = GClear r -> kept (go_clear r))) ->
    (removing c = false -> kept go_make /\ forall r k v, kept (i_set eqb upd r k v)) ->
    kept (i_exec eqb upd ord zero c).
  Proof.
    intros Hr Hs. destruct c; cbn [i_exec removing] in *; first [destruct (Hr eq_refl) as [Hdel Hclear]|destruct (Hs eq_refl) as [Hmake Hset]];
      clear Hr Hs; unfold mmap, i_copy, maps_EqualFunc;
      repeat first [ apply kept_ret | apply Hmake | apply Hset | apply Hdel | apply Hrange | by apply Hclear | apply kept_get | apply kept_get' | apply kept_len
                   | apply kept_for_each; intros | apply kept_for_while; intros | simple apply kept_bind; [|intros]
                   | match goal with |- kept (if ?b then _ else _) => destruct b end ].
  Qed.
  Lemma kept_step c w :
    (removing c = true -> (forall r k, kept (i_delete eqb r k)) /\ (forall r, c = GClear r -> kept (go_clear r))) ->
    (removing c = false -> kept go_make /\ forall r k v, kept (i_set eqb upd r k v)) ->
    P w -> P (i_step eqb upd ord zero c w).2.
  Proof. intros Hr Hs Hw. pose proof (kept_exec c Hr Hs w Hw) as H. unfold i_step. by destruct (i_exec eqb upd ord zero c w) as [[]| |]. Qed.
End keep.

(** * Entries and their numbers *)
Section numbers.
  Context {K V : Type} (eqb : K -> K -> bool) (upd : bool).
  Notation IK := (nat * K)%type.
  Notation W := (world IK V).
  Context (ord : nat -> list (IK * V) -> list (IK * V)) (zero : V).
  Implicit Types (w : W) (l : list (IK * V)).
  Notation nums := (map (fun e : IK * V => e.1.1)).

  Lemma content_put w n l r : content (World (<[n := l]> (tables w)) (next w) (its w)) r = if decide (r = Some n) then l else content w r.
  Proof.
    exact (content_wput w n l r).
  Qed.
  Lemma nums_iset l i k v : nums (iset_at eqb upd l i k v) = nums l \/ nums (iset_at eqb upd l i k v) = nums l ++ [i].
  Proof. induction l as [|[[j k'] v'] l IH]; cbn; [by right|]. destruct (eqb k' k); cbn; [by left|]. destruct IH as [-> | ->]; auto. Qed.
  Lemma new_id_gt l e : e ∈ l -> e.1.1 < new_id l.
  Proof.
    unfold new_id. induction l as [|x l IH]; intros He; [by apply elem_of_nil in He|]. cbn.
    apply elem_of_cons in He as [->|He]; [lia|]. specialize (IH He). lia.
  Qed.
  Lemma new_id_fresh l : new_id l ∉ nums l.
  Proof. intros H. apply elem_of_list_fmap in H as (e & H & He). apply new_id_gt in He. lia. Qed.
  Lemma mdel_elem l k e : e ∈ mdel (eqk eqb) l k -> e ∈ l.
  Proof. induction l as [|[k' v'] l IH]; cbn; [done|]. destruct (eqk eqb k' k); set_solver. Qed.
  Lemma nums_mdel l k : NoDup (nums l) -> NoDup (nums (mdel (eqk eqb) l k)).
  Proof.
    induction l as [|[k' v'] l IH]; cbn; [done|]. intros [H1 H2]%NoDup_cons. destruct (eqk eqb k' k); cbn; [done|]. apply NoDup_cons. split; [|auto].
    intros H. apply H1. apply elem_of_list_fmap in H as (e & -> & He). apply (elem_of_list_fmap_1 (fun e => e.1.1)). by eapply mdel_elem.
  Qed.

  Lemma numbers_step c w : numbers_ok w -> numbers_ok (i_step eqb upd ord zero c w).2.
  Proof.
    apply (kept_step eqb upd ord zero numbers_ok).
    - intros r w1 H. exact H.
    - intros _. split.
      + intros [r|] k w1 H; [|done]. intros n. unfold i_delete, go_delete. rewrite content_put. case_decide as Hn; [|apply H].
        apply nums_mdel, (H r).
      + intros [r|] _ w1 H; [|done]. intros n. unfold go_clear. rewrite content_put. case_decide; [constructor|apply H].
    - intros _. split.
      + intros w1 H n. unfold content. cbn [tables]. destruct (decide (n = next w1)) as [->|Hn]; [rewrite lookup_insert; constructor|].
        rewrite lookup_insert_ne by done. apply (H n).
      + intros [r|] k v w1 H; [|done]. intros n. rewrite content_put. case_decide as Hn; [|apply H]. injection Hn as ->.
        destruct (nums_iset (content w1 (Some r)) (new_id (content w1 (Some r))) k v) as [-> | ->]; [apply H|].
        apply NoDup_app. split_and!; [apply H| |apply NoDup_singleton]. intros x Hx ->%elem_of_list_singleton. by apply (new_id_fresh (content w1 (Some r))).
  Qed.
  (** A call that removes entries leaves the others as they are, a call of another kind keeps the numbers. *)
  Lemma mdel_sublist l k : sublist (mdel (eqk eqb) l k) l.
  Proof. induction l as [|[k' v'] l IH]; cbn; [constructor|]. destruct (eqk eqb k' k); by constructor. Qed.
  Lemma removing_step c w m : removing c = true -> sublist (content (i_step eqb upd ord zero c w).2 m) (content w m).
  Proof.
    intros Hc. apply (kept_step eqb upd ord zero (fun w1 => sublist (content w1 m) (content w m))).
    - intros r w1 H. exact H.
    - intros _. split.
      + intros [r|] k w1 H; [|done]. unfold i_delete, go_delete. rewrite content_put. case_decide as Hn; [|done]. subst m.
        etrans; [apply mdel_sublist|done].
      + intros [r|] _ w1 H; [|done]. unfold go_clear. rewrite content_put. case_decide; [apply sublist_nil_l|done].
    - congruence.
    - done.
  Qed.
  Lemma other_step c w n j : removing c = false -> n < next w -> has_number (Some n) j w -> has_number (Some n) j (i_step eqb upd ord zero c w).2.
  Proof.
    intros Hc Hn Hj. apply (kept_step eqb upd ord zero (fun w1 => n < next w1 /\ has_number (Some n) j w1)).
    - intros r w1 H. exact H.
    - congruence.
    - intros _. split.
      + intros w1 [H1 (k & v & H2)]. split; [cbn; lia|]. exists k, v. unfold content. cbn [tables]. rewrite lookup_insert_ne by lia. exact H2.
      + intros [r|] k' v' w1 [H1 (k & v & H2)]; [|done]. split; [done|]. unfold has_number. unfold i_set. setoid_rewrite content_put.
        case_decide as Hr; [|by exists k, v]. injection Hr as ->.
        assert (H3 : j ∈ nums (iset_at eqb upd (content w1 (Some r)) (new_id (content w1 (Some r))) k' v')).
        { destruct (nums_iset (content w1 (Some r)) (new_id (content w1 (Some r))) k' v') as [-> | ->]; [|apply elem_of_app; left];
            apply elem_of_list_fmap; by exists ((j, k), v). }
        apply elem_of_list_fmap in H3 as ([[j1 k1] v1] & -> & H3). by exists k1, v1.
    - by split.
  Qed.

  Context (Hsym : forall x y, eqb x y = true -> eqb y x = true) (Htrans : forall x y z, eqb x y = true -> eqb y z = true -> eqb x z = true).
  Lemma odd_ne k k' : eqb k k = false -> eqb k k' = false.
  Proof. intros H. destruct (eqb k k') eqn:E; [|done]. rewrite <- H. symmetry. by apply (Htrans k k' k); [|apply Hsym]. Qed.
  Lemma odd_iset l j k v i k' v' : eqb k k = false -> ((j, k), v) ∈ l -> ((j, k), v) ∈ iset_at eqb upd l i k' v'.
  Proof.
    intros Ho. induction l as [|[[j1 k1] v1] l IH]; cbn; [by intros H%elem_of_nil|]. intros [H|H]%elem_of_cons.
    - injection H as <- <- <-. rewrite (odd_ne k k' Ho). left.
    - destruct (eqb k1 k'); right; auto.
  Qed.
  Lemma odd_mdel l j k v k' : eqb k k = false -> ((j, k), v) ∈ l -> ((j, k), v) ∈ mdel (eqk eqb) l k'.
  Proof.
    intros Ho. induction l as [|[[j1 k1] v1] l IH]; cbn; [by intros H%elem_of_nil|]. intros [H|H]%elem_of_cons.
    - injection H as <- <- <-. unfold eqk at 1. cbn. rewrite (odd_ne k k'.2 Ho). left.
    - destruct (eqk eqb (j1, k1) k'); [done|right; auto].
  Qed.
  Definition stays n (e : IK * V) w : Prop := n < next w /\ e ∈ content w (Some n).
  Lemma odd_step n j k v c w : eqb k k = false -> c <> GClear (Some n) -> stays n ((j, k), v) w -> stays n ((j, k), v) (i_step eqb upd ord zero c w).2.
  Proof.
    intros Ho Hc. apply (kept_step eqb upd ord zero (stays n ((j, k), v))).
    - intros r w1 H. exact H.
    - intros _. split.
      + intros [r|] k' w1 [H1 H2]; [|done]. split; [done|]. unfold i_delete, go_delete. rewrite content_put. case_decide as Hn; [|done]. injection Hn as ->. by apply odd_mdel.
      + intros [r|] -> w1 [H1 H2]; [|done]. split; [done|]. unfold go_clear. rewrite content_put. case_decide as Hn; [|done]. by injection Hn as ->.
    - intros _. split.
      + intros w1 [H1 H2]. split; [cbn; lia|]. unfold content. cbn [tables]. rewrite lookup_insert_ne by lia. exact H2.
      + intros [r|] k' v' w1 [H1 H2]; [|done]. split; [done|]. unfold i_set. rewrite content_put. case_decide as Hn; [|done]. injection Hn as ->. by apply odd_iset.
  Qed.
End numbers.

(** * What holds in all states of a loop *)
Section all.
  Context {K V C R : Type} (eqb : K -> K -> bool) (step : C -> world K V -> R * world K V) (c0 : C) (P : world K V -> Prop).
  Context (Hstep : forall c w, c <> c0 -> P w -> P (step c w).2).
  Lemma all_states :
    (forall A (p : @prog K V C R A) w ws (a : A) w', exec eqb step p w ws a w' -> never c0 p -> P w -> Forall P ws /\ P w') /\
    (forall S m (f : K -> V -> S -> @prog K V C R (bool * S)) st ts st', turns eqb step m f st ts st' ->
       (forall k v s, never c0 (f k v s)) -> P (l_world st) -> Forall P (worlds_in ts) /\ P (l_world st')) /\
    (forall S m (f : K -> V -> S -> @prog K V C R (bool * S)) w s ts r w', range eqb step m f w s ts r w' ->
       (forall k v s, never c0 (f k v s)) -> P w -> Forall P (worlds_in ts) /\ P w').
  Proof.
    apply exec_all.
    - intros A a w _ Hw. by split.
    - intros A c k w r w1 ws a w2 Hs _ IH [Hc Hk] Hw. pose proof (Hstep c w Hc Hw) as H1. rewrite Hs in H1.
      destruct (IH (Hk r) H1). split; [by constructor|done].
    - intros A S m f s k w ts r w1 ws a w2 _ IH1 _ IH2 [Hf Hk] Hw. destruct (IH1 Hf Hw) as [H1 H2]. destruct (IH2 (Hk r) H2) as [H3 H4].
      split; [|done]. by apply Forall_app.
    - intros S m f st _ Hw. split; [constructor|done].
    - intros S m f st k v ws s' w' ts st' _ _ IH1 _ IH2 Hf Hw. destruct (IH1 (Hf _ _ _) Hw) as [H1 H2]. destruct (IH2 Hf H2) as [H3 H4].
      split; [|done]. rewrite worlds_in_cons. by apply Forall_app.
    - intros S m f w s ts st _ IH _ Hf Hw. by apply IH.
    - intros S m f w s ts st k v ws s' w' _ IH1 _ _ IH2 Hf Hw. destruct (IH1 Hf Hw) as [H1 H2]. destruct (IH2 (Hf _ _ _) H2) as [H3 H4].
      split; [|done]. rewrite worlds_in_app. apply Forall_app. split; [done|]. unfold worlds_in. cbn. by rewrite app_nil_r.
  Qed.
End all.
