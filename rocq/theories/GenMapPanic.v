(** Proofs for C211, C212. *)
From Verif Require Import Base GoMap GenMapModel GenMapPanicModel GenMapPanicSpec.

Section proofs.
  Context {K V : Type} (eqb : K -> K -> bool).
  Notation W := (world K V).

  Fixpoint dk (l : list (K * V)) : Prop :=
    match l with
    | [] => True
    | x :: l => (forall y, y ∈ l -> eqb x.1 y.1 = false /\ eqb y.1 x.1 = false) /\ dk l
    end.
  Lemma dk_perm l l' : l ≡ₚ l' -> dk l -> dk l'.
  Proof.
    induction 1 as [|x l l' Hp IH|x y l|l1 l2 l3 H1 IH1 H2 IH2]; simpl; auto.
    - intros [Ha Hb]. split; auto. intros y Hy. apply Ha. by rewrite Hp.
    - intros (Ha & Hb & Hc). repeat split; auto.
      + apply elem_of_cons in H as [->|H]; [apply Ha; left|by apply Hb].
      + apply elem_of_cons in H as [->|H]; [apply Ha; left|by apply Hb].
      + apply Ha. by right.
      + apply Ha. by right.
  Qed.
  Lemma dk_distinct l : distinct eqb l -> dk l.
  Proof.
    induction l as [|x l IH]; intros Hd; simpl; auto. split.
    - intros y Hy. apply elem_of_list_lookup in Hy as [j Hj]. split.
      + destruct (eqb x.1 y.1) eqn:He; [|done]. by specialize (Hd 0 (S j) x y eq_refl Hj He).
      + destruct (eqb y.1 x.1) eqn:He; [|done]. by specialize (Hd (S j) 0 y x Hj eq_refl He).
    - apply IH. intros i j y z Hi Hj He. by specialize (Hd (S i) (S j) y z Hi Hj He) as [= ->].
  Qed.
  Lemma sub_elem (l l' : list (K * V)) x : x ∈ l' -> l' `sublist_of` l -> x ∈ l.
  Proof. intros Hx Hs. revert Hx. induction Hs; set_solver. Qed.
  Lemma dk_sub l l' : l' `sublist_of` l -> dk l -> dk l'.
  Proof.
    induction 1 as [|x l' l Hs IH|x l' l Hs IH]; simpl; auto; intros [Ha Hb]; auto.
    split; auto. intros y Hy. apply Ha. by eapply sub_elem.
  Qed.
  Lemma stay_sub del (l : list (K * V)) : stay eqb del l `sublist_of` l.
  Proof. unfold stay. induction l as [|x l IH]; simpl; [constructor|]. destruct (negb _); by constructor. Qed.
  Lemma stay_app del (l l' : list (K * V)) : stay eqb del (l ++ l') = stay eqb del l ++ stay eqb del l'.
  Proof. apply List.filter_app. Qed.
  Lemma stay_perm del (l l' : list (K * V)) : l ≡ₚ l' -> stay eqb del l ≡ₚ stay eqb del l'.
  Proof.
    unfold stay. induction 1 as [|x l l' Hp IH|x y l|l1 l2 l3 H1 IH1 H2 IH2]; simpl; auto.
    - destruct (negb _); by rewrite ?IH.
    - destruct (negb _), (negb _); auto. constructor.
    - by rewrite IH1.
  Qed.
  Lemma stay_stay del del' (l : list (K * V)) : (forall k v b, del k v = Some b -> del' k v = Some b) ->
    stay eqb del' (stay eqb del l) = stay eqb del' l.
  Proof.
    intros Ha. unfold stay. induction l as [|x l IH]; simpl; [done|].
    destruct (goes eqb del x) eqn:Hg; simpl.
    - rewrite IH. unfold goes in Hg. unfold goes at 2. destruct (del x.1 x.2) as [[]|] eqn:Hd; [|done|done].
      by rewrite (Ha _ _ _ Hd), Hg.
    - by rewrite IH.
  Qed.
  Lemma mdel_split (l : list (K * V)) k :
    ((forall e, e ∈ l -> eqb e.1 k = false) /\ mdel eqb l k = l) \/
    (exists l1 e l2, l = l1 ++ e :: l2 /\ eqb e.1 k = true /\ mdel eqb l k = l1 ++ l2).
  Proof.
    induction l as [|[k1 v1] l IH]; simpl.
    - left. split; [|done]. intros e He. by apply elem_of_nil in He.
    - destruct (eqb k1 k) eqn:He.
      + right. by exists [], (k1, v1), l.
      + destruct IH as [[Ha Hb]|(l1 & e & l2 & -> & Hb & Hc)].
        * left. split; [|by rewrite Hb]. intros e Hin. apply elem_of_cons in Hin as [->|Hin]; auto.
        * right. exists ((k1, v1) :: l1), e, l2. by rewrite Hc.
  Qed.
  Hypothesis HE : go_eq eqb.
  Lemma mdel_perm l k v r : dk ((k, v) :: r) -> l ≡ₚ (k, v) :: r ->
    mdel eqb l k ≡ₚ (if eqb k k then r else (k, v) :: r).
  Proof.
    intros [Hd _] Hp. destruct (mdel_split l k) as [[Ha ->]|(l1 & e & l2 & -> & Hb & ->)].
    - assert (Hk : eqb k k = false) by (apply (Ha (k, v)); rewrite Hp; left). by rewrite Hk.
    - destruct HE as [Hs Ht]. rewrite (Ht k e.1 k) by auto.
      assert (He : e ∈ (k, v) :: r) by (rewrite <- Hp; set_solver).
      apply elem_of_cons in He as [->|He]; [|destruct (Hd e He) as [_ Hd2]; simpl in Hd2; congruence].
      apply (Permutation_cons_inv (a := (k, v))). by rewrite <- Hp, Permutation_middle.
  Qed.

  Lemma go_delete_run m k (w : W) :
    exists w', go_delete eqb m k w = Ok (tt, w') /\ only_changes m w w' /\ its w' = its w /\
      (content w m <> [] -> content w' m = mdel eqb (content w m) k).
  Proof.
    destruct m as [n|]; simpl; eexists; split; try done.
    split; [|split; [done|]]; simpl.
    - split; [done|]. intros [n'|] Hne; [|done]. simpl. rewrite lookup_insert_ne; [done|congruence].
    - intros _. by rewrite lookup_insert.
  Qed.

  (** The loop of DeleteFunc *)
  Definition dbody (m : ref) (del : K -> V -> option bool) (e : K * V) (_ : unit) : P (bool * unit) := fun w : W =>
    match del (fst e) (snd e) with
    | Some true => pbind (op (go_delete eqb m (fst e))) (fun _ => pret (true, tt)) w
    | Some false => (Some (true, tt), w)
    | None => (None, w)
    end.
  Lemma dloop m del es : forall a (w : W) o w',
    dk (a ++ es) -> content w m ≡ₚ a ++ es -> p_for es (dbody m del) tt w = (o, w') ->
    exists seen rest, es = seen ++ rest /\ (forall e, e ∈ seen -> del e.1 e.2 <> None) /\
      match o with
      | Some r => r = (true, tt) /\ rest = []
      | None => exists e rest', rest = e :: rest' /\ del e.1 e.2 = None
      end /\
      content w' m ≡ₚ a ++ stay eqb del seen ++ rest /\ only_changes m w w' /\ its w' = its w.
  Proof.
    induction es as [|[k v] es IH]; intros a w o w' Hd Hc Hr; simpl in Hr.
    { injection Hr as <- <-. exists [], []. split; [done|]. split; [intros e He; by apply elem_of_nil in He|].
      simpl. repeat split; auto. }
    unfold pbind at 1 in Hr. unfold dbody at 1 in Hr. cbn [fst snd] in Hr.
    assert (Hd' : dk ((k, v) :: a ++ es)) by (eapply dk_perm; [|exact Hd]; by rewrite Permutation_middle).
    assert (Hc' : content w m ≡ₚ (k, v) :: a ++ es) by (by rewrite Hc, Permutation_middle).
    destruct (del k v) as [[]|] eqn:Hdel.
    - destruct (go_delete_run m k w) as (w1 & Hg & Ho & Hi & Hm).
      unfold pbind at 1, op in Hr. rewrite Hg in Hr. cbn in Hr.
      assert (Hc1 : content w1 m ≡ₚ (if eqb k k then a ++ es else (k, v) :: a ++ es)).
      { rewrite Hm; [by apply (mdel_perm _ k v)|]. intros Hn. rewrite Hn in Hc'. by apply Permutation_nil_cons in Hc'. }
      destruct (eqb k k) eqn:Hkk.
      + destruct (IH a w1 o w') as (seen & rest & -> & H1 & H2 & H3 & H4 & H5); [apply Hd'|done|done|].
        exists ((k, v) :: seen), rest. split; [done|]. split.
        { intros e He. apply elem_of_cons in He as [->|He]; [simpl; congruence|auto]. }
        split; [done|]. split.
        { rewrite H3. unfold stay. simpl. unfold goes at 2. simpl. by rewrite Hdel, Hkk. }
        split; [|congruence]. destruct Ho as [Ho1 Ho2], H4 as [H41 H42]. split; [congruence|].
        intros r Hr'. by rewrite H42, Ho2.
      + destruct (IH (a ++ [(k, v)]) w1 o w') as (seen & rest & -> & H1 & H2 & H3 & H4 & H5);
          [by rewrite <- app_assoc|by rewrite Hc1, <- app_assoc; simpl; rewrite <- Permutation_middle|done|].
        exists ((k, v) :: seen), rest. split; [done|]. split.
        { intros e He. apply elem_of_cons in He as [->|He]; [simpl; congruence|auto]. }
        split; [done|]. split.
        { rewrite H3. unfold stay. simpl. unfold goes at 2. simpl. rewrite Hdel, Hkk. simpl.
          by rewrite <- app_assoc. }
        split; [|congruence]. destruct Ho as [Ho1 Ho2], H4 as [H41 H42]. split; [congruence|].
        intros r Hr'. by rewrite H42, Ho2.
    - cbn in Hr. destruct (IH (a ++ [(k, v)]) w o w') as (seen & rest & -> & H1 & H2 & H3 & H4 & H5);
        [by rewrite <- app_assoc|by rewrite <- app_assoc|done|].
      exists ((k, v) :: seen), rest. split; [done|]. split.
      { intros e He. apply elem_of_cons in He as [->|He]; [simpl; congruence|auto]. }
      split; [done|]. split; [|done].
      rewrite H3. unfold stay. simpl. unfold goes at 2. simpl. rewrite Hdel. simpl. by rewrite <- app_assoc.
    - injection Hr as <- <-. exists [], ((k, v) :: es). split; [done|].
      split; [intros e He; by apply elem_of_nil in He|]. split; [by exists (k, v), es|].
      simpl. repeat split; auto.
  Qed.

  Context (ord : nat -> list (K * V) -> list (K * V)).
  Hypothesis Hord : forall i l, ord i l ≡ₚ l.

  Lemma deletefunc m del (w : W) o w' :
    dk (content w m) -> p_DeleteFunc eqb ord m del w = (o, w') ->
    exists seen rest, ord (its w) (content w m) = seen ++ rest /\ (forall e, e ∈ seen -> del e.1 e.2 <> None) /\
      match o with
      | Some _ => rest = []
      | None => exists e rest', rest = e :: rest' /\ del e.1 e.2 = None
      end /\
      content w' m ≡ₚ stay eqb del seen ++ rest /\ only_changes m w w'.
  Proof.
    intros Hd Hr. unfold p_DeleteFunc, pbind at 1, op at 1, go_range in Hr.
    set (w1 := World (tables w) (next w) (S (its w))) in Hr.
    assert (Hcw : forall r, content w1 r = content w r) by done.
    fold (dbody m del) in Hr. unfold pbind at 1 in Hr.
    destruct (p_for _ (dbody m del) tt w1) as [o1 w2] eqn:Hf.
    apply (dloop m del _ [] w1) in Hf as (seen & rest & H1 & H2 & H3 & H4 & H5 & _).
    - exists seen, rest. split; [done|]. split; [done|].
      destruct o1 as [r1|]; injection Hr as <- <-; (split; [|done]); [apply H3|done].
    - simpl. eapply dk_perm; [symmetry; apply Hord|done].
    - simpl. by rewrite Hord.
  Qed.
  Lemma again m del del' (w : W) w1 o w2 : dk (content w m) ->
    (forall k v b, del k v = Some b -> del' k v = Some b) ->
    (forall k v, (k, v) ∈ content w m -> del' k v <> None) ->
    p_DeleteFunc eqb ord m del w = (None, w1) -> p_DeleteFunc eqb ord m del' w1 = (o, w2) ->
    o = Some tt /\ content w2 m ≡ₚ stay eqb del' (content w m) /\ only_changes m w w2.
  Proof.
    intros Hd Ha Ht Hr1 Hr2. apply deletefunc in Hr1 as (seen & rest & H1 & H2 & H3 & H4 & H5); [|done].
    assert (Hp : content w m ≡ₚ seen ++ rest) by (by rewrite <- H1, Hord).
    assert (Hs : stay eqb del seen ++ rest `sublist_of` seen ++ rest)
      by (apply sublist_app; [apply stay_sub|done]).
    assert (Hd1 : dk (content w1 m)).
    { eapply dk_perm; [symmetry; exact H4|]. eapply dk_sub; [exact Hs|]. by eapply dk_perm. }
    apply deletefunc in Hr2 as (seen2 & rest2 & G1 & G2 & G3 & G4 & G5); [|done].
    assert (Hp2 : content w1 m ≡ₚ seen2 ++ rest2) by (by rewrite <- G1, Hord).
    destruct o as [[]|].
    - subst rest2. rewrite app_nil_r in *. split; [done|]. split.
      + rewrite G4, (stay_perm del' _ _ (symmetry Hp2)), (stay_perm del' _ _ H4), (stay_perm del' _ _ Hp).
        by rewrite !stay_app, (stay_stay del del').
      + destruct H5 as [H51 H52], G5 as [G51 G52]. split; [congruence|]. intros r Hr. by rewrite G52, H52.
    - destruct G3 as (e & rest' & -> & Hn). exfalso. apply (Ht e.1 e.2); [|done].
      rewrite <- surjective_pairing, Hp. eapply sub_elem; [|exact Hs]. rewrite <- H4, Hp2. set_solver.
  Qed.
End proofs.

Section range.
  Context {K V : Type} (eqb : K -> K -> bool) (upd : bool) (ord : nat -> list (K * V) -> list (K * V)) (zero : V).
  Notation W := (world K V).
  (** Same maps throughout: the loop of EqualFunc *)
  Definition ebody (m2 : ref) (eq : V -> V -> option bool) (e : K * V) (_ : unit) : P (bool * unit) :=
    pbind (op (K := K) (V := V) (go_get eqb m2 (fst e))) (fun o =>
             match o with
             | Some v2 => fun w => (match eq (snd e) v2 with Some b => Some (b, tt) | None => None end, w)
             | None => pret (false, tt)
             end).
  Lemma eloop m2 eq es : forall (w : W) o w',
    p_for es (ebody m2 eq) tt w = (o, w') ->
    w' = w /\
    match o with
    | Some (true, _) => forall e, e ∈ es -> exists v2, mlookup eqb (content w m2) e.1 = Some v2 /\ eq e.2 v2 = Some true
    | Some (false, _) => exists e, e ∈ es /\
         (mlookup eqb (content w m2) e.1 = None \/ exists v2, mlookup eqb (content w m2) e.1 = Some v2 /\ eq e.2 v2 = Some false)
    | None => exists e v2, e ∈ es /\ mlookup eqb (content w m2) e.1 = Some v2 /\ eq e.2 v2 = None
    end.
  Proof.
    induction es as [|[k v] es IH]; intros w o w' Hr; simpl in Hr.
    { injection Hr as <- <-. split; [done|]. intros e He. by apply elem_of_nil in He. }
    unfold pbind at 1, ebody at 1, pbind at 1, op, go_get in Hr. cbn [fst snd] in Hr.
    destruct (mlookup eqb (content w m2) k) as [v2|] eqn:Hl.
    - destruct (eq v v2) as [[]|] eqn:He.
      + cbn in Hr. apply IH in Hr as [-> Hr]. split; [done|]. destruct o as [[[] ?]|].
        * intros e Hin. apply elem_of_cons in Hin as [->|Hin]; [by exists v2|auto].
        * destruct Hr as (e & Hin & Hr). exists e. split; [by right|done].
        * destruct Hr as (e & v3 & Hin & Hr). exists e, v3. split; [by right|done].
      + cbn in Hr. injection Hr as <- <-. split; [done|]. exists (k, v). split; [left|]. right. by exists v2.
      + injection Hr as <- <-. split; [done|]. exists (k, v), v2. split; [left|done].
    - cbn in Hr. injection Hr as <- <-. split; [done|]. exists (k, v). split; [left|by left].
  Qed.

  Lemma equalfunc m m2 eq (w : W) o w' : (forall i l, ord i l ≡ₚ l) ->
    p_EqualFunc eqb ord m m2 eq w = (o, w') ->
    same_maps w w' /\
    match o with
    | Some true => length (content w m) = length (content w m2) /\
        forall e, e ∈ content w m -> exists v2, mlookup eqb (content w m2) e.1 = Some v2 /\ eq e.2 v2 = Some true
    | Some false => length (content w m) <> length (content w m2) \/ exists e, e ∈ content w m /\
         (mlookup eqb (content w m2) e.1 = None \/ exists v2, mlookup eqb (content w m2) e.1 = Some v2 /\ eq e.2 v2 = Some false)
    | None => length (content w m) = length (content w m2) /\ exists e v2, e ∈ content w m /\ mlookup eqb (content w m2) e.1 = Some v2 /\ eq e.2 v2 = None
    end.
  Proof.
    intros Hord Hr. unfold p_EqualFunc in Hr. do 2 (unfold pbind at 1, op at 1, go_len in Hr).
    destruct (Nat.eqb_spec (length (content w m)) (length (content w m2))) as [Hlen|Hlen]; simpl in Hr.
    - unfold pbind at 1, op at 1, go_range in Hr. fold (ebody m2 eq) in Hr. unfold pbind at 1 in Hr.
      destruct (p_for _ (ebody m2 eq) tt _) as [o1 w2] eqn:Hf. apply eloop in Hf as [-> Hf].
      destruct o1 as [[[] ?]|]; injection Hr as <- <-; (split; [done|]).
      + split; [done|]. intros e He. apply Hf. by rewrite Hord.
      + right. destruct Hf as (e & He & Hf). exists e. by rewrite Hord in He.
      + split; [done|]. destruct Hf as (e & v2 & He & Hf). exists e, v2. by rewrite Hord in He.
    - injection Hr as <- <-. split; [done|]. by left.
  Qed.

  Lemma ploop_false {S} (f : K -> V -> S -> P (bool * S)) es : forall s (w : W) o w',
    p_for es (fun e => f e.1 e.2) s w = (o, w') ->
    exists r, p_for es (fun e => to_false f e.1 e.2) s w = (Some r, w') /\
      match o with Some r' => r' = r | None => r.1 = false end.
  Proof.
    induction es as [|[k v] es IH]; intros s w o w' Hr; simpl in Hr.
    { injection Hr as <- <-. by exists (true, s). }
    simpl. unfold pbind at 1 in Hr. unfold pbind at 1. unfold to_false at 1. cbn [fst snd] in *.
    destruct (f k v s w) as [[[b s1]|] w1] eqn:Hf.
    - cbn in *. destruct b; [by apply IH|]. injection Hr as <- <-. by exists (false, s1).
    - injection Hr as <- <-. simpl. by exists (false, s).
  Qed.
  Lemma range_false {S} m (f : K -> V -> S -> P (bool * S)) s (w : W) o w' :
    p_Range ord m f s w = (o, w') ->
    exists r, p_Range ord m (to_false f) s w = (Some r, w') /\
      match o with Some r' => r' = r | None => r.1 = false end.
  Proof. intros Hr. apply ploop_false in Hr. exact Hr. Qed.

  Lemma los m k nf (w : W) o w' :
    p_LoadOrStoreFunc eqb upd zero m k nf w = (o, w') ->
    match mlookup eqb (content w m) k with
    | Some v => o = Some (v, true) /\ w' = w
    | None =>
        match nf w with
        | (None, w1) => o = None /\ w' = w1
        | (Some v, w1) =>
            match m with
            | None => o = None /\ w' = w1
            | Some n => o = Some (v, false) /\ content w' m = mset eqb upd (content w1 m) k v /\ only_changes m w1 w'
            end
        end
    end.
  Proof.
    unfold p_LoadOrStoreFunc, pbind at 1, op, go_get. destruct (mlookup eqb (content w m) k) as [v|]; simpl.
    { by intros [= <- <-]. }
    unfold pbind at 1. destruct (nf w) as [[v|] w1]; [|by intros [= <- <-]].
    unfold pbind, go_set. destruct m as [n|]; [|by intros [= <- <-]].
    intros [= <- <-]. split; [done|]. split; [simpl; by rewrite lookup_insert|].
    split; [done|]. intros [n'|] Hne; [|done]. simpl. rewrite lookup_insert_ne; [done|congruence].
  Qed.
End range.

Section agree.
  Context {K V : Type} (eqb : K -> K -> bool) (upd : bool) (ord : nat -> list (K * V) -> list (K * V)) (zero : V).
  Notation W := (world K V).
  Lemma agree_delete m del (w : W) :
    exists w', gm_DeleteFunc eqb ord m del w = Ok (tt, w') /\
      p_DeleteFunc eqb ord m (fun k v => Some (del k v)) w = (Some tt, w').
  Proof.
    unfold p_DeleteFunc, gm_DeleteFunc, maps_DeleteFunc, pbind at 1, op at 1, bind at 1, go_range.
    generalize (ord (its w) (content w m)).
    generalize (World (tables w) (next w) (S (its w))). clear w. intros w es. revert w.
    unfold pbind at 1.
    induction es as [|[k v] es IH]; intros w; simpl; [by exists w|].
    unfold pbind at 1, bind at 1. simpl. destruct (del k v) eqn:Hd.
    - unfold pbind at 1. destruct m as [n|]; simpl; apply IH.
    - simpl. apply IH.
  Qed.
  Lemma agree_equal m m2 eq (w : W) :
    exists b w', gm_EqualFunc eqb ord m m2 eq w = Ok (b, w') /\
      p_EqualFunc eqb ord m m2 (fun a b => Some (eq a b)) w = (Some b, w').
  Proof.
    unfold p_EqualFunc, gm_EqualFunc, maps_EqualFunc.
    do 2 (unfold pbind at 1, op at 1, go_len at 1, bind at 1, go_len at 1).
    destruct (negb _); [by exists false, w|]. unfold pbind at 1, op at 1, bind at 1, go_range.
    generalize (ord (its w) (content w m)).
    generalize (World (tables w) (next w) (S (its w))). clear w. intros w es. revert w.
    unfold pbind at 1.
    induction es as [|[k v] es IH]; intros w; simpl; [by exists true, w|].
    unfold pbind at 1 2, op at 1, bind at 1 2 3, go_get at 1 3. simpl.
    destruct (mlookup eqb (content w m2) k) as [v2|]; simpl; [|by exists false, w].
    destruct (eq v v2); simpl; [|by exists false, w]. apply IH.
  Qed.
  Lemma agree_los m k (nf : M W V) (w : W) : (forall w, exists v w', nf w = Ok (v, w')) ->
    p_LoadOrStoreFunc eqb upd zero m k (op nf) w =
      match gm_LoadOrStoreFunc eqb upd zero m k nf w with
      | Ok (r, w') => (Some r, w')
      | _ => (None, (op nf w).2)
      end.
  Proof.
    intros Hn. unfold p_LoadOrStoreFunc, gm_LoadOrStoreFunc, pbind at 1, op, bind at 1, go_get.
    destruct (mlookup eqb (content w m) k) as [v|]; simpl; [done|].
    unfold pbind at 1, bind at 1. destruct (Hn w) as (v & w1 & ->). unfold pbind, bind, go_set.
    by destruct m.
  Qed.
  Lemma agree_range {S} m (f : K -> V -> S -> M W (bool * S)) s (w : W) : (forall k v s w, exists r w', f k v s w = Ok (r, w')) ->
    exists r w', gm_Range ord m f s w = Ok (r, w') /\
      p_Range ord m (fun k v s => op (f k v s)) s w = (Some r, w').
  Proof.
    intros Hf. unfold p_Range, gm_Range, pbind at 1, op at 1, bind at 1, go_range.
    generalize (ord (its w) (content w m)).
    generalize (World (tables w) (next w) (Datatypes.S (its w))). clear w. intros w es. revert w s.
    induction es as [|[k v] es IH]; intros w s; simpl; [by exists (true, s), w|].
    unfold pbind at 1, op at 1, bind at 1. simpl. destruct (Hf k v s w) as ([b s1] & w1 & ->). simpl.
    destruct b; [apply IH|by exists (false, s1), w1].
  Qed.
End agree.
