(** RWMap used by one goroutine behaves as a built-in map, for every key type. *)
From Coq Require Import ZifyBool ZifyNat.
From Verif Require Import Base GoMap GoMapSpec RwMapAnyModel RwMapAnySpec RwMapAnyTable.

Section proofs.
  Context {K V : Type} (eqb : K -> K -> bool) (P : per eqb) (upd : bool) (veq : V -> V -> bool).
  Context (ord : nat -> list (K * nat) -> list (K * nat)) (Hord : forall n l, ord n l ≡ₚ l).
  Notation W := (amap K V).
  Notation find := (mlookup eqb).
  Notation kok := (kok eqb).
  Notation sim := (sim eqb).
  Notation table := (list (K * nat)).
  Notation slots := (nat -> aslot V).
  Implicit Types (t rm d : table) (k : K) (e : nat) (v : V) (sl : slots) (s : W).
  Local Notation find_elem := (find_elem eqb P).
  Local Notation find_none := (find_none eqb).

  Definition val (x : aslot V) : option V := match x with APtr v => Some v | _ => None end.
  Definition shown sl (p : K * nat) : option (K * V) := match sl p.2 with APtr v => Some (p.1, v) | _ => None end.
  Definition live sl t : list (K * V) := omap (shown sl) t.
  Definition cur s : table := if a_amended s then dirty_map s else a_read s.
  Definition all s : list (K * V) := live (a_slot s) (cur s).

  Lemma live_elem sl t k v : (k, v) ∈ live sl t <-> exists e, (k, e) ∈ t /\ sl e = APtr v.
  Proof.
    unfold live. rewrite elem_of_list_omap. split.
    - intros ([k' e]&He&Hs). unfold shown in Hs. cbn in Hs. destruct (sl e) eqn:E; [done..|]. simplify_eq. eauto.
    - intros (e&He&Hs). exists (k, e). split; [done|]. unfold shown. cbn. by rewrite Hs.
  Qed.
  Lemma kok_live sl t : kok t -> kok (live sl t).
  Proof.
    induction t as [|[k e] t IH]; cbn; [done|]. intros [H1 H2]. unfold shown at 1. cbn. destruct (sl e) eqn:E; [by apply IH..|].
    split; [|by apply IH]. intros [k' v'] Hq. apply live_elem in Hq as (e'&He&_). by apply (H1 (k', e')).
  Qed.
  Lemma find_live sl t k : kok t -> find (live sl t) k = match find t k with Some e => val (sl e) | None => None end.
  Proof.
    induction t as [|[k1 e] t IH]; cbn; [done|]. intros [H1 H2]. specialize (IH H2). unfold shown at 1. cbn.
    assert (Hrest : eqb k1 k = true -> find (live sl t) k = None).
    { intros E. apply find_none. intros [k' v'] Hq. apply live_elem in Hq as (e'&He&_). cbn.
      specialize (H1 _ He). cbn in H1. destruct (eqb k' k) eqn:E2; [|done]. rewrite <- H1. symmetry.
      eapply (per_trans eqb P); [exact E|]. by rewrite (per_sym eqb P). }
    destruct (eqb k1 k) eqn:E.
    - destruct (sl e) eqn:Es; cbn; [by apply Hrest..|]. by rewrite E.
    - destruct (sl e) eqn:Es; cbn; [done..|]. by rewrite E.
  Qed.
  Lemma live_perm sl t t' : t ≡ₚ t' -> live sl t ≡ₚ live sl t'.
  Proof. intros Hp. unfold live. by rewrite Hp. Qed.
  Lemma live_ext sl sl' t : (forall p, p ∈ t -> shown sl p = shown sl' p) -> live sl t = live sl' t.
  Proof.
    induction t as [|p t IH]; intros H; [done|].
    assert (IH' : live sl t = live sl' t) by (apply IH; intros q Hq; apply H; by right).
    unfold live in *. cbn. rewrite (H p) by left. by rewrite IH'.
  Qed.
  Definition as_list k (x : aslot V) : list (K * V) := match x with APtr v => [(k, v)] | _ => [] end.
  Lemma live_cons sl k e t : live sl ((k, e) :: t) = as_list k (sl e) ++ live sl t.
  Proof. cbn. unfold shown at 1. cbn. by destruct (sl e). Qed.
  Lemma live_other sl t e x : e ∉ t.*2 -> live (<[e := x]> sl) t = live sl t.
  Proof.
    intros He. apply live_ext. intros [k e'] Hp. unfold shown. cbn. rewrite fn_lookup_insert_ne; [done|]. intros <-.
    apply He. apply elem_of_list_fmap. by exists (k, e).
  Qed.
  Lemma live_split sl t k e R x : NoDup t.*2 -> t ≡ₚ (k, e) :: R ->
    live sl t ≡ₚ as_list k (sl e) ++ live sl R /\ live (<[e := x]> sl) t ≡ₚ as_list k x ++ live sl R.
  Proof.
    intros Hn Hp. split; [by rewrite (live_perm _ _ _ Hp), live_cons|].
    rewrite (live_perm _ _ _ Hp), live_cons, fn_lookup_insert. rewrite live_other; [done|].
    rewrite Hp in Hn. cbn in Hn. by apply NoDup_cons in Hn as [Hn _].
  Qed.

  (** * The invariant *)
  Record inv (rm : table) (am : bool) (dm : option table) (sl : slots) (en : nat) : Prop := {
    i_rm : kok rm; i_rn : NoDup rm.*2; i_rlt : forall p, p ∈ rm -> p.2 < en;
    i_dk : kok (default [] dm); i_dn : NoDup (default [] dm).*2; i_dlt : forall p, p ∈ default [] dm -> p.2 < en;
    i_dx : forall p, p ∈ default [] dm -> sl p.2 <> AExp;
    i_off : am = false -> (forall p, p ∈ rm -> sl p.2 <> AExp) /\ (dm = None \/ dm = Some [] /\ rm = []);
    i_on : am = true -> dm <> None;
    i_rd : am = true -> forall p, p ∈ rm -> sl p.2 <> AExp -> exists k', (k', p.2) ∈ default [] dm /\ sim p.1 k';
    i_dr : am = true -> forall p q, p ∈ rm -> q ∈ default [] dm -> eqb p.1 q.1 = true -> p.2 = q.2
  }.
  Definition ok s : Prop := inv (a_read s) (a_amended s) (a_dirty s) (a_slot s) (a_new s).

  Lemma dirty_map_default s : dirty_map s = default [] (a_dirty s).
  Proof. unfold dirty_map. by destruct (a_dirty s). Qed.
  Lemma kok_cur s : ok s -> kok (cur s).
  Proof. intros H. unfold cur. rewrite dirty_map_default. destruct (a_amended s); [apply (i_dk _ _ _ _ _ H)|apply (i_rm _ _ _ _ _ H)]. Qed.
  Lemma nodup_cur s : ok s -> NoDup (cur s).*2.
  Proof. intros H. unfold cur. rewrite dirty_map_default. destruct (a_amended s); [apply (i_dn _ _ _ _ _ H)|apply (i_rn _ _ _ _ _ H)]. Qed.
  Lemma cur_not_exp s k e : ok s -> (k, e) ∈ cur s -> a_slot s e <> AExp.
  Proof.
    intros H. unfold cur. rewrite dirty_map_default. destruct (a_amended s) eqn:E; intros Hp; [by apply (i_dx _ _ _ _ _ H (k, e))|].
    by apply (i_off _ _ _ _ _ H E) in Hp.
  Qed.
  Lemma kok_all s : ok s -> kok (all s).
  Proof. intros H. apply kok_live. by apply kok_cur. Qed.
  Lemma find_all s k : ok s -> find (all s) k = match find (cur s) k with Some e => val (a_slot s e) | None => None end.
  Proof. intros H. apply find_live. by apply kok_cur. Qed.
  (** Entries found in [read] are those of the current table, unless expunged. *)
  Lemma read_cur s k e : ok s -> find (a_read s) k = Some e -> a_slot s e <> AExp -> find (cur s) k = Some e.
  Proof.
    intros H Hf Hx. unfold cur. destruct (a_amended s) eqn:E; [|done]. rewrite dirty_map_default.
    apply find_elem in Hf as (k0&Hp&E0); [|apply (i_rm _ _ _ _ _ H)].
    destruct (i_rd _ _ _ _ _ H E (k0, e) Hp Hx) as (k'&Hd&Hs). apply find_elem; [apply (i_dk _ _ _ _ _ H)|].
    exists k'. split; [done|]. by rewrite <- (sim_congr eqb P _ _ k Hs).
  Qed.
  Lemma read_exp s k e : ok s -> find (a_read s) k = Some e -> a_slot s e = AExp -> a_amended s = true /\ find (dirty_map s) k = None.
  Proof.
    intros H Hf Hx. apply find_elem in Hf as (k0&Hp&E0); [|apply (i_rm _ _ _ _ _ H)].
    destruct (a_amended s) eqn:E; [|by destruct (i_off _ _ _ _ _ H E) as [Hn _]; destruct (Hn (k0, e) Hp)]. split; [done|].
    apply find_none. intros [k' e'] Hd. cbn. rewrite dirty_map_default in Hd. destruct (eqb k' k) eqn:E2; [|done].
    pose proof (i_dr _ _ _ _ _ H E (k0, e) (k', e') Hp Hd) as Heq. cbn in Heq. rewrite <- Heq in Hd.
    - by destruct (i_dx _ _ _ _ _ H _ Hd).
    - eapply (per_trans eqb P); [exact E0|]. by rewrite (per_sym eqb P).
  Qed.
  Lemma read_none s k : find (a_read s) k = None -> find (cur s) k = if a_amended s then find (dirty_map s) k else None.
  Proof. intros H. unfold cur. by destruct (a_amended s). Qed.
  Lemma off_dirty s k : ok s -> a_amended s = false -> find (dirty_map s) k = None.
  Proof. intros H E. rewrite dirty_map_default. by destruct (i_off _ _ _ _ _ H E) as [_ [->|[-> _]]]. Qed.

  (** * Small steps *)
  Lemma inv_slot rm am dm sl en e x : inv rm am dm sl en -> sl e <> AExp -> x <> AExp -> inv rm am dm (<[e := x]> sl) en.
  Proof.
    intros H Hs Hx. assert (Hsame : forall e', (<[e := x]> sl) e' = AExp <-> sl e' = AExp).
    { intros e'. destruct (decide (e' = e)) as [->|Hne]; [rewrite fn_lookup_insert; done|by rewrite fn_lookup_insert_ne]. }
    destruct H as [? ? ? ? ? ? Hdx Hoff ? Hrd ?]. constructor; try done.
    - intros p Hp. rewrite Hsame. by apply Hdx.
    - intros E. destruct (Hoff E) as [H1 H2]. split; [|done]. intros p Hp. rewrite Hsame. by apply H1.
    - intros E p Hp. rewrite Hsame. by apply Hrd.
  Qed.
  Lemma ok_slot s e x : ok s -> a_slot s e <> AExp -> x <> AExp -> ok (set_slot e x s).
  Proof. intros H Hs Hx. unfold ok. by apply inv_slot. Qed.
  Lemma inv_promote rm dm sl en : inv rm true dm sl en -> inv (default [] dm) false None sl en.
  Proof.
    intros []. constructor; cbn; try done; try (by constructor).
    - intros p Hp. by apply elem_of_nil in Hp.
    - intros p Hp. by apply elem_of_nil in Hp.
    - intros _. split; [done|by left].
  Qed.

  (** What a step leaves alone: the entries, their slots and the counter. *)
  Definition quiet s s' : Prop := ok s' /\ cur s' = cur s /\ a_slot s' = a_slot s /\ a_len s' = a_len s.
  Lemma quiet_all s s' : quiet s s' -> all s' = all s.
  Proof. intros (_&H1&H2&_). unfold all. by rewrite H1, H2. Qed.
  Lemma promote_quiet s : ok s -> a_amended s = true -> exists s', promote s = Ok (tt, s') /\ quiet s s' /\ a_read s' = cur s /\ a_amended s' = false.
  Proof.
    intros H E. eexists. split; [reflexivity|]. unfold quiet, cur, ok. cbn. rewrite E. split; [|done]. split; [|done].
    unfold ok in H. rewrite E in H. rewrite dirty_map_default. by eapply inv_promote.
  Qed.
  Lemma miss_quiet s : ok s -> a_amended s = true -> exists s', missLocked s = Ok (tt, s') /\ quiet s s'.
  Proof.
    intros H E. unfold missLocked, bind, modify, gets, id. set (s1 := set_misses _ s).
    assert (H1 : ok s1) by exact H. destruct (a_misses s1 <? length (dirty_map s1)).
    - exists s1. split; [done|]. split; [done|]. done.
    - destruct (promote_quiet s1 H1 E) as (s'&E1&Hq&_). exists s'. split; [done|exact Hq].
  Qed.

  Lemma dirty_set_new s k e : ok s -> a_amended s = true -> find (dirty_map s) k = None ->
    dirty_set eqb upd k e s = Ok (tt, set_dirty (Some (dirty_map s ++ [(k, e)])) s).
  Proof.
    intros H E Hn. unfold dirty_set. pose proof (i_on _ _ _ _ _ H E) as Hd. unfold dirty_map in *.
    destruct (a_dirty s) as [d|]; [|done]. by rewrite (mset_none eqb) by done.
  Qed.

  (** * dirtyLocked *)
  Definition is_ptr (x : aslot V) : bool := match x with APtr _ => true | _ => false end.
  Definition keep sl es : table := List.filter (fun p => is_ptr (sl p.2)) es.
  Fixpoint exp_all (es : table) sl : slots :=
    match es with [] => sl | (k, e) :: es => exp_all es (match sl e with ANil => <[e := AExp]> sl | _ => sl end) end.
  Lemma exp_all_eq es : forall sl e, exp_all es sl e = match sl e with ANil => if bool_decide (e ∈ es.*2) then AExp else ANil | x => x end.
  Proof.
    induction es as [|[k1 e1] es IH]; intros sl e; cbn [exp_all].
    - destruct (sl e); [|done..]. rewrite bool_decide_false; [done|]. by apply not_elem_of_nil.
    - rewrite IH. cbn [fmap list_fmap snd]. destruct (decide (e = e1)) as [->|Hne].
      + destruct (sl e1) eqn:E; [rewrite fn_lookup_insert|rewrite E; done..]. rewrite bool_decide_true; [done|]. left.
      + assert (Hs : match sl e1 with ANil => <[e1:=AExp]> sl | _ => sl end e = sl e).
        { destruct (sl e1); [|done..]. by rewrite fn_lookup_insert_ne. }
        rewrite Hs. destruct (sl e); [|done..]. erewrite bool_decide_ext; [done|]. rewrite elem_of_cons. tauto.
  Qed.
  Lemma keep_other sl e x es : e ∉ es.*2 -> keep (<[e := x]> sl) es = keep sl es.
  Proof.
    induction es as [|[k1 e1] es IH]; [done|]. cbn. rewrite not_elem_of_cons. intros [Hne Hn].
    rewrite fn_lookup_insert_ne by done. specialize (IH Hn). unfold keep in IH. destruct (is_ptr (sl e1)); by rewrite IH.
  Qed.
  Lemma keep_elem sl es p : p ∈ keep sl es <-> p ∈ es /\ is_ptr (sl p.2) = true.
  Proof. unfold keep. rewrite !elem_of_list_In, filter_In. done. Qed.
  Lemma keep_sub sl es : keep sl es `sublist_of` es.
  Proof. induction es as [|p es IH]; [constructor|]. cbn. destruct (is_ptr (sl p.2)); by constructor. Qed.
  Lemma fmap_sublist {A B} (f : A -> B) (l l' : list A) : l `sublist_of` l' -> f <$> l `sublist_of` f <$> l'.
  Proof. induction 1; cbn; by constructor. Qed.

  Lemma nodup_sub {A} (l l' : list A) : l `sublist_of` l' -> NoDup l' -> NoDup l.
  Proof.
    induction 1 as [|a m m' Hs IH|a m m' Hs IH]; [done| |]; intros [H1 H2]%NoDup_cons; [|auto]. apply NoDup_cons. split; [|auto].
    intros Hin. apply H1. clear -Hs Hin. induction Hs as [|b m m' Hs IH|b m m' Hs IH]; [done| |right; auto].
    apply elem_of_cons in Hin as [->|Hin]; [left|right; auto].
  Qed.
  Lemma dirty_loop_ok es : forall s d0, kok es -> NoDup es.*2 -> a_dirty s = Some d0 ->
    (forall p q, p ∈ es -> q ∈ d0 -> eqb q.1 p.1 = false) ->
    dirty_loop eqb upd es s = Ok (tt, mk_amap (a_read s) (a_amended s) (Some (d0 ++ keep (a_slot s) es)) (a_len s) (a_misses s)
      (exp_all es (a_slot s)) (a_new s) (a_its s)).
  Proof.
    induction es as [|[k e] es IH]; intros s d0 Hk Hn Hd Hx.
    - cbn. unfold ret. rewrite app_nil_r, <- Hd. by destruct s.
    - destruct Hk as [Hk1 Hk2]. cbn [fmap list_fmap snd] in Hn. apply NoDup_cons in Hn as [Hn1 Hn2].
      cbn [dirty_loop exp_all]. unfold bind at 1, tryExpungeLocked, bind at 1, gets.
      unfold keep. cbn [List.filter snd]. destruct (a_slot s e) eqn:E; cbn [is_ptr].
      + unfold bind at 1, modify, ret at 1. unfold bind, ret at 1. rewrite (IH _ d0 Hk2 Hn2); [|done|].
        * cbn. rewrite keep_other by done. done.
        * intros p q Hp. apply Hx. by right.
      + unfold ret at 1. cbv beta iota. unfold bind, ret at 1. rewrite (IH _ d0 Hk2 Hn2); [done|done|].
        intros p q Hp. apply Hx. by right.
      + unfold ret at 1. cbv beta iota. unfold bind, dirty_set. rewrite Hd.
        assert (Hf : find d0 k = None). { apply find_none. intros q Hq. by apply (Hx (k, e)); [left|]. }
        rewrite (mset_none eqb) by done. rewrite (IH _ (d0 ++ [(k, e)]) Hk2 Hn2); [cbn; by rewrite <- app_assoc|done|].
        intros p q Hp [Hq|Hq]%elem_of_app; [apply Hx; [by right|done]|]. apply elem_of_list_singleton in Hq as ->. by apply Hk1.
  Qed.

  Lemma kok_same t p q : kok t -> p ∈ t -> q ∈ t -> eqb p.1 q.1 = true -> p.2 = q.2.
  Proof.
    intros Hk Hp Hq E. assert (E2 : eqb q.1 q.1 = true). { eapply (per_trans eqb P); [|exact E]. by rewrite (per_sym eqb P). }
    assert (F1 : find t q.1 = Some p.2). { apply find_elem; [done|]. exists p.1. by destruct p. }
    assert (F2 : find t q.1 = Some q.2). { apply find_elem; [done|]. exists q.1. by destruct q. }
    congruence.
  Qed.
  Lemma live_keep sl sl' es : (forall e v, sl e = APtr v -> sl' e = APtr v) -> live sl' (keep sl es) = live sl es.
  Proof.
    intros H. induction es as [|[k e] es IH]; [done|]. unfold keep. cbn [List.filter snd]. fold (keep sl es).
    rewrite (live_cons sl). destruct (sl e) eqn:E; cbn [is_ptr as_list app]; [done..|]. rewrite live_cons, (H _ _ E), IH. done.
  Qed.
  Lemma make_dirty s : ok s -> a_amended s = false ->
    exists s1, (dirtyLocked eqb upd ord ;;; modify (fun s1 => set_read (a_read s) true s1)) s = Ok (tt, s1) /\ ok s1 /\
      a_amended s1 = true /\ a_read s1 = a_read s /\ all s1 ≡ₚ all s /\ a_len s1 = a_len s /\
      (forall p, p ∈ dirty_map s1 -> p ∈ a_read s) /\ a_new s1 = a_new s.
  Proof.
    intros H E. pose proof H as Hinv. destruct H as [Hrm Hrn Hrlt Hdk Hdn Hdlt Hdx Hoff Hon Hrd Hdr]. destruct (Hoff E) as [Hx [Hd|[Hd Hr]]].
    - pose (es := ord (a_its s) (a_read s)). assert (Hp : es ≡ₚ a_read s) by apply Hord.
      assert (Hke : kok es) by (eapply (kok_perm eqb P); [symmetry; exact Hp|done]).
      assert (Hne : NoDup es.*2) by (by rewrite Hp).
      unfold bind, dirtyLocked, gets, id, bind, modify, iterate. rewrite Hd. cbn [a_read a_its set_dirty]. fold es.
      rewrite (dirty_loop_ok es _ []) by (try done; intros p q _ Hq; by apply elem_of_nil in Hq).
      cbn [a_read a_amended a_len a_misses a_slot a_new a_its set_dirty app].
      eexists. split; [reflexivity|]. unfold ok, all, cur, dirty_map, set_read. cbn. rewrite E.
      assert (Hin : forall p, p ∈ keep (a_slot s) es -> p ∈ a_read s). { intros p [Hp2 _]%keep_elem. by rewrite Hp in Hp2. }
      split; [|split; [done|split; [done|split; [|done]]]].
      + constructor; cbn; try done.
        * eapply (kok_sub eqb); [apply keep_sub|done].
        * eapply nodup_sub; [|exact Hne]. apply fmap_sublist, keep_sub.
        * intros p Hp2. apply Hrlt. by apply Hin.
        * intros p [_ Hp2]%keep_elem. rewrite exp_all_eq. by destruct (a_slot s p.2).
        * intros _ p Hp2 Hs. exists p.1. split; [|by left]. apply keep_elem. rewrite exp_all_eq in Hs.
          assert (Hpe : p ∈ es) by (by rewrite Hp). destruct p as [k e]. cbn in *. split; [done|].
          destruct (a_slot s e) eqn:Es; [|done..]. rewrite bool_decide_true in Hs; [done|]. apply elem_of_list_fmap. by exists (k, e).
        * intros _ p q Hp2 Hq. apply (kok_same (a_read s)); [done..|]. by apply Hin.
      + fold (live (exp_all es (a_slot s)) (keep (a_slot s) es)). rewrite live_keep; [by apply live_perm|]. intros e v Hs. rewrite exp_all_eq. by rewrite Hs.
    - unfold bind, dirtyLocked, gets, id, bind, modify. rewrite Hd. unfold ret. eexists. split; [reflexivity|].
      unfold ok, all, cur, dirty_map, set_read. cbn. rewrite Hd, Hr, E. split.
      + constructor; cbn; try done; try (by constructor); intros; repeat match goal with Hin : _ ∈ [] |- _ => by apply elem_of_nil in Hin end.
      + repeat (split; [done|]). done.
  Qed.
  Lemma inv_new rm d sl en k v : inv rm true (Some d) sl en -> find rm k = None -> find d k = None ->
    inv rm true (Some (d ++ [(k, en)])) (<[en := APtr v]> sl) (S en).
  Proof.
    intros H Hr Hd. assert (Hsl : forall p : K * nat, p.2 < en -> (<[en := APtr v]> sl) p.2 = sl p.2) by (intros p Hp; rewrite fn_lookup_insert_ne; [done|lia]).
    destruct H as [Hrm Hrn Hrlt Hdk Hdn Hdlt Hdx Hoff Hon Hrd Hdr]. cbn in *. constructor; cbn; try done.
    - intros p Hp. specialize (Hrlt p Hp). lia.
    - eapply (kok_perm eqb P); [|by apply (kok_cons eqb P) with (a := en); [exact Hdk|exact Hd]]. by rewrite Permutation_app_comm.
    - rewrite fmap_app. cbn. apply NoDup_app. split; [done|]. split; [|by apply NoDup_singleton].
      intros e (p&->&Hp)%elem_of_list_fmap He. apply elem_of_list_singleton in He. specialize (Hdlt p Hp). lia.
    - intros p [Hp|Hp]%elem_of_app; [specialize (Hdlt p Hp); lia|]. apply elem_of_list_singleton in Hp as ->. cbn. lia.
    - intros p [Hp|Hp]%elem_of_app; [rewrite Hsl by (by apply Hdlt); by apply Hdx|]. apply elem_of_list_singleton in Hp as ->. cbn. by rewrite fn_lookup_insert.
    - intros _ p Hp Hs. rewrite Hsl in Hs by (by apply Hrlt). destruct (Hrd eq_refl p Hp Hs) as (k'&Hk'&Hsim). exists k'. split; [|done].
      apply elem_of_app. by left.
    - intros _ p q Hp [Hq|Hq]%elem_of_app Eq; [by apply (Hdr eq_refl p q)|]. apply elem_of_list_singleton in Hq as ->. cbn in Eq.
      by rewrite (proj1 (find_none _ _) Hr p Hp) in Eq.
  Qed.
  Lemma add_new_ok s k v : ok s -> find (a_read s) k = None -> find (dirty_map s) k = None ->
    exists s', add_new eqb upd ord k v s = Ok (tt, s') /\ ok s' /\ all s' ≡ₚ (k, v) :: all s /\ a_len s' = a_len s.
  Proof.
    intros H Hr Hd.
    assert (exists s1, (if a_amended s then ret tt else dirtyLocked eqb upd ord ;;; modify (fun s1 => set_read (a_read s) true s1)) s = Ok (tt, s1) /\
      ok s1 /\ a_amended s1 = true /\ a_read s1 = a_read s /\ all s1 ≡ₚ all s /\ a_len s1 = a_len s /\ find (dirty_map s1) k = None) as (s1&E1&H1&Ha&Hr1&Hall&Hlen&Hf).
    { destruct (a_amended s) eqn:E; [by exists s|]. destruct (make_dirty s H E) as (s1&E1&H1&Ha&Hr1&Hall&Hlen&Hin&_). exists s1.
      repeat (split; [done|]). apply find_none. intros p Hp. apply (proj1 (find_none _ _) Hr). by apply Hin. }
    unfold add_new. unfold bind at 1, gets at 1, id. cbv beta iota. unfold bind at 1. rewrite E1. cbv beta iota. unfold bind at 1, newEntry.
    pose proof (i_on _ _ _ _ _ H1 Ha) as Hdm. unfold dirty_set. cbn [a_dirty]. destruct (a_dirty s1) as [d|] eqn:Ed; [|done].
    assert (Hfd : find d k = None) by (unfold dirty_map in Hf; by rewrite Ed in Hf).
    rewrite (mset_none eqb) by done. eexists. split; [reflexivity|].
    pose proof H1 as Hi. unfold ok in Hi. rewrite Ha, Ed in Hi. rewrite Hr1 in Hi.
    split; [|split; [|exact Hlen]].
    - unfold ok. cbn. rewrite Ha, Hr1. by apply inv_new.
    - rewrite <- Hall. unfold all, cur, dirty_map. cbn. rewrite Ha, Ed. unfold live at 1. rewrite omap_app.
      rewrite Permutation_app_comm. cbn. unfold shown at 1. cbn. rewrite fn_lookup_insert. cbn. constructor. fold (live (<[a_new s1:=APtr v]> (a_slot s1)) d).
      rewrite live_other; [done|]. intros (p&Hp&Hin)%elem_of_list_fmap. pose proof (i_dlt _ _ _ _ _ Hi p Hin). lia.
  Qed.
  Lemma inv_unexp rm d sl en k e x : inv rm true (Some d) sl en -> find rm k = Some e -> sl e = AExp -> find d k = None -> x <> AExp ->
    inv rm true (Some (d ++ [(k, e)])) (<[e := x]> sl) en.
  Proof.
    intros H Hr Hs Hd Hx. destruct H as [Hrm Hrn Hrlt Hdk Hdn Hdlt Hdx Hoff Hon Hrd Hdr]. cbn in *.
    assert (Hne : forall p, p ∈ d -> p.2 <> e) by (intros p Hp He; apply (Hdx p Hp); by rewrite He).
    pose proof Hr as Hr2. apply find_elem in Hr2 as (k0&Hin0&E0); [|done].
    constructor; cbn; try done.
    - eapply (kok_perm eqb P); [|by apply (kok_cons eqb P) with (a := e); [exact Hdk|exact Hd]]. by rewrite Permutation_app_comm.
    - rewrite fmap_app. cbn. apply NoDup_app. split; [done|]. split; [|by apply NoDup_singleton].
      intros e' (p&->&Hp)%elem_of_list_fmap He. apply elem_of_list_singleton in He. by apply (Hne p).
    - intros p [Hp|Hp]%elem_of_app; [by apply Hdlt|]. apply elem_of_list_singleton in Hp as ->. by apply (Hrlt (k0, e)).
    - intros p [Hp|Hp]%elem_of_app; [rewrite fn_lookup_insert_ne by (intros He; by apply (Hne p Hp)); by apply Hdx|]. apply elem_of_list_singleton in Hp as ->. cbn. by rewrite fn_lookup_insert.
    - intros _ p Hp Hs2. destruct (decide (p.2 = e)) as [Hpe|Hpe].
      + exists k. rewrite Hpe. split; [apply elem_of_app; right; by apply elem_of_list_singleton|].
        assert (p = (k0, e)) as ->; [|by right].
        apply elem_of_list_lookup in Hp as [i Hi]. apply elem_of_list_lookup in Hin0 as [j Hj].
        assert (i = j). { apply (NoDup_lookup rm.*2 i j e Hrn); rewrite list_lookup_fmap; [rewrite Hi|rewrite Hj]; cbn; congruence. } congruence.
      + rewrite fn_lookup_insert_ne in Hs2 by done. destruct (Hrd eq_refl p Hp Hs2) as (k'&Hk'&Hsim). exists k'. split; [|done]. apply elem_of_app. by left.
    - intros _ p q Hp [Hq|Hq]%elem_of_app Eq; [by apply (Hdr eq_refl p q)|]. apply elem_of_list_singleton in Hq as ->. cbn in Eq |- *.
      assert (F : find rm k = Some p.2) by (apply find_elem; [done|]; exists p.1; by destruct p). congruence.
  Qed.
  (** After unexpunging, the entry is in the current table, with no value if it had none. *)
  Lemma unexpunge_ok s k e : ok s -> find (a_read s) k = Some e -> exists s', unexpunge eqb upd k e s = Ok (tt, s') /\ ok s' /\
    a_len s' = a_len s /\ a_slot s' e <> AExp /\ val (a_slot s' e) = val (a_slot s e) /\ all s' ≡ₚ all s /\
    find (cur s') k = Some e.
  Proof.
    intros H Hr. unfold unexpunge, bind, gets. destruct (a_slot s e) eqn:Es.
    - exists s. split_and!; try done; [by rewrite Es|by rewrite Es|]. apply read_cur; [done..|]. by rewrite Es.
    - destruct (read_exp s k e H Hr Es) as [Ha Hd]. unfold modify.
      pose proof (i_on _ _ _ _ _ H Ha) as Hdm. unfold dirty_set. cbn [a_dirty set_slot]. unfold dirty_map in Hd. destruct (a_dirty s) as [d|] eqn:Ed; [|done].
      rewrite (mset_none eqb) by done. eexists. split; [reflexivity|]. pose proof H as Hi. unfold ok in Hi. rewrite Ha, Ed in Hi.
      split; [|split; [done|split; [|split; [|split]]]].
      + unfold ok. cbn. rewrite Ha. by apply inv_unexp.
      + cbn. by rewrite fn_lookup_insert.
      + cbn. by rewrite fn_lookup_insert.
      + unfold all, cur, dirty_map. cbn. rewrite Ha, Ed. unfold live at 1. rewrite omap_app. cbn. unfold shown at 2. cbn. rewrite fn_lookup_insert. cbn.
        rewrite app_nil_r. fold (live (<[e:=ANil]> (a_slot s)) d). rewrite live_other; [done|].
        intros (p&Hp&Hin)%elem_of_list_fmap. pose proof (i_dx _ _ _ _ _ Hi p Hin) as Hx. by rewrite <- Hp in Hx.
      + unfold cur, dirty_map. cbn. rewrite Ha. apply find_elem.
        * eapply (kok_perm eqb P); [|apply (kok_cons eqb P) with (a := e); [exact (i_dk _ _ _ _ _ Hi)|exact Hd]]. by rewrite Permutation_app_comm.
        * exists k. split; [apply elem_of_app; right; by apply elem_of_list_singleton|].
          apply find_elem in Hr as (k0&_&E0); [|apply (i_rm _ _ _ _ _ H)]. eapply (per_trans eqb P); [|exact E0]. by rewrite (per_sym eqb P).
    - exists s. split_and!; try done; [by rewrite Es|by rewrite Es|]. apply read_cur; [done..|]. by rewrite Es.
  Qed.

  (** * Changing the value of an entry in the current table *)
  Lemma set_value s k e v : ok s -> find (cur s) k = Some e ->
    ok (set_slot e (APtr v) s) /\ put eqb (all s) k v (all (set_slot e (APtr v) s)).
  Proof.
    intros H Hf. pose proof (find_split eqb _ _ _ Hf) as (k0&R&Hp&E0).
    assert (Hin : (k0, e) ∈ cur s) by (rewrite Hp; left). pose proof (cur_not_exp s k0 e H Hin) as Hx.
    split; [by apply ok_slot|]. destruct (live_split (a_slot s) (cur s) k0 e R (APtr v) (nodup_cur s H) Hp) as [H1 H2].
    change (all (set_slot e (APtr v) s)) with (live (<[e := APtr v]> (a_slot s)) (cur s)). cbn [as_list app] in H2.
    pose proof (find_all s k H) as Hfa. rewrite Hf in Hfa. pose proof (kok_all s H) as Hk.
    destruct (a_slot s e) as [| |w] eqn:Es; [|done|]; cbn [as_list app val] in *.
    - eapply (put_add eqb P); [done|done|by right|]. by rewrite H2, <- H1.
    - by eapply (put_upd eqb P); [done|exact H1|exact E0|exact E0|exact H2].
  Qed.
  Lemma unset_value s k e : ok s -> find (cur s) k = Some e ->
    ok (set_slot e ANil s) /\ dropped eqb (all s) k (all (set_slot e ANil s)).
  Proof.
    intros H Hf. pose proof (find_split eqb _ _ _ Hf) as (k0&R&Hp&E0).
    assert (Hin : (k0, e) ∈ cur s) by (rewrite Hp; left). pose proof (cur_not_exp s k0 e H Hin) as Hx.
    split; [by apply ok_slot|]. destruct (live_split (a_slot s) (cur s) k0 e R ANil (nodup_cur s H) Hp) as [H1 H2].
    change (all (set_slot e ANil s)) with (live (<[e := ANil]> (a_slot s)) (cur s)). cbn [as_list app] in H2.
    pose proof (find_all s k H) as Hfa. rewrite Hf in Hfa. pose proof (kok_all s H) as Hk.
    destruct (a_slot s e) as [| |w] eqn:Es; [|done|]; cbn [as_list app val] in *.
    - apply (drop_none eqb P); [done..|]. by rewrite H2, <- H1.
    - eapply (drop_del eqb P); [done| |exact E0]. by rewrite H1, H2.
  Qed.

  Lemma put_perm (l l0 l' : list (K * V)) k v : kok l -> l ≡ₚ l0 -> put eqb l0 k v l' -> put eqb l k v l'.
  Proof.
    intros Hk Hp (H1&H2&H3&H4). rewrite (find_perm eqb P l l0 k Hk Hp) in H4. split; [done|]. split; [|split].
    - intros j. rewrite H2. by rewrite (find_perm eqb P l l0 j Hk Hp).
    - rewrite H3. destruct (eqb k k); [by rewrite (filter_perm eqb _ _ Hp)|]. by rewrite (filter_perm eqb _ _ Hp).
    - by rewrite (Permutation_length Hp).
  Qed.
  Lemma found_all s k e : ok s -> find (cur s) k = Some e -> find (all s) k = val (a_slot s e).
  Proof. intros H Hf. by rewrite find_all, Hf. Qed.
  Lemma missing_all s k : ok s -> find (cur s) k = None -> find (all s) k = None.
  Proof. intros H Hf. by rewrite find_all, Hf. Qed.
  Lemma read_all s k e : ok s -> find (a_read s) k = Some e -> find (all s) k = val (a_slot s e).
  Proof.
    intros H Hf. destruct (a_slot s e) eqn:Es.
    - rewrite (found_all s k e H); [by rewrite Es|]. apply read_cur; [done..|by rewrite Es].
    - destruct (read_exp s k e H Hf Es) as [Ha Hd]. apply missing_all; [done|]. unfold cur. by rewrite Ha.
    - rewrite (found_all s k e H); [by rewrite Es|]. apply read_cur; [done..|by rewrite Es].
  Qed.
  Lemma quiet_refl s : ok s -> quiet s s.
  Proof. intros H. by split. Qed.

  Lemma e_load_eq e s : e_load e s = Ok (val (a_slot s e), s).
  Proof. reflexivity. Qed.
  (** * Calls *)
  Lemma Load_ok s k : ok s -> exists s', Load eqb k s = Ok (find (all s) k, s') /\ quiet s s'.
  Proof.
    intros H. unfold Load. unfold bind at 1, gets at 1, id. cbv beta iota. destruct (find (a_read s) k) as [e|] eqn:E.
    - exists s. rewrite e_load_eq, (read_all s k e H E). split; [done|by apply quiet_refl].
    - pose proof (read_none s k E) as Hn. destruct (a_amended s) eqn:Ea.
      + destruct (miss_quiet s H Ea) as (s1&E1&Hq). exists s1. unfold bind. rewrite E1. destruct Hq as (Hq1&Hq2&Hq3&Hq4).
        destruct (find (dirty_map s) k) as [e|].
        * rewrite e_load_eq, (found_all s k e H Hn), Hq3. done.
        * rewrite (missing_all s k H Hn). done.
      + exists s. rewrite (missing_all s k H Hn). split; [done|by apply quiet_refl].
  Qed.

  Definition new1 (o : option V) : Z := match o with Some _ => 0 | None => 1 end.
  Lemma Swap_ok s k v : ok s -> exists s', Swap eqb upd ord k v s = Ok (find (all s) k, s') /\ ok s' /\
    put eqb (all s) k v (all s') /\ a_len s' = (a_len s + new1 (find (all s) k))%Z.
  Proof.
    intros H.
    assert (exists s', match find (a_read s) k with
         | Some e => unexpunge eqb upd k e ;;; e_swap e v
         | None => match find (dirty_map s) k with Some e => e_swap e v | None => add_new eqb upd ord k v ;;; ret None end
         end s = Ok (find (all s) k, s') /\ ok s' /\ put eqb (all s) k v (all s') /\ a_len s' = a_len s) as (s'&E1&H1&Hp&Hl).
    { pose proof (kok_all s H) as Hk. destruct (find (a_read s) k) as [e|] eqn:E.
      - destruct (unexpunge_ok s k e H E) as (s1&E1&H1&Hl&Hx&Hv&Hall&Hf). destruct (set_value s1 k e v H1 Hf) as [H2 Hp].
        exists (set_slot e (APtr v) s1). unfold bind at 1. rewrite E1. unfold e_swap, bind. rewrite e_load_eq.
        rewrite (read_all s k e H E), Hv. split; [done|]. split; [done|]. split; [|done]. eapply put_perm; [done|symmetry; exact Hall|done].
      - pose proof (read_none s k E) as Hn. destruct (find (dirty_map s) k) as [e|] eqn:Ed.
        + destruct (a_amended s) eqn:Ea; [|by rewrite (off_dirty s k H Ea) in Ed].
          destruct (set_value s k e v H Hn) as [H2 Hp]. exists (set_slot e (APtr v) s).
          unfold e_swap, bind. rewrite e_load_eq, (found_all s k e H Hn). done.
        + assert (Hn2 : find (cur s) k = None) by (by rewrite Hn; destruct (a_amended s)).
          destruct (add_new_ok s k v H E Ed) as (s1&E1&H1&Hall&Hl). exists s1. unfold bind. rewrite E1.
          rewrite (missing_all s k H Hn2). split; [done|]. split; [done|]. split; [|done].
          eapply (put_add eqb P); [done|by apply missing_all|by left|done]. }
    unfold Swap. unfold bind at 1, gets at 1, id. cbv beta iota. unfold bind at 1. rewrite E1.
    destruct (find (all s) k) as [w|]; cbn [new1].
    - exists s'. rewrite Z.add_0_r. done.
    - exists (set_len (a_len s' + 1) s'). split; [done|]. split; [exact H1|]. split; [exact Hp|]. cbn. by rewrite Hl.
  Qed.

  Lemma LoadOrStore_ok s k v : ok s -> exists s',
    LoadOrStore eqb upd ord k v s = Ok (match find (all s) k with Some w => (w, true) | None => (v, false) end, s') /\ ok s' /\
    (match find (all s) k with Some _ => all s' ≡ₚ all s | None => put eqb (all s) k v (all s') end) /\ a_len s' = (a_len s + new1 (find (all s) k))%Z.
  Proof.
    intros H.
    assert (exists s', match find (a_read s) k with
         | Some e => unexpunge eqb upd k e ;;; e_loadOrStore e v
         | None =>
             match find (dirty_map s) k with
             | Some e => r <- e_loadOrStore e v ;; missLocked ;;; ret r
             | None => add_new eqb upd ord k v ;;; ret (v, false)
             end
         end s = Ok (match find (all s) k with Some w => (w, true) | None => (v, false) end, s') /\ ok s' /\
         (match find (all s) k with Some _ => all s' ≡ₚ all s | None => put eqb (all s) k v (all s') end) /\ a_len s' = a_len s) as (s'&E1&H1&Hp&Hl).
    { pose proof (kok_all s H) as Hk. destruct (find (a_read s) k) as [e|] eqn:E.
      - destruct (unexpunge_ok s k e H E) as (s1&E1&H1&Hl&Hx&Hv&Hall&Hf). destruct (set_value s1 k e v H1 Hf) as [H2 Hp].
        unfold bind at 1. rewrite E1. unfold e_loadOrStore, bind. rewrite e_load_eq.
        rewrite (read_all s k e H E), <- Hv. destruct (val (a_slot s1 e)) as [w|].
        + exists s1. done.
        + exists (set_slot e (APtr v) s1). split; [done|]. split; [done|]. split; [|done]. eapply put_perm; [done|symmetry; exact Hall|done].
      - pose proof (read_none s k E) as Hn. destruct (find (dirty_map s) k) as [e|] eqn:Ed.
        + destruct (a_amended s) eqn:Ea; [|by rewrite (off_dirty s k H Ea) in Ed].
          destruct (set_value s k e v H Hn) as [H2 Hp].
          unfold bind at 1, e_loadOrStore, bind at 1. rewrite e_load_eq, (found_all s k e H Hn). destruct (val (a_slot s e)) as [w|] eqn:Ev.
          * unfold ret at 1. destruct (miss_quiet s H Ea) as (s1&E1&Hq). exists s1. unfold bind. rewrite E1. split; [done|].
            split; [apply Hq|]. split; [by rewrite (quiet_all _ _ Hq)|apply Hq].
          * unfold bind, modify, ret at 1. destruct (miss_quiet (set_slot e (APtr v) s) H2 Ea) as (s1&E1&Hq). exists s1. rewrite E1. split; [done|].
            split; [apply Hq|]. split; [by rewrite (quiet_all _ _ Hq)|apply Hq].
        + assert (Hn2 : find (cur s) k = None) by (by rewrite Hn; destruct (a_amended s)).
          destruct (add_new_ok s k v H E Ed) as (s1&E1&H1&Hall&Hl). exists s1. unfold bind. rewrite E1.
          rewrite (missing_all s k H Hn2). split; [done|]. split; [done|]. split; [|done].
          eapply (put_add eqb P); [done|by apply missing_all|by left|done]. }
    unfold LoadOrStore. unfold bind at 1, gets at 1, id. cbv beta iota. unfold bind at 1. rewrite E1.
    destruct (find (all s) k) as [w|]; cbn [new1 snd].
    - exists s'. rewrite Z.add_0_r. done.
    - exists (set_len (a_len s' + 1) s'). split; [done|]. split; [exact H1|]. split; [exact Hp|]. cbn. by rewrite Hl.
  Qed.

  Lemma inv_del rm d sl en k : inv rm true (Some d) sl en -> find rm k = None -> inv rm true (Some (mdel eqb d k)) sl en.
  Proof.
    intros H Hr. destruct (find d k) as [e|] eqn:E; [|by rewrite (mdel_none eqb)].
    destruct (mdel_split eqb d k e E) as (k0&Hp&E0). destruct H as [Hrm Hrn Hrlt Hdk Hdn Hdlt Hdx Hoff Hon Hrd Hdr]. cbn in *.
    assert (Hin : forall p, p ∈ mdel eqb d k -> p ∈ d) by (intros p Hp2; rewrite Hp; by right).
    constructor; cbn; try done.
    - apply (kok_perm eqb P _ _ Hp Hdk).
    - rewrite Hp in Hdn. cbn in Hdn. by apply NoDup_cons in Hdn as [_ Hdn].
    - intros p Hp2. apply Hdlt. by apply Hin.
    - intros p Hp2. apply Hdx. by apply Hin.
    - intros _ p Hp2 Hs. destruct (Hrd eq_refl p Hp2 Hs) as (k'&Hk'&Hsim). exists k'. split; [|done].
      rewrite Hp in Hk'. apply elem_of_cons in Hk' as [Hk'|Hk']; [|done]. simplify_eq.
      pose proof (proj1 (find_none _ _) Hr p Hp2) as Hf. by rewrite (sim_congr eqb P _ _ k Hsim), E0 in Hf.
    - intros _ p q Hp2 Hq. apply Hdr; [done..|]. by apply Hin.
  Qed.
  Lemma dirty_del_ok s k : ok s -> a_amended s = true -> find (a_read s) k = None -> exists s1, dirty_del eqb k s = Ok (tt, s1) /\ ok s1 /\
    a_amended s1 = true /\ a_len s1 = a_len s /\ a_slot s1 = a_slot s /\ dropped eqb (all s) k (all s1) /\
    (forall e, find (dirty_map s) k = Some e -> e ∉ (cur s1).*2 /\ a_slot s e <> AExp).
  Proof.
    intros H Ea Hr. eexists. split; [reflexivity|]. pose proof (i_on _ _ _ _ _ H Ea) as Hdm.
    destruct (a_dirty s) as [d|] eqn:Ed; [|done]. pose proof H as Hi. unfold ok in Hi. rewrite Ea, Ed in Hi.
    pose proof (kok_all s H) as Hk. assert (Hc : cur s = d) by (unfold cur, dirty_map; by rewrite Ea, Ed).
    pose proof (i_dn _ _ _ _ _ Hi) as Hnd. cbn in Hnd.
    split; [unfold ok; cbn; rewrite Ea; by apply inv_del|]. split; [done|]. split; [done|]. split; [done|].
    unfold all, cur, dirty_map. cbn. rewrite Ea, Ed. change (dropped eqb (live (a_slot s) d) k (live (a_slot s) (mdel eqb d k)) /\
      (forall e, find d k = Some e -> e ∉ (mdel eqb d k).*2 /\ a_slot s e <> AExp)).
    unfold all in Hk. rewrite Hc in Hk. pose proof (find_all s k H) as Hfa. unfold all in Hfa. rewrite Hc in Hfa.
    destruct (find d k) as [e|] eqn:E.
    - destruct (mdel_split eqb d k e E) as (k0&Hp&E0). pose proof Hnd as Hnd2. rewrite Hp in Hnd2. cbn in Hnd2. apply NoDup_cons in Hnd2 as [Hni _].
      assert (Hx : a_slot s e <> AExp). { apply (i_dx _ _ _ _ _ Hi (k0, e)). cbn. rewrite Hp. left. }
      split; [|intros ? [= <-]; done]. destruct (live_split (a_slot s) d k0 e _ ANil Hnd Hp) as [Hl _].
      destruct (a_slot s e) as [| |w] eqn:Es; [|done|]; cbn [as_list app val] in *.
      + apply (drop_none eqb P); [done..|]. by symmetry.
      + by eapply (drop_del eqb P).
    - split; [|done]. rewrite (mdel_none eqb) by done. by apply (drop_none eqb P).
  Qed.
  Lemma LoadAndDelete_ok s k : ok s -> exists s', LoadAndDelete eqb k s = Ok (find (all s) k, s') /\ ok s' /\
    dropped eqb (all s) k (all s') /\ a_len s' = (a_len s - 1 + new1 (find (all s) k))%Z.
  Proof.
    intros H.
    assert (exists s', match find (a_read s) k with
         | Some e => e_delete e
         | None =>
             if a_amended s then
               dirty_del eqb k ;;; missLocked ;;; match find (dirty_map s) k with Some e => e_delete e | None => ret None end
             else ret None
         end s = Ok (find (all s) k, s') /\ ok s' /\ dropped eqb (all s) k (all s') /\ a_len s' = a_len s) as (s'&E1&H1&Hp&Hl).
    { pose proof (kok_all s H) as Hk. destruct (find (a_read s) k) as [e|] eqn:E.
      - pose proof (read_all s k e H E) as Hra. rewrite Hra. unfold e_delete, bind. rewrite e_load_eq.
        destruct (val (a_slot s e)) as [w|] eqn:Ev.
        + assert (Hf : find (cur s) k = Some e). { apply read_cur; [done..|]. intros Hx. by rewrite Hx in Ev. }
          destruct (unset_value s k e H Hf) as [H2 Hp]. by exists (set_slot e ANil s).
        + exists s. split; [done|]. split; [done|]. split; [|done]. by apply (drop_none eqb P).
      - pose proof (read_none s k E) as Hn. destruct (a_amended s) eqn:Ea.
        + destruct (dirty_del_ok s k H Ea E) as (s1&E1&H1&Ha1&Hl1&Hs1&Hd1&Hin). destruct (miss_quiet s1 H1 Ha1) as (s2&E2&Hq).
          pose proof (quiet_all _ _ Hq) as Hqa. destruct Hq as (Hq1&Hq2&Hq3&Hq4).
          unfold bind at 1. rewrite E1. unfold bind at 1. rewrite E2.
          destruct (find (dirty_map s) k) as [e|] eqn:Ed.
          * destruct (Hin e eq_refl) as [Hi1 Hi2]. rewrite (found_all s k e H Hn). unfold e_delete, bind. rewrite e_load_eq, Hq3, Hs1.
            destruct (val (a_slot s e)) as [w|]; [|exists s2; rewrite Hqa, Hq4, Hl1; done].
            exists (set_slot e ANil s2). split; [done|]. split; [apply ok_slot; [done|by rewrite Hq3, Hs1|done]|].
            split; [|cbn; by rewrite Hq4]. unfold all at 2. cbn [a_slot set_slot].
            change (cur (set_slot e ANil s2)) with (cur s2). rewrite live_other by (by rewrite Hq2). fold (all s2). by rewrite Hqa.
          * rewrite (missing_all s k H Hn). exists s2. rewrite Hqa, Hq4, Hl1. done.
        + exists s. rewrite (missing_all s k H Hn). split; [done|]. split; [done|]. split; [|done].
          apply (drop_none eqb P); [done|by apply missing_all|done]. }
    unfold LoadAndDelete. unfold bind at 1, gets at 1, id. cbv beta iota. unfold bind at 1. rewrite E1.
    destruct (find (all s) k) as [w|]; cbn [new1].
    - exists (set_len (a_len s' + -1) s'). split; [done|]. split; [exact H1|]. split; [exact Hp|]. cbn. rewrite Hl. lia.
    - exists s'. split; [done|]. split; [done|]. split; [done|]. rewrite Hl. lia.
  Qed.

  (** Whether the value under a key is the one asked for. *)
  Definition matches (o : option V) (old : V) : bool := match o with Some w => veq w old | None => false end.
  Lemma e_cas_ok s k e old new : ok s -> find (cur s) k = Some e -> exists s', e_cas veq e old new s = Ok (matches (find (all s) k) old, s') /\
    ok s' /\ a_amended s' = a_amended s /\ (if matches (find (all s) k) old then put eqb (all s) k new (all s') else all s' = all s) /\ a_len s' = a_len s.
  Proof.
    intros H Hf. rewrite (found_all s k e H Hf). unfold e_cas, bind. rewrite e_load_eq. destruct (set_value s k e new H Hf) as [H2 Hp].
    destruct (val (a_slot s e)) as [w|]; cbn [matches]; [|by exists s].
    destruct (veq w old); [|by exists s]. by exists (set_slot e (APtr new) s).
  Qed.
  Lemma CompareAndSwap_ok s k old new : ok s -> exists s', CompareAndSwap eqb veq k old new s = Ok (matches (find (all s) k) old, s') /\
    ok s' /\ (if matches (find (all s) k) old then put eqb (all s) k new (all s') else all s' = all s) /\ a_len s' = a_len s.
  Proof.
    intros H. unfold CompareAndSwap. unfold bind at 1, gets at 1, id. cbv beta iota. destruct (find (a_read s) k) as [e|] eqn:E.
    - assert (a_slot s e = AExp \/ a_slot s e <> AExp) as [Hx|Hx] by (destruct (a_slot s e); auto).
      + rewrite (read_all s k e H E), Hx. cbn [val matches]. exists s. unfold e_cas, bind. rewrite e_load_eq, Hx. done.
      + destruct (e_cas_ok s k e old new H (read_cur s k e H E Hx)) as (s'&E1&H1&_&Hr). exists s'. done.
    - pose proof (read_none s k E) as Hn. destruct (a_amended s) eqn:Ea; [|exists s; by rewrite (missing_all s k H Hn)].
      destruct (find (dirty_map s) k) as [e|]; [|exists s; by rewrite (missing_all s k H Hn)].
      destruct (e_cas_ok s k e old new H Hn) as (s1&E1&H1&Ha&Hm&Hl). rewrite Ea in Ha. destruct (miss_quiet s1 H1 Ha) as (s2&E2&Hq).
      exists s2. unfold bind. rewrite E1, E2. rewrite (quiet_all _ _ Hq). destruct Hq as (Hq1&_&_&Hq4). rewrite Hq4. done.
  Qed.
  Lemma CompareAndDelete_ok s k old : ok s -> exists s', CompareAndDelete eqb veq k old s = Ok (matches (find (all s) k) old, s') /\
    ok s' /\ (if matches (find (all s) k) old then dropped eqb (all s) k (all s') else all s' = all s) /\
    a_len s' = (a_len s - if matches (find (all s) k) old then 1 else 0)%Z.
  Proof.
    intros H.
    assert (exists o s1, match find (a_read s) k with
         | Some e => ret (Some e)
         | None => if a_amended s then missLocked ;;; ret (find (dirty_map s) k) else ret None
         end s = Ok (o, s1) /\ quiet s s1 /\ (forall e, o = Some e -> find (all s) k = val (a_slot s e) /\ (a_slot s e <> AExp -> find (cur s) k = Some e)) /\
         (o = None -> find (all s) k = None)) as (o&s1&E1&Hq&Ho&Hno).
    { destruct (find (a_read s) k) as [e|] eqn:E.
      - exists (Some e), s. split; [done|]. split; [by apply quiet_refl|]. split; [|done]. intros ? [= <-].
        split; [by apply read_all|]. intros Hx. by apply read_cur.
      - pose proof (read_none s k E) as Hn. destruct (a_amended s) eqn:Ea.
        + destruct (miss_quiet s H Ea) as (s1&E1&Hq). exists (find (dirty_map s) k), s1. unfold bind. rewrite E1. split; [done|]. split; [done|].
          split; [|intros Hd; apply missing_all; congruence]. intros e He. rewrite He in Hn. split; [by apply found_all|done].
        + exists None, s. split; [done|]. split; [by apply quiet_refl|]. split; [done|]. intros _. by apply missing_all. }
    unfold CompareAndDelete. unfold bind at 1, gets at 1, id. cbv beta iota. unfold bind at 1. rewrite E1.
    pose proof (quiet_all _ _ Hq) as Hqa. destruct Hq as (Hq1&Hq2&Hq3&Hq4). destruct o as [e|].
    - destruct (Ho e eq_refl) as [Hv Hf]. rewrite Hv. unfold bind. rewrite e_load_eq, Hq3. destruct (val (a_slot s e)) as [w|] eqn:Ev; cbn [matches].
      + destruct (veq w old).
        * assert (Hf2 : find (cur s1) k = Some e). { rewrite Hq2. apply Hf. intros Hx. by rewrite Hx in Ev. }
          destruct (unset_value s1 k e Hq1 Hf2) as [H2 Hp]. exists (set_len (a_len s1 + -1) (set_slot e ANil s1)).
          split; [done|]. split; [exact H2|]. split; [rewrite <- Hqa; exact Hp|]. cbn. rewrite Hq4. lia.
        * exists s1. rewrite Hqa, Hq4, Z.sub_0_r. done.
      + exists s1. rewrite Hqa, Hq4, Z.sub_0_r. done.
    - rewrite (Hno eq_refl). cbn [matches]. exists s1. rewrite Hqa, Hq4, Z.sub_0_r. done.
  Qed.

  Lemma range_loop_ok f es s : range_loop f es s = Ok (visited (fun p => f p.1 p.2) (live (a_slot s) es), s).
  Proof.
    induction es as [|[k e] es IH]; [done|]. cbn [range_loop]. unfold bind at 1. rewrite e_load_eq, live_cons.
    destruct (a_slot s e) as [| |v]; cbn [val as_list app]; [done..|]. cbn [visited fst snd]. destruct (f k v); [|done].
    unfold bind. by rewrite IH.
  Qed.
  Lemma Range_ok s f : ok s -> exists s' l1, Range ord f s = Ok (visited (fun p => f p.1 p.2) l1, s') /\ quiet s s' /\ l1 ≡ₚ all s.
  Proof.
    intros H. unfold Range. unfold bind at 1, gets at 1, id. cbv beta iota.
    assert (exists s1, (if a_amended s then promote else ret tt) s = Ok (tt, s1) /\ quiet s s1 /\ a_read s1 = cur s) as (s1&E1&Hq&Hr).
    { destruct (a_amended s) eqn:Ea.
      - destruct (promote_quiet s H Ea) as (s1&E1&Hq&Hr&_). by exists s1.
      - exists s. split; [done|]. split; [by apply quiet_refl|]. unfold cur. by rewrite Ea. }
    unfold bind at 1. rewrite E1. unfold bind at 1, gets at 1. cbv beta iota. unfold bind, iterate. rewrite range_loop_ok. cbn [a_slot].
    eexists _, _. split; [reflexivity|]. destruct Hq as (Hq1&Hq2&Hq3&Hq4). split; [split; [exact Hq1|done]|].
    rewrite Hq3. unfold all. rewrite <- Hr. by apply live_perm.
  Qed.
  Lemma Clear_ok s : ok s -> a_len s = Z.of_nat (length (all s)) -> exists s', Clear s = Ok (tt, s') /\ ok s' /\ all s' = [] /\ a_len s' = 0%Z.
  Proof.
    intros H Hlen. unfold Clear. unfold bind at 1, gets at 1, id. cbv beta iota.
    destruct (Nat.eqb (length (a_read s)) 0 && negb (a_amended s))%bool eqn:E.
    - apply andb_true_iff in E as [E1 E2]. apply Nat.eqb_eq, nil_length_inv in E1. apply negb_true_iff in E2.
      assert (Hall : all s = []) by (unfold all, cur; by rewrite E2, E1). rewrite Hall in Hlen. by exists s.
    - assert (E2 : ((0 <? length (a_read s)) || a_amended s)%bool = true) by (destruct (a_amended s); lia).
      rewrite E2. eexists. split; [reflexivity|]. split; [|done]. unfold ok. cbn.
      constructor; cbn; try done; try (by constructor); try (by destruct (a_dirty s); constructor);
        try (by destruct (a_dirty s); intros p Hp; apply elem_of_nil in Hp); try (by intros p Hp; apply elem_of_nil in Hp).
      intros _. split; [intros p Hp; by apply elem_of_nil in Hp|]. destruct (a_dirty s); [by right|by left].
  Qed.

  (** * Histories *)
  Definition same s (l : list (K * V)) : Prop :=
    ok s /\ kok l /\ alike eqb (all s) l /\ a_len s = Z.of_nat (length (all s)).
  Lemma same_quiet s s' l : same s l -> quiet s s' -> same s' l.
  Proof.
    intros (H1&H2&H3&H4) Hq. pose proof (quiet_all _ _ Hq) as Hqa. destruct Hq as (Hq1&_&_&Hq4). unfold same. rewrite Hqa, Hq4. done.
  Qed.
  Lemma same_perm s s' l : same s l -> ok s' -> all s' ≡ₚ all s -> a_len s' = a_len s -> same s' l.
  Proof.
    intros (H1&H2&H3&H4) H5 Hp Hl. split; [done|]. split; [done|]. rewrite (Permutation_length Hp), Hl. split; [|done].
    destruct (alike_perm eqb P _ _ (kok_all s' H5) Hp) as (A1&A2&A3), H3 as (B1&B2&B3). split; [intros k; by rewrite A1|].
    split; [by rewrite A2|congruence].
  Qed.
  Lemma same_find s l k : same s l -> find (all s) k = find l k.
  Proof. intros (_&_&[H _]&_). apply H. Qed.
  Lemma same_put s s' l k v : same s l -> ok s' -> put eqb (all s) k v (all s') -> a_len s' = (a_len s + new1 (find (all s) k))%Z ->
    same s' (mset eqb upd l k v).
  Proof.
    intros (H1&H2&H3&H4) H5 Hp Hl. pose proof (mset_put eqb P upd l k v H2) as Hm. split; [done|]. split; [apply Hm|].
    split; [by eapply (put_alike eqb)|]. destruct Hp as (_&_&_&Hp). destruct (find (all s) k); cbn [new1 is_found] in *; lia.
  Qed.
  Lemma same_del s s' l k : same s l -> ok s' -> dropped eqb (all s) k (all s') -> a_len s' = (a_len s - 1 + new1 (find (all s) k))%Z ->
    same s' (mdel eqb l k).
  Proof.
    intros (H1&H2&H3&H4) H5 Hp Hl. pose proof (mdel_dropped eqb P l k H2) as Hm. split; [done|]. split; [apply Hm|].
    split; [by eapply (dropped_alike eqb)|]. destruct Hp as (_&_&_&Hp). destruct (find (all s) k); cbn [new1 is_found] in *; lia.
  Qed.
  Lemma visited_all {A} (l : list A) : visited (fun _ => true) l = l.
  Proof. induction l as [|a l IH]; [done|]. cbn. by rewrite IH. Qed.

  Lemma step s l c : same s l -> exists r s', a_exec eqb upd veq ord c s = Ok (r, s') /\
    same s' (plain eqb upd veq c l).1 /\ agrees eqb c r (plain eqb upd veq c l).2.
  Proof.
    intros R. pose proof R as (H&Hkl&Hal&Hlen). pose proof (fun k => same_find s l k R) as Hf.
    destruct c as [k|k v|k v|k v|k|k|k old new|k old| | | |f]; cbn [a_exec plain agrees]; unfold Store, Delete, SlowLen.
    - destruct (Load_ok s k H) as (s'&E1&Hq). unfold bind. rewrite E1. eexists _, s'. split; [reflexivity|]. rewrite Hf. split; [by eapply same_quiet|done].
    - destruct (Swap_ok s k v H) as (s'&E1&H1&Hp&Hl). unfold bind. rewrite E1. eexists _, s'. split; [reflexivity|]. split; [by eapply same_put|done].
    - destruct (Swap_ok s k v H) as (s'&E1&H1&Hp&Hl). unfold bind. rewrite E1. eexists _, s'. split; [reflexivity|]. split; [by eapply same_put|]. cbn. by rewrite Hf.
    - destruct (LoadOrStore_ok s k v H) as (s'&E1&H1&Hp&Hl). unfold bind. rewrite E1. eexists _, s'. split; [reflexivity|]. rewrite <- Hf.
      destruct (find (all s) k) as [w|] eqn:E; cbn [fst snd].
      + split; [|done]. eapply same_perm; [done..|]. rewrite Hl. cbn. lia.
      + split; [|done]. eapply same_put; [done..|]. by rewrite E.
    - destruct (LoadAndDelete_ok s k H) as (s'&E1&H1&Hp&Hl). unfold bind. rewrite E1. eexists _, s'. split; [reflexivity|]. split; [by eapply same_del|]. cbn. by rewrite Hf.
    - destruct (LoadAndDelete_ok s k H) as (s'&E1&H1&Hp&Hl). unfold bind. rewrite E1. eexists _, s'. split; [reflexivity|]. split; [by eapply same_del|done].
    - destruct (CompareAndSwap_ok s k old new H) as (s'&E1&H1&Hp&Hl). unfold bind. rewrite E1. eexists _, s'. split; [reflexivity|]. rewrite <- Hf.
      destruct (find (all s) k) as [w|] eqn:E; cbn [matches] in *.
      + destruct (veq w old); cbn [fst snd].
        * split; [|done]. eapply same_put; [done..|]. rewrite E, Hl. cbn. lia.
        * split; [|done]. eapply same_perm; [done..|by rewrite Hp|done].
      + cbn [fst snd]. split; [|done]. eapply same_perm; [done..|by rewrite Hp|done].
    - destruct (CompareAndDelete_ok s k old H) as (s'&E1&H1&Hp&Hl). unfold bind. rewrite E1. eexists _, s'. split; [reflexivity|]. rewrite <- Hf.
      destruct (find (all s) k) as [w|] eqn:E; cbn [matches] in *.
      + destruct (veq w old); cbn [fst snd].
        * split; [|done]. eapply same_del; [done..|]. rewrite E, Hl. cbn. lia.
        * split; [|done]. eapply same_perm; [done..|by rewrite Hp|]. rewrite Hl. lia.
      + cbn [fst snd]. split; [|done]. eapply same_perm; [done..|by rewrite Hp|]. rewrite Hl. lia.
    - destruct (Clear_ok s H Hlen) as (s'&E1&H1&Hp&Hl). unfold bind. rewrite E1. eexists _, s'. split; [reflexivity|]. cbn [fst snd].
      split; [|done]. split; [done|]. split; [done|]. rewrite Hp. split; [done|done].
    - unfold bind, Len, gets, ret. eexists _, s. split; [reflexivity|]. cbn [fst snd]. split; [done|]. rewrite Hlen. do 2 f_equal. apply Hal.
    - destruct (Range_ok s (fun _ _ => true) H) as (s'&l1&E1&Hq&Hp). unfold bind. rewrite E1. eexists _, s'. split; [reflexivity|]. cbn [fst snd].
      split; [by eapply same_quiet|]. rewrite visited_all. do 2 f_equal. rewrite (Permutation_length Hp). apply Hal.
    - destruct (Range_ok s f H) as (s'&l1&E1&Hq&Hp). unfold bind. rewrite E1. eexists _, s'. split; [reflexivity|]. cbn [fst snd].
      split; [by eapply same_quiet|]. exists l1. pose proof (kok_perm eqb P _ _ (symmetry Hp) (kok_all s H)) as Hk1.
      destruct (alike_perm eqb P _ _ Hk1 Hp) as (A1&A2&A3), Hal as (B1&B2&B3). split; [|split; [by apply (kok_apart eqb P)|done]].
      split; [intros k; by rewrite A1|]. split; [by rewrite A2|congruence].
  Qed.
  Lemma same_zero : same zero_map [].
  Proof.
    split; [|done]. constructor; cbn; try done; try (by constructor); intros; try (by match goal with Hin : _ ∈ [] |- _ => apply elem_of_nil in Hin end).
    split; [intros p Hp; by apply elem_of_nil in Hp|by left].
  Qed.
  Lemma history cs : forall s l, same s l -> exists rs s', a_run eqb upd veq ord s cs = Some (rs, s') /\
    same s' (plain_run eqb upd veq l cs).2 /\ Forall3 (agrees eqb) cs rs (plain_run eqb upd veq l cs).1.
  Proof.
    induction cs as [|c cs IH]; intros s l H; cbn [a_run plain_run].
    - exists [], s. split; [done|]. split; [done|constructor].
    - destruct (step s l c H) as (r&s1&E1&H1&Hr). rewrite E1. destruct (plain eqb upd veq c l) as [l1 r1]. cbn [fst snd] in *.
      destruct (IH s1 l1 H1) as (rs&s2&E2&H2&Hrs). rewrite E2. destruct (plain_run eqb upd veq l1 cs) as [rs1 l2]. cbn [fst snd] in *.
      exists (r :: rs), s2. split; [done|]. split; [done|]. by constructor.
  Qed.

  (** * Keys that are not [==] to themselves *)
  Notation odds := (List.filter (odd (V := V) eqb)).
  Lemma kept_perm cs : forall acc acc' : list (K * V), acc ≡ₚ acc' -> kept eqb acc cs ≡ₚ kept eqb acc' cs.
  Proof.
    induction cs as [|c cs IH]; intros acc acc' H; [done|]. cbn [kept]. apply IH. destruct c; try done; destruct (eqb _ _); auto.
  Qed.
  Lemma odds_step c (l : list (K * V)) : kok l -> kok (plain eqb upd veq c l).1 /\
    odds (plain eqb upd veq c l).1 ≡ₚ
      match c with
      | AStore k v | ASwap k v | ALoadOrStore k v => if eqb k k then odds l else (k, v) :: odds l
      | AClear => []
      | _ => odds l
      end.
  Proof.
    intros Hk. destruct c as [k|k v|k v|k v|k|k|k old new|k old| | | |f]; cbn [plain fst]; try done.
    - destruct (mset_put eqb P upd l k v Hk) as (H1&_&H2&_). done.
    - destruct (mset_put eqb P upd l k v Hk) as (H1&_&H2&_). done.
    - destruct (find l k) as [w|] eqn:E; cbn [fst].
      + by rewrite (found_self eqb P l k w E).
      + destruct (mset_put eqb P upd l k v Hk) as (H1&_&H2&_). done.
    - destruct (mdel_dropped eqb P l k Hk) as (H1&_&H2&_). done.
    - destruct (mdel_dropped eqb P l k Hk) as (H1&_&H2&_). done.
    - destruct (find l k) as [w|] eqn:E; [|done]. destruct (veq w old); [|done]. cbn [fst].
      destruct (mset_put eqb P upd l k new Hk) as (H1&_&H2&_). split; [done|]. by rewrite (found_self eqb P l k w E) in H2.
    - destruct (find l k) as [w|] eqn:E; [|done]. destruct (veq w old); [|done]. cbn [fst].
      destruct (mdel_dropped eqb P l k Hk) as (H1&_&H2&_). done.
  Qed.
  Lemma odds_run cs : forall l : list (K * V), kok l -> odds (plain_run eqb upd veq l cs).2 ≡ₚ kept eqb (odds l) cs.
  Proof.
    induction cs as [|c cs IH]; intros l Hk; [done|]. cbn [plain_run kept]. destruct (odds_step c l Hk) as [H1 H2].
    destruct (plain eqb upd veq c l) as [l1 r]. cbn [fst] in *. specialize (IH l1 H1). destruct (plain_run eqb upd veq l1 cs) as [rs l2].
    cbn [snd] in *. rewrite IH. by apply kept_perm.
  Qed.
  Lemma reached cs rs s : a_run eqb upd veq ord zero_map cs = Some (rs, s) -> same s (plain_run eqb upd veq [] cs).2.
  Proof. intros E. destruct (history cs _ _ same_zero) as (rs'&s'&E'&H&_). rewrite E in E'. by simplify_eq. Qed.
  Lemma odd_missing s k : ok s -> eqb k k = false -> find (all s) k = None.
  Proof. intros H E. destruct (find (all s) k) as [w|] eqn:Ef; [|done]. by rewrite (found_self eqb P _ _ _ Ef) in E. Qed.
  Lemma odd_shown cs rs s seen s' : a_run eqb upd veq ord zero_map cs = Some (rs, s) ->
    Range ord (fun _ _ => true) s = Ok (seen, s') -> odds seen ≡ₚ kept eqb [] cs.
  Proof.
    intros E Er. pose proof (reached cs rs s E) as (H&Hk&(_&Ho&_)&_). destruct (Range_ok s (fun _ _ => true) H) as (s1&l1&E1&Hq&Hp).
    rewrite E1 in Er. simplify_eq. rewrite visited_all, (filter_perm eqb _ _ Hp), Ho. by apply (odds_run cs []).
  Qed.
End proofs.
