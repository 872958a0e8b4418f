(** RWMap used by one goroutine: Range with a callback that uses the map. *)
From Coq Require Import ZifyBool ZifyNat.
From Verif Require Import Base GoMap GoMapSpec RwMapAnyModel RwMapAnySpec RwMapAnyTable RwMapAny RwMapAnyRangeSpec.

Section proofs.
  Context {K V : Type} (eqb : K -> K -> bool) (P : per eqb).
  Notation W := (amap K V).
  Notation find := (mlookup eqb).
  Notation kok := (kok eqb).
  Notation sim := (sim eqb).
  Notation ok := (ok eqb).
  Notation table := (list (K * nat)).
  Implicit Types (k : K) (e : nat) (v : V) (s : W).
  Local Notation find_elem := (find_elem eqb P).
  Local Notation find_none := (find_none eqb).

  Lemma sim_trans x y z : sim x y -> sim y z -> sim x z.
  Proof. intros [->|H1] [->|H2]; [by left|by right|by right|right]. by eapply (per_trans eqb P). Qed.

  (** Entry [e] was handed out for key [k]: it is in one of the maps under that key, or gone for good. *)
  Definition member k e s : Prop := (k, e) ∈ a_read s \/ (k, e) ∈ dirty_map s.
  Definition gone e s : Prop := e ∉ (a_read s).*2 /\ e ∉ (dirty_map s).*2 /\ val (a_slot s e) = None.
  Definition tracked k e s : Prop := e < a_new s /\ ((exists k', sim k k' /\ member k' e s) \/ gone e s).
  Definition ptr s e : Prop := is_ptr (a_slot s e) = true.
  Definition frame s s' : Prop :=
    a_new s <= a_new s' /\ (forall k e, tracked k e s -> tracked k e s') /\ (forall e, e < a_new s -> ptr s e -> ptr s' e).
  Lemma frame_refl s : frame s s.
  Proof. by split_and!. Qed.
  Lemma frame_trans s1 s2 s3 : frame s1 s2 -> frame s2 s3 -> frame s1 s3.
  Proof. intros (A1&A2&A3) (B1&B2&B3). split; [lia|]. split; [auto|]. intros e He Hp. apply B3; [lia|]. by apply A3. Qed.
  Lemma frame_same s s' : a_read s' = a_read s -> a_dirty s' = a_dirty s -> a_slot s' = a_slot s -> a_new s' = a_new s -> frame s s'.
  Proof.
    intros H1 H2 H3 H4. unfold frame, tracked, gone, member, ptr. assert (Hd : dirty_map s' = dirty_map s) by (unfold dirty_map; by rewrite H2).
    rewrite H1, Hd, H3, H4. by split_and!.
  Qed.
  Lemma frame_slot s k e x : member k e s -> (ptr s e -> is_ptr x = true) -> frame s (set_slot e x s).
  Proof.
    intros Hm Hx. split; [done|]. split.
    - intros k1 e1 [Hlt [H|(H1&H2&H3)]]; (split; [done|]); [by left|right]. split; [done|]. split; [done|]. cbn.
      rewrite fn_lookup_insert_ne; [done|]. intros <-.
      destruct Hm as [Hm|Hm]; [apply H1|apply H2]; apply elem_of_list_fmap; by exists (k, e).
    - intros e1 Hlt Hp. unfold ptr in *. cbn. destruct (decide (e1 = e)) as [->|Hne]; [rewrite fn_lookup_insert; auto|by rewrite fn_lookup_insert_ne].
  Qed.
  Lemma tracked_promote s k e : ok s -> a_amended s = true -> tracked k e s -> tracked k e (set_misses 0 (set_dirty None (set_read (dirty_map s) false s))).
  Proof.
    intros H Ea [Hlt HT]. split; [done|]. destruct HT as [(k'&Hs&[Hm|Hm])|(H1&H2&H3)].
    - assert (a_slot s e = AExp \/ a_slot s e <> AExp) as [Hx|Hx] by (destruct (a_slot s e); auto).
      + right. split; [|split; [by apply not_elem_of_nil|cbn; by rewrite Hx]]. cbn. rewrite dirty_map_default.
        intros (p&Hp&Hin)%elem_of_list_fmap. apply (i_dx eqb _ _ _ _ _ H p Hin). by rewrite <- Hp.
      + left. destruct (i_rd eqb _ _ _ _ _ H Ea (k', e) Hm Hx) as (k2&Hd&Hs2). exists k2. split; [by eapply sim_trans|]. left. cbn.
        by rewrite dirty_map_default.
    - left. exists k'. split; [done|]. by left.
    - right. split; [done|]. split; [by apply not_elem_of_nil|done].
  Qed.
  Lemma frame_promote s u s' : ok s -> a_amended s = true -> promote s = Ok (u, s') -> frame s s'.
  Proof. intros H Ea [= _ <-]. split; [done|]. split; [|done]. intros k e. by apply tracked_promote. Qed.
  Lemma frame_miss s u s' : ok s -> a_amended s = true -> missLocked s = Ok (u, s') -> frame s s'.
  Proof.
    intros H Ea. unfold missLocked, bind, modify, gets, id. set (s1 := set_misses _ s).
    destruct (a_misses s1 <? length (dirty_map s1)).
    - intros [= _ <-]. by apply frame_same.
    - intros Hp. eapply frame_trans; [|by eapply (frame_promote s1)]. by apply frame_same.
  Qed.

  Context (upd : bool) (ord : nat -> list (K * nat) -> list (K * nat)) (Hord : forall n l, ord n l ≡ₚ l).
  Lemma frame_make_dirty s u s' : ok s -> a_amended s = false ->
    (dirtyLocked eqb upd ord ;;; modify (fun s1 => set_read (a_read s) true s1)) s = Ok (u, s') -> frame s s'.
  Proof.
    intros H E. destruct H as [Hrm Hrn Hrlt Hdk Hdn Hdlt Hdx Hoff Hon Hrd Hdr]. destruct (Hoff E) as [Hx [Hd|[Hd Hr]]].
    - pose (es := ord (a_its s) (a_read s)). assert (Hp : es ≡ₚ a_read s) by apply Hord.
      assert (Hke : kok es) by (eapply (kok_perm eqb P); [symmetry; exact Hp|done]).
      assert (Hne : NoDup es.*2) by (by rewrite Hp).
      unfold bind, dirtyLocked, gets, id, bind, modify, iterate. rewrite Hd. cbn [a_read a_its set_dirty]. fold es.
      rewrite (dirty_loop_ok eqb upd es _ []) by (try done; intros p q _ Hq; by apply elem_of_nil in Hq).
      cbn [a_read a_amended a_len a_misses a_slot a_new a_its set_dirty app]. intros [= _ <-].
      assert (Hin : forall p, p ∈ keep (a_slot s) es -> p ∈ a_read s). { intros p [Hp2 _]%keep_elem. by rewrite Hp in Hp2. }
      split; [done|]. split.
      + intros k e [Hlt HT]. split; [done|]. destruct HT as [(k'&Hs&[Hm|Hm])|(H1&H2&H3)].
        * left. exists k'. split; [done|]. by left.
        * unfold dirty_map in Hm. rewrite Hd in Hm. by apply elem_of_nil in Hm.
        * right. split; [done|]. split; [|cbn; rewrite exp_all_eq; destruct (a_slot s e); [by destruct (bool_decide _)|done..]].
          unfold dirty_map. cbn. intros (p&->&Hp2)%elem_of_list_fmap. apply H1. apply elem_of_list_fmap. exists p. split; [done|]. by apply Hin.
      + intros e _. unfold ptr. cbn. rewrite exp_all_eq. by destruct (a_slot s e).
    - unfold bind, dirtyLocked, gets, id, bind, modify. rewrite Hd. unfold ret. intros [= _ <-]. by apply frame_same.
  Qed.
  Lemma frame_add_new s k v u s' : ok s -> find (a_read s) k = None -> find (dirty_map s) k = None ->
    add_new eqb upd ord k v s = Ok (u, s') -> frame s s'.
  Proof.
    intros H Hr Hd. unfold add_new. unfold bind at 1, gets at 1, id. cbv beta iota. unfold bind at 1.
    assert (exists s1, (if a_amended s then ret tt else dirtyLocked eqb upd ord ;;; modify (fun s1 => set_read (a_read s) true s1)) s = Ok (tt, s1) /\
      frame s s1 /\ find (dirty_map s1) k = None /\ (forall p, p ∈ a_read s1 \/ p ∈ dirty_map s1 -> p.2 < a_new s1)) as (s1&E1&Hf&Hn&Hlt).
    { destruct (a_amended s) eqn:E.
      - exists s. split; [done|]. split; [apply frame_refl|]. split; [done|]. rewrite dirty_map_default.
        intros p [Hp|Hp]; [by apply (i_rlt eqb _ _ _ _ _ H)|by apply (i_dlt eqb _ _ _ _ _ H)].
      - destruct (make_dirty eqb P upd ord Hord s H E) as (s1&E1&H1&Ha&Hr1&Hall&Hlen&Hin&_). exists s1. split; [done|].
        split; [by eapply frame_make_dirty|]. split; [apply find_none; intros p Hp; apply (proj1 (find_none _ _) Hr); by apply Hin|].
        rewrite dirty_map_default. intros p [Hp|Hp]; [by apply (i_rlt eqb _ _ _ _ _ H1)|by apply (i_dlt eqb _ _ _ _ _ H1)]. }
    rewrite E1. unfold bind, newEntry, dirty_set. cbn [a_dirty]. destruct (a_dirty s1) as [d|] eqn:Ed; [|done]. intros [= _ <-].
    eapply frame_trans; [exact Hf|]. unfold dirty_map in Hn, Hlt. rewrite Ed in Hn, Hlt. rewrite (mset_none eqb) by done. split; [cbn; lia|]. split.
    - intros k1 e1 [Hlt1 HT]. split; [cbn; lia|]. destruct HT as [(k'&Hs&Hm)|(H1&H2&H3)].
      + left. exists k'. split; [done|]. destruct Hm as [Hm|Hm]; [by left|right]. unfold dirty_map in *. cbn. rewrite Ed in Hm. apply elem_of_app. by left.
      + right. split; [done|]. split.
        * unfold dirty_map in *. cbn. rewrite Ed in H2. rewrite fmap_app, elem_of_app. intros [Hi|Hi]; [done|]. cbn in Hi. apply elem_of_list_singleton in Hi. lia.
        * cbn. rewrite fn_lookup_insert_ne; [done|lia].
    - intros e1 Hlt1 Hp. unfold ptr in *. cbn. rewrite fn_lookup_insert_ne; [done|lia].
  Qed.
  Lemma frame_unexpunge s k e u s' : ok s -> find (a_read s) k = Some e -> unexpunge eqb upd k e s = Ok (u, s') -> frame s s'.
  Proof.
    intros H Hr. pose proof Hr as Hr2. apply find_elem in Hr2 as (k0&Hin0&E0); [|apply (i_rm eqb _ _ _ _ _ H)].
    unfold unexpunge, bind, gets. destruct (a_slot s e) eqn:Es; [intros [= _ <-]; apply frame_refl| |intros [= _ <-]; apply frame_refl].
    destruct (read_exp eqb P s k e H Hr Es) as [Ha Hd]. unfold modify, dirty_set. cbn [a_dirty set_slot].
    unfold dirty_map in Hd. destruct (a_dirty s) as [d|] eqn:Ed; [|done]. rewrite (mset_none eqb) by done. intros [= _ <-]. split; [done|]. split.
    - intros k1 e1 [Hlt1 HT]. split; [done|]. destruct HT as [(k'&Hs&Hm)|(H1&H2&H3)].
      + left. exists k'. split; [done|]. destruct Hm as [Hm|Hm]; [by left|right]. unfold dirty_map in *. cbn. rewrite Ed in Hm. apply elem_of_app. by left.
      + assert (e1 <> e). { intros ->. apply H1. apply elem_of_list_fmap. by exists (k0, e). }
        right. split; [done|]. split.
        * unfold dirty_map in *. cbn. rewrite Ed in H2. rewrite fmap_app, elem_of_app. intros [Hi|Hi]; [done|]. cbn in Hi. by apply elem_of_list_singleton in Hi.
        * cbn. by rewrite fn_lookup_insert_ne.
    - intros e1 Hlt1 Hp. unfold ptr in *. cbn. rewrite fn_lookup_insert_ne; [done|]. intros <-. by rewrite Es in Hp.
  Qed.
  Lemma member_read s k e : ok s -> find (a_read s) k = Some e -> exists k0, member k0 e s.
  Proof. intros H Hf. apply find_elem in Hf as (k0&Hp&_); [|apply (i_rm eqb _ _ _ _ _ H)]. exists k0. by left. Qed.
  Lemma member_dirty s k e : ok s -> find (dirty_map s) k = Some e -> exists k0, member k0 e s.
  Proof. intros H Hf. apply find_elem in Hf as (k0&Hp&_); [|rewrite dirty_map_default; apply (i_dk eqb _ _ _ _ _ H)]. exists k0. by right. Qed.
  Lemma member_cur s k e : ok s -> find (cur s) k = Some e -> exists k0, member k0 e s.
  Proof.
    intros H Hf. apply find_elem in Hf as (k0&Hp&_); [|by apply (kok_cur eqb)]. exists k0. unfold cur in Hp. destruct (a_amended s); [by right|by left].
  Qed.

  (** * Calls *)
  Context (veq : V -> V -> bool).
  Lemma frame_Load s k r s' : ok s -> Load eqb k s = Ok (r, s') -> frame s s'.
  Proof.
    intros H. unfold Load. unfold bind at 1, gets at 1, id. cbv beta iota. destruct (find (a_read s) k) as [e|].
    - rewrite e_load_eq. intros [= _ <-]. apply frame_refl.
    - destruct (a_amended s) eqn:Ea; [|intros [= _ <-]; apply frame_refl]. unfold bind.
      destruct (miss_quiet eqb s H Ea) as (s1&E1&_). rewrite E1. destruct (find (dirty_map s) k); [rewrite e_load_eq|]; intros [= _ <-]; by eapply frame_miss.
  Qed.
  Lemma frame_Swap s k v r s' : ok s -> Swap eqb upd ord k v s = Ok (r, s') -> frame s s'.
  Proof.
    intros H. unfold Swap. unfold bind at 1, gets at 1, id. cbv beta iota. unfold bind at 1.
    assert (Hmid : forall o s1, match find (a_read s) k with
         | Some e => unexpunge eqb upd k e ;;; e_swap e v
         | None => match find (dirty_map s) k with Some e => e_swap e v | None => add_new eqb upd ord k v ;;; ret None end
         end s = Ok (o, s1) -> frame s s1).
    { intros o s1. destruct (find (a_read s) k) as [e|] eqn:E.
      - destruct (unexpunge_ok eqb P upd s k e H E) as (s2&E2&H2&_&_&_&_&Hf2). unfold bind at 1. rewrite E2. unfold e_swap, bind. rewrite e_load_eq.
        intros [= _ <-]. eapply frame_trans; [by eapply frame_unexpunge|]. destruct (member_cur s2 k e H2 Hf2) as [k0 Hm]. by eapply frame_slot.
      - destruct (find (dirty_map s) k) as [e|] eqn:Ed.
        + unfold e_swap, bind. rewrite e_load_eq. intros [= _ <-]. destruct (member_dirty s k e H Ed) as [k0 Hm]. by eapply frame_slot.
        + destruct (add_new_ok eqb P upd veq ord Hord s k v H E Ed) as (s2&E2&_). unfold bind. rewrite E2. intros [= _ <-]. by eapply frame_add_new. }
    match goal with |- match ?m with _ => _ end = _ -> _ => destruct m as [[o s1]| |] end; [|done..]. specialize (Hmid o s1 eq_refl).
    destruct o; intros [= _ <-]; [done|]. eapply frame_trans; [exact Hmid|]. by apply frame_same.
  Qed.
  Lemma frame_LoadOrStore s k v r s' : ok s -> LoadOrStore eqb upd ord k v s = Ok (r, s') -> frame s s'.
  Proof.
    intros H. unfold LoadOrStore. unfold bind at 1, gets at 1, id. cbv beta iota. unfold bind at 1.
    assert (Hmid : forall o s1, match find (a_read s) k with
         | Some e => unexpunge eqb upd k e ;;; e_loadOrStore e v
         | None => match find (dirty_map s) k with
                   | Some e => r <- e_loadOrStore e v ;; missLocked ;;; ret r
                   | None => add_new eqb upd ord k v ;;; ret (v, false)
                   end
         end s = Ok (o, s1) -> frame s s1).
    { intros o s1. destruct (find (a_read s) k) as [e|] eqn:E.
      - destruct (unexpunge_ok eqb P upd s k e H E) as (s2&E2&H2&_&_&_&_&Hf2). unfold bind at 1. rewrite E2. unfold e_loadOrStore, bind. rewrite e_load_eq.
        destruct (val (a_slot s2 e)); intros [= _ <-]; [by eapply frame_unexpunge|].
        eapply frame_trans; [by eapply frame_unexpunge|]. destruct (member_cur s2 k e H2 Hf2) as [k0 Hm]. by eapply frame_slot.
      - destruct (find (dirty_map s) k) as [e|] eqn:Ed.
        + destruct (a_amended s) eqn:Ea; [|by rewrite (off_dirty eqb s k H Ea) in Ed].
          unfold e_loadOrStore, bind. rewrite e_load_eq. destruct (member_dirty s k e H Ed) as [k0 Hm]. destruct (val (a_slot s e)) as [w|] eqn:Ev.
          * unfold ret at 1. destruct (miss_quiet eqb s H Ea) as (s2&E2&_). rewrite E2. intros [= _ <-]. by eapply frame_miss.
          * unfold modify, ret at 1. assert (H2 : ok (set_slot e (APtr v) s)).
            { apply (ok_slot eqb); [done| |done]. apply find_elem in Ed as (k1&Hp&_); [|rewrite dirty_map_default; apply (i_dk eqb _ _ _ _ _ H)].
              rewrite dirty_map_default in Hp. by apply (i_dx eqb _ _ _ _ _ H (k1, e)). }
            destruct (miss_quiet eqb (set_slot e (APtr v) s) H2 Ea) as (s2&E2&_). rewrite E2. intros [= _ <-].
            eapply frame_trans; [by apply (frame_slot s k0 e (APtr v))|exact (frame_miss _ _ _ H2 Ea E2)].
        + destruct (add_new_ok eqb P upd veq ord Hord s k v H E Ed) as (s2&E2&_). unfold bind. rewrite E2. intros [= _ <-]. by eapply frame_add_new. }
    match goal with |- match ?m with _ => _ end = _ -> _ => destruct m as [[o s1]| |] end; [|done..]. specialize (Hmid o s1 eq_refl).
    destruct (snd o); intros [= _ <-]; [done|]. eapply frame_trans; [exact Hmid|]. by apply frame_same.
  Qed.
  Lemma frame_cas s k e old new r s' : member k e s -> e_cas veq e old new s = Ok (r, s') -> frame s s'.
  Proof.
    intros Hm. unfold e_cas, bind. rewrite e_load_eq. destruct (val (a_slot s e)); [|intros [= _ <-]; apply frame_refl].
    destruct (veq v old); intros [= _ <-]; [|apply frame_refl]. by eapply frame_slot.
  Qed.
  Lemma frame_CompareAndSwap s k old new r s' : ok s -> CompareAndSwap eqb veq k old new s = Ok (r, s') -> frame s s'.
  Proof.
    intros H. unfold CompareAndSwap. unfold bind at 1, gets at 1, id. cbv beta iota. destruct (find (a_read s) k) as [e|] eqn:E.
    - destruct (member_read s k e H E) as [k0 Hm]. by apply (frame_cas s k0).
    - destruct (a_amended s) eqn:Ea; [|intros [= _ <-]; apply frame_refl]. destruct (find (dirty_map s) k) as [e|] eqn:Ed; [|intros [= _ <-]; apply frame_refl].
      pose proof (read_none eqb s k E) as Hn. rewrite Ea, Ed in Hn.
      destruct (member_dirty s k e H Ed) as [k0 Hm]. destruct (e_cas_ok eqb P veq s k e old new H Hn) as (s1&E1&H1&Ha&_). rewrite Ea in Ha.
      destruct (miss_quiet eqb s1 H1 Ha) as (s2&E2&_). unfold bind. rewrite E1, E2. intros [= _ <-].
      eapply frame_trans; [by eapply frame_cas|by eapply frame_miss].
  Qed.
  Lemma frame_Range s f r s' : ok s -> Range ord f s = Ok (r, s') -> frame s s'.
  Proof.
    intros H. unfold Range. unfold bind at 1, gets at 1, id. cbv beta iota. unfold bind at 1.
    destruct (a_amended s) eqn:Ea.
    - destruct (promote_quiet eqb s H Ea) as (s1&E1&_). rewrite E1. unfold bind, gets, iterate. rewrite range_loop_ok. intros [= _ <-].
      eapply frame_trans; [by eapply frame_promote|]. by apply frame_same.
    - unfold ret, bind, gets, iterate. rewrite range_loop_ok. intros [= _ <-]. by apply frame_same.
  Qed.

  (** * Deleting calls *)
  Definition frame_but k s s' : Prop :=
    a_new s <= a_new s' /\ (forall k1 e, tracked k1 e s -> tracked k1 e s') /\
    (forall e, e < a_new s -> ptr s e -> ptr s' e \/ exists k', (k', e) ∈ cur s /\ eqb k' k = true).
  Lemma frame_is_but k s s' : frame s s' -> frame_but k s s'.
  Proof. intros (H1&H2&H3). split_and!; auto. Qed.
  Lemma tracked_slot s k e x k1 e1 : member k e s -> tracked k1 e1 s -> tracked k1 e1 (set_slot e x s).
  Proof.
    intros Hm [Hlt [H|(H1&H2&H3)]]; (split; [done|]); [by left|right]. split; [done|]. split; [done|]. cbn.
    rewrite fn_lookup_insert_ne; [done|]. intros <-. destruct Hm as [Hm|Hm]; [apply H1|apply H2]; apply elem_of_list_fmap; by exists (k, e).
  Qed.
  Lemma tracked_slot_ne s e x k1 e1 : e1 <> e -> tracked k1 e1 s -> tracked k1 e1 (set_slot e x s).
  Proof.
    intros Hne [Hlt [H|(H1&H2&H3)]]; (split; [done|]); [by left|right]. split; [done|]. split; [done|]. cbn. by rewrite fn_lookup_insert_ne.
  Qed.
  Lemma but_slot s k e : ok s -> find (cur s) k = Some e -> frame_but k s (set_slot e ANil s).
  Proof.
    intros H Hf. destruct (member_cur s k e H Hf) as [k0 Hm]. split; [done|]. split; [intros k1 e1; by apply (tracked_slot s k0)|].
    intros e1 Hlt Hp. destruct (decide (e1 = e)) as [->|Hne].
    - right. apply find_elem in Hf as (k'&Hin&E); [|by apply (kok_cur eqb)]. by exists k'.
    - left. unfold ptr in *. cbn. by rewrite fn_lookup_insert_ne.
  Qed.
  Lemma miss_out s u s' e : e ∉ (a_read s).*2 -> e ∉ (dirty_map s).*2 -> missLocked s = Ok (u, s') ->
    e ∉ (a_read s').*2 /\ e ∉ (dirty_map s').*2 /\ a_slot s' = a_slot s /\ a_new s' = a_new s.
  Proof.
    intros H1 H2. unfold missLocked, bind, modify, gets, id. set (s1 := set_misses _ s).
    destruct (a_misses s1 <? length (dirty_map s1)); intros [= _ <-]; [done|]. split; [done|]. split; [by apply not_elem_of_nil|done].
  Qed.
  Lemma dirty_only s k e : ok s -> a_amended s = true -> find (a_read s) k = None -> find (dirty_map s) k = Some e -> e ∉ (a_read s).*2.
  Proof.
    intros H Ea Hr Hd ([k1 e1]&He&Hin)%elem_of_list_fmap. cbn in He. subst e1. rewrite dirty_map_default in Hd.
    apply find_elem in Hd as (k0&Hin0&E0); [|apply (i_dk eqb _ _ _ _ _ H)]. pose proof (i_dx eqb _ _ _ _ _ H _ Hin0) as Hx.
    destruct (i_rd eqb _ _ _ _ _ H Ea (k1, e) Hin Hx) as (k'&Hin'&Hs). cbn in Hin', Hs.
    assert ((k', e) = (k0, e)) as [= ->].
    { apply elem_of_list_lookup in Hin' as [i Hi]. apply elem_of_list_lookup in Hin0 as [j Hj].
      assert (i = j). { apply (NoDup_lookup (default [] (a_dirty s)).*2 i j e (i_dn eqb _ _ _ _ _ H)); rewrite list_lookup_fmap; [rewrite Hi|rewrite Hj]; done. } congruence. }
    pose proof (proj1 (find_none _ _) Hr _ Hin) as Hf. cbn in Hf. by rewrite (sim_congr eqb P _ _ k Hs), E0 in Hf.
  Qed.
  Lemma tracked_del s k s1 k1 e1 : ok s -> a_amended s = true -> find (a_read s) k = None -> dirty_del eqb k s = Ok (tt, s1) ->
    find (dirty_map s) k <> Some e1 -> tracked k1 e1 s -> tracked k1 e1 s1.
  Proof.
    intros H Ea Hr [= <-] Hne [Hlt HT]. split; [done|]. pose proof (i_on eqb _ _ _ _ _ H Ea) as Hdm. destruct (a_dirty s) as [d|] eqn:Ed; [|done].
    unfold dirty_map in Hne. unfold gone, member, dirty_map in *. cbn. rewrite Ed in *. destruct (find d k) as [e|] eqn:E; [|by rewrite (mdel_none eqb)].
    destruct (mdel_split eqb d k e E) as (k0&Hp&E0). destruct HT as [(k'&Hs&Hm)|(H1&H2&H3)].
    - left. exists k'. split; [done|]. destruct Hm as [Hm|Hm]; [by left|right]. rewrite Hp in Hm. apply elem_of_cons in Hm as [Hm|Hm]; [|done].
      simplify_eq.
    - right. split; [done|]. split; [|done]. rewrite Hp in H2. cbn in H2. by apply not_elem_of_cons in H2 as [_ H2].
  Qed.
  Lemma but_LoadAndDelete s k r s' : ok s -> LoadAndDelete eqb k s = Ok (r, s') -> frame_but k s s'.
  Proof.
    intros H. unfold LoadAndDelete. unfold bind at 1, gets at 1, id. cbv beta iota. unfold bind at 1.
    assert (Hmid : forall o s1, match find (a_read s) k with
         | Some e => e_delete e
         | None =>
             if a_amended s then
               dirty_del eqb k ;;; missLocked ;;; match find (dirty_map s) k with Some e => e_delete e | None => ret None end
             else ret None
         end s = Ok (o, s1) -> frame_but k s s1).
    { intros o s1. destruct (find (a_read s) k) as [e|] eqn:E.
      - unfold e_delete, bind. rewrite e_load_eq. destruct (val (a_slot s e)) as [w|] eqn:Ev; intros [= _ <-]; [|apply frame_is_but, frame_refl].
        apply but_slot; [done|]. apply (read_cur eqb P); [done..|]. intros Hx. by rewrite Hx in Ev.
      - destruct (a_amended s) eqn:Ea; [|intros [= _ <-]; apply frame_is_but, frame_refl].
        pose proof (read_none eqb s k E) as Hn. rewrite Ea in Hn.
        destruct (dirty_del_ok eqb P s k H Ea E) as (s2&E2&H2&Ha2&_&Hs2&_&Hin). destruct (miss_quiet eqb s2 H2 Ha2) as (s3&E3&Hq).
        assert (Hnew : a_new s2 = a_new s) by (by injection E2 as <-). assert (Hrd : a_read s2 = a_read s) by (by injection E2 as <-).
        assert (Hcd : cur s2 = dirty_map s2) by (unfold cur; by rewrite Ha2).
        pose proof (frame_miss _ _ _ H2 Ha2 E3) as (Hm1&Hm2&_). destruct Hq as (_&_&Hq3&_).
        unfold bind at 1. rewrite E2. unfold bind at 1. rewrite E3. destruct (find (dirty_map s) k) as [e|] eqn:Ed.
        + destruct (Hin e eq_refl) as [Hout _]. rewrite Hcd in Hout. pose proof (dirty_only s k e H Ea E Ed) as Hro.
          destruct (miss_out s2 _ _ e ltac:(by rewrite Hrd) Hout E3) as (Ho1&Ho2&_&Hn3).
          assert (HT : forall s4 k1 e1, a_read s4 = a_read s3 -> a_dirty s4 = a_dirty s3 -> a_new s4 = a_new s3 ->
            (forall e2, e2 <> e -> a_slot s4 e2 = a_slot s3 e2) -> val (a_slot s4 e) = None -> tracked k1 e1 s -> tracked k1 e1 s4).
          { intros s4 k1 e1 R1 R2 R3 R4 R5 HT. assert (Hdm : dirty_map s4 = dirty_map s3) by (unfold dirty_map; by rewrite R2).
            destruct (decide (e1 = e)) as [->|Hne].
            - split; [destruct HT as [Hlt _]; lia|]. right. unfold gone. by rewrite R1, Hdm.
            - assert (HT3 : tracked k1 e1 s3). { apply Hm2. apply (tracked_del s k s2); [done..| |done]. rewrite Ed. congruence. }
              unfold tracked, gone, member in *. rewrite R1, Hdm, R3, (R4 _ Hne). done. }
          unfold e_delete, bind. rewrite e_load_eq. destruct (val (a_slot s3 e)) as [w|] eqn:Ev; intros [= _ <-].
          * split; [cbn; lia|]. split; [intros k1 e1; apply HT; try done|].
            -- intros e2 He2. cbn. by rewrite fn_lookup_insert_ne.
            -- cbn. by rewrite fn_lookup_insert.
            -- intros e1 Hlt Hp. destruct (decide (e1 = e)) as [->|Hne].
               ++ right. apply find_elem in Hn as (k'&Hin2&E4); [|by apply (kok_cur eqb)]. by exists k'.
               ++ left. unfold ptr in *. cbn. rewrite fn_lookup_insert_ne by done. by rewrite Hq3, Hs2.
          * split; [lia|]. split; [intros k1 e1; by apply HT|]. intros e1 Hlt Hp. left. unfold ptr. by rewrite Hq3, Hs2.
        + intros [= _ <-]. split; [lia|]. split; [intros k1 e1 HT; apply Hm2; apply (tracked_del s k s2); [done..| |done]; by rewrite Ed|].
          intros e1 Hlt Hp. left. unfold ptr. by rewrite Hq3, Hs2. }
    match goal with |- match ?m with _ => _ end = _ -> _ => destruct m as [[o s1]| |] end; [|done..]. specialize (Hmid o s1 eq_refl).
    destruct o; intros [= _ <-]; [|done]. exact Hmid.
  Qed.
  Lemma but_CompareAndDelete s k old r s' : ok s -> CompareAndDelete eqb veq k old s = Ok (r, s') -> frame_but k s s'.
  Proof.
    intros H.
    assert (exists o s1, match find (a_read s) k with
         | Some e => ret (Some e)
         | None => if a_amended s then missLocked ;;; ret (find (dirty_map s) k) else ret None
         end s = Ok (o, s1) /\ quiet eqb s s1 /\ frame s s1 /\ (forall e, o = Some e -> a_slot s e <> AExp -> find (cur s) k = Some e)) as (o&s1&E1&Hq&Hfr&Ho).
    { destruct (find (a_read s) k) as [e|] eqn:E.
      - exists (Some e), s. split; [done|]. split; [by apply quiet_refl|]. split; [apply frame_refl|]. intros ? [= <-] Hx. by apply (read_cur eqb P).
      - pose proof (read_none eqb s k E) as Hn. destruct (a_amended s) eqn:Ea.
        + destruct (miss_quiet eqb s H Ea) as (s1&E1&Hq). exists (find (dirty_map s) k), s1. unfold bind. rewrite E1. split; [done|]. split; [done|].
          split; [by eapply frame_miss|]. intros e He. by rewrite He in Hn.
        + exists None, s. split; [done|]. split; [by apply quiet_refl|]. split; [apply frame_refl|done]. }
    unfold CompareAndDelete. unfold bind at 1, gets at 1, id. cbv beta iota. unfold bind at 1. rewrite E1.
    destruct Hq as (Hq1&Hq2&Hq3&Hq4). destruct o as [e|]; [|intros [= _ <-]; by apply frame_is_but].
    unfold bind. rewrite e_load_eq, Hq3. destruct (val (a_slot s e)) as [w|] eqn:Ev; [|intros [= _ <-]; by apply frame_is_but].
    destruct (veq w old); intros [= _ <-]; [|by apply frame_is_but].
    assert (Hf : find (cur s) k = Some e). { apply Ho; [done|]. intros Hx. by rewrite Hx in Ev. }
    pose proof Hf as Hf1. rewrite <- Hq2 in Hf1. pose proof (but_slot s1 k e Hq1 Hf1) as (B1&B2&B3). destruct Hfr as (A1&A2&A3).
    split; [cbn in *; lia|]. split; [intros k1 e1 HT; by apply B2, A2|]. intros e1 Hlt Hp.
    destruct (B3 e1 ltac:(lia) (A3 e1 Hlt Hp)) as [?|(k'&Hin&E2)]; [by left|right]. exists k'. by rewrite Hq2 in Hin.
  Qed.

  (** Every call but Clear. *)
  Notation exec := (a_exec eqb upd veq ord).
  Lemma frame_call s c r s' k : ok s -> exec c s = Ok (r, s') -> c <> AClear -> 
    a_new s <= a_new s' /\ (forall k1 e, tracked k1 e s -> tracked k1 e s') /\
    (forall e, (k, e) ∈ cur s -> ~ removes eqb k c -> e < a_new s -> ptr s e -> ptr s' e).
  Proof.
    intros H E Hc.
    assert (Hfr : frame s s' -> a_new s <= a_new s' /\ (forall k1 e, tracked k1 e s -> tracked k1 e s') /\
      (forall e, (k, e) ∈ cur s -> ~ removes eqb k c -> e < a_new s -> ptr s e -> ptr s' e)) by (intros (H1&H2&H3); split_and!; auto).
    assert (Hbut : forall kk, frame_but kk s s' -> (eqb k kk = true -> removes eqb k c) ->
      a_new s <= a_new s' /\ (forall k1 e, tracked k1 e s -> tracked k1 e s') /\
      (forall e, (k, e) ∈ cur s -> ~ removes eqb k c -> e < a_new s -> ptr s e -> ptr s' e)).
    { intros kk (H1&H2&H3) Hr. split; [done|]. split; [done|]. intros e Hin Hnr Hlt Hp. destruct (H3 e Hlt Hp) as [?|(k'&Hin'&E')]; [done|].
      destruct Hnr. apply Hr. assert ((k', e) = (k, e)) as [= <-]; [|done]. pose proof (nodup_cur eqb s H) as Hnd.
      apply elem_of_list_lookup in Hin' as [i Hi]. apply elem_of_list_lookup in Hin as [j Hj].
      assert (i = j). { apply (NoDup_lookup (cur s).*2 i j e Hnd); rewrite list_lookup_fmap; [rewrite Hi|rewrite Hj]; done. } congruence. }
    destruct c as [k0|k0 v|k0 v|k0 v|k0|k0|k0 old new|k0 old| | | |f]; cbn [a_exec] in E; unfold Store, Delete, SlowLen in E; try done.
    - apply Hfr. unfold bind in E. destruct (Load eqb k0 s) as [[o s1]| |] eqn:E1; [|done..]. simplify_eq/=. injection E as _ <-. by eapply frame_Load.
    - apply Hfr. unfold bind in E. destruct (Swap eqb upd ord k0 v s) as [[o s1]| |] eqn:E1; [|done..]. injection E as _ <-. by eapply frame_Swap.
    - apply Hfr. unfold bind in E. destruct (Swap eqb upd ord k0 v s) as [[o s1]| |] eqn:E1; [|done..]. injection E as _ <-. by eapply frame_Swap.
    - apply Hfr. unfold bind in E. destruct (LoadOrStore eqb upd ord k0 v s) as [[o s1]| |] eqn:E1; [|done..]. injection E as _ <-. by eapply frame_LoadOrStore.
    - apply (Hbut k0); [|done]. unfold bind in E. destruct (LoadAndDelete eqb k0 s) as [[o s1]| |] eqn:E1; [|done..]. injection E as _ <-. by eapply but_LoadAndDelete.
    - apply (Hbut k0); [|done]. unfold bind in E. destruct (LoadAndDelete eqb k0 s) as [[o s1]| |] eqn:E1; [|done..]. injection E as _ <-. by eapply but_LoadAndDelete.
    - apply Hfr. unfold bind in E. destruct (CompareAndSwap eqb veq k0 old new s) as [[o s1]| |] eqn:E1; [|done..]. injection E as _ <-. by eapply frame_CompareAndSwap.
    - apply (Hbut k0); [|done]. unfold bind in E. destruct (CompareAndDelete eqb veq k0 old s) as [[o s1]| |] eqn:E1; [|done..]. injection E as _ <-. by eapply but_CompareAndDelete.
    - apply Hfr. injection E as _ <-. apply frame_refl.
    - apply Hfr. unfold bind in E. destruct (Range ord (fun _ _ => true) s) as [[o s1]| |] eqn:E1; [|done..]. injection E as _ <-. by eapply frame_Range.
    - apply Hfr. unfold bind in E. destruct (Range ord f s) as [[o s1]| |] eqn:E1; [|done..]. injection E as _ <-. by eapply frame_Range.
  Qed.

  (** * Turns *)
  Notation run := (a_run eqb upd veq ord).
  Notation after := (after eqb upd veq).
  Notation same := (same eqb).
  Lemma after_cons l c cs : after l (c :: cs) = after (plain eqb upd veq c l).1 cs.
  Proof. unfold after. cbn [plain_run]. destruct (plain eqb upd veq c l) as [l1 r]. cbn [fst]. by destruct (plain_run eqb upd veq l1 cs). Qed.
  Lemma after_app cs1 : forall l cs2, after l (cs1 ++ cs2) = after (after l cs1) cs2.
  Proof. induction cs1 as [|c cs1 IH]; intros l cs2; [done|]. cbn [app]. rewrite !after_cons. apply IH. Qed.
  Lemma tracked_cur s k e : ok s -> tracked k e s -> ptr s e -> exists k', sim k k' /\ (k', e) ∈ cur s.
  Proof.
    intros H [Hlt [(k'&Hs&Hm)|(_&_&Hv)]] Hp; [|unfold ptr in Hp; by destruct (a_slot s e)].
    assert (Hx : a_slot s e <> AExp) by (intros Hx; unfold ptr in Hp; by rewrite Hx in Hp).
    unfold cur. destruct (a_amended s) eqn:Ea.
    - destruct Hm as [Hm|Hm]; [|by exists k']. destruct (i_rd eqb _ _ _ _ _ H Ea (k', e) Hm Hx) as (k2&Hd&Hs2). exists k2.
      split; [by eapply sim_trans|]. by rewrite dirty_map_default.
    - destruct Hm as [Hm|Hm]; [by exists k'|]. rewrite dirty_map_default in Hm.
      destruct (i_off eqb _ _ _ _ _ H Ea) as [_ [Hd|[Hd _]]]; rewrite Hd in Hm; by apply elem_of_nil in Hm.
  Qed.
  Lemma removes_sim k k' (c : a_call K V) : sim k k' -> removes eqb k' c -> removes eqb k c.
  Proof. intros Hs. destruct c; cbn; try done; by rewrite (sim_congr eqb P _ _ _ Hs). Qed.
  Lemma run_frame cs : forall s l, same s l -> exists rs s1, run s cs = Some (rs, s1) /\ same s1 (after l cs) /\
    (AClear ∉ cs -> (forall k e, tracked k e s -> tracked k e s1) /\
      (forall k e, tracked k e s -> ptr s e -> Forall (fun c => ~ removes eqb k c) cs -> ptr s1 e)).
  Proof.
    induction cs as [|c cs IH]; intros s l H.
    - exists [], s. by split_and!.
    - cbn [a_run]. destruct (step eqb P upd veq ord Hord s l c H) as (r&s1&E1&H1&_). rewrite E1. destruct (IH s1 _ H1) as (rs&s2&E2&H2&Hf).
      rewrite E2. exists (r :: rs), s2. split; [done|]. rewrite after_cons. split; [done|]. intros Hn. apply not_elem_of_cons in Hn as [Hn1 Hn2].
      destruct (Hf Hn2) as [F1 F2]. pose proof (proj1 H) as Hok. assert (Hn1' : c <> AClear) by (intros ->; by apply Hn1). split.
      + intros k e HT. apply F1. destruct (frame_call s c r s1 k Hok E1 Hn1') as (_&Ht&_). by apply Ht.
      + intros k e HT Hp [Hr1 Hr2]%Forall_cons. destruct (tracked_cur s k e Hok HT Hp) as (k'&Hs&Hin).
        destruct (frame_call s c r s1 k' Hok E1 Hn1') as (_&Ht&Hpt). apply (F2 k e); [by apply Ht| |done].
        apply Hpt; [done| |apply HT|done]. intros Hr. apply Hr1. by eapply removes_sim.
  Qed.

  Lemma tracked_holds s l k e v : same s l -> tracked k e s -> a_slot s e = APtr v -> holds eqb l k v.
  Proof.
    intros (H&Hkl&(A1&A2&_)&_) HT Hv. destruct (tracked_cur s k e H HT ltac:(unfold ptr; by rewrite Hv)) as (k'&Hs&Hin).
    assert (Hall : (k', v) ∈ all s) by (apply live_elem; by exists e). destruct (eqb k k) eqn:Ek.
    - left. rewrite <- A1. apply find_elem; [by apply (kok_all eqb)|]. exists k'. split; [done|]. destruct Hs as [->|Hs]; [done|]. by rewrite (per_sym eqb P).
    - right. split; [done|]. assert (k' = k) as ->.
      { destruct Hs as [->|Hs]; [done|]. assert (eqb k k = true); [|congruence]. eapply (per_trans eqb P); [exact Hs|]. by rewrite (per_sym eqb P). }
      assert (Hodd : (k, v) ∈ List.filter (odd eqb) l).
      { rewrite <- A2. apply elem_of_list_In, filter_In. split; [by apply elem_of_list_In|]. unfold odd. cbn. by rewrite Ek. }
      apply elem_of_list_In, filter_In in Hodd as [Hin2 _]. by apply elem_of_list_In.
  Qed.

  Lemma turns cb es : forall seen s l, same s l ->
    exists ts s', range_turns eqb upd veq ord cb es seen s = Some (ts, s') /\ same s' (after l (calls_of ts)) /\
      (map (fun t => t.1.1) ts `sublist_of` es.*1) /\
      ((forall k e, (k, e) ∈ es -> tracked k e s) ->
        (forall t1 k v cs t2, ts = t1 ++ ((k, v), cs) :: t2 -> AClear ∉ calls_of t1 -> holds eqb (after l (calls_of t1)) k v) /\
        (AClear ∉ calls_of ts -> (forall seen, snd (cb seen) = true) -> forall k e, (k, e) ∈ es -> ptr s e ->
          Forall (fun c => ~ removes eqb k c) (calls_of ts) -> exists v cs, ((k, v), cs) ∈ ts)).
  Proof.
    induction es as [|[k0 e0] es IH]; intros seen s l H.
    - exists [], s. split; [done|]. split; [done|]. split; [constructor|]. intros _. split; [by intros [|]|]. intros _ _ k e Hin. by apply elem_of_nil in Hin.
    - cbn [range_turns]. destruct (a_slot s e0) as [| |v0] eqn:Es.
      1,2: destruct (IH seen s l H) as (ts&s'&E&H'&Hs&Hr); exists ts, s'; split; [done|]; split; [done|]; split; [by constructor|];
        intros HT; destruct (Hr ltac:(intros k e Hin; apply HT; by right)) as [R1 R2]; split; [done|]; intros Hn Hg k e Hin Hp;
        apply elem_of_cons in Hin as [Hin|Hin]; [injection Hin as -> ->; unfold ptr in Hp; by rewrite Es in Hp|by apply (R2 Hn Hg k e)].
      destruct (cb (seen ++ [(k0, v0)])) as [cs go] eqn:Ecb. destruct (run_frame cs s l H) as (rs&s1&E1&H1&Hfr). rewrite E1. destruct go.
      + destruct (IH (seen ++ [(k0, v0)]) s1 _ H1) as (ts&s'&E&H'&Hs&Hr). rewrite E. exists (((k0, v0), cs) :: ts), s'. split; [done|].
        unfold calls_of. cbn [map concat fst snd]. fold (calls_of ts). rewrite after_app. split; [done|]. split; [by constructor|].
        intros HT. split.
        * intros t1 k v cs' t2 Heq Hn. destruct t1 as [|t t1]; cbn [app] in Heq.
          -- injection Heq as <- <- <- <-. apply (tracked_holds s l k0 e0 v0); [done| |done]. apply HT. left.
          -- injection Heq as <- ->. cbn [map concat snd] in *. fold (calls_of t1) in *. rewrite after_app.
             apply not_elem_of_app in Hn as [Hn1 Hn2]. destruct (Hfr Hn1) as [F1 _].
             destruct (Hr ltac:(intros k1 e1 Hin; apply F1, HT; by right)) as [R1 _]. by eapply R1.
        * intros Hn Hg k e Hin Hp Hall. apply not_elem_of_app in Hn as [Hn1 Hn2]. apply Forall_app in Hall as [Ha1 Ha2].
          apply elem_of_cons in Hin as [Hin|Hin]; [injection Hin as -> ->; exists v0, cs; left|]. destruct (Hfr Hn1) as [F1 F2].
          destruct (Hr ltac:(intros k1 e1 Hin1; apply F1, HT; by right)) as [_ R2].
          destruct (R2 Hn2 Hg k e Hin) as (v&cs'&Hin2); [|done|exists v, cs'; by right]. apply (F2 k e); [apply HT; by right|done|done].
      + exists [((k0, v0), cs)], s1. split; [done|]. unfold calls_of. cbn [map concat fst snd]. rewrite app_nil_r. split; [done|].
        split; [cbn; constructor; apply sublist_nil_l|]. intros HT. split.
        * intros t1 k v cs' t2 Heq Hn. destruct t1 as [|t t1]; cbn [app] in Heq; [|by destruct t1].
          injection Heq as <- <- <- <-. apply (tracked_holds s l k0 e0 v0); [done| |done]. apply HT. left.
        * intros _ Hg. specialize (Hg (seen ++ [(k0, v0)])). by rewrite Ecb in Hg.
  Qed.
  Lemma apart_sub {A B} (l : list (K * A)) (l' : list (K * B)) : l'.*1 `sublist_of` l.*1 -> kok l -> apart eqb l'.
  Proof.
    intros Hs Hk. apply (kok_apart eqb P). revert l' Hs. induction l as [|[k a] l IH]; intros l' Hs.
    - apply sublist_nil_r in Hs. by destruct l'.
    - destruct Hk as [Hk1 Hk2]. cbn [fmap list_fmap fst] in Hs. apply sublist_cons_r in Hs as [Hs|(l2&Heq&Hs)]; [by apply IH|].
      destruct l' as [|[k' b] l']; [done|]. cbn in Heq. injection Heq as -> Heq. split; [|apply IH; [done|by rewrite Heq]].
      intros [k2 b2] Hin. cbn. assert (Hin2 : k2 ∈ l.*1).
      { assert (Hin3 : k2 ∈ l'.*1) by (apply elem_of_list_fmap; by exists (k2, b2)). rewrite Heq in Hin3. clear -Hs Hin3.
        induction Hs as [|x m m' Hs IH|x m m' Hs IH]; [done| |right; auto]. apply elem_of_cons in Hin3 as [->|Hin3]; [left|right; auto]. }
      apply elem_of_list_fmap in Hin2 as ([k3 a3]&->&Hin3). by apply (Hk1 (k3, a3)).
  Qed.
  Lemma RangeCalls_ok cb s l : same s l ->
    exists ts s', RangeCalls eqb upd veq ord cb s = Some (ts, s') /\ same s' (after l (calls_of ts)) /\ apart eqb (map fst ts) /\
      (forall t1 k v cs t2, ts = t1 ++ ((k, v), cs) :: t2 -> AClear ∉ calls_of t1 -> holds eqb (after l (calls_of t1)) k v) /\
      ((forall seen, snd (cb seen) = true) -> forall k, find l k <> None -> Forall (fun c => ~ removes eqb k c) (calls_of ts) ->
        exists k' v cs, ((k', v), cs) ∈ ts /\ eqb k' k = true).
  Proof.
    intros Hsm. pose proof Hsm as (H&_&(A1&_)&_). unfold RangeCalls. unfold bind at 1, gets at 1, id. cbv beta iota.
    assert (exists s1, (if a_amended s then promote else ret tt) s = Ok (tt, s1) /\ quiet eqb s s1 /\ a_read s1 = cur s) as (s1&E1&Hq&Hr).
    { destruct (a_amended s) eqn:Ea.
      - destruct (promote_quiet eqb s H Ea) as (s1&E1&Hq&Hr&_). by exists s1.
      - exists s. split; [done|]. split; [by apply quiet_refl|]. unfold cur. by rewrite Ea. }
    unfold bind at 1. rewrite E1. unfold bind, gets, iterate.
    set (s2 := mk_amap _ _ _ _ _ _ _ _). set (es := ord _ _). assert (Hes : es ≡ₚ cur s) by (rewrite <- Hr; apply Hord).
    assert (Hsm2 : same s2 l). { apply (same_quiet eqb s1); [by apply (same_quiet eqb s)|]. split; [exact (proj1 Hq)|]. done. }
    destruct (turns cb es [] s2 l Hsm2) as (ts&s'&E&H'&Hs&Hrest). exists ts, s'. split; [done|]. split; [done|]. split.
    - eapply (apart_sub es); [|eapply (kok_perm eqb P); [symmetry; exact Hes|by apply (kok_cur eqb)]]. change ((map fst ts).*1) with (map fst (map fst ts)). rewrite map_map. exact Hs.
    - destruct Hrest as [R1 R2].
      { intros k e Hin. rewrite Hes, <- Hr in Hin. pose proof (i_rlt eqb _ _ _ _ _ (proj1 Hq) (k, e) Hin). split; [done|]. left. exists k. split; [by left|]. by left. }
      split; [exact R1|]. intros Hg k Hf Hall. rewrite <- A1, (find_all eqb P s k H) in Hf. destruct (find (cur s) k) as [e|] eqn:Ef; [|done].
      pose proof Ef as Ef2. apply find_elem in Ef2 as (k0&Hin&E0); [|by apply (kok_cur eqb)].
      assert (Hn : AClear ∉ calls_of ts). { intros Hc. rewrite Forall_forall in Hall. by apply (Hall _ Hc). }
      assert (Hs0 : sim k k0) by (right; by rewrite (per_sym eqb P)).
      destruct (R2 Hn Hg k0 e) as (v&cs&Hin2); [by rewrite Hes|..|by exists k0, v, cs].
      + unfold ptr. destruct Hq as (_&_&Hq3&_). cbn. rewrite Hq3. by destruct (a_slot s e).
      + eapply Forall_impl; [exact Hall|]. intros c Hc Hc2. apply Hc. by eapply removes_sim.
  Qed.
End proofs.
