(** Proofs about what happens before what in refreshcache. *)
From Coq Require Import ZifyBool ZifyNat.
From Verif Require Import Base RefreshCacheModel RefreshCacheRaceSpec RefreshCacheHbSpec.

Section hb.
Context {T E F : Type} (zero : T) (maxAge errAge : Z) (f0 : option F).
Local Notation step := (step zero maxAge errAge).
Local Notation act := (act zero maxAge errAge).
Local Notation hact := (hact zero maxAge errAge).
Local Notation hrun := (hrun zero maxAge errAge).
Implicit Types (h : hist T E F) (p : pc T E F) (s : shared T E F) (l : list (nat * item T E F)) (ks : gset nat).

Definition knows l ks (P : item T E F -> Prop) : Prop := exists n u i, l !! n = Some (u, i) /\ n ∈ ks /\ P i.
Lemma knows_mono l l' ks ks' P : ks ⊆ ks' -> knows l ks P -> knows (l ++ l') ks' P.
Proof.
  intros Hs (n & u & i & H1 & H2 & H3). exists n, u, i. split; [by apply lookup_app_l_Some|]. split; [by apply Hs|done].
Qed.

Definition vok l ks (v : T) : Prop := v = zero \/ knows l ks (made zero v).
Definition eok l ks (e : option E) : Prop := match e with Some e => knows l ks (failed e) | None => True end.
Definition fok l ks (f : option F) : Prop := match f with Some g => f0 = Some g \/ knows l ks (gave g) | None => True end.
Definition kok l ks (f : option F) : Prop := match f with Some g => knows l ks (gave_clear g) | None => True end.
Definition rok l ks (r : result T E) : Prop :=
  match r with
  | RGet v None => vok l ks v
  | RGet _ (Some e) => knows l ks (failed e)
  | RRaw v e => vok l ks v /\ eok l ks e
  | _ => True
  end.
Definition pok l ks p : Prop :=
  match p with
  | G_last f | G_fresh f _ | G_err0 f | G_err1 f _ | G_lock f | L_last f | L_now f | L_fresh f _ | L_err0 f | L_err1 f _
  | R_lock f | C_old f => fok l ks f
  | C_run f old => fok l ks (Some f) /\ vok l ks old
  | D_data r v => rok l ks r /\ vok l ks v
  | D_now r | D_last r _ | D_lasterr0 r | D_enow r | D_lasterr r _ | D_last0 r | U_unlock r | X_ret r => rok l ks r
  | D_err r e => rok l ks r /\ knows l ks (failed e)
  | K_old f => kok l ks (Some f)
  | K_last (Some (f, old)) | K_run f old => kok l ks (Some f) /\ vok l ks old
  | W_err2 v => vok l ks v
  | X_setref f => fok l ks f
  | X_setclr f => kok l ks f
  | _ => True
  end.
Lemma vok_mono l l' ks ks' v : ks ⊆ ks' -> vok l ks v -> vok (l ++ l') ks' v.
Proof. intros Hs [?|Hk]; [by left|right]. by eapply knows_mono. Qed.
Lemma eok_mono l l' ks ks' e : ks ⊆ ks' -> eok l ks e -> eok (l ++ l') ks' e.
Proof. intros Hs. destruct e; [|done]. by apply knows_mono. Qed.
Lemma fok_mono l l' ks ks' f : ks ⊆ ks' -> fok l ks f -> fok (l ++ l') ks' f.
Proof. intros Hs. destruct f; [|done]. intros [?|Hk]; [by left|right]. by eapply knows_mono. Qed.
Lemma kok_mono l l' ks ks' f : ks ⊆ ks' -> kok l ks f -> kok (l ++ l') ks' f.
Proof. intros Hs. destruct f; [|done]. by apply knows_mono. Qed.
Lemma rok_mono l l' ks ks' r : ks ⊆ ks' -> rok l ks r -> rok (l ++ l') ks' r.
Proof.
  intros Hs. destruct r as [v [e|]|v e| | | |]; cbn; try done.
  - by apply knows_mono.
  - by apply vok_mono.
  - intros [H1 H2]. split; [by eapply vok_mono|by eapply eok_mono].
Qed.
Lemma pok_mono l l' ks ks' p : ks ⊆ ks' -> pok l ks p -> pok (l ++ l') ks' p.
Proof.
  intros Hs. destruct p; cbn [pok]; try done;
    try (first [apply fok_mono|apply rok_mono|apply kok_mono|apply vok_mono]; exact Hs).
  all: try (intros [H1 H2]; split; first [exact (fok_mono _ _ _ _ _ Hs H1)|exact (kok_mono _ _ _ _ _ Hs H1)|exact (rok_mono _ _ _ _ _ Hs H1)
     |exact (vok_mono _ _ _ _ _ Hs H2)|exact (knows_mono _ _ _ _ _ Hs H2)]).
  destruct k as [[f old]|]; [|done]. intros [H1 H2]. split; [exact (kok_mono _ _ _ _ _ Hs H1)|exact (vok_mono _ _ _ _ _ Hs H2)].
Qed.

(** The fields. *)
Definition sok l (k : fld -> gset nat) s : Prop :=
  vok l (k FData) (s_data s) /\ eok l (k FErr) (s_err s) /\
  match s_ref s with Some f => fok l (k FRef) f | None => True end /\
  match s_clr s with Some f => kok l (k FClr) f | None => True end.

Definition inv h : Prop :=
  sok (h_items h) (h_fld h) (c_sh (h_cf h)) /\
  forall t p, c_thr (h_cf h) t = Some p -> pok (h_items h) (h_thr h t) p.

Definition learn ks (k : fld -> gset nat) l p lab : gset nat :=
  ks ∪ match observes p with Some f => k f | None => ∅ end ∪ match ends p lab with [] => ∅ | _ => {[length l]} end.

Lemma step_inv t p s lab o s' ev l ks (k : fld -> gset nat) :
  step t p s lab = Some (o, s', ev) -> sok l k s -> pok l ks p ->
  let l' := l ++ (pair t <$> ends p lab) in let ks' := learn ks k l p lab in
  sok l' (match writes p with Some f => <[f := ks']> k | None => k end) s' /\
  (match o with Some p' => pok l' ks' p' | None => True end) /\
  (forall e, e ∈ ev -> match e with
    | EReturn u r => u = t /\ rok l' ks' r
    | EStart u f old => u = t /\ fok l' ks' (Some f) /\ vok l' ks' old
    | EKStart u f old => u = t /\ kok l' ks' (Some f) /\ vok l' ks' old
    | _ => True end).
Proof.
  intros Hs Hsok Hp l' ks'.
  assert (Hsok' : sok l' k s).
  { destruct Hsok as (H1 & H2 & H3 & H4). split_and!; [by eapply vok_mono|by eapply eok_mono| |].
    - destruct (s_ref s); [by eapply fok_mono|done].
    - destruct (s_clr s); [by eapply kok_mono|done]. }
  assert (Hks : ks ⊆ ks') by (unfold ks', learn; set_solver).
  assert (Hp' : pok l' ks' p) by (by eapply pok_mono).
  assert (Hobs : forall f, observes p = Some f -> k f ⊆ ks') by (intros f Hf; unfold ks', learn; rewrite Hf; set_solver).
  assert (Hv : observes p = Some FData -> vok l' ks' (s_data s)).
  { intros Hf. destruct Hsok as (H1 & _). eapply vok_mono; [|exact H1]. by apply Hobs. }
  assert (He : observes p = Some FErr -> eok l' ks' (s_err s)).
  { intros Hf. destruct Hsok as (_ & H1 & _). eapply eok_mono; [|exact H1]. by apply Hobs. }
  assert (Hf : observes p = Some FRef -> match s_ref s with Some f => fok l' ks' f | None => True end).
  { intros Hf. destruct Hsok as (_ & _ & H1 & _). destruct (s_ref s); [|done]. eapply fok_mono; [|exact H1]. by apply Hobs. }
  assert (Hk : observes p = Some FClr -> match s_clr s with Some f => kok l' ks' f | None => True end).
  { intros Hk. destruct Hsok as (_ & _ & _ & H1). destruct (s_clr s); [|done]. eapply kok_mono; [|exact H1]. by apply Hobs. }
  assert (Hend : forall o, ends p lab = [IEnd o] -> knows l' ks' (eq (IEnd o))).
  { intros o' Ho. exists (length l), t, (IEnd o'). split; [|split; [|done]].
    - unfold l'. rewrite Ho, lookup_app_r by done. by rewrite Nat.sub_diag.
    - unfold ks', learn. rewrite Ho. set_solver. }
  assert (Hnil : forall e : event T E F, e ∈ [] -> False) by (intros e Hn; by apply elem_of_nil in Hn).
  clearbody l' ks'. clear Hsok Hp Hobs Hks.
  assert (Hs0 : forall k' : fld -> gset nat, (forall f, k' f = k f) -> sok l' k' s).
  { intros k' Hk'. unfold sok. rewrite !Hk'. exact Hsok'. }
  assert (Hsilent : forall p', Some (Some p', s, []) = Some (o, s', ev) -> writes p = None -> pok l' ks' p' ->
    sok l' (match writes p with Some f => <[f := ks']> k | None => k end) s' /\
    (match o with Some p' => pok l' ks' p' | None => True end) /\
    (forall e, e ∈ ev -> match e with
      | EReturn u r => u = t /\ rok l' ks' r
      | EStart u f old => u = t /\ fok l' ks' (Some f) /\ vok l' ks' old
      | EKStart u f old => u = t /\ kok l' ks' (Some f) /\ vok l' ks' old
      | _ => True end)).
  { intros p' Heq -> Hp2. injection Heq as <- <- <-. split; [done|]. split; [done|]. intros e [] %Hnil. }
  assert (Hnow : forall p' n, Some (Some p', s, [ENow t n]) = Some (o, s', ev) -> writes p = None -> pok l' ks' p' ->
    sok l' (match writes p with Some f => <[f := ks']> k | None => k end) s' /\
    (match o with Some p' => pok l' ks' p' | None => True end) /\
    (forall e, e ∈ ev -> match e with
      | EReturn u r => u = t /\ rok l' ks' r
      | EStart u f old => u = t /\ fok l' ks' (Some f) /\ vok l' ks' old
      | EKStart u f old => u = t /\ kok l' ks' (Some f) /\ vok l' ks' old
      | _ => True end)).
  { intros p' n Heq -> Hp2. injection Heq as <- <- <-. split; [done|]. split; [done|]. intros e ->%elem_of_list_singleton. done. }
  destruct p, lab; cbn [RefreshCacheModel.step] in Hs; try discriminate Hs;
    repeat (match type of Hs with (if ?b then _ else _) = _ => destruct b end); try discriminate Hs;
    try (by eapply Hnow; [exact Hs|done|]); try (by eapply Hsilent; [exact Hs|done|]).
  all: try specialize (Hv eq_refl); try specialize (He eq_refl); try specialize (Hf eq_refl); try specialize (Hk eq_refl).
  all: cbn [writes accesses a_write a_fld] in *.
  all: cbn [a_write a_fld wr rd prd] in *.
  - eapply Hsilent; [exact Hs|done|]. exact Hv.
  - eapply Hsilent; [exact Hs|done|]. cbn. destruct (s_err s); [exact He|by left].
  - injection Hs as <- <- <-. split; [exact Hsok'|]. split; [done|]. by intros e ->%elem_of_list_singleton.
  - eapply Hsilent; [exact Hs|done|]. exact Hv.
  - eapply Hsilent; [exact Hs|done|]. cbn. destruct (s_err s); [exact He|by left].
  - injection Hs as <- <- <-. split; [exact Hsok'|]. split; [done|]. by intros e ->%elem_of_list_singleton.
  - (* C_old *) destruct f as [f|].
    + injection Hs as <- <- <-. split; [exact Hsok'|]. split; [split; [exact Hp'|exact Hv]|].
      intros e ->%elem_of_list_singleton. split; [done|]. split; [exact Hp'|exact Hv].
    + injection Hs as <- <- <-. split; [exact Hsok'|]. split; [split; [done|by left]|]. by intros e ->%elem_of_list_singleton.
  - (* C_run *) injection Hs as <- <- <-. split; [exact Hsok'|]. split; [|by intros e ->%elem_of_list_singleton].
    destruct (Hend o0 eq_refl) as (n & u & i & H1 & H2 & <-).
    destruct o0 as [v|v e|]; cbn [after pok rok].
    + assert (vok l' ks' v) by (right; exists n, u, (IEnd (OOk v)); split_and!; [done|done|by left]). done.
    + assert (knows l' ks' (failed e)) by (exists n, u, (IEnd (OErr v e)); split_and!; [done|done|by exists v]). done.
    + split; [done|by left].
  - (* D_data *) injection Hs as <- <- <-. destruct Hp' as [Hp1 Hp2]. destruct Hsok' as (H1 & H2 & H3 & H4).
    split; [|split; [done|by intros e []%Hnil]].
    unfold sok. rewrite fn_lookup_insert, !fn_lookup_insert_ne by done. done.
  - (* D_last *) injection Hs as <- <- <-.
    split; [|split; [done|by intros e ->%elem_of_list_singleton]].
    unfold sok. rewrite !fn_lookup_insert_ne by done. exact Hsok'.
  - injection Hs as <- <- <-.
    split; [|split; [done|by intros e []%Hnil]].
    unfold sok. rewrite !fn_lookup_insert_ne by done. exact Hsok'.
  - (* D_err *) injection Hs as <- <- <-. destruct Hp' as [Hp1 Hp2]. destruct Hsok' as (H1 & H2 & H3 & H4).
    split; [|split; [done|by intros e' []%Hnil]].
    unfold sok. rewrite fn_lookup_insert, !fn_lookup_insert_ne by done. done.
  - injection Hs as <- <- <-.
    split; [|split; [done|by intros e ->%elem_of_list_singleton]].
    unfold sok. rewrite !fn_lookup_insert_ne by done. exact Hsok'.
  - injection Hs as <- <- <-.
    split; [|split; [done|by intros e []%Hnil]].
    unfold sok. rewrite !fn_lookup_insert_ne by done. exact Hsok'.
  - (* U_unlock *) injection Hs as <- <- <-. split; [exact Hsok'|]. split; [done|]. by intros e ->%elem_of_list_singleton.
  - (* K_old *) eapply Hsilent; [exact Hs|done|]. split; [exact Hp'|exact Hv].
  - (* K_last *) destruct k0 as [[f old]|]; injection Hs as <- <- <-.
    + split; [unfold sok; rewrite !fn_lookup_insert_ne by done; exact Hsok'|]. split; [exact Hp'|].
      intros e [->|Hin]%elem_of_cons; [done|]. apply elem_of_list_singleton in Hin as ->.
      split; [done|]. destruct Hp' as [H1 H2]. split; [exact H1|exact H2].
    + split; [unfold sok; rewrite !fn_lookup_insert_ne by done; exact Hsok'|]. split; [done|].
      by intros e ->%elem_of_list_singleton.
  - by destruct k0 as [[]|].
  - by destruct k0 as [[]|].
  - by destruct k0 as [[]|].
  - (* K_run *) destruct o0; (eapply Hsilent; [exact Hs|done|]); done.
  - (* W_data *) eapply Hsilent; [exact Hs|done|]. split; [exact Hv|done].
  - eapply Hsilent; [exact Hs|done|]. split; [by left|exact He].
  - eapply Hsilent; [exact Hs|done|]. exact Hv.
  - eapply Hsilent; [exact Hs|done|]. split; [exact Hp'|exact He].
  - destruct (s_ref s); (eapply Hsilent; [exact Hs|done|]); [exact Hf|done].
  - destruct (s_ref s); (eapply Hsilent; [exact Hs|done|]); [exact Hf|done].
  - destruct (s_clr s) as [[f|]|]; (eapply Hsilent; [exact Hs|done|]); [exact Hk|done|done].
  - injection Hs as <- <- <-. destruct Hsok' as (H1 & H2 & H3 & H4). split; [|split; [done|by intros e []%Hnil]].
    unfold sok. rewrite fn_lookup_insert, !fn_lookup_insert_ne by done. done.
  - injection Hs as <- <- <-. destruct Hsok' as (H1 & H2 & H3 & H4). split; [|split; [done|by intros e []%Hnil]].
    unfold sok. rewrite fn_lookup_insert, !fn_lookup_insert_ne by done. done.
  - injection Hs as <- <- <-. split; [exact Hsok'|]. split; [done|]. intros e ->%elem_of_list_singleton. split; [done|exact Hp'].
Qed.

Lemma hact_inv h a h' ev : inv h -> hact h a = Some (h', ev) -> inv h'.
Proof.
  intros [Hs Ht] Ha. unfold RefreshCacheHbSpec.hact in Ha. destruct (act (h_cf h) a) as [[cf ev1]|] eqn:Ea; [|done].
  destruct a as [t c|t lab].
  - injection Ha as <- <-. cbn [RefreshCacheModel.act] in Ea. destruct (c_thr (h_cf h) t) eqn:Et; [done|]. injection Ea as <- <-.
    split; cbn [h_cf h_items h_thr h_fld c_sh c_thr].
    + destruct Hs as (H1 & H2 & H3 & H4). split_and!; [by eapply vok_mono|by eapply eok_mono| |].
      * destruct (s_ref _); [by eapply fok_mono|done].
      * destruct (s_clr _); [by eapply kok_mono|done].
    + intros u p. destruct (decide (u = t)) as [->|Hn].
      * rewrite !fn_lookup_insert. intros [= <-].
        assert (Hk : forall P : item T E F -> Prop, P (ICall c) -> knows (h_items h ++ [(t, ICall c)]) ({[length (h_items h)]} ∪ h_thr h t) P).
        { intros P HP. exists (length (h_items h)), t, (ICall c). split; [|split; [set_solver|done]].
          rewrite lookup_app_r by done. by rewrite Nat.sub_diag. }
        destruct c as [f|f|f| | | | | | |f|f]; cbn [enter pok]; try done; destruct f as [f|]; try done; cbn [pok fok kok].
        -- right. apply Hk. unfold gave. auto.
        -- right. apply Hk. unfold gave. auto.
        -- apply Hk. unfold gave_clear. auto.
        -- right. apply Hk. unfold gave. auto.
        -- apply Hk. unfold gave_clear. auto.
      * rewrite !fn_lookup_insert_ne by done. intros Hu. eapply pok_mono; [done|by apply Ht].
  - destruct (c_thr (h_cf h) t) as [p|] eqn:Et; [|done]. injection Ha as <- <-. cbn [RefreshCacheModel.act] in Ea. rewrite Et in Ea.
    destruct (step t p (c_sh (h_cf h)) lab) as [[[o s'] ev2]|] eqn:Es; [|done]. injection Ea as <- <-.
    destruct (step_inv _ _ _ _ _ _ _ _ _ _ Es Hs (Ht _ _ Et)) as (H1 & H2 & _).
    split; cbn [h_cf h_items h_thr h_fld c_sh c_thr]; [exact H1|].
    intros u q. destruct (decide (u = t)) as [->|Hn].
    + rewrite !fn_lookup_insert. intros ->. exact H2.
    + rewrite !fn_lookup_insert_ne by done. intros Hu. eapply pok_mono; [done|by apply Ht].
Qed.
Lemma hact_shows h t lab h' ev : inv h -> hact h (AStep t lab) = Some (h', ev) ->
  forall e, e ∈ ev -> match e with
    | EReturn u r => u = t /\ rok (h_items h') (h_thr h' t) r
    | EStart u f old => u = t /\ fok (h_items h') (h_thr h' t) (Some f) /\ vok (h_items h') (h_thr h' t) old
    | EKStart u f old => u = t /\ kok (h_items h') (h_thr h' t) (Some f) /\ vok (h_items h') (h_thr h' t) old
    | _ => True end.
Proof.
  intros [Hs Ht] Ha. unfold RefreshCacheHbSpec.hact in Ha. cbn [RefreshCacheModel.act] in Ha.
  destruct (c_thr (h_cf h) t) as [p|] eqn:Et; [|done].
  destruct (step t p (c_sh (h_cf h)) lab) as [[[o s'] ev2]|] eqn:Es; [|done]. injection Ha as <- <-.
  destruct (step_inv _ _ _ _ _ _ _ _ _ _ Es Hs (Ht _ _ Et)) as (_ & _ & H3).
  cbn [h_items h_thr]. rewrite fn_lookup_insert. exact H3.
Qed.

Lemma new_inv : inv (new_hist zero f0).
Proof.
  split; [|done]. split; [by left|]. split; [done|]. split; [|done]. cbn [new_hist h_cf new_config c_sh new_shared s_ref].
  unfold fok. case_match; [by left|done].
Qed.
Lemma hrun_inv acts h h' tr : inv h -> hrun h acts = Some (h', tr) -> inv h'.
Proof.
  revert h tr. induction acts as [|a acts IH]; intros h tr Hi; cbn [RefreshCacheHbSpec.hrun].
  { by intros [= <- <-]. }
  destruct (hact h a) as [[h1 ev]|] eqn:Ea; [|done].
  destruct (hrun h1 acts) as [[h2 evs]|] eqn:Er; [|done]. intros [= <- <-].
  eapply IH; [|exact Er]. by eapply hact_inv.
Qed.
Lemma hrun_total acts h cf' tr : run zero maxAge errAge (h_cf h) acts = Some (cf', tr) ->
  exists h', hrun h acts = Some (h', tr) /\ h_cf h' = cf'.
Proof.
  revert h tr. induction acts as [|a acts IH]; intros h tr; cbn [RefreshCacheHbSpec.hrun run].
  { intros [= <- <-]. eauto. }
  destruct (act (h_cf h) a) as [[cf1 ev]|] eqn:Ea; [|done].
  destruct (run _ _ _ cf1 acts) as [[cf2 evs]|] eqn:Er; [|done]. intros [= <- <-].
  assert (exists h1, hact h a = Some (h1, ev) /\ h_cf h1 = cf1) as (h1 & Hh & <-).
  { unfold RefreshCacheHbSpec.hact. rewrite Ea. destruct a as [t c|t lab]; [by eauto|].
    cbn [RefreshCacheModel.act] in Ea. destruct (c_thr (h_cf h) t); [by eauto|done]. }
  destruct (IH _ _ Er) as (h' & Hh' & Hcf). rewrite Hh, Hh'. eauto.
Qed.
End hb.
