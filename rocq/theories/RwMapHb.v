(** Proofs about what happens before what in rwmap. *)
From Coq Require Import ZifyBool ZifyNat.
From Verif Require Import Base RwMapModel RwMapHbSpec.

Section hb.
Context {K : Type} `{Countable K} {V : Type}.
Context (deref : nat -> V) (zero : V) (veq : V -> V -> option bool).
Local Notation act := (act deref zero veq).
Local Notation hact := (hact deref zero veq).
Local Notation hrun := (hrun deref zero veq).
Local Notation step := (step deref zero veq).
Implicit Types (cf : config K V) (s : shared K) (c : call K V) (p : pc K V) (calls : list (nat * call K V)).

Definition knows calls (ks : gset nat) (k : K) (v : V) : Prop :=
  exists n u c q, calls !! n = Some (u, c) /\ call_key c = Some k /\ call_ptr c = Some q /\ deref q = v /\ n ∈ ks.

Definition mok (kof : nat -> K) (next : nat) (m : gmap K nat) : Prop :=
  forall k e, m !! k = Some e -> kof e = k /\ e < next.
Definition eok (kof : nat -> K) (next : nat) c (e : nat) : Prop := call_key c = Some (kof e) /\ e < next.

(** What the goroutine knows about its result. *)
Definition rok calls ks c (r : result V) : Prop :=
  match r with
  | RVal (Some v) | RLos v true => exists k, call_key c = Some k /\ knows calls ks k v
  | RBool true =>
      match c with
      | CCas k old _ | CCad k old => exists v, veq v old = Some true /\ knows calls ks k v
      | _ => True
      end
  | _ => True
  end.

Definition pok (kof : nat -> K) (next : nat) calls (ks : gset nat) c p : Prop :=
  match p with
  | P_unexp e | P_swap e | P_une (Some e) | E_load e _ => eok kof next c e
  | E_cas e x _ =>
      eok kof next c e /\
      match c with CCas _ old _ | CCad _ old => exists q, x = SPtr q /\ veq (deref q) old = Some true | _ => True end
  | P_dl todo | P_unr todo | R_next todo _ => mok kof next todo
  | P_dlx k e todo | P_dlc k e todo | R_load k e todo _ => kof e = k /\ e < next /\ mok kof next todo
  | R_call k v todo _ => knows calls ks k v /\ mok kof next todo
  | P_miss r | P_un r | P_len r _ | X_ret r => rok calls ks c r
  | _ => True
  end.

Definition inv (h : hist K V) : Prop :=
  exists kof : nat -> K,
    let s := c_sh (h_cf h) in
    mok kof (s_next s) (s_rd s) /\ mok kof (s_next s) (dirty_map s) /\
    (forall e q, e < s_next s -> s_ent s e = SPtr q -> exists n u c, h_calls h !! n = Some (u, c) /\
       call_key c = Some (kof e) /\ call_ptr c = Some q /\ n ∈ h_ent h e) /\
    (forall t c p, c_thr (h_cf h) !! t = Some (c, p) ->
       (exists n, h_calls h !! n = Some (t, c) /\ n ∈ h_thr h t) /\ pok kof (s_next s) (h_calls h) (h_thr h t) c p).

Lemma knows_mono calls l ks ks' k v : ks ⊆ ks' -> knows calls ks k v -> knows (calls ++ l) ks' k v.
Proof.
  intros Hk (n & u & c & q & H1 & H2 & H3 & H4 & H5). exists n, u, c, q.
  split; [by apply lookup_app_l_Some|]. split_and!; try done. by apply Hk.
Qed.
Lemma mok_mono kof kof' next next' m :
  next <= next' -> (forall e, e < next -> kof' e = kof e) -> mok kof next m -> mok kof' next' m.
Proof. intros Hn Hk Hm k e He. destruct (Hm k e He) as [<- Hl]. split; [by apply Hk|lia]. Qed.
Lemma mok_delete kof next m k : mok kof next m -> mok kof next (delete k m).
Proof. intros Hm k' e He. apply lookup_delete_Some in He as [_ He]. by apply Hm. Qed.
Lemma mok_insert kof next m k e : mok kof next m -> kof e = k -> e < next -> mok kof next (<[k := e]> m).
Proof.
  intros Hm Hk Hl k' e' He. apply lookup_insert_Some in He as [[<- <-]|[_ He]]; [done|by apply Hm].
Qed.
Lemma mok_empty kof next : mok kof next ∅.
Proof. intros k e He. by rewrite lookup_empty in He. Qed.
Lemma rok_mono calls l ks ks' c r : ks ⊆ ks' -> rok calls ks c r -> rok (calls ++ l) ks' c r.
Proof.
  intros Hk Hr. destruct r as [[v|]|v []|[]| | |]; cbn in *; try done.
  - destruct Hr as (k & H1 & H2). exists k. split; [done|]. by eapply knows_mono.
  - destruct Hr as (k & H1 & H2). exists k. split; [done|]. by eapply knows_mono.
  - destruct c; try done.
    + destruct Hr as (v & H1 & H2). exists v. split; [done|]. by eapply knows_mono.
    + destruct Hr as (v & H1 & H2). exists v. split; [done|]. by eapply knows_mono.
Qed.
Lemma pok_mono kof kof' next next' calls l ks ks' c p :
  next <= next' -> (forall e, e < next -> kof' e = kof e) -> ks ⊆ ks' ->
  pok kof next calls ks c p -> pok kof' next' (calls ++ l) ks' c p.
Proof.
  intros Hn Hf Hk Hp.
  assert (Hm : forall m, mok kof next m -> mok kof' next' m) by (intros m; by apply mok_mono).
  assert (He : forall e, eok kof next c e -> eok kof' next' c e).
  { intros e [H1 H2]. split; [by rewrite Hf|lia]. }
  assert (Hr : forall r, rok calls ks c r -> rok (calls ++ l) ks' c r) by (intros r; by apply rok_mono).
  destruct p; cbn in *; auto.
  - destruct Hp as (H1 & H2 & H3). split_and!; [by rewrite Hf|lia|auto].
  - destruct Hp as (H1 & H2 & H3). split_and!; [by rewrite Hf|lia|auto].
  - destruct o; auto.
  - destruct Hp. split; auto.
  - destruct Hp as (H1 & H2 & H3). split_and!; [by rewrite Hf|lia|auto].
  - destruct Hp. split; [by eapply knows_mono|auto].
Qed.

Lemma rok_finish kof next calls ks c r : rok calls ks c r -> pok kof next calls ks c (finish c r).
Proof. intros Hr. unfold finish. by case_decide. Qed.
Lemma rok_after kof next calls ks c m r : rok calls ks c r -> pok kof next calls ks c (after c m r).
Proof. intros Hr. destruct m; [by apply rok_finish|done|done]. Qed.

Lemma missLocked_fields s :
  s_next (missLocked s) = s_next s /\ s_ent (missLocked s) = s_ent s /\
  (s_rd (missLocked s) = s_rd s /\ dirty_map (missLocked s) = dirty_map s \/
   s_rd (missLocked s) = dirty_map s /\ dirty_map (missLocked s) = ∅).
Proof. unfold missLocked, promote. case_decide; cbn; auto. Qed.

(** What a step does to the maps and entries, given what the goroutine knew.  [ks]: what it knows after
    reading the pointer it reads. *)
Definition entries_ok (kof : nat -> K) (next : nat) calls (ent : nat -> slot) (hent : nat -> gset nat) : Prop :=
  forall e q, e < next -> ent e = SPtr q -> exists n u c, calls !! n = Some (u, c) /\
    call_key c = Some (kof e) /\ call_ptr c = Some q /\ n ∈ hent e.

Lemma step_inv kof t c p s lab o s' ev calls (hent : nat -> gset nat) ks0 ks :
  step t c p s lab = Some (o, s', ev) ->
  ks = ks0 ∪ match observes p with Some e => hent e | None => ∅ end ->
  mok kof (s_next s) (s_rd s) -> mok kof (s_next s) (dirty_map s) -> entries_ok kof (s_next s) calls (s_ent s) hent ->
  (exists n, calls !! n = Some (t, c) /\ n ∈ ks0) -> pok kof (s_next s) calls ks0 c p ->
  exists kof', s_next s <= s_next s' /\ (forall e, e < s_next s -> kof' e = kof e) /\
    mok kof' (s_next s') (s_rd s') /\ mok kof' (s_next s') (dirty_map s') /\
    entries_ok kof' (s_next s') calls (s_ent s') (match writes p s with Some e => <[e := ks]> hent | None => hent end) /\
    match o with Some p' => pok kof' (s_next s') calls ks c p' | None => True end.
Proof.
  intros Hs Hks Hr Hd He Hown Hp.
  assert (Hsub : ks0 ⊆ ks) by (rewrite Hks; set_solver).
  assert (Hval : forall e q, observes p = Some e -> e < s_next s -> s_ent s e = SPtr q -> knows calls ks (kof e) (deref q)).
  { intros e q Ho Hl Hq. destruct (He e q Hl Hq) as (n & u & c' & H1 & H2 & H3 & H4). exists n, u, c', q.
    split_and!; try done. rewrite Hks, Ho. set_solver. }
  assert (Hrok : forall r, rok calls ks0 c r -> rok calls ks c r).
  { intros r Hrr. rewrite <- (app_nil_r calls). by eapply rok_mono. }
  (* a step that leaves the maps and entries alone *)
  assert (Hsame : forall p', o = Some p' -> s_next s' = s_next s -> s_ent s' = s_ent s -> s_rd s' = s_rd s ->
    dirty_map s' = dirty_map s -> writes p s = None -> pok kof (s_next s) calls ks c p' ->
    exists kof', s_next s <= s_next s' /\ (forall e, e < s_next s -> kof' e = kof e) /\
    mok kof' (s_next s') (s_rd s') /\ mok kof' (s_next s') (dirty_map s') /\
    entries_ok kof' (s_next s') calls (s_ent s') (match writes p s with Some e => <[e := ks]> hent | None => hent end) /\
    match o with Some p' => pok kof' (s_next s') calls ks c p' | None => True end).
  { intros p' -> H1 H2 H3 H4 H5 H6. exists kof. rewrite H1, H2, H3, H4, H5. split_and!; done. }
  (* writing a pointer *)
  assert (Hwr : forall e x, match x with SPtr q => call_ptr c = Some q /\ call_key c = Some (kof e) | _ => True end ->
    entries_ok kof (s_next s) calls (<[e := x]> (s_ent s)) (<[e := ks]> hent)).
  { intros e x Hx e' q Hl Hq. destruct (decide (e' = e)) as [->|Hne].
    - rewrite fn_lookup_insert in Hq. rewrite fn_lookup_insert. subst x. destruct Hx as [Hx1 Hx2]. destruct Hown as (n & Hn1 & Hn2).
      exists n, t, c. split_and!; try done. by apply Hsub.
    - rewrite fn_lookup_insert_ne in Hq by done. rewrite fn_lookup_insert_ne by done. by apply He. }
  destruct p, lab; cbn [RwMapModel.step] in Hs; try done.
  - (* P_read *) unfold step_read, goto in Hs.
    destruct c; repeat case_match; try done; injection Hs as <- <- <-; (eapply Hsame; [reflexivity|done|done|done|done|done|]); cbn; try done;
      match goal with Hk : s_rd s !! _ = Some _ |- _ => destruct (Hr _ _ Hk) as [<- ?]; done end.
  - (* P_lock *) unfold goto in Hs. destruct (s_lock s); [done|]. injection Hs as <- <- <-. by eapply Hsame.
  - (* P_read2 *) unfold step_read2, goto in Hs.
    destruct c; repeat case_match; try done; injection Hs as <- <- <-; (eapply Hsame; [reflexivity|done|done|done|done|done|]); cbn; try done;
      match goal with Hk : s_rd s !! _ = Some _ |- _ => destruct (Hr _ _ Hk) as [<- ?]; done end.
  - (* P_dirty *) unfold step_dirty in Hs.
    assert (Hmiss : forall s1 p', s_next s1 = s_next s -> s_ent s1 = s_ent s -> mok kof (s_next s) (s_rd s1) ->
      mok kof (s_next s) (dirty_map s1) -> o = Some p' -> s' = missLocked s1 -> pok kof (s_next s) calls ks c p' ->
      exists kof', s_next s <= s_next s' /\ (forall e, e < s_next s -> kof' e = kof e) /\
      mok kof' (s_next s') (s_rd s') /\ mok kof' (s_next s') (dirty_map s') /\
      entries_ok kof' (s_next s') calls (s_ent s') hent /\
      match o with Some p' => pok kof' (s_next s') calls ks c p' | None => True end).
    { intros s1 p' H1 H2 H3 H4 -> -> H5. exists kof. destruct (missLocked_fields s1) as (Hn & Hen & Hm).
      rewrite Hn, Hen, H1, H2. destruct Hm as [[Hm1 Hm2]|[Hm1 Hm2]]; rewrite Hm1, Hm2; split_and!; try done; apply mok_empty. }
    assert (Hadd : add_key s = Some (o, s', ev) ->
      exists kof', s_next s <= s_next s' /\ (forall e, e < s_next s -> kof' e = kof e) /\
      mok kof' (s_next s') (s_rd s') /\ mok kof' (s_next s') (dirty_map s') /\
      entries_ok kof' (s_next s') calls (s_ent s') hent /\
      match o with Some p' => pok kof' (s_next s') calls ks c p' | None => True end).
    { unfold add_key, goto. intros Ha. destruct (s_am s); [injection Ha as <- <- <-; by eapply Hsame|].
      destruct (s_dirty s) eqn:Ed; injection Ha as <- <- <-; [by eapply Hsame|].
      exists kof. cbn. split_and!; try done; apply mok_empty. }
    assert (Hdm : forall k c0, call_key c0 = Some k -> pok kof (s_next s) calls ks c0 (P_une (dirty_map s !! k))).
    { intros k c0 Hk. cbn. destruct (dirty_map s !! k) as [e|] eqn:Ek; [|done]. destruct (Hd _ _ Ek) as [<- ?]. done. }
    assert (Hdel : forall k, mok kof (s_next s) (dirty_map (set_dirty (delete k <$> s_dirty s) s))).
    { intros k k' e'. unfold dirty_map in Hd |- *. cbn. destruct (s_dirty s) as [d|]; cbn; [|done]. apply mok_delete, Hd. }
    destruct c as [k|k q|k q|k q|k|k|k old q|k old| | | |]; try done; unfold goto in Hs.
    + injection Hs as <- <- <-. eapply (Hmiss s); try done. by apply Hdm.
    + destruct (dirty_map s !! k) as [e|] eqn:Ek; [|by apply Hadd]. injection Hs as <- <- <-. eapply Hsame; try done.
      destruct (Hd _ _ Ek) as [<- ?]. done.
    + destruct (dirty_map s !! k) as [e|] eqn:Ek; [|by apply Hadd]. injection Hs as <- <- <-. eapply Hsame; try done.
      destruct (Hd _ _ Ek) as [<- ?]. done.
    + destruct (dirty_map s !! k) as [e|] eqn:Ek; [|by apply Hadd]. injection Hs as <- <- <-. eapply Hsame; try done.
      destruct (Hd _ _ Ek) as [<- ?]. done.
    + injection Hs as <- <- <-. eapply (Hmiss (set_dirty _ s)); try done. by apply Hdm.
    + injection Hs as <- <- <-. eapply (Hmiss (set_dirty _ s)); try done. by apply Hdm.
    + destruct (dirty_map s !! k) as [e|] eqn:Ek; injection Hs as <- <- <-; [|by eapply Hsame]. eapply Hsame; try done.
      destruct (Hd _ _ Ek) as [<- ?]. done.
    + injection Hs as <- <- <-. eapply (Hmiss s); try done. by apply Hdm.
  - (* P_unexp *) cbn in Hp.
    set (next := match c with CLoadOrStore _ _ => E_load e Lck | _ => P_swap e end) in Hs.
    assert (Hnx : pok kof (s_next s) calls ks c next) by (by subst next; destruct c).
    assert (Hno : s_ent s e <> SExp -> goto next s = Some (o, s', ev) -> exists kof', s_next s <= s_next s' /\
      (forall e, e < s_next s -> kof' e = kof e) /\
      mok kof' (s_next s') (s_rd s') /\ mok kof' (s_next s') (dirty_map s') /\
      entries_ok kof' (s_next s') calls (s_ent s') (match writes (V := V) (P_unexp e) s with Some e => <[e := ks]> hent | None => hent end) /\
      match o with Some p' => pok kof' (s_next s') calls ks c p' | None => True end).
    { intros Hne Hg. injection Hg as <- <- <-. eapply Hsame; try done. cbn. by rewrite decide_False. }
    destruct (s_ent s e) eqn:Ee; [by apply Hno| |by apply Hno]. clear Hno.
    destruct Hp as [Hp1 Hp2]. rewrite Hp1 in Hs. cbn [writes]. rewrite decide_True by done.
    unfold dirty_store, goto in Hs. cbn [s_dirty set_ent] in Hs. exists kof.
    destruct (s_dirty s) as [d|] eqn:Ed; injection Hs as <- <- <-; cbn [s_next s_rd s_ent set_ent set_dirty].
    + split_and!; try done; [|by apply Hwr]. unfold dirty_map in Hd |- *. rewrite Ed in Hd. cbn. by apply mok_insert.
    + split_and!; try done. by apply Hwr.
  - (* P_swap *) cbn in Hp. destruct Hp as [Hp1 Hp2]. unfold goto in Hs. cbn [writes].
    assert (Hgo : forall q x, s_ent s e = x -> call_ptr c = Some q ->
      Some (Some (P_un (RVal (slot_val deref x))), set_ent e (SPtr q) s, []) = Some (o, s', ev) ->
      exists kof', s_next s <= s_next s' /\ (forall e, e < s_next s -> kof' e = kof e) /\
      mok kof' (s_next s') (s_rd s') /\ mok kof' (s_next s') (dirty_map s') /\
      entries_ok kof' (s_next s') calls (s_ent s') (<[e := ks]> hent) /\
      match o with Some p' => pok kof' (s_next s') calls ks c p' | None => True end).
    { intros q x Hx Hq Hg. injection Hg as <- <- <-. exists kof. cbn [s_next s_rd s_ent set_ent].
      split_and!; try done; [by apply Hwr|]. cbn. destruct x as [| |q']; cbn; try done. exists (kof e). split; [done|]. by apply Hval. }
    assert (Hpan : Some (Some (X_ret RPanic), s, @nil (event K V)) = Some (o, s', ev) -> exists kof', s_next s <= s_next s' /\
      (forall e, e < s_next s -> kof' e = kof e) /\
      mok kof' (s_next s') (s_rd s') /\ mok kof' (s_next s') (dirty_map s') /\
      entries_ok kof' (s_next s') calls (s_ent s') (<[e := ks]> hent) /\
      match o with Some p' => pok kof' (s_next s') calls ks c p' | None => True end).
    { intros Hg. injection Hg as <- <- <-. exists kof. split_and!; try done.
      intros e' q' Hl Hq. destruct (He e' q' Hl Hq) as (n & u & c' & G1 & G2 & G3 & G4). exists n, u, c'. split_and!; try done.
      destruct (decide (e' = e)) as [->|Hne]; [|by rewrite fn_lookup_insert_ne].
      rewrite fn_lookup_insert, Hks. cbn. set_solver. }
    destruct (s_ent s e) as [| |q'] eqn:Ee, (call_ptr c) as [q|] eqn:Eq; first [exact (Hpan Hs)|eapply Hgo; [reflexivity|reflexivity|exact Hs]].
  - (* P_dl *) unfold goto in Hs. case_decide; [|done]. injection Hs as <- <- <-. by eapply Hsame.
  - unfold goto in Hs. destruct (todo !! k) as [e|] eqn:Ek; [|done]. injection Hs as <- <- <-. eapply Hsame; try done.
    cbn in Hp |- *. destruct (Hp _ _ Ek). split_and!; try done. by apply mok_delete.
  - (* P_dlx *) cbn in Hp. destruct Hp as (H1 & H2 & H3). unfold dirty_store, goto in Hs.
    destruct (s_ent s e) eqn:Ee; [injection Hs as <- <- <-; by eapply Hsame|injection Hs as <- <- <-; by eapply Hsame|].
    destruct (s_dirty s) as [d|] eqn:Ed; injection Hs as <- <- <-; [|by eapply Hsame].
    exists kof. cbn. split_and!; try done. unfold dirty_map in Hd. rewrite Ed in Hd. by apply mok_insert.
  - (* P_dlc *) cbn in Hp. destruct Hp as (H1 & H2 & H3). unfold goto in Hs. cbn [writes].
    destruct (s_ent s e) eqn:Ee; injection Hs as <- <- <-.
    + rewrite decide_True by done. exists kof. cbn [s_next s_rd s_ent set_ent]. split_and!; try done. by apply Hwr.
    + rewrite decide_False by done. exists kof. by split_and!.
    + rewrite decide_False by done. exists kof. by split_and!.
  - (* P_amend *) injection Hs as <- <- <-. by eapply Hsame.
  - (* P_new *) cbn [writes]. unfold dirty_store, goto in Hs.
    destruct (call_key c) as [k|] eqn:Ek, (call_ptr c) as [q|] eqn:Eq; try done. cbn [s_dirty new_entry] in Hs.
    assert (Hm : forall m, mok kof (s_next s) m -> mok (<[s_next s := k]> kof) (S (s_next s)) m).
    { intros m. apply mok_mono; [lia|]. intros e Hl. apply fn_lookup_insert_ne. lia. }
    assert (Hen : entries_ok (<[s_next s := k]> kof) (S (s_next s)) calls (<[s_next s := SPtr q]> (s_ent s)) (<[s_next s := ks]> hent)).
    { intros e q' Hl Hq. destruct (decide (e = s_next s)) as [->|Hne].
      - rewrite fn_lookup_insert in Hq. rewrite !fn_lookup_insert. injection Hq as <-. destruct Hown as (n & Hn1 & Hn2). exists n, t, c. split_and!; try done. by apply Hsub.
      - rewrite fn_lookup_insert_ne in Hq by done. rewrite !fn_lookup_insert_ne by done. apply He; [lia|done]. }
    exists (<[s_next s := k]> kof).
    destruct (s_dirty s) as [d|] eqn:Ed; injection Hs as <- <- <-; cbn [s_next s_rd s_ent set_dirty new_entry].
    + split_and!; [lia|intros e Hl; apply fn_lookup_insert_ne; lia|by apply Hm| |done|].
      * unfold dirty_map in Hd |- *. rewrite Ed in Hd. cbn. apply mok_insert; [by apply Hm|apply fn_lookup_insert|lia].
      * destruct c; done.
    + split_and!; [lia|intros e Hl; apply fn_lookup_insert_ne; lia|by apply Hm| |done|done].
      unfold dirty_map. cbn. rewrite Ed. apply mok_empty.
  - (* P_miss *) injection Hs as <- <- <-. exists kof. cbn [writes]. destruct (missLocked_fields s) as (Hn & Hen & Hm).
    rewrite Hn, Hen. destruct Hm as [[Hm1 Hm2]|[Hm1 Hm2]]; rewrite Hm1, Hm2; split_and!; try done; try (by apply Hrok); apply mok_empty.
  - (* P_un *) injection Hs as <- <- <-. eapply Hsame; try done. by apply rok_finish, Hrok.
  - (* P_une *) destruct o0 as [e|]; injection Hs as <- <- <-; eapply Hsame; try done. by destruct c.
  - by destruct o0.
  - by destruct o0.
  - (* P_prom *) injection Hs as <- <- <-. exists kof. cbn. split_and!; try done; apply mok_empty.
  - (* P_unr *) injection Hs as <- <- <-. by eapply Hsame.
  - (* P_clr *) injection Hs as <- <- <-. exists kof. cbn. split_and!; try done; apply mok_empty.
  - (* P_clr2 *) injection Hs as <- <- <-. exists kof. cbn. split_and!; try done.
    unfold dirty_map. cbn. destruct (s_dirty s); apply mok_empty.
  - (* E_load *) unfold step_load, goto in Hs. cbn in Hp. destruct Hp as [Hp1 Hp2].
    assert (Haft : forall r, Some (Some (after c m r), s, @nil (event K V)) = Some (o, s', ev) -> rok calls ks c r ->
      exists kof', s_next s <= s_next s' /\ (forall e, e < s_next s -> kof' e = kof e) /\
      mok kof' (s_next s') (s_rd s') /\ mok kof' (s_next s') (dirty_map s') /\
      entries_ok kof' (s_next s') calls (s_ent s') hent /\
      match o with Some p' => pok kof' (s_next s') calls ks c p' | None => True end).
    { intros r Hg Hrr. injection Hg as <- <- <-. eapply Hsame; try done. by apply rok_after. }
    assert (Hv : forall q, s_ent s e = SPtr q -> exists k, call_key c = Some k /\ knows calls ks k (deref q)).
    { intros q Hq. exists (kof e). split; [done|]. by apply Hval. }
    destruct c as [k|k q|k q|k q|k|k|k old q|k old| | | |]; try done.
    + eapply Haft; [exact Hs|]. destruct (s_ent s e) as [| |q'] eqn:Ee; cbn; try done. by apply Hv.
    + destruct (s_ent s e) eqn:Ee; injection Hs as <- <- <-; by eapply Hsame.
    + destruct (s_ent s e) eqn:Ee; injection Hs as <- <- <-; by eapply Hsame.
    + destruct (s_ent s e) as [| |q'] eqn:Ee.
      * injection Hs as <- <- <-. by eapply Hsame.
      * destruct m; [injection Hs as <- <- <-; by eapply Hsame|by eapply Haft|by eapply Haft].
      * eapply Haft; [exact Hs|]. cbn. by apply Hv.
    + destruct (s_ent s e) as [| |q'] eqn:Ee; [by eapply Haft|by eapply Haft|]. injection Hs as <- <- <-. by eapply Hsame.
    + destruct (s_ent s e) as [| |q'] eqn:Ee; [by eapply Haft|by eapply Haft|]. injection Hs as <- <- <-. by eapply Hsame.
    + destruct (s_ent s e) as [| |q'] eqn:Ee; [by eapply Haft|by eapply Haft|].
      destruct (veq (deref q') old) as [[]|] eqn:Ev; [|by eapply Haft|].
      * injection Hs as <- <- <-. eapply Hsame; try done. split; [done|]. by exists q'.
      * injection Hs as <- <- <-. eapply Hsame; try done. by destruct m.
    + destruct (s_ent s e) as [| |q'] eqn:Ee; [by eapply Haft|by eapply Haft|].
      destruct (veq (deref q') old) as [[]|] eqn:Ev; [|by eapply Haft|].
      * injection Hs as <- <- <-. eapply Hsame; try done. split; [done|]. by exists q'.
      * injection Hs as <- <- <-. eapply Hsame; try done. by destruct m.
  - (* E_cas *) cbn in Hp. destruct Hp as [[Hp1 Hp2] Hp3]. unfold goto in Hs. cbn [writes].
    destruct (decide (s_ent s e = x)) as [Hx|Hx]; injection Hs as <- <- <-.
    + exists kof. cbn [s_next s_rd s_ent set_ent]. split_and!; try done.
      * apply Hwr. destruct c; cbn in *; try done.
      * apply rok_after. destruct c as [k|k q|k q|k q|k|k|k old q|k old| | | |]; cbn in Hp1 |- *; try done; try (destruct x as [| |q']; cbn; try done; exists (kof e); split; [done|]; by apply Hval).
        -- destruct Hp3 as (q' & -> & Hq). exists (deref q'). split; [done|]. injection Hp1 as ->. by apply Hval.
        -- destruct Hp3 as (q' & -> & Hq). exists (deref q'). split; [done|]. injection Hp1 as ->. by apply Hval.
    + exists kof. by split_and!.
  - (* P_len *) injection Hs as <- <- <-. eapply Hsame; try done. by apply Hrok.
  - (* R_next *) unfold goto in Hs. case_decide; [|done]. injection Hs as <- <- <-. eapply Hsame; try done. by destruct c.
  - unfold goto in Hs. destruct (todo !! k) as [e|] eqn:Ek; [|done]. injection Hs as <- <- <-. eapply Hsame; try done.
    cbn in Hp |- *. destruct (Hp _ _ Ek). split_and!; try done. by apply mok_delete.
  - (* R_load *) cbn in Hp. destruct Hp as (H1 & H2 & H3). unfold goto in Hs.
    destruct (s_ent s e) as [| |q] eqn:Ee; cbn in Hs; injection Hs as <- <- <-; eapply Hsame; try done.
    split; [|done]. rewrite <- H1. by apply Hval.
  - (* R_call *) cbn in Hp. destruct Hp as [H1 H2]. destruct c, b; try done; injection Hs as <- <- <-; by eapply Hsame.
  - (* P_getlen *) injection Hs as <- <- <-. by eapply Hsame.
  - (* X_ret *) injection Hs as <- <- <-. exists kof. by split_and!.
Qed.

Lemma hact_inv h a h' ev : inv h -> hact h a = Some (h', ev) -> inv h'.
Proof.
  intros (kof & Hr & Hd & He & Ht) Ha. unfold RwMapHbSpec.hact in Ha.
  destruct (act (h_cf h) a) as [[cf' ev']|] eqn:Ea; [|done]. destruct a as [t c|t lab]; cbn [RwMapModel.act] in Ea.
  - injection Ha as <- <-. destruct (c_thr (h_cf h) !! t) eqn:Et; [done|]. injection Ea as <- <-.
    exists kof. cbn [h_cf c_sh c_thr h_calls h_thr h_ent]. split_and!; [done|done| |].
    + intros e q Hl Hq. destruct (He e q Hl Hq) as (n & u & c' & H1 & H2 & H3 & H4). exists n, u, c'.
      split_and!; try done. by apply lookup_app_l_Some.
    + intros u c1 p1 Hu. destruct (decide (u = t)) as [->|Hne].
      * rewrite lookup_insert in Hu. injection Hu as <- <-. rewrite fn_lookup_insert. split; [|by destruct c].
        exists (length (h_calls h)). split; [|set_solver]. rewrite lookup_app_r by lia. by rewrite Nat.sub_diag.
      * rewrite lookup_insert_ne in Hu by done. rewrite fn_lookup_insert_ne by done. destruct (Ht _ _ _ Hu) as [(n & H1 & H2) H3].
        split; [exists n; split; [by apply lookup_app_l_Some|done]|]. by eapply pok_mono.
  - destruct (c_thr (h_cf h) !! t) as [[c p]|] eqn:Et; [|done].
    destruct (step t c p (c_sh (h_cf h)) lab) as [[[o s'] ev1]|] eqn:Es; [|done].
    set (ks := h_thr h t ∪ match observes p with Some e => h_ent h e | None => ∅ end) in Ha.
    assert (c_sh cf' = s' /\ c_thr cf' = match o with Some p' => <[t := (c, p')]> (c_thr (h_cf h)) | None => delete t (c_thr (h_cf h)) end) as [Hs Hth].
    { by destruct o; injection Ea as <- <-. }
    clear Ea. injection Ha as <- <-. destruct (Ht _ _ _ Et) as [Hown Hp].
    destruct (step_inv kof t c p (c_sh (h_cf h)) lab o s' ev1 (h_calls h) (h_ent h) (h_thr h t) ks Es eq_refl Hr Hd He Hown Hp)
      as (kof' & Hn & Hk & Hr' & Hd' & He' & Hp').
    assert (Hsub : h_thr h t ⊆ ks) by (subst ks; set_solver).
    exists kof'. cbn [h_cf h_calls h_thr h_ent]. rewrite Hs. split_and!; [done|done|done|].
    intros u c1 p1 Hu. rewrite Hth in Hu. destruct (decide (u = t)) as [->|Hne].
    + rewrite fn_lookup_insert. destruct o as [p'|]; [|by rewrite lookup_delete in Hu].
      rewrite lookup_insert in Hu. injection Hu as <- <-. split; [|done].
      destruct Hown as (n & H1 & H2). exists n. split; [done|]. by apply Hsub.
    + rewrite fn_lookup_insert_ne by done.
      assert (c_thr (h_cf h) !! u = Some (c1, p1)) as Hu'.
      { destruct o; [by rewrite lookup_insert_ne in Hu|by rewrite lookup_delete_ne in Hu]. }
      destruct (Ht _ _ _ Hu') as [H1 H2]. split; [done|]. rewrite <- (app_nil_r (h_calls h)). by eapply pok_mono.
Qed.

Lemma hrun_inv acts h h' tr : inv h -> hrun h acts = Some (h', tr) -> inv h'.
Proof.
  revert h tr. induction acts as [|a acts IH]; intros h tr Hi; cbn [RwMapHbSpec.hrun].
  { by intros [= <- <-]. }
  destruct (hact h a) as [[h1 ev]|] eqn:Ea; [|done].
  destruct (hrun h1 acts) as [[h2 evs]|] eqn:Er; [|done]. intros [= <- <-].
  eapply IH; [|exact Er]. by eapply hact_inv.
Qed.

Lemma new_inv `{!Inhabited K} : inv new_hist.
Proof.
  exists (fun _ => inhabitant). cbn. by split_and!.
Qed.

(** Every execution has its history. *)
Lemma hrun_total acts h cf' tr : run deref zero veq (h_cf h) acts = Some (cf', tr) ->
  exists h', hrun h acts = Some (h', tr) /\ h_cf h' = cf'.
Proof.
  revert h tr. induction acts as [|a acts IH]; intros h tr; cbn [RwMapModel.run RwMapHbSpec.hrun].
  { intros [= <- <-]. by exists h. }
  destruct (act (h_cf h) a) as [[cf1 ev]|] eqn:Ea; [|done].
  destruct (run deref zero veq cf1 acts) as [[cf2 evs]|] eqn:Er; [|done]. intros [= <- <-].
  assert (exists h1, hact h a = Some (h1, ev) /\ h_cf h1 = cf1) as (h1 & Hh & <-).
  { unfold RwMapHbSpec.hact. rewrite Ea. destruct a as [t c|t lab]; [by eexists|].
    cbn [RwMapModel.act] in Ea. destruct (c_thr (h_cf h) !! t) as [[c p]|]; [by eexists|done]. }
  rewrite Hh. destruct (IH h1 evs Er) as (h2 & Hr & Hc). rewrite Hr. by exists h2.
Qed.

(** What a step shows. *)
Lemma hact_shows h t lab h' ev c p : inv h -> hact h (AStep t lab) = Some (h', ev) ->
  c_thr (h_cf h) !! t = Some (c, p) ->
  (forall u r, ERet u r ∈ ev -> u = t /\ exists r', r = ret_of c r' /\ rok (h_calls h') (h_thr h' t) c r') /\
  (forall u k v b, ECall u k v b ∈ ev -> u = t /\ knows (h_calls h') (h_thr h' t) k v).
Proof.
  intros (kof & Hr & Hd & He & Ht) Ha Hc. destruct (Ht _ _ _ Hc) as [_ Hp]. unfold RwMapHbSpec.hact in Ha.
  cbn [RwMapModel.act] in Ha. rewrite Hc in Ha.
  destruct (step t c p (c_sh (h_cf h)) lab) as [[[o s'] ev1]|] eqn:Es; [|done].
  set (ks := h_thr h t ∪ match observes p with Some e => h_ent h e | None => ∅ end) in Ha.
  assert (h_calls h' = h_calls h /\ h_thr h' t = ks /\ ev1 = ev) as (Hc' & Ht' & ->).
  { destruct o; injection Ha as <- <-; cbn; by rewrite fn_lookup_insert. }
  rewrite Hc', Ht'. clear Ha Hc' Ht' h'.
  assert (Hsub : h_thr h t ⊆ ks) by (subst ks; set_solver).
  assert (Hnil : ev = [] -> (forall u r, ERet u r ∈ ev -> u = t /\ exists r', r = ret_of c r' /\ rok (h_calls h) ks c r') /\
    (forall u k v b, ECall u k v b ∈ ev -> u = t /\ knows (h_calls h) ks k v)).
  { intros ->. split; intros *; intros Hn; by apply elem_of_nil in Hn. }
  destruct (decide (ev = [])) as [|Hne]; [by apply Hnil|]. clear Hnil.
  assert ((exists k v todo n b, p = R_call k v todo n /\ ev = [ECall t k v b]) \/ (exists r, p = X_ret r /\ ev = [ERet t (ret_of c r)])) as Hcase.
  { destruct p, lab; cbn [RwMapModel.step] in Es; try done.
    all: try (exfalso; apply Hne; unfold step_read, step_read2, step_dirty, add_key, step_load, dirty_store, goto in Es;
      repeat case_match; try done; by injection Es as <- <- <-).
    - left. exists k, v, todo, n, b. destruct c, b; try done; by injection Es as <- <- <-.
    - right. exists r. by injection Es as <- <- <-. }
  destruct Hcase as [(k & v & todo & n & b & -> & ->)|(r & -> & ->)].
  - split; intros *; intros Hi; apply elem_of_list_singleton in Hi; [done|]. injection Hi as -> -> -> ->.
    split; [done|]. destruct Hp as [Hp _]. rewrite <- (app_nil_r (h_calls h)). by eapply knows_mono.
  - split; intros *; intros Hi; apply elem_of_list_singleton in Hi; [|done]. injection Hi as -> ->.
    split; [done|]. exists r. split; [done|]. rewrite <- (app_nil_r (h_calls h)). by eapply rok_mono.
Qed.
End hb.
