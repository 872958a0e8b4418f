(** synccache: what the calls of one key do. *)
From Verif Require Import Base RwMapModel RwMapSpec SyncCacheModel SyncCacheSpec SyncCacheHist SyncCacheLink SyncCacheDel.

Section calls.
Context {K : Type} `{Countable K} {V : Type}.
Context (deref : nat -> nat) (veq : V -> V -> option bool) (has_cb : bool).
Local Notation scall := (scall K V).
Local Notation spc := (spc K).
Local Notation frame := (frame K V).
Local Notation sev := (sev K V).
Local Notation status := (status K nat).
Local Notation mcall := (call K nat).
Local Notation result := (result nat).
Local Notation mev := (mev K V).
Local Notation mstate := (mstate K V).
Local Notation mstep := (mstep deref veq has_cb).
Local Notation mrun := (mrun deref veq has_cb).
Local Notation mcase := (mcase deref veq has_cb).
Local Notation linked := (linked deref has_cb).
Local Notation changes := (changes deref veq has_cb).
Local Notation seen := (seen deref veq has_cb).
Local Notation removed := (removed deref veq has_cb).
Local Notation answers := (answers deref veq has_cb).

Implicit Types (h : list mev) (m : mstate) (ent : gmap nat (V * Z)) (nw : nat) (fr : gmap nat frame)
  (mp : gmap K nat) (st : gmap nat status) (c : scall) (p : spc) (mc : mcall) (r : result) (t u e : nat) (k : K).

(** ** Facts about a stretch stay true when it grows *)
Lemma seen_snoc h1 h2 x k o : seen h1 h2 k o -> seen h1 (h2 ++ [x]) k o.
Proof. intros (g1 & g2 & m & -> & Hr & Hk). exists g1, (g2 ++ [x]), m. by rewrite app_assoc. Qed.
Lemma removed_snoc h1 h2 x t k e : removed h1 h2 t k e -> removed h1 (h2 ++ [x]) t k e.
Proof. intros (g1 & y & g2 & -> & Hr). exists g1, y, (g2 ++ [x]). by rewrite <- app_assoc. Qed.
Lemma removed_snoc_inv h1 h2 x t k e : removed h1 (h2 ++ [x]) t k e ->
  removed h1 h2 t k e \/ (changes (h1 ++ h2) x k (Some e) None /\ by_ x = Some t).
Proof.
  intros (g1 & y & g2 & Eh & Hr). destruct g2 as [|z g2 _] using rev_ind.
  - apply app_inj_tail in Eh as [-> ->]. by right.
  - rewrite app_comm_cons, app_assoc in Eh. apply app_inj_tail in Eh as [-> ->]. left. by exists g1, y, g2.
Qed.
Lemma trace_in_snoc (ev : sev) h x : ev ∈ trace h -> ev ∈ trace (h ++ [x]).
Proof. rewrite trace_snoc, elem_of_app. auto. Qed.
Lemma trace_in_last (ev : sev) h (x : mev) : ev ∈ x.2 -> ev ∈ trace (h ++ [x]).
Proof. rewrite trace_snoc, elem_of_app. auto. Qed.
Lemma made_snoc h x t e v d : made h t e v d -> made (h ++ [x]) t e v d.
Proof. intros (n & H1 & H2). exists n. split; by apply trace_in_snoc. Qed.
Lemma live_snoc h x t e : found_live h t e -> found_live (h ++ [x]) t e.
Proof. intros (n & y & H1 & H2 & H3). exists n, y. split_and!; try done; by apply trace_in_snoc. Qed.
Lemma expired_snoc h x t e : found_expired h t e -> found_expired (h ++ [x]) t e.
Proof. intros (n & y & H1 & H2 & H3). exists n, y. split_and!; try done; by apply trace_in_snoc. Qed.
Lemma value_snoc h x e (v : V) : has_value h e v -> has_value (h ++ [x]) e v.
Proof. intros (n & y & H1). exists n, y. by apply trace_in_snoc. Qed.

Lemma seen_now h1 h2 m k o : mrun m_init (h1 ++ h2) m -> map_of m !! k = o -> seen h1 h2 k o.
Proof. intros Hr Hk. exists h2, [], m. by rewrite app_nil_r. Qed.
Lemma removed_seen h1 h2 t k e : removed h1 h2 t k e -> seen h1 h2 k (Some e) /\ seen h1 h2 k None.
Proof.
  intros (g1 & x & g2 & -> & (m1 & m2 & R1 & S1 & E1 & E2) & _). split.
  - by exists g1, (x :: g2), m1.
  - exists (g1 ++ [x]), g2, m2. split; [by rewrite <- app_assoc|]. split; [|done].
    rewrite app_assoc. apply mrun_snoc. eauto.
Qed.

(** ** What a goroutine knows *)
Section know.
Context (h1 h2 : list mev).

(** After a call of the map. *)
Definition mapres t c mc r : Prop :=
  match mc, r with
  | CStore k q, _ => seen h1 h2 k (Some (deref q))
  | CLoadOrStore k _, RLos e true => seen h1 h2 k (Some e)
  | CLoadOrStore k q, RLos e false => e = deref q /\ seen h1 h2 k None /\ seen h1 h2 k (Some e)
  | CLoad k, RVal o => seen h1 h2 k o
  | CLoadAndDelete k, RVal (Some e) => removed h1 h2 t k e
  | CLoadAndDelete k, RVal None => seen h1 h2 k None
  | CCad k e, RBool true => removed h1 h2 t k e
  | CCad k e, RBool false => exists o, o <> Some e /\ seen h1 h2 k o
  | _, _ => True
  end.
Definition makes t c e : Prop :=
  match c with SStore _ v d | SLoadOrStore _ v d => made h2 t e v d | _ => False end.
Definition stored t c mc : Prop :=
  match mc with CStore _ q | CLoadOrStore _ q => makes t c (deref q) | _ => True end.
(** The entries a LoadAndDelete has taken out. *)
Definition taken_by t c (o : option nat) : Prop :=
  match c with SLoadAndDelete k => forall e, removed h1 h2 t k e -> o = Some e | _ => True end.
Definition status_taken t c (x : status) : Prop :=
  match x with ADone (CLoadAndDelete _) (RVal o) => taken_by t c o | _ => taken_by t c None end.

(** An entry in hand. *)
Definition have t c k e : Prop :=
  match c with
  | SLoadAndDelete _ => removed h1 h2 t k e /\ taken_by t c (Some e)
  | SCad _ _ | SRange | STrim | SClear => True
  | _ => seen h1 h2 k (Some e)
  end.
(** Its check done. *)
Definition checked t c e (x : bool) : Prop :=
  match c with
  | SCad _ _ | SRange | STrim | SClear | SDelete _ => True
  | _ => if x then found_expired h2 t e else found_live h2 t e
  end.
Definition compared c e (x : bool) : Prop :=
  match c with
  | SCvad _ v => if x then True else exists v', has_value (h1 ++ h2) e v' /\ veq v v' = Some true
  | _ => True
  end.

Definition knows t c now p (xo : option status) : Prop :=
  match p with
  | Q_new | Q_now | Q_get => taken_by t c None
  | Q_put e => makes t c e /\ taken_by t c None
  | Q_wait =>
      match xo with
      | Some x =>
          status_taken t c x /\
          match x with
          | AInv_ mc => stored t c mc
          | ADone mc r => stored t c mc /\ mapres t c mc r
          | _ => True
          end
      | None => True
      end
  | Q_chk k e => have t c k e
  | Q_chk2 k e => have t c k e /\ (c <> STrim -> exists n, SClock t n ∈ trace h2 /\ now = ms n)
  | Q_cad k e x => have t c k e /\ checked t c e x /\ compared c e x
  | Q_cadw k e x =>
      have t c k e /\ checked t c e x /\ compared c e x /\
      match xo with Some (ADone mc r) => mapres t c mc r | _ => True end
  | Q_del k e x =>
      have t c k e /\ checked t c e x /\ compared c e x /\ removed h1 h2 t k e
  | Q_user k e => found_live h2 t e
  | Q_back _ _ _ => True
  | Q_ret r => answers h1 h2 t c r
  end.
End know.

Lemma mapres_snoc h1 h2 x t c mc r : mapres h1 h2 t c mc r -> mapres h1 (h2 ++ [x]) t c mc r.
Proof.
  destruct mc, r as [[]|v []|[]| | |]; cbn; try done; eauto using seen_snoc, removed_snoc.
  - intros (? & ? & ?). eauto using seen_snoc.
  - intros (o & ? & ?). eauto using seen_snoc.
Qed.
Lemma makes_snoc h2 x t c e : makes h2 t c e -> makes (h2 ++ [x]) t c e.
Proof. destruct c; cbn; try done; apply made_snoc. Qed.
Lemma stored_snoc h2 x t c mc : stored h2 t c mc -> stored (h2 ++ [x]) t c mc.
Proof. destruct mc; cbn; try done; apply makes_snoc. Qed.
Lemma taken_snoc h1 h2 x t c o : by_ x <> Some t -> taken_by h1 h2 t c o -> taken_by h1 (h2 ++ [x]) t c o.
Proof. intros Hb. destruct c; cbn; try done. intros Ht e [?|[_ ?]]%removed_snoc_inv; eauto. done. Qed.
Lemma status_taken_snoc h1 h2 x t c y : by_ x <> Some t -> status_taken h1 h2 t c y -> status_taken h1 (h2 ++ [x]) t c y.
Proof. intros Hb. destruct y as [|[] []|]; cbn; by apply taken_snoc. Qed.
Lemma have_snoc h1 h2 x t c k e : by_ x <> Some t -> have h1 h2 t c k e -> have h1 (h2 ++ [x]) t c k e.
Proof.
  intros Hb. destruct c; cbn; try done; try apply seen_snoc.
  intros [Hr Ht]. split; [by apply removed_snoc|]. by apply (taken_snoc _ _ _ _ (SLoadAndDelete k0) (Some e)).
Qed.
Lemma checked_snoc h2 x t c e b : checked h2 t c e b -> checked (h2 ++ [x]) t c e b.
Proof. destruct c; cbn; try done; destruct b; first [apply expired_snoc|apply live_snoc]. Qed.
Lemma compared_snoc h1 h2 x c e b : compared h1 h2 c e b -> compared h1 (h2 ++ [x]) c e b.
Proof. destruct c; cbn; try done. destruct b; [done|]. intros (v' & Hv & ?). exists v'. split; [|done]. rewrite app_assoc. by apply value_snoc. Qed.

Lemma answers_snoc h1 h2 x t c (r : sres) : by_ x <> Some t ->
  answers h1 h2 t c r -> answers h1 (h2 ++ [x]) t c r.
Proof.
  intros Hb. unfold SyncCacheSpec.answers. cbv zeta. destruct c, r as [| |e1 []|[]|]; try done.
  - intros (e2 & ? & ?). eauto using made_snoc, seen_snoc.
  - intros [?|(e2 & ? & ?)]; eauto 6 using seen_snoc, expired_snoc.
  - intros (? & ?). eauto using seen_snoc, live_snoc.
  - intros (? & [?|(? & o & ? & ?)]); eauto 10 using seen_snoc, live_snoc, expired_snoc.
  - intros (? & ? & ?). split_and!; eauto using seen_snoc, made_snoc.
  - eauto using seen_snoc.
  - intros (? & Hr). split; [by apply seen_snoc|]. intros e2 [?|[_ ?]]%removed_snoc_inv; [|done]. eauto using expired_snoc.
  - intros (? & ?). eauto using removed_snoc, live_snoc.
  - eauto using removed_snoc.
  - intros (o & ? & ?). eauto using seen_snoc.
  - intros (e2 & v' & ? & ? & ? & ?). exists e2, v'. rewrite app_assoc. split_and!; eauto using removed_snoc, live_snoc, value_snoc.
  - intros [?|(e2 & ? & [?|[(v' & ? & ?)|(o & ? & ?)]])]; [eauto using seen_snoc|right; exists e2; split; [by apply seen_snoc|]..].
    + eauto using expired_snoc.
    + right. left. exists v'. rewrite app_assoc. eauto using value_snoc.
    + right. right. eauto using seen_snoc.
  - intros (e2 & v' & ? & ? & ?). exists e2, v'. rewrite app_assoc. split_and!; eauto using seen_snoc, value_snoc.
Qed.

Lemma knows_snoc h1 h2 x t c now p xo : by_ x <> Some t ->
  knows h1 h2 t c now p xo -> knows h1 (h2 ++ [x]) t c now p xo.
Proof.
  intros Hb. destruct p; cbn.
  - by apply taken_snoc.
  - intros []. eauto using makes_snoc, taken_snoc.
  - by apply taken_snoc.
  - destruct xo as [y|]; [|done]. intros [? Hy]. split; [by apply status_taken_snoc|].
    destruct y; [by apply stored_snoc| |done]. destruct Hy. eauto using stored_snoc, mapres_snoc.
  - by apply taken_snoc.
  - by apply have_snoc.
  - intros [? Hn]. split; [by apply have_snoc|]. intros (n & ? & ?)%Hn. eauto using trace_in_snoc.
  - intros (? & ? & ?). split_and!; eauto using have_snoc, checked_snoc, compared_snoc.
  - intros (? & ? & ? & Hx). split_and!; eauto using have_snoc, checked_snoc, compared_snoc.
    destruct xo as [[]|]; try done. by apply mapres_snoc.
  - intros (? & ? & ? & ?). split_and!; eauto using have_snoc, checked_snoc, compared_snoc, removed_snoc.
  - apply live_snoc.
  - done.
  - by apply answers_snoc.
Qed.

(** ** It holds in every history *)
Local Ltac ev_in Hin := cbn in Hin; repeat (apply elem_of_cons in Hin as [Hin|Hin]); try (by apply elem_of_nil in Hin); try discriminate Hin.

Definition the_status c t p st : option status :=
  match p with Q_cadw _ _ _ => st !! tid t (ranging has_cb c) | _ => st !! tid t false end.

Lemma the_status_insert c t p st u b y : t <> u -> the_status c t p (<[tid u b := y]> st) = the_status c t p st.
Proof. intros Hne. unfold the_status. destruct p; apply lookup_insert_ne, tid_ne; auto. Qed.
Lemma the_status_delete c t p st u b : t <> u -> the_status c t p (delete (tid u b) st) = the_status c t p st.
Proof. intros Hne. unfold the_status. destruct p; apply lookup_delete_ne, tid_ne; auto. Qed.

Definition informed h m : Prop :=
  forall t c now p, c_fr (m_cl m) !! t = Some (mk_frame c now p) ->
    exists h1 h2, in_call h t c h1 h2 /\
      knows (h1 ++ [(MLoc (KInv t c), [SInv t c])]) h2 t c now p (the_status c t p (a_st (m_map m))).

Lemma in_call_snoc h t c h1 h2 (x : mev) : in_call h t c h1 h2 ->
  (forall c', SInv t c' ∉ x.2) -> (forall y, SRet t y ∉ x.2) -> in_call (h ++ [x]) t c h1 (h2 ++ [x]).
Proof.
  intros (-> & H1 & H2) H3 H4. split; [by rewrite <- app_assoc|]. split; intros y; rewrite trace_snoc.
  - intros [?|?]%elem_of_app; [by eapply H1|by eapply H3].
  - intros [?|?]%elem_of_app; [by eapply H2|by eapply H4].
Qed.

Lemma carry h m (x : mev) t c now p now' p' xo' :
  informed h m -> c_fr (m_cl m) !! t = Some (mk_frame c now p) ->
  (forall c', SInv t c' ∉ x.2) -> (forall y, SRet t y ∉ x.2) ->
  (forall h1 h2, h = h1 ++ h2 -> knows h1 h2 t c now p (the_status c t p (a_st (m_map m))) ->
     knows h1 (h2 ++ [x]) t c now' p' xo') ->
  exists h1 h2, in_call (h ++ [x]) t c h1 h2 /\ knows (h1 ++ [inv_of t c]) h2 t c now' p' xo'.
Proof.
  intros Hi Hf H1 H2 Hgo. destruct (Hi _ _ _ _ Hf) as (h1 & h2 & Hc & Hk).
  exists h1, (h2 ++ [x]). split; [by apply in_call_snoc|]. apply Hgo; [|done].
  destruct Hc as [-> _]. by rewrite <- app_assoc.
Qed.

Lemma knows_after_cad h1 h2 t c now k e x (b : bool) xo :
  cad_ok has_cb c k e x -> have h1 h2 t c k e -> checked h2 t c e x -> compared h1 h2 c e x ->
  (if b then removed h1 h2 t k e else exists o, o <> Some e /\ seen h1 h2 k o) ->
  knows h1 h2 t c now (after_cad c k e x b) xo.
Proof.
  intros Hc Hh Hx Hv Hb. destruct c; cbn in Hc, Hh, Hx, Hv |- *; try done.
  - destruct Hc as [-> ->]. right. eauto.
  - destruct Hc as [-> ->]. destruct b; [done|]. cbn. eauto.
  - destruct Hc as (-> & -> & ->). by destruct b.
  - subst k0. destruct x; [by eauto|]. destruct b; [|by eauto 10]. destruct Hv as (v' & ? & ?).
    exists e, v'. eauto.
Qed.

Lemma knows_after_del h1 h2 t c now k e x xo :
  fok has_cb c (Q_del k e x) -> have h1 h2 t c k e -> checked h2 t c e x -> compared h1 h2 c e x ->
  removed h1 h2 t k e -> knows h1 h2 t c now (after_del c k e x) xo.
Proof.
  intros [_ Hc] Hh Hx Hv Hr. destruct (removed_seen _ _ _ _ _ Hr) as [Hs Hn].
  destruct c; try (by apply knows_after_cad); cbn in Hc, Hh, Hx |- *; subst; [done|].
  destruct x; [|done]. cbn. split; [done|]. intros e' Hr'. destruct Hh as [_ Ht]. apply Ht in Hr' as [= <-]. done.
Qed.

Lemma knows_del h1 h2 t c now k e x xo :
  match c with SDelete k' | SLoadAndDelete k' => k' = k | _ => False end ->
  have h1 h2 t c k e -> checked h2 t c e x ->
  removed h1 h2 t k e -> knows h1 h2 t c now (del has_cb c k e x) xo.
Proof.
  intros Hc Hh Hx Hr. assert (Hcmp : compared h1 h2 c e x) by by destruct c.
  assert (Hk : forall hc : bool, knows h1 h2 t c now (if hc then Q_del k e x else after_del c k e x) xo).
  { intros []; [done|]. destruct (removed_seen _ _ _ _ _ Hr) as [Hs Hn].
    destruct c; cbn in Hc, Hh, Hx |- *; try done; subst; [done|]. destruct x; [|done]. split; [done|].
    intros e' Hr'. destruct Hh as [_ Ht]. apply Ht in Hr' as [= <-]. done. }
  apply Hk.
Qed.

Lemma knows_after_chk h1 h2 t c now k e v x xo :
  fok has_cb c (Q_chk2 k e) -> have h1 h2 t c k e -> has_value (h1 ++ h2) e v ->
  (c <> STrim -> exists n, SClock t n ∈ trace h2 /\ now = ms n) -> SChk t e now x ∈ trace h2 ->
  knows h1 h2 t c now (after_chk veq has_cb c k e v (Z.ltb x now)) xo.
Proof.
  intros Hc Hh Hv Hn Hin.
  assert (Hx : c <> STrim -> if Z.ltb x now then found_expired h2 t e else found_live h2 t e).
  { intros (n & Hcl & ->)%Hn. destruct (Z.ltb_spec x (ms n)); exists n, x; done. }
  clear Hn Hin. destruct c; cbn in Hc; try done; try (specialize (Hx ltac:(done))); cbn in Hh |- *; subst.
  - destruct (Z.ltb x now); [done|]. by split.
  - destruct (Z.ltb x now); [done|]. split; [done|]. by left.
  - apply knows_del; try done. by destruct Hh.
  - destruct (Z.ltb x now); [done|]. destruct (veq v0 v) as [[]|] eqn:E; cbn; [by eauto|by eauto 10|by eauto 10].
  - by destruct (Z.ltb x now).
  - by destruct (Z.ltb x now).
Qed.

Lemma knows_after_ret h1 h2 t c now p mc r p' xo :
  fok has_cb c p -> mcall_ok has_cb c p (inner has_cb c p) mc ->
  knows h1 h2 t c now p (Some (ADone mc r)) -> after_ret has_cb c p r = Some p' ->
  knows h1 h2 t c now p' xo.
Proof.
  intros Hok Hmc Hk Hr. destruct p; try done.
  - destruct Hk as (Ht & Hs & Hm). unfold mcall_ok in Hmc. cbn [SyncCacheModel.inner] in Hmc.
    destruct c, r as [o|e1 l|b| | |]; cbn in Hr; try done; cbn [ranging] in Hmc; cbn in Hmc.
    + destruct Hmc as [q ->]. injection Hr as <-. cbn in *. eauto.
    + destruct o as [e1|]; injection Hr as <-; subst mc; cbn in *; eauto.
    + destruct Hmc as [q ->]. destruct l; injection Hr as <-; cbn in *; [done|]. destruct Hm as (-> & ? & ?). done.
    + destruct o as [e1|]; injection Hr as <-; subst mc; cbn in Hm |- *; [|done].
      apply knows_del; try done. cbn. by eapply removed_seen.
    + destruct o as [e1|]; injection Hr as <-; subst mc; cbn in Ht, Hm |- *; [done|]. split; [done|].
      intros e2 He%Ht. done.
    + destruct o as [e1|]; injection Hr as <-; subst mc; cbn in *; eauto.
    + by injection Hr as <-.
    + by injection Hr as <-.
    + by injection Hr as <-.
  - destruct Hk as (Hh & Hx & Hv & Hm).
    assert (mc = CCad k e) as ->.
    { unfold mcall_ok in Hmc. cbn [SyncCacheModel.inner] in Hmc. by destruct (ranging has_cb c). }
    destruct (after_ret_cad _ _ _ _ _ _ _ Hr) as (b & -> & ->). clear Hr.
    assert (Hg : forall hc : bool, (hc = true -> has_cb = true) -> knows h1 h2 t c now
      (if b then if hc then Q_del k e x else after_cad c k e x true else after_cad c k e x false) xo).
    { intros hc Hhc. destruct b; [destruct hc|]; cbn in Hm; [done|..]; by apply knows_after_cad. }
    by apply Hg.
Qed.

(** A call of the map takes effect. *)
Lemma mapres_lin h1 h2 m u t b mc mp st ent nw fr c :
  m = M ent nw fr mp st -> u = tid t b ->
  mrun m_init (h1 ++ h2) m -> mstep m (MItem (ILin u), []) (M ent nw fr (seq_next deref peq mp mc) (<[u := ADone mc (seq_res deref peq mp mc)]> st)) ->
  atomic_call mc ->
  mapres h1 (h2 ++ [(MItem (ILin u), [])]) t c mc (seq_res deref peq mp mc).
Proof.
  intros -> -> Hr Hs Hat. set (x := (MItem (ILin (tid t b)), []) : mev).
  assert (Hb : by_ x = Some t) by (cbn; by rewrite tid_div2).
  assert (Hbef : forall k, seen h1 (h2 ++ [x]) k (mp !! k)).
  { intros k. apply seen_snoc. by eapply seen_now. }
  assert (Haft : forall k, seen h1 (h2 ++ [x]) k (seq_next deref peq mp mc !! k)).
  { intros k. eapply (seen_now _ _ (M ent nw fr (seq_next deref peq mp mc) (<[tid t b := ADone mc (seq_res deref peq mp mc)]> st))); [|done].
    rewrite app_assoc. apply mrun_snoc. eexists. by split. }
  assert (Hrem : forall k e, mp !! k = Some e -> seq_next deref peq mp mc !! k = None -> removed h1 (h2 ++ [x]) t k e).
  { intros k e H1 H2. exists h2, x, []. split_and!; try done. by eexists _, _. }
  destruct mc as [k|k q|k q|k q|k|k|k e1 q|k e1| | | |]; cbn in *; try done.
  - specialize (Haft k). rewrite lookup_insert in Haft. done.
  - specialize (Hbef k). specialize (Haft k). destruct (mp !! k) as [e|] eqn:E; [done|].
    rewrite lookup_insert in Haft. done.
  - specialize (Hbef k). destruct (mp !! k) as [e|] eqn:E; [|done]. apply Hrem; [done|]. by rewrite lookup_delete.
  - specialize (Hbef k). specialize (Hrem k). destruct (mp !! k) as [e|] eqn:E; [|by exists None].
    unfold peq in *. case_bool_decide as Hd; cbn in *.
    + subst. apply Hrem; [done|]. by rewrite lookup_delete.
    + exists (Some e). split; [congruence|done].
Qed.

Lemma taken_lin h1 h2 m u t b mc mp st ent nw fr c :
  m = M ent nw fr mp st -> u = tid t b ->
  mrun m_init (h1 ++ h2) m -> mstep m (MItem (ILin u), []) (M ent nw fr (seq_next deref peq mp mc) (<[u := ADone mc (seq_res deref peq mp mc)]> st)) ->
  (forall k, c = SLoadAndDelete k -> mc = CLoadAndDelete k) ->
  taken_by h1 h2 t c None -> status_taken h1 (h2 ++ [(MItem (ILin u), [])]) t c (ADone mc (seq_res deref peq mp mc)).
Proof.
  intros -> -> Hr Hs Hmc Ht. destruct c as [| | | |k| | | | |];
    try (clear; destruct mc; cbn; try done; destruct (seq_res deref peq mp _); done).
  rewrite (Hmc _ eq_refl) in *. cbn. intros e [He|[(m1 & m2 & R1 & S1 & E1 & E2) _]]%removed_snoc_inv.
  - by apply Ht in He.
  - assert (m1 = M ent nw fr mp st) as -> by by eapply mrun_det. done.
Qed.

(** Steps inside Range of the map. *)
Lemma knows_ranging h1 h2 x t c now p st b mc y :
  mcall_ok has_cb c p b mc -> mc = CRange -> busy has_cb c p b = true -> by_ x <> Some t ->
  match y with AInv_ _ => False | AIter _ _ _ _ => True | ADone mc r => mc = CRange end ->
  knows h1 h2 t c now p (the_status c t p st) ->
  knows h1 (h2 ++ [x]) t c now p (the_status c t p (<[tid t b := y]> st)).
Proof.
  intros Hm -> Hb Hx Hy Hk. unfold mcall_ok in Hm. destruct b; [by destruct p|].
  destruct (ranging has_cb c) eqn:Hr; [|destruct p, c; naive_solver].
  assert (Ht : forall h1 h2 o, taken_by h1 h2 t c o) by by destruct c.
  destruct p; try (apply knows_snoc; [done|exact Hk]); try done.
  - cbn. rewrite lookup_insert. destruct y as [|mc' r|]; [done| |by split; [apply Ht|]]. subst mc'.
    by split; [apply Ht|].
  - apply knows_snoc; [done|]. unfold the_status in Hk |- *. rewrite Hr in Hk |- *. rewrite lookup_insert_ne; [done|].
    apply tid_ne. by right.
Qed.

Lemma informed_step h m x m' :
  mrun m_init h m -> linked m -> mrun m_init (h ++ [x]) m' -> informed h m -> mcase m x m' -> informed (h ++ [x]) m'.
Proof.
  intros Hrun [Hl Hok] Hrun' Hi Hm.
  pose proof (mstep_last _ _ _ _ _ _ _ _ Hrun Hrun') as Hstep.
  assert (Hsame : forall t c now p xo', c_fr (m_cl m) !! t = Some (mk_frame c now p) ->
    (forall c', SInv t c' ∉ x.2) -> (forall y, SRet t y ∉ x.2) -> by_ x <> Some t ->
    xo' = the_status c t p (a_st (m_map m)) ->
    exists h1 h2, in_call (h ++ [x]) t c h1 h2 /\ knows (h1 ++ [inv_of t c]) h2 t c now p xo').
  { intros t c now p xo' Hf H1 H2 H3 ->. eapply carry; [done..|]. intros h1 h2 _. by apply knows_snoc. }
  assert (Hgo : forall t c now p now' p' xo', c_fr (m_cl m) !! t = Some (mk_frame c now p) ->
    (forall c', SInv t c' ∉ x.2) -> (forall y, SRet t y ∉ x.2) ->
    (forall h1 h2, h = h1 ++ h2 -> knows h1 h2 t c now p (the_status c t p (a_st (m_map m))) ->
       knows h1 (h2 ++ [x]) t c now' p' xo') ->
    exists h1 h2, in_call (h ++ [x]) t c h1 h2 /\ knows (h1 ++ [inv_of t c]) h2 t c now' p' xo').
  { intros. by eapply carry. }
  change (forall t c now p, c_fr (m_cl m') !! t = Some (mk_frame c now p) ->
    exists h1 h2, in_call (h ++ [x]) t c h1 h2 /\ knows (h1 ++ [inv_of t c]) h2 t c now p (the_status c t p (a_st (m_map m')))).
  intros t' c' now' p'. destruct Hm; cbn in Hl, Hok |- *; cbn [m_cl c_fr M m_map a_st snd] in Hsame, Hgo.
  - rewrite lookup_insert_Some. intros [[<- [= <- <- <-]]|[Hne Hf]].
    + exists h, []. split; [split; [done|]; split; intros ? Hin; by apply elem_of_nil in Hin|].
      assert (Ht : taken_by (h ++ [inv_of t c]) [] t c None).
      { destruct c; cbn; try done. intros e' (g1 & y & g2 & Hg & _). by destruct g1. }
      by destruct c.
    + apply Hsame; try done; intros ? Hin; ev_in Hin. congruence.
  - rewrite lookup_insert_Some. intros [[<- [= <- <- <-]]|[Hne Hf]].
    2:{ apply Hsame; try done; intros ? Hin; ev_in Hin. }
    eapply Hgo; [done|intros ? Hin; ev_in Hin..|]. intros h1 h2 _ Hk. cbn in Hk |- *. split; [|by apply taken_snoc].
    assert (made (h2 ++ [(MLoc (KLoc t (LClock n)), [SClock t n; SNew t nw v (ms (n + d))])]) t nw v d) as Hmd.
    { exists n. split; apply trace_in_last; cbn; [by left|by right; left]. }
    by destruct H1 as [-> | ->].
  - rewrite lookup_insert_Some. intros [[<- [= <- <- <-]]|[Hne Hf]].
    2:{ apply Hsame; try done; intros ? Hin; ev_in Hin. }
    eapply Hgo; [done|intros ? Hin; ev_in Hin..|]. intros h1 h2 _ Hk. by apply taken_snoc.
  - rewrite lookup_insert_Some. intros [[<- [= <- <- <-]]|[Hne Hf]].
    2:{ apply Hsame; try done; intros ? Hin; ev_in Hin. }
    eapply Hgo; [done|intros ? Hin; ev_in Hin..|]. intros h1 h2 _ Hk. cbn in Hk |- *. split; [by apply have_snoc|].
    intros _. exists n. split; [|done]. apply trace_in_last. by left.
  - rewrite lookup_insert_Some. intros [[<- [= <- <- <-]]|[Hne Hf]].
    2:{ apply Hsame; try done; intros ? Hin; ev_in Hin. }
    eapply Hgo; [done|intros ? Hin; ev_in Hin..|]. intros h1 h2 Hh Hk. cbn in Hk. destruct Hk as [Hk Hn].
    apply knows_after_chk.
    + by apply Hok in H0.
    + by apply have_snoc.
    + rewrite app_assoc. apply value_snoc. subst h. by eapply (mrun_values _ _ _ _ _ Hrun).
    + intros (n & ? & ->)%Hn. exists n. split; [by apply trace_in_snoc|done].
    + apply trace_in_last. by left.
  - rewrite lookup_insert_Some. intros [[<- [= <- <- <-]]|[Hne Hf]].
    2:{ apply Hsame; try done; intros ? Hin; ev_in Hin. }
    eapply Hgo; [done|intros ? Hin; ev_in Hin..|]. intros h1 h2 Hh Hk. cbn in Hk. destruct Hk as (? & ? & ? & ?).
    apply knows_after_del; eauto using have_snoc, checked_snoc, compared_snoc, removed_snoc.
  - rewrite lookup_insert_Some. intros [[<- [= <- <- <-]]|[Hne Hf]].
    2:{ apply Hsame; try done; intros ? Hin; ev_in Hin. }
    eapply Hgo; [done|intros ? Hin; ev_in Hin..|]. done.
  - rewrite lookup_delete_Some. intros [Hne Hf].
    apply Hsame; try done; intros ? Hin; ev_in Hin. congruence.
  - rewrite lookup_insert_Some. intros [[<- [= <- <- <-]]|[Hne Hf]].
    2:{ apply Hsame; try done; intros ? Hin; ev_in Hin. }
    eapply Hgo; [done|intros ? Hin; ev_in Hin..|]. intros h1 h2 Hh Hk. by destruct c.
  - intros Hf. apply Hsame; try done; intros ? Hin; ev_in Hin.
  - intros Hf. apply Hsame; try done; intros ? Hin; ev_in Hin.
  - rewrite lookup_insert_Some. intros [[<- [= <- <- <-]]|[Hne Hf]].
    2:{ apply Hsame; try done; try (intros ? Hin; ev_in Hin).  apply the_status_insert. auto. }
    eapply Hgo; [done|intros ? Hin; ev_in Hin..|]. intros h1 h2 Hh Hk.
    pose proof (Hok _ _ _ _ H0) as Hokc.
    destruct p; try done; cbn [SyncCacheModel.inside the_status SyncCacheModel.inner]; rewrite lookup_insert; cbn in Hk |- *.
    + destruct Hk as [Hmk Ht]. split; [by apply taken_snoc|].
      destruct c, mc; cbn in H1; try done; apply bool_decide_eq_true in H1 as [_ <-]; by apply made_snoc.
    + split; [by apply taken_snoc|]. destruct c, mc; by cbn in H1.
    + destruct Hk as (? & ? & ?). split_and!; eauto using have_snoc, checked_snoc, compared_snoc.
  - rewrite lookup_insert_Some. intros [[<- [= <- <- <-]]|[Hne Hf]].
    2:{ apply Hsame; try done; try (intros ? Hin; ev_in Hin). apply the_status_delete. auto. }
    eapply Hgo; [done|intros ? Hin; ev_in Hin..|]. intros h1 h2 Hh Hk.
    pose proof (Hok _ _ _ _ H0) as Hokc.
    destruct (link_call_of _ _ _ _ _ _ _ Hl H1) as (c1 & now1 & p1 & mc1 & Hf1 & Hb1 & Hm1 & Hs1).
    rewrite H0 in Hf1. injection Hf1 as <- <- <-. destruct Hs1 as [<- _].
    assert (the_status c t p st = Some (ADone mc r)) as Hst by by destruct p.
    rewrite Hst in Hk. eapply knows_after_ret; [done..| |done]. by apply knows_snoc.
  - rewrite lookup_insert_Some. intros [[<- [= <- <- <-]]|[Hne Hf]].
    2:{ apply Hsame; try done; try (intros ? Hin; ev_in Hin).  apply (the_status_insert _ _ _ _ t false). auto. }
    eapply Hgo; [done|intros ? Hin; ev_in Hin..|]. intros h1 h2 Hh Hk.
    pose proof (Hok _ _ _ _ H0) as [Hrg _]. cbn [the_status]. rewrite lookup_insert.
    destruct (link_call_of _ _ _ _ _ _ _ Hl H1) as (c1 & now1 & p1 & mc1 & Hf1 & Hb1 & Hm1 & Hs1).
    destruct Hs1 as [-> ->]. by destruct c, b.
  - (* a call takes effect *)
    destruct (tid_of u) as (t & b & ->).
    destruct (link_call_of _ _ _ _ _ _ _ Hl H0) as (c1 & now1 & p1 & mc1 & Hf1 & Hb1 & Hm1 & Hs1). cbn in Hs1. subst mc1.
    intros Hf. destruct (decide (t' = t)) as [->|Hne].
    2:{ apply Hsame; try done; try (intros ? Hin; ev_in Hin); [cbn; rewrite tid_div2; congruence|]. apply the_status_insert. auto. }
    rewrite Hf in Hf1. injection Hf1 as <- <- <-. pose proof (Hok _ _ _ _ Hf) as Hokc.
    assert (Hin : b = inner has_cb c' p' /\ (p' = Q_wait \/ exists k e x, p' = Q_cadw k e x)).
    { clear -Hm1 Hb1 H1. destruct b.
      - destruct p'; try done. cbn in *. split; [done|]. right. eauto.
      - unfold mcall_ok in Hm1. destruct p'; cbn in *; destruct (ranging has_cb c') eqn:E; try done; subst; try done; eauto 10. }
    destruct Hin as [-> Hp].
    eapply Hgo; [done|intros ? Hin; ev_in Hin..|]. intros h1 h2 Hh Hk.
    assert (Hst : the_status c' t p' st = Some (AInv_ mc)) by by destruct Hp as [-> |(? & ? & ? & ->)].
    rewrite Hst in Hk.
    assert (Hst' : the_status c' t p' (<[tid t (inner has_cb c' p') := ADone mc (seq_res deref peq mp mc)]> st) = Some (ADone mc (seq_res deref peq mp mc))).
    { destruct Hp as [-> |(? & ? & ? & ->)]; apply lookup_insert. }
    rewrite Hst'. rewrite Hh in Hrun.
    assert (Hmr : mapres h1 (h2 ++ [(MItem (ILin (tid t (inner has_cb c' p'))), [])]) t c' mc (seq_res deref peq mp mc)) by by eapply mapres_lin.
    destruct Hp as [-> |(k & e & x & ->)].
    + destruct Hk as [Ht Hs]. cbn [knows]. split; [|split; [by apply stored_snoc|done]].
      eapply taken_lin; try done. intros k ->. done.
    + destruct Hk as (Hh' & Hx & Hv & _). cbn [knows]. split_and!; try done.
      * assert (Hnl : forall k, c' <> SLoadAndDelete k) by (intros k' ->; done).
        destruct c'; cbn in Hh' |- *; try done; try by apply seen_snoc.
      * by apply checked_snoc.
      * by apply compared_snoc.
  - (* Range begins *)
    destruct (tid_of u) as (t & b & ->).
    destruct (link_call_of _ _ _ _ _ _ _ Hl H0) as (c1 & now1 & p1 & mc1 & Hf1 & Hb1 & Hm1 & Hs1). cbn in Hs1. subst mc1.
    assert (mc = CRange) as -> by by eapply mcall_not_slow.
    intros Hf. destruct (decide (t' = t)) as [->|Hne].
    2:{ apply Hsame; try done; try (intros ? Hin; ev_in Hin). apply the_status_insert. auto. }
    rewrite Hf in Hf1. injection Hf1 as <- <- <-.
    eapply Hgo; [done|intros ? Hin; ev_in Hin..|]. intros h1 h2 Hh Hk.
    by eapply knows_ranging.
  - destruct (tid_of u) as (t & b & ->).
    destruct (link_call_of _ _ _ _ _ _ _ Hl H0) as (c1 & now1 & p1 & mc1 & Hf1 & Hb1 & Hm1 & Hs1). destruct Hs1 as [-> ->].
    intros Hf. destruct (decide (t' = t)) as [->|Hne].
    2:{ apply Hsame; try done; try (intros ? Hin; ev_in Hin). apply the_status_insert. auto. }
    rewrite Hf in Hf1. injection Hf1 as <- <- <-.
    eapply Hgo; [done|intros ? Hin; ev_in Hin..|]. intros h1 h2 Hh Hk.
    by eapply knows_ranging.
  - destruct (tid_of u) as (t & b & ->).
    destruct (link_call_of _ _ _ _ _ _ _ Hl H0) as (c1 & now1 & p1 & mc1 & Hf1 & Hb1 & Hm1 & Hs1). destruct Hs1 as [-> ->].
    intros Hf. destruct (decide (t' = t)) as [->|Hne].
    2:{ apply Hsame; try done; try (intros ? Hin; ev_in Hin). apply the_status_insert. auto. }
    rewrite Hf in Hf1. injection Hf1 as <- <- <-.
    eapply Hgo; [done|intros ? Hin; ev_in Hin..|]. intros h1 h2 Hh Hk.
    by eapply knows_ranging.
Qed.

Lemma mrun_informed h m : mrun m_init h m -> informed h m.
Proof.
  revert h m. apply (mrun_cases _ _ _ informed).
  - intros t c now p. cbn. by rewrite lookup_empty.
  - intros h m x m' Hr Hl Hr' IH Hm. by eapply informed_step.
Qed.

(** Every call that returns, and every call of the f of Range. *)
Lemma trace_mid (ev : sev) h (y : mev) h' : ev ∈ y.2 -> ev ∈ trace (h ++ y :: h').
Proof. rewrite trace_app, trace_cons, !elem_of_app. auto. Qed.
Lemma in_call_inj h t c h1 h2 c' h1' h2' : in_call h t c h1 h2 -> in_call h t c' h1' h2' ->
  h1' = h1 /\ h2' = h2 /\ c' = c.
Proof.
  intros (-> & N1 & _) (E & N2 & _). apply app_eq_inv in E as [(g & -> & E)|(g & -> & E)].
  - destruct g as [|y g]; cbn in E; [injection E; intros; subst; by rewrite app_nil_r|]. injection E as <- ->.
    exfalso. apply (N2 c). apply trace_mid. by left.
  - destruct g as [|y g]; cbn in E; [injection E; intros; subst; by rewrite app_nil_r|]. injection E as <- ->.
    exfalso. apply (N1 c'). apply trace_mid. by left.
Qed.

Lemma mrun_answers h m g1 x g2 t (y : sres) : mrun m_init h m -> h = g1 ++ x :: g2 -> SRet t y ∈ x.2 ->
  exists c h1 h2, in_call g1 t c h1 h2 /\ answers (h1 ++ [inv_of t c]) h2 t c y.
Proof.
  intros Hr -> Hin. apply mrun_app in Hr as (m1 & Hr1 & m2 & Hs & _).
  apply mrun_informed in Hr1. apply mstep_case in Hs.
  destruct Hs; cbn in Hin; ev_in Hin. injection Hin as -> ->.
  destruct (Hr1 _ _ _ _ H0) as (h1 & h2 & Hc & Hk). by eexists _, _, _.
Qed.

Lemma mrun_used h m g1 x g2 t k e b : mrun m_init h m -> h = g1 ++ x :: g2 -> SUse t k e b ∈ x.2 ->
  exists h1 h2, in_call g1 t SRange h1 h2 /\ found_live h2 t e.
Proof.
  intros Hr -> Hin. apply mrun_app in Hr as (m1 & Hr1 & m2 & Hs & _).
  pose proof (mrun_linked _ _ _ _ _ Hr1) as [_ Hok].
  apply mrun_informed in Hr1. apply mstep_case in Hs.
  destruct Hs; cbn in Hin; ev_in Hin. injection Hin as -> -> -> ->.
  destruct (Hr1 _ _ _ _ H0) as (h1 & h2 & Hc & Hk). apply Hok in H0. cbn in H0. subst c. by eexists _, _.
Qed.

End calls.
